From Coq Require Import ZifyBool ZifyNat.
From Verif Require Import Base BaseFacts NumModel NumSpec NumProofs MbModel MbSpec MbProofs FltModel FltSpec.
Open Scope Z_scope.

Lemma unit_pos : 0 < unit. Proof. reflexivity. Qed.
Lemma round_closest a b : 0 < b -> 2 * Z.abs (round_even a b * b - a) <= b.
Proof.
  intros B. pose proof (Z.div_mod a b ltac:(lia)) as D. pose proof (Z.mod_pos_bound a b B) as R. unfold round_even.
  set (q := a / b) in *. set (r := a mod b) in *.
  assert (q * b - a = - r) as E1 by lia. assert ((q + 1) * b - a = b - r) as E2 by lia.
  destruct (Z.ltb_spec (2 * r) b); [rewrite E1; lia|]. destruct (Z.ltb_spec b (2 * r)); [rewrite E2; lia|]. destruct (Z.even q); [rewrite E1; lia|rewrite E2; lia].
Qed.
Lemma closest_printed v : closest (round_even (v * 10 ^ 6) unit) v.
Proof. unfold closest. apply round_closest, unit_pos. Qed.
Lemma round_nonneg a b : 0 <= a -> 0 < b -> 0 <= round_even a b.
Proof. intros A B. pose proof (Z.div_pos a b A B). unfold round_even. destruct (_ <? _); [lia|]. destruct (_ <? _); [lia|]. destruct (Z.even _); lia. Qed.
Lemma round_exact n b : 0 < b -> round_even (n * b) b = n.
Proof. intros B. unfold round_even. rewrite Z.div_mul, Z.mod_mul by lia. replace (2 * 0 <? b) with true by lia. reflexivity. Qed.
Lemma round_mono a a' b : 0 < b -> a <= a' -> round_even a b <= round_even a' b.
Proof.
  intros B A. destruct (Z.le_gt_cases (round_even a b) (round_even a' b)) as [L|L]; [exact L|]. exfalso.
  pose proof (round_closest a b B) as C1. pose proof (round_closest a' b B) as C2.
  set (n := round_even a b) in *. set (n' := round_even a' b) in *.
  assert (n' + 1 <= n) as L1 by lia. assert ((n' + 1) * b <= n * b) as L2 by (apply Z.mul_le_mono_nonneg_r; lia).
  assert (a = a') as E.
  { assert (2 * (n * b) - b <= 2 * a) by lia. assert (2 * a' <= 2 * (n' * b) + b) by lia. lia. }
  subst a'. unfold n, n' in L. lia.
Qed.

(* digits *)
Lemma fixed_ok k : forall r, 0 <= r < 10 ^ Z.of_nat k -> value (fixed k r) = r /\ Forall digit (fixed k r) /\ length (fixed k r) = k.
Proof.
  induction k as [|k IH]; intros r R; [cbn in R; split; [unfold value; cbn; lia|split; [constructor|reflexivity]]|].
  cbn [fixed]. rewrite Nat2Z.inj_succ, Z.pow_succ_r in R by lia. pose proof (Z.mod_pos_bound r 10 ltac:(lia)). pose proof (Z.div_mod r 10 ltac:(lia)).
  destruct (IH (r / 10)) as (V & F & L); [split; [apply Z.div_pos; lia|apply Z.div_lt_upper_bound; lia]|].
  rewrite value_snoc, V, app_length, L. split; [lia|]. split; [|cbn; lia]. apply Forall_app. split; [exact F|]. repeat constructor; unfold digit; lia.
Qed.
(* dropping zeros at the end *)
Fixpoint drop0 (s : list Z) : list Z := match s with c :: s' => if c =? 48 then drop0 s' else s | [] => [] end.
Definition trim (s : list Z) : list Z := rev (drop0 (rev s)).
Lemma trim_snoc s c : trim (s ++ [c]) = if c =? 48 then trim s else s ++ [c].
Proof. unfold trim. rewrite rev_app_distr. cbn [rev app drop0]. destruct (c =? 48); [reflexivity|]. cbn [rev]. now rewrite rev_involutive. Qed.
Lemma trim_nil : trim [] = []. Proof. reflexivity. Qed.
Lemma trim_last s g : trim s <> g ++ [48].
Proof.
  induction s as [|c s IH] using rev_ind; [destruct g; discriminate|]. rewrite trim_snoc. destruct (Z.eqb_spec c 48); [exact IH|]. intros E. apply app_inj_tail in E. destruct E; congruence.
Qed.
Lemma trim_keep a c s : c <> 48 -> trim (a ++ c :: s) = a ++ c :: trim s.
Proof.
  intros N. induction s as [|d s IH] using rev_ind.
  - change (a ++ [c]) with (a ++ [c]). rewrite trim_snoc. replace (c =? 48) with false by lia. reflexivity.
  - replace (a ++ c :: s ++ [d]) with ((a ++ c :: s) ++ [d]) by (rewrite <- app_assoc; reflexivity). rewrite !trim_snoc. destruct (d =? 48); [exact IH|]. rewrite <- app_assoc. reflexivity.
Qed.
Lemma trim_value s : Forall digit s -> Forall digit (trim s) /\ (length (trim s) <= length s)%nat /\ value s = value (trim s) * 10 ^ (zlen s - zlen (trim s)).
Proof.
  induction s as [|c s IH] using rev_ind; intros F.
  - rewrite trim_nil. split; [constructor|]. split; [lia|]. rewrite Z.sub_diag. cbn. lia.
  - apply Forall_app in F. destruct F as [F1 F2]. inversion F2; subst. destruct (IH F1) as (A & B & C). rewrite trim_snoc. destruct (Z.eqb_spec c 48) as [->|N].
    + split; [exact A|]. rewrite app_length. split; [lia|]. rewrite value_snoc, C, zlen_app. change (zlen [48]) with 1.
      replace (zlen s + 1 - zlen (trim s)) with (Z.succ (zlen s - zlen (trim s))) by lia. rewrite Z.pow_succ_r by (unfold zlen; lia). ring.
    + split; [apply Forall_app; auto|]. split; [lia|]. rewrite Z.sub_diag. rewrite Z.pow_0_r. lia.
Qed.

(* the text of a finite number *)
Definition shown (neg : bool) (n : Z) : list Z :=
  (if neg then [45] else []) ++ udigits 309 (n / 10 ^ 6) ++ match trim (fixed 6 (n mod 10 ^ 6)) with [] => [] | f => 46 :: f end.
Lemma shown_decimal neg n : 0 <= n -> n / 10 ^ 6 < 10 ^ 309 -> decimal (shown neg n) neg n.
Proof.
  intros N B. assert (0 <= n / 10 ^ 6) by (apply Z.div_pos; lia). destruct (udigits_plain 308 (n / 10 ^ 6)) as (P & V & L); [split; [lia|exact B]|].
  assert (0 <= n mod 10 ^ 6 < 10 ^ 6) as R by (apply Z.mod_pos_bound; lia). destruct (fixed_ok 6 _ R) as (V6 & F6 & L6). destruct (trim_value _ F6) as (A & C & D).
  exists (udigits 309 (n / 10 ^ 6)), (trim (fixed 6 (n mod 10 ^ 6))). split; [exact P|]. split; [exact A|]. split; [lia|]. split; [apply trim_last|]. split; [unfold shown; destruct (trim _); reflexivity|].
  rewrite V. pose proof (Z.div_mod n (10 ^ 6) ltac:(lia)) as E. assert (zlen (fixed 6 (n mod 10 ^ 6)) = 6) as E6 by (unfold zlen; lia). rewrite E6, V6 in D. rewrite <- D. lia.
Qed.
Lemma magnitude_le v : magnitude v -> 0 <= v <= largest.
Proof.
  intros (m & e & M & E & ->). assert (0 < 2 ^ e) by (apply Z.pow_pos_nonneg; lia). assert (2 ^ e <= 2 ^ 2045) by (apply Z.pow_le_mono_r; lia).
  unfold largest. split; [apply Z.mul_nonneg_nonneg; lia|]. apply Z.mul_le_mono_nonneg; lia.
Qed.
Lemma printed_range v : magnitude v -> 0 <= round_even (v * 10 ^ 6) unit /\ round_even (v * 10 ^ 6) unit * unit <= largest * 10 ^ 6 /\ round_even (v * 10 ^ 6) unit / 10 ^ 6 < 10 ^ 309.
Proof.
  intros M. apply magnitude_le in M.
  assert (round_even (v * 10 ^ 6) unit <= (2 ^ 53 - 1) * 2 ^ 971 * 10 ^ 6) as L.
  { rewrite <- (round_exact ((2 ^ 53 - 1) * 2 ^ 971 * 10 ^ 6) unit unit_pos). apply round_mono; [exact unit_pos|].
    replace ((2 ^ 53 - 1) * 2 ^ 971 * 10 ^ 6 * unit) with (largest * 10 ^ 6) by (unfold largest, unit; replace 2045 with (971 + 1074) by reflexivity; rewrite Z.pow_add_r by lia; ring).
    apply Z.mul_le_mono_nonneg_r; lia. }
  split; [apply round_nonneg; [lia|exact unit_pos]|]. split.
  - replace (largest * 10 ^ 6) with ((2 ^ 53 - 1) * 2 ^ 971 * 10 ^ 6 * unit) by (unfold largest, unit; replace 2045 with (971 + 1074) by reflexivity; rewrite Z.pow_add_r by lia; ring).
    apply Z.mul_le_mono_nonneg_r; [pose proof unit_pos; lia|exact L].
  - apply Z.div_lt_upper_bound; [lia|]. eapply Z.le_lt_trans; [exact L|]. vm_compute. reflexivity.
Qed.

Lemma has_app c a b : has c (a ++ b) = has c a || has c b.
Proof. induction a as [|d a IH]; [reflexivity|]. cbn [app has]. rewrite IH. now rewrite orb_assoc. Qed.
Lemma strip_ok s : forall a c junk fuel, c <> 48 -> (length s < fuel)%nat ->
  exists junk', strip fuel (a ++ c :: s ++ 0 :: junk) (zlen (a ++ c :: s)) = Ok (a ++ c :: trim s ++ 0 :: junk', zlen (a ++ c :: trim s)).
Proof.
  induction s as [|d s IH] using rev_ind; intros a c junk fuel N F.
  - destruct fuel as [|fuel]; [lia|]. cbn [strip app]. rewrite aget_app by (rewrite zlen_app; cbn; lia). cbn [bind]. replace (c =? 48) with false by lia. rewrite trim_nil. exists junk. reflexivity.
  - rewrite app_length in F. cbn [length] in F. destruct fuel as [|fuel]; [lia|]. cbn [strip].
    replace (a ++ c :: (s ++ [d]) ++ 0 :: junk) with ((a ++ c :: s) ++ d :: 0 :: junk) by (rewrite <- !app_assoc; reflexivity).
    replace (zlen (a ++ c :: s ++ [d]) - 1) with (zlen (a ++ c :: s)) by (unfold zlen; rewrite !app_length; cbn [length]; rewrite app_length; cbn [length]; lia).
    rewrite aget_app by reflexivity. cbn [bind]. rewrite trim_snoc. destruct (Z.eqb_spec d 48) as [->|Nd].
    + rewrite aset_app by reflexivity. cbn [bind]. destruct (IH a c (0 :: junk) fuel N) as [j J]; [lia|]. rewrite <- app_assoc. cbn [app]. rewrite J. exists j. reflexivity.
    + exists junk. rewrite <- !app_assoc. cbn [app]. rewrite <- ?app_assoc. reflexivity.
Qed.
Lemma nz_digits s : Forall digit s -> ~ In 0 s.
Proof. intros F I. rewrite Forall_forall in F. apply F in I. unfold digit in I. lia. Qed.
Lemma in_trim c s : In c (trim s) -> In c s.
Proof. induction s as [|d s IH] using rev_ind; [auto|]. rewrite trim_snoc, in_app_iff. destruct (d =? 48); [auto|]. rewrite in_app_iff. auto. Qed.
(* buffers of any size that hold the text *)
Lemma ftoa_point b a s : ~ In 0 a -> Forall digit s -> a <> [] -> (forall g, a <> g ++ [46]) -> (length a + length s + 2 <= length b)%nat ->
  forall x, percent_f 46 x = a ++ 46 :: s -> ftoa 46 b x = Ok (a ++ match trim s with [] => [] | f => 46 :: f end).
Proof.
  intros Za Ds Na Pa L x E. unfold ftoa, gcvt. rewrite E.
  pose proof (put_ok ((a ++ 46 :: s) ++ [0]) [] b) as P. cbn [app] in P. change (zlen (@nil Z)) with 0 in P. rewrite P by (rewrite !app_length; cbn [length]; lia). cbn [bind].
  set (junk := skipn _ b). replace (((a ++ 46 :: s) ++ [0]) ++ junk) with ((a ++ 46 :: s) ++ 0 :: junk) by (rewrite <- !app_assoc; reflexivity).
  assert (~ In 0 s) as Zs by (apply nz_digits; auto).
  assert (before_zero (a ++ 46 :: s) = a ++ 46 :: s) as Bz by (apply before_zero_id; rewrite in_app_iff; cbn [In]; intros [I|[I|I]]; [auto|lia|auto]).
  rewrite c_text_junk, Bz. cbn [bind]. rewrite has_app. cbn [has]. change (46 =? 46) with true. rewrite orb_true_l, orb_true_r. cbn [negb].
  destruct (strip_ok s a 46 junk (S (length ((a ++ 46 :: s) ++ 0 :: junk)))) as [j J]; [lia|rewrite !app_length; cbn [length]; lia|].
  replace ((a ++ 46 :: s) ++ 0 :: junk) with (a ++ 46 :: s ++ 0 :: junk) in * by (rewrite <- app_assoc; reflexivity). rewrite J. cbn [bind].
  assert (Forall digit (trim s)) as Dt by (rewrite Forall_forall in *; intros c I; apply Ds, in_trim, I).
  destruct (trim s) as [|f0 f] eqn:Et.
  - cbn [app]. rewrite aget_app by (rewrite zlen_app; change (zlen [46]) with 1; lia). cbn [bind]. change (46 =? 46) with true. cbv iota.
    rewrite aset_app by (rewrite zlen_app; change (zlen [46]) with 1; lia). cbn [bind]. rewrite c_text_junk, before_zero_id by auto. cbn [bind].
    destruct (exists_last Na) as (g & l & ->). rewrite <- app_assoc. cbn [app]. rewrite aget_app by (rewrite zlen_app; change (zlen [l]) with 1; lia). cbn [bind].
    replace (l =? 46) with false by (symmetry; apply Z.eqb_neq; intros ->; now apply (Pa g)). cbn [bind]. replace (g ++ l :: 0 :: 0 :: j) with ((g ++ [l]) ++ 0 :: 0 :: j) by (rewrite <- app_assoc; reflexivity).
    rewrite c_text_junk, before_zero_id by auto. now rewrite app_nil_r.
  - assert (f0 :: f <> []) as Nf by discriminate. destruct (exists_last Nf) as (g & l & Eg). rewrite Eg in *.
    replace (a ++ 46 :: (g ++ [l]) ++ 0 :: j) with ((a ++ 46 :: g) ++ l :: 0 :: j) by (rewrite <- !app_assoc; reflexivity).
    replace (zlen (a ++ 46 :: g ++ [l]) - 1) with (zlen (a ++ 46 :: g)) by (unfold zlen; rewrite !app_length; cbn [length]; rewrite app_length; cbn [length]; lia).
    rewrite aget_app by reflexivity. cbn [bind]. assert (digit l) as Dl by (apply Forall_app in Dt; destruct Dt as [_ Dt]; now inversion Dt).
    replace (l =? 46) with false by (unfold digit in Dl; lia). cbn [bind].
    assert (before_zero (a ++ 46 :: g ++ [l]) = a ++ 46 :: g ++ [l]) as Bz2.
    { apply before_zero_id. rewrite in_app_iff. cbn [In]. intros [I|[I|I]]; [auto|lia|]. apply (nz_digits _ Dt) in I. auto. }
    assert ((a ++ 46 :: g) ++ l :: 0 :: j = (a ++ 46 :: g ++ [l]) ++ 0 :: j) as Eb by (rewrite <- !app_assoc; cbn [app]; rewrite <- app_assoc; reflexivity).
    rewrite Eb, c_text_junk, Bz2. cbn [bind]. rewrite <- Eb.
    replace (zlen (a ++ 46 :: g ++ [l]) - 1) with (zlen (a ++ 46 :: g)) by (unfold zlen; rewrite !app_length; cbn [length]; rewrite app_length; cbn [length]; lia).
    rewrite aget_app by reflexivity. cbn [bind]. replace (l =? 46) with false by (unfold digit in Dl; lia). cbn [bind]. rewrite Eb, c_text_junk, Bz2.
    destruct (g ++ [l]) eqn:Eg2; [destruct g; discriminate|reflexivity].
Qed.
Lemma ftoa_plain b a pt x : ~ In 0 a -> has 46 a = false -> a <> [] -> (length a + 1 <= length b)%nat -> percent_f pt x = a -> ftoa pt b x = Ok a.
Proof.
  intros Za Ha Na L E. unfold ftoa, gcvt. rewrite E.
  pose proof (put_ok (a ++ [0]) [] b) as P. cbn [app] in P. change (zlen (@nil Z)) with 0 in P. rewrite P by (rewrite !app_length; cbn [length]; lia). cbn [bind].
  set (junk := skipn _ b). replace ((a ++ [0]) ++ junk) with (a ++ 0 :: junk) by (rewrite <- !app_assoc; reflexivity).
  rewrite c_text_junk, before_zero_id by auto. cbn [bind]. rewrite Ha. cbn [negb bind]. rewrite c_text_junk, before_zero_id by auto. cbn [bind].
  destruct (exists_last Na) as (g & l & ->). rewrite <- app_assoc. cbn [app]. rewrite aget_app by (rewrite zlen_app; change (zlen [l]) with 1; lia). cbn [bind].
  rewrite has_app in Ha. cbn [has] in Ha. replace (l =? 46) with false by (destruct (has 46 g), (l =? 46); cbn in Ha; congruence). cbn [bind].
  replace (g ++ l :: 0 :: junk) with ((g ++ [l]) ++ 0 :: junk) by (rewrite <- app_assoc; reflexivity). rewrite c_text_junk, before_zero_id by auto. reflexivity.
Qed.
Lemma ftoa_fin b neg v : magnitude v -> length b = 320%nat -> ftoa 46 b (Fin neg v) = Ok (shown neg (round_even (v * 10 ^ 6) unit)).
Proof.
  intros M L. destruct (printed_range v M) as (N & _ & B). set (n := round_even (v * 10 ^ 6) unit) in *.
  assert (0 <= n / 10 ^ 6) by (apply Z.div_pos; lia). destruct (udigits_plain 308 (n / 10 ^ 6)) as (P & V & Lu); [split; [lia|exact B]|].
  assert (0 <= n mod 10 ^ 6 < 10 ^ 6) as R by (apply Z.mod_pos_bound; lia). destruct (fixed_ok 6 _ R) as (V6 & F6 & L6).
  destruct P as (P1 & P2 & P3). set (u := udigits 309 (n / 10 ^ 6)) in *. set (sg := if neg then [45] else []).
  assert (length sg <= 1)%nat as Ls by (unfold sg; destruct neg; cbn; lia). assert (~ In 0 sg) as Zs by (unfold sg; destruct neg; cbn; lia).
  rewrite (ftoa_point b (sg ++ u) (fixed 6 (n mod 10 ^ 6))).
  - unfold shown. fold u sg. rewrite <- app_assoc. reflexivity.
  - rewrite in_app_iff. intros [I|I]; [auto|]. now apply (nz_digits u).
  - exact F6.
  - intros E. apply app_eq_nil in E. tauto.
  - intros g E. destruct (exists_last P1) as (u1 & l & Eu). rewrite Eu, app_assoc in E. apply app_inj_tail in E. destruct E as [_ ->].
    rewrite Eu in P2. apply Forall_app in P2. destruct P2 as [_ P2]. inversion P2 as [|? ? D]. unfold digit in D. lia.
  - rewrite app_length, L6, L. lia.
  - unfold percent_f. fold n u sg. rewrite <- app_assoc. reflexivity.
Qed.
Lemma text b x : is_double x -> length b = 320%nat ->
  match x with
  | Fin neg v => exists t n, ftoa 46 b x = Ok t /\ decimal t neg n /\ closest n v
  | Inf neg => ftoa 46 b x = Ok ((if neg then [45] else []) ++ [105; 110; 102])
  | Nan neg => ftoa 46 b x = Ok ((if neg then [45] else []) ++ [110; 97; 110])
  end.
Proof.
  intros D L. destruct x as [neg v|neg|neg].
  - cbn [is_double] in D. destruct (printed_range v D) as (N & _ & B). exists (shown neg (round_even (v * 10 ^ 6) unit)), (round_even (v * 10 ^ 6) unit).
    split; [apply ftoa_fin; auto|]. split; [apply shown_decimal; auto|apply closest_printed].
  - apply ftoa_plain; [destruct neg; cbn; lia|destruct neg; reflexivity|destruct neg; discriminate|rewrite L; destruct neg; cbn; lia|reflexivity].
  - apply ftoa_plain; [destruct neg; cbn; lia|destruct neg; reflexivity|destruct neg; discriminate|rewrite L; destruct neg; cbn; lia|reflexivity].
Qed.
Lemma split_point ip : forall f ip' f', Forall digit ip -> Forall digit ip' ->
  ip ++ match f with [] => [] | _ => 46 :: f end = ip' ++ match f' with [] => [] | _ => 46 :: f' end -> ip = ip' /\ f = f'.
Proof.
  induction ip as [|c ip IH]; intros f ip' f' D D' E.
  - destruct ip' as [|c' ip']; [split; [reflexivity|]; destruct f, f'; cbn in E; congruence|]. exfalso. inversion D'; subst. unfold digit in *. destruct f; cbn in E; [discriminate|]. injection E as <- _. lia.
  - destruct ip' as [|c' ip'].
    + exfalso. inversion D; subst. unfold digit in *. destruct f'; cbn in E; [discriminate|]. injection E as -> _. lia.
    + inversion D; inversion D'; subst. cbn [app] in E. injection E as -> E. destruct (IH f ip' f') as [-> ->]; auto.
Qed.
Lemma decimal_unique t neg n neg' n' : decimal t neg n -> decimal t neg' n' -> neg = neg' /\ n = n'.
Proof.
  intros (ip & f & P & D & L & Z0 & E & N) (ip' & f' & P' & D' & L' & Z0' & E' & N').
  assert (forall ip f, plain ip -> (exists c r, ip ++ f = c :: r /\ digit c)) as Hd.
  { intros i g (Q1 & Q2 & _). destruct i as [|c r]; [congruence|]. inversion Q2; subst. exists c, (r ++ g). auto. }
  destruct P as (P1 & P2 & P3), P' as (P1' & P2' & P3').
  assert (neg = neg') as En.
  { destruct (Hd ip (match f with [] => [] | _ => 46 :: f end) (conj P1 (conj P2 P3))) as (c & r & Hc & Dc). destruct (Hd ip' (match f' with [] => [] | _ => 46 :: f' end) (conj P1' (conj P2' P3'))) as (c' & r' & Hc' & Dc').
    destruct neg, neg'; try reflexivity; exfalso; rewrite E in E'; cbn [app] in E'; unfold digit in *.
    - rewrite Hc' in E'. injection E' as <- _. lia.
    - rewrite Hc in E'. injection E' as -> _. lia. }
  split; [exact En|]. subst neg'. rewrite E in E'. apply app_inv_head in E'. destruct (split_point ip f ip' f' P2 P2' E') as [-> ->]. congruence.
Qed.
Lemma decimal_determined t t' neg n : decimal t neg n -> decimal t' neg n -> t = t'.
Proof.
  intros (ip & f & P & D & L & Z0 & E & N) (ip' & f' & P' & D' & L' & Z0' & E' & N').
  assert (forall f, Forall digit f -> (length f <= 6)%nat -> 0 <= value f * 10 ^ (6 - zlen f) < 10 ^ 6) as Rf.
  { intros g Dg Lg. pose proof (value_range g Dg) as V. assert (0 < 10 ^ (6 - zlen g)) by (apply Z.pow_pos_nonneg; unfold zlen; lia). split; [apply Z.mul_nonneg_nonneg; lia|].
    replace (10 ^ 6) with (10 ^ zlen g * 10 ^ (6 - zlen g)) by (rewrite <- Z.pow_add_r by (unfold zlen; lia); f_equal; lia). apply Z.mul_lt_mono_pos_r; [lia|]. unfold zlen. lia. }
  pose proof (Rf f D L) as R1. pose proof (Rf f' D' L') as R2.
  assert (value ip = value ip') as Vi by lia. assert (value f * 10 ^ (6 - zlen f) = value f' * 10 ^ (6 - zlen f')) as Vf by lia.
  assert (ip = ip') as Ei.
  { pose proof (value_range ip (proj1 (proj2 P))) as B1. set (k := Nat.max (length ip) (length ip')).
    assert (value ip < 10 ^ Z.of_nat (S k)) by (eapply Z.lt_le_trans; [apply B1|apply Z.pow_le_mono_r; lia]).
    rewrite <- (udigits_value k ip P) by auto. rewrite Vi. apply udigits_value; [auto|lia]. }
  assert (f = f') as Ef.
  { assert (forall a b, Forall digit a -> Forall digit b -> (length a < length b <= 6)%nat -> (forall g, b <> g ++ [48]) -> value a * 10 ^ (6 - zlen a) = value b * 10 ^ (6 - zlen b) -> False) as Lt.
    { intros a b0 Da Db Lab Zb Eab. assert (b0 <> []) as Nb by (destruct b0; [cbn in Lab; lia|discriminate]). destruct (exists_last Nb) as (g & l & Eg). subst b0. rewrite value_snoc in Eab.
      apply Forall_app in Db. destruct Db as [_ Db]. inversion Db as [|? ? Dl]; subst. unfold digit in Dl. rewrite app_length in Lab. cbn [length] in Lab.
      replace (6 - zlen a) with ((6 - zlen (g ++ [l])) + (zlen (g ++ [l]) - zlen a)) in Eab by lia. rewrite zlen_app in *. change (zlen [l]) with 1 in *.
      rewrite Z.pow_add_r in Eab by (unfold zlen; lia). set (p := 10 ^ (6 - (zlen g + 1))) in *. assert (0 < p) by (apply Z.pow_pos_nonneg; unfold zlen; lia).
      replace (zlen g + 1 - zlen a) with (Z.succ (zlen g - zlen a)) in Eab by lia. rewrite Z.pow_succ_r in Eab by (unfold zlen; lia). set (q := 10 ^ (zlen g - zlen a)) in *.
      assert (value a * (10 * q) = 10 * value g + (l - 48)) as K by (apply (Z.mul_reg_r _ _ p); lia).
      apply (Zb g). f_equal. f_equal. lia. }
    assert (length f = length f') as El.
    { destruct (Nat.lt_trichotomy (length f) (length f')) as [C|[C|C]]; [exfalso; apply (Lt f f'); auto; lia|exact C|exfalso; apply (Lt f' f); auto; lia]. }
    assert (zlen f = zlen f') as Ez by (unfold zlen; lia). rewrite Ez in Vf. apply Z.mul_reg_r in Vf; [|apply Z.pow_nonzero; unfold zlen; lia].
    clear - D D' El Vf. revert f' D' El Vf. induction f as [|c f IH] using rev_ind; intros f' D' El Vf; [destruct f'; [reflexivity|discriminate]|].
    destruct f' as [|c' f' _] using rev_ind; [rewrite app_length in El; cbn in El; lia|]. rewrite !app_length in El. cbn [length] in El. rewrite !value_snoc in Vf.
    apply Forall_app in D. apply Forall_app in D'. destruct D as [D1 D2], D' as [D1' D2']. inversion D2; inversion D2'; subst. unfold digit in *.
    assert (value f = value f') by lia. rewrite (IH D1 f') by (auto; lia). f_equal. f_equal. lia. }
  subst. reflexivity.
Qed.

Lemma same_text b b' neg v neg' v' t : magnitude v -> magnitude v' -> length b = 320%nat -> length b' = 320%nat ->
  ftoa 46 b (Fin neg v) = Ok t -> ftoa 46 b' (Fin neg' v') = Ok t -> neg = neg' /\ Z.abs (v - v') * 10 ^ 6 <= unit.
Proof.
  intros M M' L L' E E'. rewrite ftoa_fin in E, E' by auto.
  assert (shown neg' (round_even (v' * 10 ^ 6) unit) = shown neg (round_even (v * 10 ^ 6) unit)) as Es by congruence. clear E E'.
  destruct (printed_range v M) as (N & _ & B). destruct (printed_range v' M') as (N' & _ & B').
  pose proof (shown_decimal neg _ N B) as S1. pose proof (shown_decimal neg' _ N' B') as S2. rewrite Es in S2. destruct (decimal_unique _ _ _ _ _ S1 S2) as [-> En]. split; [reflexivity|].
  pose proof (closest_printed v) as C1. pose proof (closest_printed v') as C2. unfold closest in *. rewrite <- En in C2. set (n := round_even (v * 10 ^ 6) unit * unit) in *. lia.
Qed.
Lemma monotone b b' neg v v' : magnitude v -> magnitude v' -> v <= v' -> length b = 320%nat -> length b' = 320%nat ->
  exists t n t' n', ftoa 46 b (Fin neg v) = Ok t /\ decimal t neg n /\ ftoa 46 b' (Fin neg v') = Ok t' /\ decimal t' neg n' /\ n <= n'.
Proof.
  intros M M' V L L'. destruct (printed_range v M) as (N & _ & B). destruct (printed_range v' M') as (N' & _ & B'). do 4 eexists.
  split; [apply ftoa_fin; auto|]. split; [apply shown_decimal; auto|]. split; [apply ftoa_fin; auto|]. split; [apply shown_decimal; auto|]. apply round_mono; [exact unit_pos|lia].
Qed.
Lemma integers b z : - 2 ^ 63 <= z < 2 ^ 63 -> magnitude (Z.abs z * unit) -> length b = 320%nat -> ftoa 46 b (Fin (z <? 0) (Z.abs z * unit)) = Ok (i64toa z).
Proof.
  intros R M L. rewrite ftoa_fin by auto. replace (Z.abs z * unit * 10 ^ 6) with (Z.abs z * 10 ^ 6 * unit) by ring. rewrite round_exact by exact unit_pos. f_equal.
  unfold shown. rewrite Z.div_mul, Z.mod_mul by lia. change (trim (fixed 6 0)) with (@nil Z). cbv iota. rewrite app_nil_r.
  assert (udigits 309 (Z.abs z) = udigits 20 (Z.abs z)) as ->.
  { destruct (udigits_plain 19 (Z.abs z)) as (P & V & _); [change (10 ^ Z.of_nat 20) with 100000000000000000000; lia|]. rewrite <- V at 1. apply (udigits_value 308); [exact P|]. rewrite V. apply Z.lt_trans with (2 ^ 64); [lia|]. vm_compute. reflexivity. }
  unfold i64toa. destruct (Z.ltb_spec z 0); [replace (- z) with (Z.abs z) by lia; reflexivity|replace (Z.abs z) with z by lia; reflexivity].
Qed.

(* doubles from 2^33 on are further apart than a millionth *)
Lemma spacing x v : magnitude x -> magnitude v -> 2 ^ 33 * unit <= x -> Z.abs (v - x) * 10 ^ 6 <= unit -> v = x \/ x = 2 ^ 33 * unit.
Proof.
  intros (m & e & M & E & ->) (m' & e' & M' & E' & ->) X D. unfold unit in *.
  assert (2 ^ 33 * 2 ^ 1074 = 2 ^ 1107) as Eu by (rewrite <- Z.pow_add_r by lia; reflexivity). rewrite Eu in *.
  assert (2 ^ 1107 = 2 ^ 52 * 2 ^ 1055) as Eq by (rewrite <- Z.pow_add_r by lia; reflexivity).
  assert (2 ^ 1074 = 2 ^ 19 * 2 ^ 1055) as Eq2 by (rewrite <- Z.pow_add_r by lia; reflexivity).
  assert (2 ^ 1055 = 2 * 2 ^ 1054) as Eq3 by (rewrite <- Z.pow_succ_r by lia; reflexivity).
  assert (0 < 2 ^ 1054) as P4 by (apply Z.pow_pos_nonneg; lia).
  assert (1055 <= e) as Le.
  { destruct (Z.le_gt_cases 1055 e) as [H|H]; [exact H|]. exfalso. assert (2 ^ e <= 2 ^ 1054) by (apply Z.pow_le_mono_r; lia). assert (0 < 2 ^ e) by (apply Z.pow_pos_nonneg; lia).
    assert (m * 2 ^ e <= (2 ^ 53 - 1) * 2 ^ 1054) by (apply Z.mul_le_mono_nonneg; lia). rewrite Eq, Eq3 in X. set (h := 2 ^ 1054) in *. lia. }
  replace e with ((e - 1055) + 1055) in * by lia. rewrite Z.pow_add_r in * by lia. rewrite Z.mul_assoc in *. set (k := m * 2 ^ (e - 1055)) in *. rewrite Eq, Eq2 in *. set (u := 2 ^ 1055) in *.
  assert (0 < u) as Pu by lia.
  destruct (Z.le_gt_cases 1055 e') as [H|H].
  - replace e' with ((e' - 1055) + 1055) in * by lia. rewrite Z.pow_add_r in * by lia. rewrite Z.mul_assoc in *. set (k' := m' * 2 ^ (e' - 1055)) in *. fold u in D |- *. left. f_equal.
    rewrite <- Z.mul_sub_distr_r, Z.abs_mul, (Z.abs_eq u) in D by lia. assert (Z.abs (k' - k) * 10 ^ 6 <= 2 ^ 19) by (apply (Z.mul_le_mono_pos_r _ _ u Pu); lia). lia.
  - assert (2 ^ e' <= 2 ^ 1054) by (apply Z.pow_le_mono_r; lia). assert (0 < 2 ^ e') by (apply Z.pow_pos_nonneg; lia).
    assert (m' * 2 ^ e' <= (2 ^ 53 - 1) * 2 ^ 1054) as Hv by (apply Z.mul_le_mono_nonneg; lia). rewrite Eq3 in *. set (h := 2 ^ 1054) in *. set (w := m' * 2 ^ e') in *. subst u.
    assert (2 ^ 52 <= k) as Hk by (apply (Z.mul_le_mono_pos_r _ _ (2 * h)); lia). right. f_equal. destruct (Z.eq_dec k (2 ^ 52)) as [Ek|Nk]; [exact Ek|exfalso].
    assert ((2 ^ 52 + 1) * (2 * h) <= k * (2 * h)) by (apply Z.mul_le_mono_nonneg_r; lia). lia.
Qed.
Lemma mag m e : 0 <= m < 2 ^ 53 -> 0 <= e <= 2045 -> magnitude (m * 2 ^ e).
Proof. intros. exists m, e. auto. Qed.
Lemma mag_le m e : 0 <= m <= 2 ^ 53 -> 0 <= e < 2045 -> magnitude (m * 2 ^ e).
Proof.
  intros M E. destruct (Z.eq_dec m (2 ^ 53)) as [->|N]; [|apply mag; lia]. exists (2 ^ 52), (e + 1). split; [lia|]. split; [lia|]. rewrite Z.pow_add_r by lia. change (2 ^ 53) with (2 ^ 52 * 2). change (2 ^ 1) with 2. ring.
Qed.
Lemma round_unique n a b : 0 < b -> 2 * Z.abs (n * b - a) < b -> round_even a b = n.
Proof.
  intros B H. pose proof (round_closest a b B) as C. set (p := round_even a b) in *. assert (Z.abs (p * b - n * b) < b) as K by lia. rewrite <- Z.mul_sub_distr_r, Z.abs_mul, (Z.abs_eq b) in K by lia.
  assert (Z.abs (p - n) < 1); [|lia]. apply (Z.mul_lt_mono_pos_r b); lia.
Qed.
(* a finer representation of what is at most 2^33 *)
Lemma finer v : magnitude v -> v <= 2 ^ 33 * unit -> exists m e, 0 <= m <= 2 ^ 53 /\ 0 <= e <= 1054 /\ v = m * 2 ^ e.
Proof.
  intros (m & e & M & E & ->) B. destruct (Z.le_gt_cases e 1054) as [H|H]; [exists m, e; split; [lia|split; [lia|reflexivity]]|].
  exists (m * 2 ^ (e - 1054)), 1054. assert (0 < 2 ^ (e - 1054)) by (apply Z.pow_pos_nonneg; lia). replace (m * 2 ^ (e - 1054) * 2 ^ 1054) with (m * 2 ^ e) by (rewrite <- Z.mul_assoc, <- Z.pow_add_r by lia; f_equal; f_equal; lia).
  split; [split; [apply Z.mul_nonneg_nonneg; lia|]|split; [lia|reflexivity]]. apply (Z.mul_le_mono_pos_r _ _ (2 ^ 1054)); [apply Z.pow_pos_nonneg; lia|].
  replace (m * 2 ^ (e - 1054) * 2 ^ 1054) with (m * 2 ^ e) by (rewrite <- Z.mul_assoc, <- Z.pow_add_r by lia; f_equal; f_equal; lia). exact B.
Qed.
Lemma near n v : 0 <= n -> n < 2 ^ 33 * 10 ^ 6 -> magnitude v -> (forall w, magnitude w -> Z.abs (n * unit - v * 10 ^ 6) <= Z.abs (n * unit - w * 10 ^ 6)) -> 2 * Z.abs (n * unit - v * 10 ^ 6) < unit.
Proof.
  intros N B M C. assert (unit = 2 ^ 20 * 2 ^ 1054) as Eu by (unfold unit; rewrite <- Z.pow_add_r by lia; reflexivity). assert (0 < 2 ^ 1054) as P4 by (apply Z.pow_pos_nonneg; lia).
  assert (v <= 2 ^ 33 * unit) as V.
  { assert (magnitude (2 ^ 33 * unit)) as G by (unfold unit; apply mag; lia). specialize (C _ G). assert (n * unit < 2 ^ 33 * 10 ^ 6 * unit) by (apply Z.mul_lt_mono_pos_r; [exact unit_pos|lia]). set (u := unit) in *. lia. }
  destruct (finer v M V) as (m & e & Mm & Ee & Ev). assert (0 < 2 ^ e) as Pe by (apply Z.pow_pos_nonneg; lia). assert (2 ^ e <= 2 ^ 1054) as Le by (apply Z.pow_le_mono_r; lia).
  assert (n * unit < 2 ^ 33 * 10 ^ 6 * unit) as Nb by (apply Z.mul_lt_mono_pos_r; [exact unit_pos|lia]). assert (0 <= n * unit) as Nn by (apply Z.mul_nonneg_nonneg; [lia|pose proof unit_pos; lia]).
  set (t := n * unit) in *. destruct (Z.le_gt_cases (v * 10 ^ 6) t) as [H|H].
  - destruct (Z.eq_dec m (2 ^ 53)) as [Em|Nm].
    + (* then v = 2^33 and t is below *)
      destruct (Z.eq_dec e 1054) as [Ee2|Ne2]; [exfalso; rewrite Em, Ee2 in Ev; assert (v = 2 ^ 33 * unit) as Ev2 by (rewrite Ev, Eu; change (2 ^ 53) with (2 ^ 33 * 2 ^ 20); ring); set (u := unit) in *; lia|].
      assert (magnitude ((2 ^ 52 + 1) * 2 ^ (e + 1))) as G by (apply mag_le; lia). specialize (C _ G). rewrite Z.pow_add_r in C by lia. change (2 ^ 1) with 2 in C. assert (2 * 2 ^ e <= 2 ^ 1054) by (replace (2 * 2 ^ e) with (2 ^ (e + 1)) by (rewrite Z.pow_add_r by lia; change (2 ^ 1) with 2; ring); apply Z.pow_le_mono_r; lia).
      rewrite Em in Ev. change (2 ^ 53) with (2 ^ 52 * 2) in Ev. set (h := 2 ^ 1054) in *. set (g := 2 ^ e) in *. lia.
    + assert (magnitude ((m + 1) * 2 ^ e)) as G by (apply mag_le; lia). specialize (C _ G). set (h := 2 ^ 1054) in *. set (g := 2 ^ e) in *. assert ((m + 1) * g = v + g) as Eg by lia. rewrite Eg in C. lia.
  - assert (m <> 0) as Nm by (intros ->; lia). assert (magnitude ((m - 1) * 2 ^ e)) as G by (apply mag_le; lia). specialize (C _ G). set (h := 2 ^ 1054) in *. set (g := 2 ^ e) in *. assert ((m - 1) * g = v - g) as Eg by lia. rewrite Eg in C. lia.
Qed.
Lemma crisp_only v n : magnitude v -> n * unit = v * 10 ^ 6 -> only_closest n v.
Proof.
  intros M E. pose proof (magnitude_le v M). pose proof unit_pos as U. split; [|intros w _ W; rewrite E; lia]. destruct (Z.le_gt_cases 0 n) as [L|L]; [exact L|exfalso]. assert (n * unit < 0) by (apply Z.mul_neg_pos; lia). lia.
Qed.
Lemma large_only v : magnitude v -> 2 ^ 33 * unit <= v -> only_closest (round_even (v * 10 ^ 6) unit) v.
Proof.
  intros M L. pose proof unit_pos as U. pose proof (magnitude_le v M). destruct (Z.eq_dec v (2 ^ 33 * unit)) as [E|E].
  - assert (v * 10 ^ 6 = 2 ^ 33 * 10 ^ 6 * unit) as E2 by (rewrite E; ring). rewrite E2, round_exact by auto. apply crisp_only; [exact M|now rewrite E2].
  - split; [apply round_nonneg; [lia|auto]|]. intros w Mw W. pose proof (closest_printed v) as C. unfold closest in C. set (nu := round_even (v * 10 ^ 6) unit * unit) in *.
    destruct (Z.lt_ge_cases (Z.abs (nu - v * 10 ^ 6)) (Z.abs (nu - w * 10 ^ 6))) as [G|G]; [exact G|exfalso]. destruct (spacing v w M Mw L) as [K|K]; [lia|auto|auto].
Qed.
Lemma written v : magnitude v -> (exists n, only_closest n v) -> only_closest (round_even (v * 10 ^ 6) unit) v.
Proof.
  intros M (n & N & O). destruct (Z.le_gt_cases (2 ^ 33 * unit) v) as [L|L]; [apply large_only; auto|].
  assert (n < 2 ^ 33 * 10 ^ 6) as B.
  { destruct (Z.lt_ge_cases n (2 ^ 33 * 10 ^ 6)) as [K|K]; [exact K|exfalso]. assert (magnitude (2 ^ 33 * unit)) as G by (unfold unit; apply mag; lia). specialize (O _ G ltac:(lia)).
    pose proof unit_pos as U. assert (2 ^ 33 * 10 ^ 6 * unit <= n * unit) by (apply Z.mul_le_mono_nonneg_r; lia). set (u := unit) in *. lia. }
  rewrite (round_unique n); [split; auto|exact unit_pos|]. apply near; auto. intros w Mw. destruct (Z.eq_dec w v) as [->|W]; [lia|]. specialize (O w Mw W). lia.
Qed.
Lemma decimal_nonneg t neg n : decimal t neg n -> 0 <= n.
Proof.
  intros (ip & f & P & Df & L & Z0 & _ & ->). destruct P as (P1 & P2 & P3). pose proof (value_range ip P2). pose proof (value_range f Df). assert (0 < 10 ^ (6 - zlen f)) by (apply Z.pow_pos_nonneg; unfold zlen; lia).
  apply Z.add_nonneg_nonneg; apply Z.mul_nonneg_nonneg; lia.
Qed.
Lemma many_writable neg v : magnitude v -> ((exists n, n * unit = v * 10 ^ 6) \/ 2 ^ 33 * unit <= v) -> writable (Fin neg v).
Proof. intros M [[n E]|L]; [exists n; apply crisp_only; auto|]. eexists. apply large_only; auto. Qed.
Section parse.
  Context (strtod : list Z -> double * Z).
  Lemma c_str_same s : c_str s = before_zero s.
  Proof. induction s as [|c s IH]; [reflexivity|]. cbn [c_str before_zero]. now rewrite IH. Qed.
  Lemma decimal_nz t neg n : decimal t neg n -> ~ In 0 t.
  Proof.
    intros (ip & f & P & D & L & Z0 & -> & N) I. rewrite !in_app_iff in I. destruct I as [I|[I|I]].
    - destruct neg; cbn in I; lia.
    - now apply (nz_digits ip) in I; [|apply P].
    - destruct f as [|c f]; [destruct I|]. destruct I as [I|I]; [lia|]. now apply (nz_digits (c :: f)) in I.
  Qed.
  Lemma flt_round_trip b x : is_double x -> writable x -> length b = 320%nat -> reads_decimals strtod -> reads_infinity strtod ->
    exists t, ftoa 46 b x = Ok t /\ atof_test strtod t = (x, true) /\ atof strtod t = x.
  Proof.
    intros D C L R [RI1 RI2]. pose proof (text b x D L) as T. destruct x as [neg v|neg|neg]; cbn [writable is_double] in *; [|clear C|contradiction].
    - clear T. destruct (printed_range v D) as (N & B1 & B2). destruct (written v D C) as [_ O]. set (n := round_even (v * 10 ^ 6) unit) in *. pose proof (shown_decimal neg n N B2) as S1.
      exists (shown neg n). split; [apply ftoa_fin; auto|]. unfold atof, atof_test. rewrite c_str_same, before_zero_id by (apply (decimal_nz _ _ _ S1)).
      destruct (R _ _ _ S1 B1) as (w & Er & Mw & Nw). rewrite Er. rewrite Z.eqb_refl. assert (w = v) as ->; [|auto].
      destruct (Z.eq_dec w v) as [E|E]; [exact E|exfalso]. specialize (Nw v D). specialize (O w Mw E). lia.
    - destruct neg; rewrite T; eexists; (split; [reflexivity|]); unfold atof, atof_test; cbn [app c_str Z.eqb Pos.eqb]; rewrite ?RI1, ?RI2; auto.
  Qed.
  Lemma flt_only b neg v t : magnitude v -> length b = 320%nat -> reads_decimals strtod -> ftoa 46 b (Fin neg v) = Ok t -> atof strtod t = Fin neg v ->
    exists n, 0 <= n /\ forall w, magnitude w -> Z.abs (n * unit - v * 10 ^ 6) <= Z.abs (n * unit - w * 10 ^ 6).
  Proof.
    intros D L R E A. rewrite ftoa_fin in E by auto. destruct (printed_range v D) as (N & B1 & B2). set (n := round_even (v * 10 ^ 6) unit) in *. pose proof (shown_decimal neg n N B2) as S1.
    assert (t = shown neg n) as -> by congruence. exists n. split; [exact N|]. unfold atof, atof_test in A. rewrite c_str_same, before_zero_id in A by (apply (decimal_nz _ _ _ S1)).
    destruct (R _ _ _ S1 B1) as (w & Er & Mw & Nw). rewrite Er, Z.eqb_refl in A. assert (w = v) as -> by congruence. exact Nw.
  Qed.
  Lemma flt_text_round_trip b t neg n : decimal t neg n -> n < 2 ^ 33 * 10 ^ 6 -> length b = 320%nat -> reads_decimals strtod -> ftoa 46 b (atof strtod t) = Ok t.
  Proof.
    intros D B L R. assert (0 <= n) as N by (eapply decimal_nonneg; eauto). destruct (R _ _ _ D) as (v & Er & Mv & Nv).
    { apply Z.le_trans with (2 ^ 33 * unit * 10 ^ 6); [pose proof unit_pos as U; set (u := unit) in *; assert (n * u <= 2 ^ 33 * 10 ^ 6 * u) by (apply Z.mul_le_mono_nonneg_r; lia); lia|].
      apply Z.mul_le_mono_nonneg_r; [lia|]. apply Z.leb_le. vm_compute. reflexivity. }
    unfold atof, atof_test. rewrite c_str_same, before_zero_id by (apply (decimal_nz _ _ _ D)). rewrite Er, Z.eqb_refl. rewrite ftoa_fin by auto. f_equal.
    rewrite (round_unique n) by (try exact unit_pos; apply near; auto). apply (decimal_determined _ _ neg n); [|exact D]. apply shown_decimal; [exact N|]. apply Z.div_lt_upper_bound; [lia|].
    apply Z.lt_trans with (2 ^ 33 * 10 ^ 6); [exact B|]. vm_compute. reflexivity.
  Qed.
  Lemma flt_parse s r e : strtod (c_str s) = (r, e) -> (atof_test strtod s = (r, true) <-> e = zlen s) /\ atof strtod s = if e =? zlen s then r else Fin false 0.
  Proof.
    intros E. unfold atof, atof_test. rewrite E. split; [|reflexivity]. split; [intros H; injection H as H; lia|intros ->; now rewrite Z.eqb_refl].
  Qed.
  Lemma flt_zero s : In 0 s -> (forall t, 0 <= snd (strtod t) <= zlen t) -> snd (atof_test strtod s) = false /\ atof strtod s = Fin false 0.
  Proof.
    intros I H. assert (zlen (c_str s) < zlen s) as L.
    { clear H. induction s as [|c s IH]; [destruct I|]. cbn [c_str]. rewrite zlen_cons. pose proof (zlen_nonneg s). destruct (Z.eqb_spec c 0) as [E|E]; [change (zlen (@nil Z)) with 0; lia|]. rewrite zlen_cons. destruct I as [I|I]; [lia|]. specialize (IH I). lia. }
    unfold atof, atof_test. specialize (H (c_str s)). destruct (strtod (c_str s)) as [r e]. cbn [snd] in H. replace (e =? zlen s) with false by lia. auto.
  Qed.
  Lemma flt_empty : (forall t, 0 <= snd (strtod t) <= zlen t) -> snd (atof_test strtod []) = true.
  Proof. intros H. unfold atof_test. cbn [c_str]. specialize (H []). destruct (strtod []) as [r e]. cbn [snd] in *. change (zlen (@nil Z)) with 0 in *. lia. Qed.
End parse.
(* wide text *)
Lemma wide dec b x : is_double x -> length b = 320%nat -> (forall c rest, 0 < c < 128 -> dec (c :: rest) = Some (c, 1%nat)) -> ftow dec 46 b x = ftoa 46 b x.
Proof.
  intros D L H. assert (exists t, ftoa 46 b x = Ok t /\ Forall (fun c => 0 < c < 128) t /\ zlen t < 1000) as (t & E & F & Lt).
  { pose proof (text b x D L) as T. destruct x as [neg v|neg|neg].
    - destruct (printed_range v D) as (N & _ & B). rewrite ftoa_fin by auto. eexists. split; [reflexivity|]. set (n := round_even (v * 10 ^ 6) unit) in *.
      assert (0 <= n / 10 ^ 6) by (apply Z.div_pos; lia). destruct (udigits_plain 308 (n / 10 ^ 6)) as (P & V & Lu); [split; [lia|exact B]|]. destruct P as (_ & P & _).
      assert (0 <= n mod 10 ^ 6 < 10 ^ 6) as R by (apply Z.mod_pos_bound; lia). destruct (fixed_ok 6 _ R) as (V6 & F6 & L6). destruct (trim_value _ F6) as (A & C & _).
      unfold shown. split.
      + apply Forall_app. split; [destruct neg; repeat constructor; lia|]. apply Forall_app. split; [eapply Forall_impl; [|exact P]; unfold digit; intros; cbv beta in *; lia|].
        destruct (trim _); [constructor|]. constructor; [lia|]. eapply Forall_impl; [|exact A]. unfold digit. intros. cbv beta in *. lia.
      + unfold zlen. rewrite !app_length. set (u := udigits 309 (n / 10 ^ 6)) in *. destruct neg, (trim _); cbn [length] in *; lia.
    - rewrite T. eexists. split; [reflexivity|]. split; [destruct neg; repeat constructor; lia|destruct neg; vm_compute; reflexivity].
    - rewrite T. eexists. split; [reflexivity|]. split; [destruct neg; repeat constructor; lia|destruct neg; vm_compute; reflexivity]. }
  unfold ftow. rewrite E. cbn [bind]. unfold atow.
  assert (translated (fun s => to_wide dec (length s) s) t = t) as Tr.
  { unfold translated. rewrite before_zero_id by (intros I; rewrite Forall_forall in F; apply F in I; lia). assert (to_wide dec (length t) t = (map (fun c => [c]) t, true)) as ->.
    { clear - F H. induction F as [|c t Hc F IH]; [reflexivity|]. cbn [length to_wide]. rewrite H by auto. cbn [skipn]. rewrite IH. reflexivity. }
    clear. induction t; [reflexivity|]. cbn [map concat app]. f_equal. auto. }
  rewrite linux_ok by (rewrite Tr; lia). rewrite Tr. cbn [bind]. f_equal. unfold zlen. rewrite Nat2Z.id, firstn_app, firstn_all, Nat.sub_diag. cbn [firstn]. apply app_nil_r.
Qed.

Lemma two_numbers : magnitude (4503599627370506 * 2 ^ 1054) /\ magnitude (4503599627370507 * 2 ^ 1054) /\ 2 ^ 32 * unit <= 4503599627370506 * 2 ^ 1054 /\
  ftoa 46 (repeat 7 320) (Fin false (4503599627370506 * 2 ^ 1054)) = ftoa 46 (repeat 7 320) (Fin false (4503599627370507 * 2 ^ 1054)).
Proof. split; [apply mag; lia|]. split; [apply mag; lia|]. split; [apply Z.leb_le; vm_compute; reflexivity|vm_compute; reflexivity]. Qed.
Lemma small_number : magnitude (7555786372591432 * 2 ^ 998) /\
  ftoa 46 (repeat 7 320) (Fin false (7555786372591432 * 2 ^ 998)) = Ok [48] /\ ftoa 46 (repeat 7 320) (Fin true (7555786372591432 * 2 ^ 998)) = Ok [45; 48].
Proof. split; [apply mag; lia|]. split; vm_compute; reflexivity. Qed.
Lemma comma : ftoa 44 (repeat 7 320) (Fin false (3 * 2 ^ 1073)) = Ok [49; 44; 53; 48; 48; 48; 48; 48].
Proof. vm_compute. reflexivity. Qed.
Lemma cases : is_double (Fin true (3 * 2 ^ 1073)) /\ ftoa 46 (repeat 7 320) (Fin true (3 * 2 ^ 1073)) = Ok [45; 49; 46; 53] /\
  magnitude (7205759403792794 * 2 ^ 1018) /\ ftoa 46 (repeat 7 320) (Fin false (7205759403792794 * 2 ^ 1018)) = Ok [48; 46; 49] /\
  magnitude largest /\ exists t, ftoa 46 (repeat 7 320) (Fin true largest) = Ok t /\ zlen t = 310.
Proof.
  split; [apply mag; lia|]. split; [vm_compute; reflexivity|]. split; [apply mag; lia|]. split; [vm_compute; reflexivity|]. split; [apply mag; lia|].
  eexists. split; vm_compute; reflexivity.
Qed.
Lemma sizes : ftoa 46 (repeat 7 318) (Fin true largest) = ftoa 46 (repeat 7 320) (Fin true largest) /\ ftoa 46 (repeat 7 317) (Fin true largest) = UB.
Proof. split; vm_compute; reflexivity. Qed.

(* a simple strtod: the decimal forms and infinity only; the double closest to n millionths *)
Definition round_double (n : Z) : Z :=
  let q := n * unit / 10 ^ 6 in
  let e := Z.max 0 (Z.log2 q - 52) in
  let m := q / 2 ^ e in
  if (n * unit - m * 2 ^ e * 10 ^ 6 <=? (m + 1) * 2 ^ e * 10 ^ 6 - n * unit) || (largest <? (m + 1) * 2 ^ e) then m * 2 ^ e else (m + 1) * 2 ^ e.
Definition simple_strtod (t : list Z) : double * Z :=
  let '(neg, k, t) := match t with c :: t' => if c =? 45 then (true, 1, t') else (false, 0, t) | [] => (false, 0, []) end in
  if str_eqb t [105; 110; 102] then (Inf neg, k + 3) else
  let '(ip, k2) := read_digits 0 t in
  match skipn (Z.to_nat k2) t with
  | c :: f => if c =? 46 then let '(fv, k3) := read_digits 0 f in (Fin neg (round_double (ip * 10 ^ 6 + fv * 10 ^ (6 - k3))), k + k2 + 1 + k3)
              else (Fin neg (round_double (ip * 10 ^ 6)), k + k2)
  | [] => (Fin neg (round_double (ip * 10 ^ 6)), k + k2)
  end.
Lemma round_double_ok n : 0 <= n -> n * unit <= largest * 10 ^ 6 ->
  magnitude (round_double n) /\ forall w, magnitude w -> Z.abs (n * unit - round_double n * 10 ^ 6) <= Z.abs (n * unit - w * 10 ^ 6).
Proof.
  intros N B. unfold round_double. set (t := n * unit) in *. assert (0 <= t) as T0 by (apply Z.mul_nonneg_nonneg; [lia|pose proof unit_pos; lia]).
  set (q := t / 10 ^ 6). assert (0 <= q) as Q0 by (apply Z.div_pos; lia). pose proof (Z.div_mod t (10 ^ 6) ltac:(lia)) as D. pose proof (Z.mod_pos_bound t (10 ^ 6) ltac:(lia)) as R. fold q in D.
  assert (q <= largest) as Q1 by lia.
  set (e := Z.max 0 (Z.log2 q - 52)). assert (0 <= e) as E0 by lia. assert (0 < 2 ^ e) as P by (apply Z.pow_pos_nonneg; lia).
  set (m := q / 2 ^ e). assert (0 <= m) as M0 by (apply Z.div_pos; lia). pose proof (Z.div_mod q (2 ^ e) ltac:(lia)) as Dq. pose proof (Z.mod_pos_bound q (2 ^ e) P) as Rq. fold m in Dq.
  assert (m < 2 ^ 53) as M1.
  { apply Z.div_lt_upper_bound; [exact P|]. rewrite Z.mul_comm, <- Z.pow_add_r by lia. destruct (Z.eq_dec q 0) as [->|Nq]; [apply Z.pow_pos_nonneg; lia|].
    apply Z.lt_le_trans with (2 ^ Z.succ (Z.log2 q)); [apply Z.log2_spec; lia|apply Z.pow_le_mono_r; lia]. }
  assert (e = 0 \/ 2 ^ 52 <= m) as M2.
  { destruct (Z.eq_dec e 0) as [H|H]; [auto|right]. apply Z.div_le_lower_bound; [exact P|]. rewrite Z.mul_comm, <- Z.pow_add_r by lia. assert (q <> 0) by (intros ->; cbn in e; lia).
    apply Z.le_trans with (2 ^ Z.log2 q); [apply Z.pow_le_mono_r; lia|apply Z.log2_spec; lia]. }
  assert (e <= 2045) as E1.
  { assert (Z.log2 q < 53 + 2045) as L; [|lia]. destruct (Z.eq_dec q 0) as [->|Nq]; [cbn; lia|]. apply Z.log2_lt_pow2; [lia|]. rewrite Z.pow_add_r by lia. eapply Z.le_lt_trans; [exact Q1|]. unfold largest. apply Z.mul_lt_mono_pos_r; lia. }
  (* no double lies strictly between *)
  assert (forall w, magnitude w -> w <= m * 2 ^ e \/ (m + 1) * 2 ^ e <= w) as Gap.
  { intros w (mw & ew & Mw & Ew & ->). destruct M2 as [H|H]; [rewrite H; rewrite Z.pow_0_r; lia|]. destruct (Z.le_gt_cases e ew) as [G|G].
    - replace ew with ((ew - e) + e) by lia. rewrite Z.pow_add_r, Z.mul_assoc by lia. set (k := mw * 2 ^ (ew - e)). destruct (Z.le_gt_cases k m) as [K|K]; [left; apply Z.mul_le_mono_nonneg_r; lia|right; apply Z.mul_le_mono_nonneg_r; lia].
    - left. assert (2 ^ e = 2 * 2 ^ (e - 1)) as E2 by (rewrite <- Z.pow_succ_r by lia; f_equal; lia). assert (2 ^ ew <= 2 ^ (e - 1)) by (apply Z.pow_le_mono_r; lia). assert (0 < 2 ^ ew) by (apply Z.pow_pos_nonneg; lia).
      apply Z.le_trans with ((2 ^ 53 - 1) * 2 ^ (e - 1)); [apply Z.mul_le_mono_nonneg; lia|]. rewrite E2. set (h := 2 ^ (e - 1)) in *. assert (2 ^ 52 * (2 * h) <= m * (2 * h)) by (apply Z.mul_le_mono_nonneg_r; lia). lia. }
  assert (magnitude (m * 2 ^ e)) as Mg by (apply mag; lia).
  assert (m * 2 ^ e * 10 ^ 6 <= t) as Lo by lia. assert (t < (m + 1) * 2 ^ e * 10 ^ 6) as Hi by (rewrite Z.mul_add_distr_r; lia).
  destruct (Z.ltb_spec largest ((m + 1) * 2 ^ e)) as [O|O].
  - rewrite orb_true_r. split; [exact Mg|]. intros w Mw. pose proof (magnitude_le w Mw). destruct (Gap w Mw) as [G|G]; [lia|]. lia.
  - rewrite orb_false_r. destruct (Z.leb_spec (t - m * 2 ^ e * 10 ^ 6) ((m + 1) * 2 ^ e * 10 ^ 6 - t)) as [H|H].
    + split; [exact Mg|]. intros w Mw. destruct (Gap w Mw) as [G|G]; lia.
    + split; [|intros w Mw; destruct (Gap w Mw) as [G|G]; lia]. destruct (Z.eq_dec (m + 1) (2 ^ 53)) as [Em|Nm]; [|apply mag; lia].
      rewrite Em in *. assert (e <> 2045) as Ne by (intros He; unfold largest in O; rewrite He in O; set (h := 2 ^ 2045) in *; assert (0 < h) by (apply Z.pow_pos_nonneg; lia); lia).
      exists (2 ^ 52), (e + 1). split; [lia|]. split; [lia|]. rewrite Z.pow_add_r by lia. change (2 ^ 53) with (2 ^ 52 * 2). change (2 ^ 1) with 2. ring.
Qed.
Lemma read_stop ds f : forall a, Forall digit ds -> (match f with c :: _ => isdigit c = false | [] => True end) -> read_digits a (ds ++ f) = (fold_left (fun a c => 10 * a + (c - 48)) ds a, zlen ds).
Proof.
  induction ds as [|d ds IH]; intros a D F.
  - cbn [app fold_left]. destruct f as [|c f]; [reflexivity|]. cbn [read_digits]. rewrite F. reflexivity.
  - inversion D; subst. cbn [app read_digits fold_left]. rewrite (proj2 (isdigit_spec d)) by auto. rewrite IH by auto. rewrite zlen_cons. f_equal. lia.
Qed.
Lemma read_bound s : forall a, 0 <= snd (read_digits a s) <= zlen s.
Proof. induction s as [|c s IH]; intros a; [cbn; lia|]. cbn [read_digits]. rewrite zlen_cons. pose proof (zlen_nonneg s). destruct (isdigit c); [|cbn [snd]; lia]. specialize (IH (10 * a + (c - 48))). destruct (read_digits _ s). cbn [snd] in *. lia. Qed.
Lemma simple_ok : reads_decimals simple_strtod /\ reads_infinity simple_strtod /\ writable (Fin true (3 * 2 ^ 1073)) /\ (forall t, 0 <= snd (simple_strtod t) <= zlen t).
Proof.
  split; [|split; [split; reflexivity|split; [apply many_writable; [apply mag; lia|left; exists 1500000; vm_compute; reflexivity]|]]].
  - intros t neg n D B. exists (round_double n). assert (0 <= n) as N.
    { destruct D as (ip & f & P & Df & L & Z0 & -> & ->). destruct P as (P1 & P2 & P3). pose proof (value_range ip P2). pose proof (value_range f Df). assert (0 < 10 ^ (6 - zlen f)) by (apply Z.pow_pos_nonneg; unfold zlen; lia).
      apply Z.add_nonneg_nonneg; apply Z.mul_nonneg_nonneg; lia. }
    split; [|apply round_double_ok; auto]. destruct D as (ip & f & P & Df & L & Z0 & -> & ->). destruct P as (P1 & P2 & P3).
    unfold simple_strtod. set (tail := match f with [] => [] | _ => 46 :: f end).
    assert (match ((if neg then [45] else []) ++ ip ++ tail) with c :: t' => if c =? 45 then (true, 1, t') else (false, 0, (if neg then [45] else []) ++ ip ++ tail) | [] => (false, 0, []) end = (neg, if neg then 1 else 0, ip ++ tail)) as ->.
    { destruct neg; [reflexivity|]. destruct ip as [|c ip]; [congruence|]. cbn [app]. inversion P2 as [|? ? Dc]; subst. unfold digit in Dc. replace (c =? 45) with false by lia. reflexivity. }
    assert (str_eqb (ip ++ tail) [105; 110; 102] = false) as ->.
    { destruct ip as [|c ip]; [congruence|]. cbn [app str_eqb]. inversion P2 as [|? ? Dc]; subst. unfold digit in Dc. replace (c =? 105) with false by lia. reflexivity. }
    rewrite (read_stop ip tail 0 P2) by (unfold tail; destruct f; [exact I|reflexivity]). fold (value ip).
    replace (Z.to_nat (zlen ip)) with (length ip) by (unfold zlen; lia). rewrite skipn_app, skipn_all, Nat.sub_diag. cbn [app skipn].
    unfold tail. destruct f as [|c f].
    + rewrite !zlen_app. change (zlen (@nil Z)) with 0. change (value []) with 0. rewrite Z.mul_0_l, Z.add_0_r. f_equal. destruct neg; [change (zlen [45]) with 1|change (zlen (@nil Z)) with 0]; lia.
    + change (46 =? 46) with true. cbv iota. rewrite <- (app_nil_r (c :: f)) at 1. rewrite (read_stop (c :: f) [] 0 Df I). fold (value (c :: f)). f_equal. rewrite !zlen_app, (zlen_cons 46). destruct neg; [change (zlen [45]) with 1|change (zlen (@nil Z)) with 0]; lia.
  - intros t. unfold simple_strtod.
    assert (exists neg k t', match t with c :: t' => if c =? 45 then (true, 1, t') else (false, 0, t) | [] => (false, 0, []) end = (neg, k, t') /\ 0 <= k /\ zlen t = k + zlen t') as (neg & k & t' & -> & K & Lt).
    { destruct t as [|c t']; [exists false, 0, []; split; [reflexivity|split; [lia|reflexivity]]|]. destruct (c =? 45); [exists true, 1, t'; rewrite zlen_cons; split; [reflexivity|lia]|exists false, 0, (c :: t'); split; [reflexivity|lia]]. }
    destruct (str_eqb t' [105; 110; 102]) eqn:Es; [apply str_eqb_spec in Es; subst t'; cbn [snd]; change (zlen [105; 110; 102]) with 3 in Lt; lia|].
    pose proof (read_bound t' 0) as Rb. destruct (read_digits 0 t') as [ip k2]. cbn [snd] in Rb. pose proof (skipn_length (Z.to_nat k2) t') as Ls.
    destruct (skipn (Z.to_nat k2) t') as [|c f]; [cbn [snd]; lia|]. cbn [length] in Ls. destruct (c =? 46); [|cbn [snd]; lia].
    pose proof (read_bound f 0) as Rf. destruct (read_digits 0 f) as [fv k3]. cbn [snd] in *. unfold zlen in *. lia.
Qed.
