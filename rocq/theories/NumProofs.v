From Coq Require Import ZifyBool ZifyNat.
From Verif Require Import Base BaseFacts NumModel NumSpec.
Open Scope Z_scope.

Lemma value_snoc ds d : value (ds ++ [d]) = 10 * value ds + (d - 48).
Proof. unfold value. now rewrite fold_left_app. Qed.

Lemma fold_nonneg ds : forall a, 0 <= a -> Forall digit ds ->
  a * 10 ^ Z.of_nat (length ds) <= fold_left (fun a c => 10 * a + (c - 48)) ds a
  < (a + 1) * 10 ^ Z.of_nat (length ds).
Proof.
  induction ds as [|c ds IH]; intros a Ha Hd; cbn [fold_left length].
  - change (10 ^ Z.of_nat 0) with 1. lia.
  - inversion_clear Hd as [|? ? Hc Hd']. unfold digit in Hc.
    specialize (IH (10 * a + (c - 48)) ltac:(lia) Hd').
    replace (Z.of_nat (S (length ds))) with (Z.of_nat (length ds) + 1) by lia.
    rewrite Z.pow_add_r by lia. change (10 ^ 1) with 10.
    assert (0 < 10 ^ Z.of_nat (length ds)) by (apply Z.pow_pos_nonneg; lia).
    nia.
Qed.

Lemma value_range ds : Forall digit ds -> 0 <= value ds < 10 ^ Z.of_nat (length ds).
Proof. intros H. pose proof (fold_nonneg ds 0 ltac:(lia) H). unfold value. lia. Qed.

Lemma value_cons_range c ds : Forall digit (c :: ds) -> c <> 48 -> 10 ^ Z.of_nat (length ds) <= value (c :: ds).
Proof.
  intros H Hc. inversion_clear H as [|? ? H1 H2]. unfold digit in H1. unfold value. cbn [fold_left].
  pose proof (fold_nonneg ds (10 * 0 + (c - 48)) ltac:(lia) H2).
  assert (0 < 10 ^ Z.of_nat (length ds)) by (apply Z.pow_pos_nonneg; lia). nia.
Qed.

Lemma plain_snoc ds d : plain (ds ++ [d]) -> ds <> [] -> plain ds /\ 0 < value ds /\ digit d.
Proof.
  intros (H1 & H2 & H3) Hn. apply Forall_app in H2 as [H2 H4]. inversion_clear H4 as [|? ? Hd _].
  split; [|split; [|exact Hd]].
  - split; [exact Hn|]. split; [exact H2|]. intros r ->.
    specialize (H3 (r ++ [d]) eq_refl). destruct r; discriminate.
  - destruct ds as [|c ds]; [congruence|].
    assert (c <> 48). { intros ->. specialize (H3 (ds ++ [d]) eq_refl). destruct ds; discriminate. }
    pose proof (value_cons_range c ds H2 H).
    assert (0 < 10 ^ Z.of_nat (length ds)) by (apply Z.pow_pos_nonneg; lia). lia.
Qed.

(* printing a canonical numeral's value gives the numeral *)

Lemma udigits_S f n : udigits (S f) n = (if n <? 10 then [] else udigits f (n / 10)) ++ [48 + n mod 10].
Proof. reflexivity. Qed.

Lemma udigits_value fuel : forall ds, plain ds -> value ds < 10 ^ Z.of_nat (S fuel) -> udigits (S fuel) (value ds) = ds.
Proof.
  induction fuel as [|f IH]; intros ds Hp Hv;
    destruct (exists_last (proj1 Hp)) as (ds' & d & ->); rewrite udigits_S;
    rewrite value_snoc in *;
    (destruct ds' as [|c ds'];
     [ destruct Hp as (_ & H2 & _); cbn [app] in H2; inversion_clear H2 as [|? ? Hd _]; unfold digit in Hd;
       unfold value; cbn [fold_left app];
       replace (10 * 0 + (d - 48) <? 10) with true by lia;
       rewrite Z.mod_small by lia; cbn [app]; f_equal; lia
     | apply plain_snoc in Hp as (Hp & Hpos & Hd); [|discriminate]; unfold digit in Hd ]).
  - change (10 ^ Z.of_nat 1) with 10 in Hv. lia.
  - replace (10 * value (c :: ds') + (d - 48) <? 10) with false by lia.
    assert (E1 : (10 * value (c :: ds') + (d - 48)) / 10 = value (c :: ds')).
    { symmetry. apply Z.div_unique with (d - 48); lia. }
    assert (E2 : (10 * value (c :: ds') + (d - 48)) mod 10 = d - 48).
    { symmetry. apply Z.mod_unique with (value (c :: ds')); lia. }
    rewrite E1, E2. rewrite IH; [|exact Hp|].
    + f_equal. f_equal. lia.
    + replace (Z.of_nat (S (S f))) with (Z.of_nat (S f) + 1) in Hv by lia.
      rewrite Z.pow_add_r in Hv by lia. change (10 ^ 1) with 10 in Hv. lia.
Qed.

(* every number has a numeral, the one printed *)
Lemma udigits_plain fuel : forall n, 0 <= n < 10 ^ Z.of_nat (S fuel) ->
  plain (udigits (S fuel) n) /\ value (udigits (S fuel) n) = n /\ (length (udigits (S fuel) n) <= S fuel)%nat.
Proof.
  induction fuel as [|f IH]; intros n Hn.
  - change (10 ^ Z.of_nat 1) with 10 in Hn. cbn [udigits]. replace (n <? 10) with true by lia. cbn [app].
    rewrite Z.mod_small by lia. split; [|split; [unfold value; cbn [fold_left]; lia|cbn; lia]].
    split; [discriminate|]. split; [repeat constructor; unfold digit; lia|]. intros r H. congruence.
  - change (udigits (S (S f)) n) with ((if n <? 10 then [] else udigits (S f) (n / 10)) ++ [48 + n mod 10]).
    assert (Hm : 0 <= n mod 10 < 10) by (apply Z.mod_pos_bound; lia).
    destruct (n <? 10) eqn:E.
    + cbn [app]. rewrite Z.mod_small by lia. split; [|split; [unfold value; cbn [fold_left]; lia|cbn; lia]].
      split; [discriminate|]. split; [repeat constructor; unfold digit; lia|]. intros r H. congruence.
    + assert (Hd : n = 10 * (n / 10) + n mod 10) by (apply Z.div_mod; lia).
      replace (Z.of_nat (S (S f))) with (Z.of_nat (S f) + 1) in Hn by lia.
      rewrite Z.pow_add_r in Hn by lia. change (10 ^ 1) with 10 in Hn.
      destruct (IH (n / 10)) as ((P1 & P2 & P3) & Hv & Hl).
      { split; [apply Z.div_pos; lia|]. apply Z.div_lt_upper_bound; lia. }
      split; [|split].
      * split; [intros H; now apply app_eq_nil in H as [_ H]|]. split.
        -- apply Forall_app. split; [exact P2|]. repeat constructor; unfold digit; lia.
        -- intros r H. exfalso. destruct (udigits (S f) (n / 10)) as [|c ds]; [congruence|].
           cbn [app] in H. assert (c = 48) as -> by congruence. specialize (P3 ds eq_refl). subst ds.
           unfold value in Hv; cbn [fold_left] in Hv. lia.
      * rewrite value_snoc, Hv. lia.
      * rewrite app_length. cbn [length]. lia.
Qed.

Lemma pow20 : 2 ^ 64 < 10 ^ Z.of_nat 20. Proof. reflexivity. Qed.

Lemma i64toa_numeral z : - 2 ^ 63 <= z < 2 ^ 63 -> numeral (i64toa z) z /\ (length (i64toa z) <= 21)%nat.
Proof.
  intros H. pose proof pow20. unfold i64toa. destruct (z <? 0) eqn:E.
  - destruct (udigits_plain 19 (- z) ltac:(lia)) as (H1 & H2 & H3). split; [|cbn [length]; lia].
    right. exists (udigits 20 (- z)). split; [reflexivity|]. split; [exact H1|]. rewrite H2. lia.
  - destruct (udigits_plain 19 z ltac:(lia)) as (H1 & H2 & H3). split; [|lia]. left. split; [exact H1|lia].
Qed.

Lemma u64toa_numeral z : 0 <= z < 2 ^ 64 -> numeral (u64toa z) z /\ (length (u64toa z) <= 20)%nat.
Proof.
  intros H. pose proof pow20. unfold u64toa.
  destruct (udigits_plain 19 z ltac:(lia)) as (H1 & H2 & H3). split; [|lia]. left. split; [exact H1|lia].
Qed.

Lemma plain_value_nonneg ds : plain ds -> 0 <= value ds.
Proof. intros (_ & H & _). apply value_range in H. lia. Qed.

Lemma numeral_i64toa s z : numeral s z -> - 2 ^ 63 <= z < 2 ^ 63 -> i64toa z = s.
Proof.
  intros [[Hp ->]|(ds & -> & Hp & Hpos & ->)] Hz; pose proof pow20; unfold i64toa.
  - pose proof (plain_value_nonneg _ Hp). replace (value s <? 0) with false by lia.
    apply (udigits_value 19); [exact Hp|lia].
  - replace (- value ds <? 0) with true by lia. rewrite Z.opp_involutive. f_equal.
    apply (udigits_value 19); [exact Hp|lia].
Qed.
Lemma numeral_u64toa s z : numeral s z -> 0 <= z < 2 ^ 64 -> u64toa z = s.
Proof.
  intros [[Hp ->]|(ds & -> & Hp & Hpos & ->)] Hz; pose proof pow20; unfold u64toa; [|lia].
  apply (udigits_value 19); [exact Hp|lia].
Qed.

(* reading *)
Lemma isdigit_spec c : isdigit c = true <-> digit c.
Proof. unfold isdigit, digit. lia. Qed.

Lemma read_digits_all ds : forall a, Forall digit ds ->
  read_digits a ds = (fold_left (fun a c => 10 * a + (c - 48)) ds a, zlen ds).
Proof.
  induction ds as [|c ds IH]; intros a H; cbn [read_digits fold_left]; [reflexivity|].
  inversion_clear H as [|? ? H1 H2]. apply isdigit_spec in H1. rewrite H1, IH by exact H2.
  f_equal. unfold zlen. cbn [length]. lia.
Qed.

Lemma c_str_id s : Forall (fun c => c <> 0) s -> c_str s = s.
Proof.
  induction 1 as [|c s Hc H IH]; cbn [c_str]; [reflexivity|]. replace (c =? 0) with false by lia. now rewrite IH.
Qed.

Lemma plain_nz ds : Forall digit ds -> Forall (fun c => c <> 0) ds.
Proof. apply Forall_impl. unfold digit. intros; lia. Qed.

Lemma strto_numeral space clamp s z : sane space -> numeral s z ->
  strto space clamp (c_str s) = (if z <? 0 then clamp true (- z) else clamp false z, zlen s).
Proof.
  intros (S1 & S2) [[Hp ->]|(ds & -> & Hp & Hpos & ->)]; unfold strto.
  - pose proof (plain_value_nonneg _ Hp). destruct Hp as (H1 & H2 & H3).
    rewrite c_str_id by now apply plain_nz. destruct s as [|c s]; [congruence|].
    inversion H2 as [|? ? Hc Hs]; subst. cbn [skip_spaces]. rewrite S2 by exact Hc.
    assert (Es : read_sign (c :: s) = (false, 0, c :: s)).
    { unfold digit in Hc. unfold read_sign. assert (Hc' : c = 48 \/ c = 49 \/ c = 50 \/ c = 51 \/ c = 52 \/ c = 53 \/ c = 54 \/ c = 55 \/ c = 56 \/ c = 57) by lia.
      repeat destruct Hc' as [->|Hc']; try reflexivity. subst. reflexivity. }
    rewrite Es, read_digits_all by exact H2. fold (value (c :: s)).
    replace (zlen (c :: s) =? 0) with false by (unfold zlen; cbn [length]; lia).
    replace (value (c :: s) <? 0) with false by lia. f_equal; lia.
  - pose proof (plain_value_nonneg _ Hp). destruct Hp as (H1 & H2 & H3).
    rewrite c_str_id by (constructor; [lia|now apply plain_nz]).
    cbn [skip_spaces]. rewrite S1. cbn [read_sign]. rewrite read_digits_all by exact H2. fold (value ds).
    destruct ds as [|c ds]; [congruence|].
    replace (zlen (c :: ds) =? 0) with false by (unfold zlen; cbn [length]; lia).
    replace (- value (c :: ds) <? 0) with true by lia. rewrite Z.opp_involutive. f_equal.
    unfold zlen; cbn [length]; lia.
Qed.

Lemma str_eqb_spec a : forall b, str_eqb a b = true <-> a = b.
Proof.
  induction a as [|x a IH]; intros [|y b]; cbn [str_eqb]; try (split; congruence).
  rewrite andb_true_iff, IH, Z.eqb_eq. split; [intros [-> ->]; reflexivity|intros H; split; congruence].
Qed.

Lemma clamp_signed_range neg v : 0 <= v -> - 2 ^ 63 <= clamp_signed neg v < 2 ^ 63.
Proof. unfold clamp_signed. destruct neg; lia. Qed.
Lemma clamp_unsigned_range neg v : 0 <= v -> 0 <= clamp_unsigned neg v < 2 ^ 64.
Proof.
  intros H. unfold clamp_unsigned. destruct (v >? 2 ^ 64 - 1) eqn:E; [lia|]. destruct neg; [|lia].
  apply Z.mod_pos_bound. lia.
Qed.

Lemma read_digits_nonneg s : forall a, 0 <= a -> 0 <= fst (read_digits a s).
Proof.
  induction s as [|c s IH]; intros a Ha; cbn [read_digits]; [exact Ha|].
  destruct (isdigit c) eqn:E; [|exact Ha]. apply isdigit_spec in E. unfold digit in E.
  specialize (IH (10 * a + (c - 48)) ltac:(lia)). destruct (read_digits _ s). exact IH.
Qed.

Lemma strto_range space clamp lo hi s : lo <= 0 < hi ->
  (forall neg v, 0 <= v -> lo <= clamp neg v < hi) -> lo <= fst (strto space clamp s) < hi.
Proof.
  intros H0 Hc. unfold strto. destruct (skip_spaces space s) as [k1 s1].
  destruct (read_sign s1) as [[neg k2] s2]. pose proof (read_digits_nonneg s2 0 ltac:(lia)) as Hn.
  destruct (read_digits 0 s2) as [v k3]. cbn [fst] in Hn. destruct (k3 =? 0); cbn [fst]; auto.
Qed.

(* the generic parser: success exactly on canonical numerals in the given range *)
Lemma atoi64_iff space s : sane space ->
  forall z, (atoi64_test space s = (z, true) <-> numeral s z /\ - 2 ^ 63 <= z < 2 ^ 63).
Proof.
  intros Hsp z. unfold atoi64_test.
  pose proof (strto_range space clamp_signed (- 2 ^ 63) (2 ^ 63) (c_str s) ltac:(lia) clamp_signed_range) as Hr.
  destruct (strto space clamp_signed (c_str s)) as [r e] eqn:E. cbn [fst] in Hr. split.
  - intros H. assert (r = z) as -> by congruence. assert (Hb : (e =? zlen s) && str_eqb (i64toa z) s = true) by congruence.
    apply andb_true_iff in Hb as [_ Hb]. apply str_eqb_spec in Hb. subst s.
    split; [|exact Hr]. now apply i64toa_numeral.
  - intros [Hn Hz]. rewrite (strto_numeral space clamp_signed s z Hsp Hn) in E.
    assert (r = z).
    { unfold clamp_signed in E. destruct (z <? 0) eqn:Ez.
      - assert (r = Z.max (- - z) (- 2 ^ 63)) by congruence. lia.
      - assert (r = Z.min z (2 ^ 63 - 1)) by congruence. lia. }
    assert (e = zlen s) by congruence. subst. f_equal. rewrite Z.eqb_refl. cbn [andb].
    apply str_eqb_spec. now apply numeral_i64toa.
Qed.

Lemma atou64_iff space s : sane space ->
  forall z, (atou64_test space s = (z, true) <-> numeral s z /\ 0 <= z < 2 ^ 64).
Proof.
  intros Hsp z. unfold atou64_test.
  pose proof (strto_range space clamp_unsigned 0 (2 ^ 64) (c_str s) ltac:(lia) clamp_unsigned_range) as Hr.
  destruct (strto space clamp_unsigned (c_str s)) as [r e] eqn:E. cbn [fst] in Hr. split.
  - intros H. assert (r = z) as -> by congruence. assert (Hb : (e =? zlen s) && str_eqb (u64toa z) s = true) by congruence.
    apply andb_true_iff in Hb as [_ Hb]. apply str_eqb_spec in Hb. subst s.
    split; [|exact Hr]. now apply u64toa_numeral.
  - intros [Hn Hz]. rewrite (strto_numeral space clamp_unsigned s z Hsp Hn) in E.
    replace (z <? 0) with false in E by lia.
    assert (r = z).
    { unfold clamp_unsigned in E. replace (z >? 2 ^ 64 - 1) with false in E by lia. congruence. }
    assert (e = zlen s) by congruence. subst. f_equal. rewrite Z.eqb_refl. cbn [andb].
    apply str_eqb_spec. now apply numeral_u64toa.
Qed.

Lemma atoi_iff space s : sane space ->
  forall z, (atoi_test space s = (z, true) <-> numeral s z /\ - 2 ^ 31 <= z < 2 ^ 31).
Proof.
  intros Hsp z. pose proof (atoi64_iff space s Hsp z) as H. unfold atoi_test, atoi64_test in *.
  destruct (strto space clamp_signed (c_str s)) as [r e]. split.
  - intros E. assert (r = z) as -> by congruence.
    assert (Eb : (if (e =? zlen s) && str_eqb (i64toa z) s then (- 2 ^ 31 <=? z) && (z <=? 2 ^ 31 - 1) else false) = true) by congruence.
    destruct ((e =? zlen s) && str_eqb (i64toa z) s); [|discriminate].
    destruct (proj1 H eq_refl) as [Hn _]. split; [exact Hn|lia].
  - intros [Hn Hz]. assert (E : (r, (e =? zlen s) && str_eqb (i64toa r) s) = (z, true)) by (apply H; split; [exact Hn|lia]).
    assert (r = z) as -> by congruence. assert (Eb : (e =? zlen s) && str_eqb (i64toa z) s = true) by congruence.
    rewrite Eb. f_equal. lia.
Qed.

Lemma atou_iff space s : sane space ->
  forall z, (atou_test space s = (z, true) <-> numeral s z /\ 0 <= z < 2 ^ 32).
Proof.
  intros Hsp z. pose proof (atou64_iff space s Hsp z) as H. unfold atou_test, atou64_test in *.
  destruct (strto space clamp_unsigned (c_str s)) as [r e]. split.
  - intros E. assert (r = z) as -> by congruence.
    assert (Eb : (if (e =? zlen s) && str_eqb (u64toa z) s then z <=? 2 ^ 32 - 1 else false) = true) by congruence.
    destruct ((e =? zlen s) && str_eqb (u64toa z) s); [|discriminate].
    destruct (proj1 H eq_refl) as [Hn Hz]. split; [exact Hn|lia].
  - intros [Hn Hz]. assert (E : (r, (e =? zlen s) && str_eqb (u64toa r) s) = (z, true)) by (apply H; split; [exact Hn|lia]).
    assert (r = z) as -> by congruence. assert (Eb : (e =? zlen s) && str_eqb (u64toa z) s = true) by congruence.
    rewrite Eb. f_equal. lia.
Qed.

(* what the functions without _test return *)
Lemma orzero_cases (t : Z * bool) (P : Z -> Prop) :
  (forall z, t = (z, true) <-> P z) ->
  (forall z, P z -> orzero t = z) /\ ((forall z, ~ P z) -> orzero t = 0).
Proof.
  intros H. split.
  - intros z Hz. apply H in Hz. now rewrite Hz.
  - intros Hn. destruct t as [r [|]]; [|reflexivity]. exfalso. apply (Hn r). now apply H.
Qed.

Lemma parser_ok_intro test lo hi : (forall s z, test s = (z, true) <-> numeral s z /\ lo <= z < hi) ->
  parser_ok test (fun s => orzero (test s)) lo hi.
Proof. intros H s. split; [apply H|]. apply (orzero_cases (test s) (fun z => numeral s z /\ lo <= z < hi)). apply H. Qed.

Lemma parsers space : sane space ->
  parser_ok (atoi_test space) (atoi space) (- 2 ^ 31) (2 ^ 31) /\
  parser_ok (atoi64_test space) (atoi64 space) (- 2 ^ 63) (2 ^ 63) /\
  parser_ok (atou_test space) (atou space) 0 (2 ^ 32) /\
  parser_ok (atou64_test space) (atou64 space) 0 (2 ^ 64).
Proof.
  intros Hsp. split; [|split; [|split]]; apply parser_ok_intro; intros s.
  - now apply atoi_iff.
  - now apply atoi64_iff.
  - now apply atou_iff.
  - now apply atou64_iff.
Qed.

Lemma round_trip_i64 space z : sane space -> - 2 ^ 63 <= z < 2 ^ 63 ->
  atoi64_test space (i64toa z) = (z, true) /\ atoi64 space (i64toa z) = z.
Proof.
  intros Hsp Hz. assert (E : atoi64_test space (i64toa z) = (z, true)).
  { apply atoi64_iff; [exact Hsp|]. split; [now apply i64toa_numeral|exact Hz]. }
  split; [exact E|]. unfold atoi64. now rewrite E.
Qed.
Lemma round_trip_u64 space z : sane space -> 0 <= z < 2 ^ 64 ->
  atou64_test space (u64toa z) = (z, true) /\ atou64 space (u64toa z) = z.
Proof.
  intros Hsp Hz. assert (E : atou64_test space (u64toa z) = (z, true)).
  { apply atou64_iff; [exact Hsp|]. split; [now apply u64toa_numeral|exact Hz]. }
  split; [exact E|]. unfold atou64. now rewrite E.
Qed.
Lemma round_trip_i32 space z : sane space -> - 2 ^ 31 <= z < 2 ^ 31 ->
  atoi_test space (i64toa z) = (z, true) /\ atoi space (i64toa z) = z.
Proof.
  intros Hsp Hz. assert (E : atoi_test space (i64toa z) = (z, true)).
  { apply atoi_iff; [exact Hsp|]. split; [apply i64toa_numeral; lia|exact Hz]. }
  split; [exact E|]. unfold atoi. now rewrite E.
Qed.
Lemma round_trip_u32 space z : sane space -> 0 <= z < 2 ^ 32 ->
  atou_test space (u64toa z) = (z, true) /\ atou space (u64toa z) = z.
Proof.
  intros Hsp Hz. assert (E : atou_test space (u64toa z) = (z, true)).
  { apply atou_iff; [exact Hsp|]. split; [apply u64toa_numeral; lia|exact Hz]. }
  split; [exact E|]. unfold atou. now rewrite E.
Qed.

Lemma numeral_unique s z z' : numeral s z -> numeral s z' -> z = z'.
Proof.
  intros [[Hp ->]|(ds & -> & Hp & Hpos & ->)] [[Hp' ->]|(ds' & E & Hp' & Hpos' & ->)]; auto.
  - subst s. destruct Hp as (_ & H & _). inversion_clear H as [|? ? H1 _]. unfold digit in H1. lia.
  - destruct Hp' as (_ & H & _). inversion_clear H as [|? ? H1 _]. unfold digit in H1. lia.
  - congruence.
Qed.

Lemma print_fits z : (- 2 ^ 63 <= z < 2 ^ 63 -> (length (i64toa z) < 99)%nat) /\
  (0 <= z < 2 ^ 64 -> (length (u64toa z) < 99)%nat).
Proof.
  split; intros H.
  - apply i64toa_numeral in H. lia.
  - apply u64toa_numeral in H. lia.
Qed.

(* outside the 32-bit range the vint functions do not round trip *)
Lemma itoa_atoi_fails space z : sane space -> - 2 ^ 63 <= z < 2 ^ 63 -> ~ (- 2 ^ 31 <= z < 2 ^ 31) ->
  atoi space (i64toa z) = 0.
Proof.
  intros Hsp Hz Hn. destruct (parsers space Hsp) as (H & _). destruct (H (i64toa z)) as (_ & _ & H0).
  apply H0. intros z' [Hz' Hr]. pose proof (proj1 (i64toa_numeral z Hz)) as Hz2.
  rewrite (numeral_unique _ _ _ Hz' Hz2) in Hr. auto.
Qed.

Lemma prints z : (- 2 ^ 63 <= z < 2 ^ 63 -> numeral (i64toa z) z) /\ (0 <= z < 2 ^ 64 -> numeral (u64toa z) z).
Proof. split; intros H; [now apply i64toa_numeral|now apply u64toa_numeral]. Qed.
Lemma read_digits_stops ds rest : stops rest -> Forall digit ds -> forall a,
  read_digits a (ds ++ rest) = (fold_left (fun a c => 10 * a + (c - 48)) ds a, zlen ds).
Proof.
  intros S H. induction H as [|c ds Hc Hds IH]; intros a; cbn [app read_digits fold_left].
  - destruct rest as [|c r]; [reflexivity|]. cbn [read_digits]. destruct (isdigit c) eqn:E; [|reflexivity].
    apply isdigit_spec in E. exfalso. exact (S c r eq_refl E).
  - rewrite (proj2 (isdigit_spec c) Hc), IH. unfold zlen. cbn [length]. f_equal. lia.
Qed.
Lemma skip_spaces_stop space blanks s : Forall (fun c => space c = true) blanks -> (forall c r, s = c :: r -> space c = false) ->
  snd (skip_spaces space (blanks ++ s)) = s.
Proof.
  intros H Hs. induction H as [|c b Hc Hb IH]; cbn [app skip_spaces].
  - destruct s as [|c r]; [reflexivity|]. cbn [skip_spaces]. now rewrite (Hs c r eq_refl).
  - rewrite Hc. destruct (skip_spaces space (b ++ s)). exact IH.
Qed.
Lemma c_str_app a b : Forall (fun c => c <> 0) a -> c_str (a ++ b) = a ++ c_str b.
Proof.
  induction 1 as [|c a Hc Ha IH]; [reflexivity|]. cbn [app c_str]. destruct (Z.eqb_spec c 0) as [E|_]; [contradiction|]. now rewrite IH.
Qed.
Lemma stops_c_str rest : stops rest -> stops (c_str rest).
Proof.
  intros S c r E. destruct rest as [|d rest]; [discriminate|]. cbn [c_str] in E. destruct (d =? 0); [discriminate|].
  injection E as <- _. exact (S d rest eq_refl).
Qed.
Lemma read_prefix space clamp blanks g ds rest : sane space -> space 43 = false ->
  Forall (fun c => space c = true /\ c <> 0) blanks -> ds <> [] -> Forall digit ds -> stops rest ->
  fst (strto space clamp (c_str (blanks ++ sign_chars g ++ ds ++ rest))) = clamp (match g with Minus => true | _ => false end) (value ds).
Proof.
  intros [S1 S2] S3 Hb Hn Hd Hr.
  assert (c_str (blanks ++ sign_chars g ++ ds ++ rest) = blanks ++ sign_chars g ++ ds ++ c_str rest) as ->.
  { rewrite c_str_app. 2:{ eapply Forall_impl; [|exact Hb]. cbv beta. tauto. }
    f_equal. rewrite c_str_app by (destruct g; cbn [sign_chars]; repeat constructor; lia). f_equal.
    rewrite c_str_app by now apply plain_nz. reflexivity. }
  apply stops_c_str in Hr. revert Hr. generalize (c_str rest). clear rest. intros rest Hr.
  destruct ds as [|c ds]; [contradiction|]. pose proof (Forall_inv Hd) as Hc.
  unfold strto. pose proof (skip_spaces_stop space blanks (sign_chars g ++ (c :: ds) ++ rest)) as K.
  destruct (skip_spaces space (blanks ++ sign_chars g ++ (c :: ds) ++ rest)) as [k1 s1]. cbn [snd] in K. rewrite K.
  2:{ eapply Forall_impl; [|exact Hb]. cbv beta. tauto. }
  2:{ intros x r E. destruct g; cbn [sign_chars app] in E; injection E as <- _; auto. }
  assert (exists k2, read_sign (sign_chars g ++ (c :: ds) ++ rest) = (match g with Minus => true | _ => false end, k2, (c :: ds) ++ rest)) as [k2 ->].
  { destruct g; cbn [sign_chars app read_sign]; eauto. exists 0. unfold digit in Hc. assert (c <> 45 /\ c <> 43) as [N1 N2] by lia.
    destruct c as [|q|q]; try reflexivity. do 6 (destruct q as [q|q|]; try reflexivity; try (exfalso; lia)). }
  rewrite (read_digits_stops (c :: ds) rest Hr Hd). fold (value (c :: ds)). unfold zlen. cbn [length].
  destruct (Z.eqb_spec (Z.of_nat (S (length ds))) 0); [lia|reflexivity].
Qed.
Lemma read_value space blanks g ds rest : sane space -> space 43 = false ->
  Forall (fun c => space c = true /\ c <> 0) blanks -> ds <> [] -> Forall digit ds -> stops rest ->
  let s := blanks ++ sign_chars g ++ ds ++ rest in
  fst (atoi_test space s) = saturated g (value ds) (- 2 ^ 63) (2 ^ 63 - 1) /\
  fst (atoi64_test space s) = saturated g (value ds) (- 2 ^ 63) (2 ^ 63 - 1) /\
  (value ds < 2 ^ 64 -> fst (atou_test space s) = (match g with Minus => - value ds | _ => value ds end) mod 2 ^ 64) /\
  (value ds < 2 ^ 64 -> fst (atou64_test space s) = (match g with Minus => - value ds | _ => value ds end) mod 2 ^ 64) /\
  (2 ^ 64 <= value ds -> fst (atou_test space s) = 2 ^ 64 - 1 /\ fst (atou64_test space s) = 2 ^ 64 - 1).
Proof.
  intros S1 S2 Hb Hn Hd Hr s. pose proof (value_range ds Hd) as [V _].
  pose proof (read_prefix space clamp_signed blanks g ds rest S1 S2 Hb Hn Hd Hr) as A.
  pose proof (read_prefix space clamp_unsigned blanks g ds rest S1 S2 Hb Hn Hd Hr) as B. fold s in A, B.
  assert (clamp_signed (match g with Minus => true | _ => false end) (value ds) = saturated g (value ds) (- 2 ^ 63) (2 ^ 63 - 1)) as C1.
  { unfold saturated, clamp_signed. destruct g; lia. }
  assert (value ds < 2 ^ 64 -> clamp_unsigned (match g with Minus => true | _ => false end) (value ds) = (match g with Minus => - value ds | _ => value ds end) mod 2 ^ 64) as C2.
  { intros L. unfold clamp_unsigned. destruct (Z.gtb_spec (value ds) (2 ^ 64 - 1)); [lia|]. destruct g; try reflexivity; symmetry; apply Z.mod_small; lia. }
  assert (2 ^ 64 <= value ds -> clamp_unsigned (match g with Minus => true | _ => false end) (value ds) = 2 ^ 64 - 1) as C3.
  { intros L. unfold clamp_unsigned. destruct (Z.gtb_spec (value ds) (2 ^ 64 - 1)); [reflexivity|lia]. }
  unfold atoi_test, atoi64_test, atou_test, atou64_test.
  destruct (strto space clamp_signed (c_str s)) as [r e]. destruct (strto space clamp_unsigned (c_str s)) as [r' e']. cbn [fst] in *.
  repeat split; intros; try congruence; rewrite B; auto.
Qed.
Lemma read_nothing space blanks g rest : sane space -> space 43 = false -> Forall (fun c => space c = true /\ c <> 0) blanks ->
  (forall c r, rest = c :: r -> ~ digit c /\ space c = false /\ c <> 45 /\ c <> 43) ->
  let s := blanks ++ sign_chars g ++ rest in
  atoi_test space s = (0, false) /\ atoi64_test space s = (0, false) /\ atou_test space s = (0, false) /\ atou64_test space s = (0, false).
Proof.
  intros [S1 S2] S3 Hb Hr s.
  assert (forall clamp, strto space clamp (c_str s) = (0, 0)) as Z0.
  { intros clamp. unfold s. rewrite c_str_app by (eapply Forall_impl; [|exact Hb]; cbv beta; tauto).
    rewrite c_str_app by (destruct g; cbn [sign_chars]; repeat constructor; lia).
    assert (forall c r, c_str rest = c :: r -> ~ digit c /\ space c = false /\ c <> 45 /\ c <> 43) as Hr'.
    { intros c r E. destruct rest as [|d rest]; [discriminate|]. cbn [c_str] in E. destruct (d =? 0); [discriminate|].
      injection E as <- _. exact (Hr d rest eq_refl). }
    revert Hr'. generalize (c_str rest). intros q Hq.
    unfold strto. pose proof (skip_spaces_stop space blanks (sign_chars g ++ q)) as K.
    destruct (skip_spaces space (blanks ++ sign_chars g ++ q)) as [k1 s1]. cbn [snd] in K. rewrite K.
    2:{ eapply Forall_impl; [|exact Hb]. cbv beta. tauto. }
    2:{ intros x r E. destruct g; cbn [sign_chars app] in E; [destruct (Hq x r E); tauto| |]; injection E as <- _; auto. }
    assert (forall a, read_digits a q = (a, 0)) as Rq.
    { intros a. destruct q as [|c q]; [reflexivity|]. cbn [read_digits]. destruct (isdigit c) eqn:E; [|reflexivity].
      apply isdigit_spec in E. destruct (Hq c q eq_refl); contradiction. }
    assert (exists b k2, read_sign (sign_chars g ++ q) = (b, k2, q)) as (b & k2 & ->).
    { destruct g; cbn [sign_chars app]; [|cbn [read_sign]; eauto..]. exists false, 0. destruct q as [|c q]; [reflexivity|].
      destruct (Hq c q eq_refl) as (_ & _ & N1 & N2). cbn [read_sign].
      destruct c as [|p|p]; try reflexivity. do 6 (destruct p as [p|p|]; try reflexivity; try (exfalso; lia)). }
    now rewrite Rq. }
  assert (forall p : list Z, p = s -> p <> [] -> (0 =? zlen p) = false) as L.
  { intros p _ N. unfold zlen. destruct p; [congruence|]. cbn [length]. apply Z.eqb_neq. lia. }
  unfold atoi_test, atoi64_test, atou_test, atou64_test. rewrite !Z0.
  destruct s as [|c t] eqn:E; [repeat split|]. rewrite (L (c :: t)) by (auto; discriminate). repeat split.
Qed.
