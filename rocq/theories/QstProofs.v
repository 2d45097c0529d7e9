From Coq Require Import ZifyBool ZifyNat.
From Verif Require Import Base BaseFacts LstModel LstSpec LstProofs SrtModel SrtSpec SrtProofs QsModel QsSpec QsProofs QstModel QstSpec.
Open Scope Z_scope.

Lemma consec n : 1 <= n -> 0 <= (n - 1) * (n - 2).
Proof. intros. destruct (Z.eq_dec n 1); [subst; lia|]. apply Z.mul_nonneg_nonneg; lia. Qed.
Lemma cost_split l r n : 0 <= l -> 0 <= r -> l + r + 1 <= n -> l * (l - 1) + r * (r - 1) <= (n - 1) * (n - 2).
Proof.
  intros. assert (0 <= l * r) by (apply Z.mul_nonneg_nonneg; lia).
  assert ((l + r) * (l + r - 1) <= (n - 1) * (n - 2)); [|lia].
  destruct (Z.eq_dec (l + r) 0) as [->|]; [pose proof (consec n); lia|]. apply Z.mul_le_mono_nonneg; lia.
Qed.

Section Any.
  Variable T St : Type.
  Variable orderer : St -> T -> T -> St * answer.
  Variable f : St -> Z.
  Hypothesis Hf : calls_bound orderer f.
  Variable calm : St -> Prop.
  Hypothesis Hcalm : stays_calm orderer calm.
  Notation swap := (swap T).

  Lemma get_seg (pre seg post : list T) i : 0 <= i < zlen seg ->
    exists x, aget (pre ++ seg ++ post) (zlen pre + i) = Ok x /\ In x seg.
  Proof.
    intros H. destruct (zsplit1 seg i H) as (l1 & a & l2 & E & L & _). exists a. subst seg. split.
    - replace (pre ++ (l1 ++ a :: l2) ++ post) with ((pre ++ l1) ++ a :: l2 ++ post) by lst.
      apply aget_app. rewrite zlen_app. lia.
    - apply in_or_app. right. now left.
  Qed.
  Lemma two_split (seg : list T) i j : 0 <= i < j -> j < zlen seg ->
    exists l1 x l2 y l3, seg = l1 ++ x :: l2 ++ y :: l3 /\ i = zlen l1 /\ j = zlen l1 + 1 + zlen l2.
  Proof.
    intros Hi Hj. destruct (zsplit1 seg i) as (l1 & x & r & E & L & _); [lia|]. subst seg.
    rewrite zlen_app, zlen_cons in Hj. destruct (zsplit1 r (j - i - 1)) as (l2 & y & l3 & E & L2 & _); [lia|]. subst r.
    exists l1, x, l2, y, l3. repeat split; auto; lia.
  Qed.
  Lemma swap_seg pre seg post i j : 0 <= i < zlen seg -> 0 <= j < zlen seg -> i <> j ->
    exists seg', swap (pre ++ seg ++ post) (zlen pre + i) (zlen pre + j) = Ok (pre ++ seg' ++ post) /\ Permutation seg seg'.
  Proof.
    intros Hi Hj N. destruct (Z.lt_ge_cases i j).
    - destruct (two_split seg i j) as (l1 & x & l2 & y & l3 & E & Ei & Ej); try lia. subst seg.
      exists (l1 ++ y :: l2 ++ x :: l3). split; [|apply Permutation_app_head, perm_exch].
      replace (pre ++ (l1 ++ x :: l2 ++ y :: l3) ++ post) with ((pre ++ l1) ++ x :: l2 ++ y :: l3 ++ post) by lst.
      rewrite (swap_mid T (fun _ _ => None) (pre ++ l1) x l2 y (l3 ++ post)) by (rewrite zlen_app; lia). f_equal. lst.
    - destruct (two_split seg j i) as (l1 & x & l2 & y & l3 & E & Ei & Ej); try lia. subst seg.
      exists (l1 ++ y :: l2 ++ x :: l3). split; [|apply Permutation_app_head, perm_exch].
      replace (pre ++ (l1 ++ x :: l2 ++ y :: l3) ++ post) with ((pre ++ l1) ++ x :: l2 ++ y :: l3 ++ post) by lst.
      rewrite (swap_mid' T (fun _ _ => None) (pre ++ l1) x l2 y (l3 ++ post)) by (rewrite zlen_app; lia). f_equal. lst.
  Qed.

  Lemma perm_zlen (a b : list T) : Permutation a b -> zlen a = zlen b.
  Proof. intros H. unfold zlen. f_equal. now apply Permutation_length. Qed.

  (* outcome of a run on pre ++ seg ++ post: permuted, at most n calls, and stopped only for a reason *)
  Definition good {X} (pre seg post : list T) (s : St) (n : Z) (P : X -> Prop) (r : run T St X) : Prop :=
    exists seg' s' o, r = Ok (pre ++ seg' ++ post, s', o) /\ Permutation seg seg' /\ f s' <= f s + n /\
      match o with Some x => (calm s -> calm s') /\ P x | None => no_answer orderer seg end.

  Lemma no_answer_perm a b : Permutation a b -> no_answer orderer a -> no_answer orderer b.
  Proof. intros H (s & x & y & Hx & Hy & C). exists s, x, y. repeat split; auto; eapply Permutation_in; eauto. Qed.
  Lemma good_call {X} pre seg seg1 post s s' n m (P : X -> Prop) r :
    Permutation seg seg1 -> f s' <= f s + n /\ (calm s -> calm s') -> good pre seg1 post s' m P r -> good pre seg post s (n + m) P r.
  Proof.
    intros Hp (Hs & Hc) (seg' & s'' & o & E & P' & F & O). exists seg', s'', o. split; [exact E|]. split; [etransitivity; eauto|]. split; [lia|].
    destruct o; [destruct O as (O1 & O2); split; auto|]. eapply no_answer_perm; [symmetry; exact Hp|exact O].
  Qed.
  Lemma good_stop {X} pre seg post s s' n (P : X -> Prop) :
    f s' <= f s + n -> no_answer orderer seg -> good pre seg post s n P (Ok (pre ++ seg ++ post, s', None)).
  Proof. intros. exists seg, s', None. repeat split; auto. Qed.
  Lemma good_weaken {X} pre seg post s n m (P Q : X -> Prop) r : n <= m -> (forall x, P x -> Q x) ->
    good pre seg post s n P r -> good pre seg post s m Q r.
  Proof. intros H I (seg' & s' & o & E & Pm & F & O). exists seg', s', o. split; [exact E|]. split; [exact Pm|]. split; [lia|]. destruct o; auto. destruct O; split; auto. Qed.
  Lemma good_bind {X Y} pre seg post s n m (P : X -> Prop) (Q : Y -> Prop) r (g : list T -> St -> X -> run T St Y) :
    0 <= m -> good pre seg post s n P r ->
    (forall seg' s' x, Permutation seg seg' -> P x -> good pre seg' post s' m Q (g (pre ++ seg' ++ post) s' x)) ->
    good pre seg post s (n + m) Q (andthen r g).
  Proof.
    intros Hm (seg' & s' & o & E & Pm & F & O) G. subst r. unfold andthen. destruct o as [x|].
    - destruct O as (O1 & O2). eapply good_call; [exact Pm|split; [exact F|exact O1]|]. now apply G.
    - exists seg', s', None. repeat split; auto. lia.
  Qed.

  Lemma tphase1_good pre post : forall fuel seg s pivot left right (flag : bool),
    0 <= left -> 0 <= right -> left + right + 1 <= zlen seg -> pivot = (if flag then zlen seg - right - 1 else left) ->
    (Z.to_nat (zlen seg - left - right - 1) < fuel)%nat ->
    good pre seg post s (zlen seg - left - right - 1)
      (fun '(p, l, r) => p = l /\ 0 <= l /\ 0 <= r /\ l + r + 1 = zlen seg)
      (tphase1 T St orderer (pre ++ seg ++ post) s (zlen pre) (zlen seg) pivot left right flag fuel).
  Proof.
    induction fuel as [|fuel IH]; intros seg s pivot left right flag Hl Hr Hlen Hp Hfu; [lia|]. cbn [tphase1]. cbv zeta.
    destruct (left + right + 1 =? zlen seg) eqn:E0.
    - exists seg, s, (Some (pivot, left, right)). repeat split; auto; try lia. destruct flag; lia.
    - set (cand := if flag then left else zlen seg - right - 1).
      assert (Hc : 0 <= cand < zlen seg) by (unfold cand; destruct flag; lia).
      assert (Hpv : 0 <= pivot < zlen seg) by (destruct flag; lia).
      assert (Hn : pivot <> cand) by (unfold cand; destruct flag; lia).
      destruct (get_seg pre seg post pivot Hpv) as (x & Ex & Ix). destruct (get_seg pre seg post cand Hc) as (y & Ey & Iy).
      rewrite Ex, Ey. cbn [bind]. pose proof (Hf s x y) as HF. pose proof (Hcalm s x y) as HC. destruct (orderer s x y) as [s' ans] eqn:Eo. cbn [fst snd] in HF, HC.
      assert (Bad : (forall c, ans <> Is c) -> no_answer orderer seg).
      { intros B. exists s, x, y. repeat split; auto. rewrite Eo. exact B. }
      destruct ans as [o| |]; [|apply good_stop; [lia|apply Bad; congruence]|apply good_stop; [lia|apply Bad; congruence]].
      replace (zlen seg - left - right - 1) with (1 + (zlen seg - left - right - 2)) by lia.
      match goal with |- context [if ?b then _ else _] => destruct b end.
      + eapply good_call; [reflexivity|split; [exact HF|intros Hcs; apply HC; [exact Hcs|congruence]]|]. eapply good_weaken; [| |apply IH]; destruct flag; try lia; auto.
      + destruct (swap_seg pre seg post pivot cand) as (seg1 & Es & Ps); auto. rewrite Es. cbn [bind].
        eapply good_call; [exact Ps|split; [exact HF|intros Hcs; apply HC; [exact Hcs|congruence]]|]. pose proof (perm_zlen _ _ Ps) as HL. rewrite HL.
        eapply good_weaken; [| |apply IH]; unfold cand; destruct flag; cbn [negb]; try lia; auto.
  Qed.

  Lemma tphase2_good pre post pivot : forall n seg s reading writing,
    reading = Z.of_nat n - 1 -> reading <= writing -> writing < pivot -> pivot < zlen seg ->
    good pre seg post s (Z.of_nat n) (fun l => 0 <= l <= writing + 1)
      (tphase2 T St orderer (pre ++ seg ++ post) s (zlen pre) pivot reading writing n).
  Proof.
    induction n as [|n IH]; intros seg s reading writing Hr Hw Hp Hl; cbn [tphase2].
    - exists seg, s, (Some (writing + 1)). repeat split; auto; lia.
    - destruct (get_seg pre seg post pivot) as (x & Ex & Ix); [lia|]. destruct (get_seg pre seg post reading) as (y & Ey & Iy); [lia|].
      rewrite Ex, Ey. cbn [bind]. pose proof (Hf s x y) as HF. pose proof (Hcalm s x y) as HC. destruct (orderer s x y) as [s' ans] eqn:Eo. cbn [fst snd] in HF, HC.
      assert (Bad : (forall c, ans <> Is c) -> no_answer orderer seg).
      { intros B. exists s, x, y. repeat split; auto. rewrite Eo. exact B. }
      replace (Z.of_nat (S n)) with (1 + Z.of_nat n) by lia.
      destruct ans as [[| |]| |]; try (apply good_stop; [lia|apply Bad; congruence]).
      2,3: eapply good_call; [reflexivity|split; [exact HF|intros Hcs; apply HC; [exact Hcs|congruence]]|]; apply IH; lia.
      destruct (Z.eqb_spec reading writing) as [E|N]; cbn [negb].
      + cbn [bind]. eapply good_call; [reflexivity|split; [exact HF|intros Hcs; apply HC; [exact Hcs|congruence]]|]. eapply good_weaken; [| |apply IH]; try lia. cbv beta. lia.
      + destruct (swap_seg pre seg post reading writing) as (seg1 & Es & Ps); try lia. rewrite Es. cbn [bind].
        eapply good_call; [exact Ps|split; [exact HF|intros Hcs; apply HC; [exact Hcs|congruence]]|]. pose proof (perm_zlen _ _ Ps) as HL.
        eapply good_weaken; [| |apply IH]; try lia. cbv beta. lia.
  Qed.

  Lemma tphase3_good pre post pivot : forall n seg s reading writing,
    reading = zlen seg - Z.of_nat n -> pivot < writing -> writing <= reading -> 0 <= pivot ->
    good pre seg post s (Z.of_nat n) (fun r => 0 <= r <= zlen seg - writing)
      (tphase3 T St orderer (pre ++ seg ++ post) s (zlen pre) (zlen seg) pivot reading writing n).
  Proof.
    induction n as [|n IH]; intros seg s reading writing Hr Hw Hp Hl; cbn [tphase3].
    - exists seg, s, (Some (zlen seg - writing)). repeat split; auto; lia.
    - destruct (get_seg pre seg post pivot) as (x & Ex & Ix); [lia|]. destruct (get_seg pre seg post reading) as (y & Ey & Iy); [lia|].
      rewrite Ex, Ey. cbn [bind]. pose proof (Hf s x y) as HF. pose proof (Hcalm s x y) as HC. destruct (orderer s x y) as [s' ans] eqn:Eo. cbn [fst snd] in HF, HC.
      assert (Bad : (forall c, ans <> Is c) -> no_answer orderer seg).
      { intros B. exists s, x, y. repeat split; auto. rewrite Eo. exact B. }
      replace (Z.of_nat (S n)) with (1 + Z.of_nat n) by lia.
      destruct ans as [[| |]| |]; try (apply good_stop; [lia|apply Bad; congruence]).
      2,3,4: eapply good_call; [reflexivity|split; [exact HF|intros Hcs; apply HC; [exact Hcs|congruence]]|]; apply IH; lia.
      destruct (Z.eqb_spec reading writing) as [E|N]; cbn [negb].
      + cbn [bind]. eapply good_call; [reflexivity|split; [exact HF|intros Hcs; apply HC; [exact Hcs|congruence]]|]. eapply good_weaken; [| |apply IH]; try lia. cbv beta. lia.
      + destruct (swap_seg pre seg post reading writing) as (seg1 & Es & Ps); try lia. rewrite Es. cbn [bind].
        eapply good_call; [exact Ps|split; [exact HF|intros Hcs; apply HC; [exact Hcs|congruence]]|]. pose proof (perm_zlen _ _ Ps) as HL. rewrite HL.
        eapply good_weaken; [| |apply IH]; try lia. cbv beta. lia.
  Qed.

  Lemma tpartition_good pre seg post s : 0 < zlen seg ->
    good pre seg post s (2 * (zlen seg - 1)) (fun '(l, r) => 0 <= l /\ 0 <= r /\ l + r + 1 <= zlen seg)
      (tpartition T St orderer (pre ++ seg ++ post) s (zlen pre) (zlen seg)).
  Proof.
    intros Hl. unfold tpartition. replace (2 * (zlen seg - 1)) with ((zlen seg - 0 - 0 - 1) + (zlen seg - 1)) by lia.
    eapply good_bind; [lia|apply tphase1_good; lia|]. intros seg1 s1 [[p l] r] P1 (Ep & Hl0 & Hr0 & Hlr). cbn beta iota.
    pose proof (perm_zlen _ _ P1) as L1. rewrite L1. replace (zlen seg1 - 1) with (Z.of_nat (Z.to_nat l) + r) by lia.
    eapply good_bind; [lia|apply tphase2_good; lia|]. intros seg2 s2 l2 P2 Hl2. cbv beta in Hl2.
    pose proof (perm_zlen _ _ P2) as L2. rewrite L2. replace r with (Z.of_nat (Z.to_nat r) + 0) at 1 by lia.
    eapply good_bind; [lia|apply tphase3_good; lia|]. intros seg3 s3 r3 P3 Hr3. cbv beta in Hr3.
    exists seg3, s3, (Some (l2, r3)). repeat split; auto; lia.
  Qed.

  (* a sub-range *)
  Lemma good_sub {X} pre l m r post s n (P : X -> Prop) run :
    good (pre ++ l) m (r ++ post) s n P run -> good pre (l ++ m ++ r) post s n P run.
  Proof.
    intros (seg' & s' & o & E & Pm & F & O). exists (l ++ seg' ++ r), s', o. split; [rewrite E; replace (pre ++ (l ++ seg' ++ r) ++ post) with ((pre ++ l) ++ seg' ++ r ++ post) by lst; reflexivity|].
    split; [now apply Permutation_app_head, Permutation_app_tail|]. split; [lia|]. destruct o; auto.
    destruct O as (s0 & x & y & Hx & Hy & C). exists s0, x, y.
    split; [apply in_or_app; right; apply in_or_app; now left|]. split; [apply in_or_app; right; apply in_or_app; now left|exact C].
  Qed.

  Lemma tsort_good : forall fuel pre seg post s, (length seg < fuel)%nat ->
    good pre seg post s (zlen seg * (zlen seg - 1)) (fun d => 2 ^ Z.of_nat d <= zlen seg + 1)
      (tsort T St orderer (pre ++ seg ++ post) s (zlen pre) (zlen seg) fuel).
  Proof.
    induction fuel as [|fuel IH]; intros pre seg post s Hl; [lia|]. cbn [tsort]. pose proof (zlen_nonneg seg).
    destruct (zlen seg =? 0) eqn:E0.
    - exists seg, s, (Some O). replace (zlen seg) with 0 by lia. repeat split; auto; [lia|]. change (2 ^ Z.of_nat 0) with 1. lia.
    - replace (zlen seg * (zlen seg - 1)) with (2 * (zlen seg - 1) + (zlen seg - 1) * (zlen seg - 2)) by ring.
      assert (0 <= (zlen seg - 1) * (zlen seg - 2)) by (apply consec; lia).
      eapply good_bind; [assumption|apply tpartition_good; lia|]. intros seg1 s1 [l r] P1 (Hl0 & Hr0 & Hlr). cbn beta iota.
      pose proof (perm_zlen _ _ P1) as L1. rewrite L1 in *.
      assert (Sub : forall seg2 s2 b n, zlen seg2 = zlen seg1 -> 0 <= b -> 0 <= n -> b + n <= zlen seg1 -> n < zlen seg1 ->
        good pre seg2 post s2 (n * (n - 1)) (fun d => 2 ^ Z.of_nat d <= n + 1)
          (tsort T St orderer (pre ++ seg2 ++ post) s2 (zlen pre + b) n fuel)).
      { intros seg2 s2 b n Hz Hb Hn Hbn Hnn. destruct (zsplit seg2 b) as (u & v & E & Lu & _); [lia|].
        subst seg2. rewrite zlen_app in Hz. destruct (zsplit v n) as (w & v' & E & Lw & _); [lia|]. subst v.
        apply good_sub. replace (pre ++ (u ++ w ++ v') ++ post) with ((pre ++ u) ++ w ++ v' ++ post) by lst.
        rewrite <- Lw. replace (zlen pre + b) with (zlen (pre ++ u)) by (rewrite zlen_app; lia). apply IH.
        unfold zlen in *. lia. }
      assert (Cost : l * (l - 1) + r * (r - 1) <= (zlen seg1 - 1) * (zlen seg1 - 2)) by (apply cost_split; lia).
      pose proof (consec (l + 1)) as Cl. pose proof (consec (r + 1)) as Cr. replace (l + 1 - 1) with l in Cl by lia. replace (r + 1 - 1) with r in Cr by lia. replace (l + 1 - 2) with (l - 1) in Cl by lia. replace (r + 1 - 2) with (r - 1) in Cr by lia.
      destruct (l <? r) eqn:Elr.
      + eapply (good_weaken _ _ _ _ (l * (l - 1) + (r * (r - 1) + 0))); [lia|intros x Hx; exact Hx|].
        eapply good_bind; [lia|replace (zlen pre) with (zlen pre + 0) by lia; apply Sub; lia|]. intros seg2 s2 d1 P2 Hd1.
        pose proof (perm_zlen _ _ P2). eapply good_bind; [lia|apply Sub; lia|]. intros seg3 s3 d2 P3 Hd2.
        exists seg3, s3, (Some (Nat.max (S d1) d2)). repeat split; auto; [lia|]. cbv beta in *.
        destruct (Nat.max_spec (S d1) d2) as [[_ ->]|[_ ->]]; [lia|]. rewrite Nat2Z.inj_succ, Z.pow_succ_r by lia. lia.
      + eapply (good_weaken _ _ _ _ (r * (r - 1) + (l * (l - 1) + 0))); [lia|intros x Hx; exact Hx|].
        eapply good_bind; [lia|apply Sub; lia|]. intros seg2 s2 d1 P2 Hd1.
        pose proof (perm_zlen _ _ P2). eapply good_bind; [lia|replace (zlen pre) with (zlen pre + 0) by lia; apply Sub; lia|]. intros seg3 s3 d2 P3 Hd2.
        exists seg3, s3, (Some (Nat.max (S d1) d2)). repeat split; auto; [lia|]. cbv beta in *.
        destruct (Nat.max_spec (S d1) d2) as [[_ ->]|[_ ->]]; [lia|]. rewrite Nat2Z.inj_succ, Z.pow_succ_r by lia. lia.
  Qed.

  Lemma tsort_any pre seg post s : exists seg' s' o,
    tsort_array T St orderer (pre ++ seg ++ post) s (zlen pre) (zlen seg) = Ok (pre ++ seg' ++ post, s', o) /\
    Permutation seg seg' /\ f s' <= f s + zlen seg * (zlen seg - 1) /\
    match o with Some d => (calm s -> calm s') /\ 2 ^ Z.of_nat d <= zlen seg + 1 | None => no_answer orderer seg end.
  Proof. apply tsort_good. rewrite zlen_to_nat. lia. Qed.

  (* ---- binary search ---- *)
  Lemma tsearch_cost x l key : lst_shows T x l -> forall k fuel st s e index,
    0 <= s -> e < zlen l -> 0 <= k -> e - s + 1 < 2 ^ k -> (Z.to_nat (e - s + 1) < fuel)%nat ->
    exists st' o, tsearch T St orderer x key st s e index fuel = Ok (st', o) /\ f st' <= f st + k /\
      match o with
      | Some (r, oi) => (calm st -> calm st') /\ (r = -1 \/ 0 <= r < zlen l) /\ (oi = index \/ 0 <= oi < zlen l) /\ (s <= e -> 0 <= oi < zlen l)
      | None => exists st x, In x l /\ forall c, snd (orderer st x key) <> Is c
      end.
  Proof.
    intros H k fuel. revert k. induction fuel as [|fuel IH]; intros k st s e index Hs He Hk Hw Hfu; [lia|]. cbn [tsearch].
    destruct (s <=? e) eqn:E.
    - pose proof (mid_range s e) as M. cbv zeta. set (i := s + Z.quot (e - s) 2) in *.
      assert (Hi : i = s + (e - s) / 2) by (unfold i; rewrite Z.quot_div_nonneg by lia; reflexivity). clearbody i.
      assert (Hd : 2 * ((e - s) / 2) <= e - s < 2 * ((e - s) / 2) + 2) by (pose proof (Z.div_mod (e - s) 2); pose proof (Z.mod_pos_bound (e - s) 2); lia).
      destruct (read_ok T x l i H) as (a & R & N); [lia|]. rewrite R. cbn [bind]. pose proof (Hf st a key) as HF. pose proof (Hcalm st a key) as HC.
      destruct (orderer st a key) as [st1 ans] eqn:Eo. cbn [fst snd] in HF, HC.
      assert (Hk1 : 1 <= k) by (destruct (Z.eq_dec k 0); [subst k; change (2 ^ 0) with 1 in Hw; lia|lia]).
      assert (Hp : 2 ^ k = 2 * 2 ^ (k - 1)) by (replace k with (Z.succ (k - 1)) at 1 by lia; rewrite Z.pow_succ_r by lia; reflexivity).
      assert (Ia : In a l) by (rewrite znth_z in N by lia; eapply nth_error_In; eauto).
      destruct ans as [[| |]| |].
      + exists st1, (Some (i, i)). repeat split; auto; try lia. intros Hc; apply HC; [exact Hc|congruence].
      + destruct (IH (k - 1) st1 (i + 1) e i) as (st' & o & Er & Fr & Or); try lia.
        exists st', o. rewrite Er. repeat split; [lia|]. destruct o as [[r oi]|]; auto. destruct Or as (K & ? & ? & ?). repeat split; auto; try lia. intros Hc. apply K, HC; [exact Hc|congruence].
      + destruct (IH (k - 1) st1 s (i - 1) i) as (st' & o & Er & Fr & Or); try lia.
        exists st', o. rewrite Er. repeat split; [lia|]. destruct o as [[r oi]|]; auto. destruct Or as (K & ? & ? & ?). repeat split; auto; try lia. intros Hc. apply K, HC; [exact Hc|congruence].
      + exists st1, None. repeat split; [lia|]. exists st, a. split; auto. rewrite Eo. cbn [snd]. congruence.
      + exists st1, None. repeat split; [lia|]. exists st, a. split; auto. rewrite Eo. cbn [snd]. congruence.
    - exists st, (Some (-1, index)). repeat split; auto; lia.
  Qed.
  Lemma log_up n : 0 <= n -> 0 <= Z.log2_up (n + 1) /\ n < 2 ^ Z.log2_up (n + 1).
  Proof.
    intros H. split; [apply Z.log2_up_nonneg|]. destruct (Z.eq_dec n 0) as [->|]; [reflexivity|].
    pose proof (Z.log2_up_spec (n + 1)). lia.
  Qed.
  Lemma tindex_cost x l key st : lst_shows T x l ->
    exists st' o, tindex T St orderer x key st = Ok (st', o) /\ f st' <= f st + Z.log2_up (zlen l + 1) /\
      match o with
      | Some (r, oi) => (calm st -> calm st') /\ (r = -1 \/ 0 <= r < zlen l) /\ (0 < zlen l -> 0 <= oi < zlen l)
      | None => exists st x, In x l /\ forall c, snd (orderer st x key) <> Is c
      end.
  Proof.
    intros H. unfold tindex. destruct (H) as (C & _). rewrite C. pose proof (zlen_nonneg l). destruct (log_up (zlen l)); auto.
    destruct (tsearch_cost x l key H (Z.log2_up (zlen l + 1)) (Z.to_nat (zlen l + 1)) st 0 (zlen l - 1) (-1)) as (st' & o & E & F & O); try lia.
    exists st', o. repeat split; auto. destruct o as [[r oi]|]; auto. destruct O as (? & ? & ? & O5). split; auto. split; auto. intros. apply O5. lia.
  Qed.
  Lemma tadd_cost x l a st : lst_shows T x l ->
    exists y st' o, tadd T St orderer x a st = Ok (y, st', o) /\
      f st' <= f st + (if zlen l =? 0 then 0 else Z.log2_up (zlen l + 1) + 1) /\
      match o with
      | Some i => (calm st -> calm st') /\ 0 <= i <= zlen l /\ lst_shows T y (ztake T i l ++ a :: zdrop T i l)
      | None => y = x /\ exists st x, In x l /\ forall c, snd (orderer st x a) <> Is c
      end.
  Proof.
    intros H. unfold tadd. destruct (H) as (C & _). rewrite C. pose proof (zlen_nonneg l).
    destruct (zlen l =? 0) eqn:E0.
    - destruct (s_insert_at T x l 0 a H) as (y & E & S'); [lia|]. rewrite E. cbn [bind]. exists y, st, (Some 0).
      split; [reflexivity|]. split; [lia|]. split; [auto|]. split; [lia|exact S'].
    - destruct (tindex_cost x l a st H) as (st1 & o & E & F & O). rewrite E. cbn [bind]. destruct o as [[r oi]|].
      + destruct O as (Kc & _ & Ho). specialize (Ho ltac:(lia)). replace ((oi >=? 0) && (oi <? zlen l)) with true by lia.
        destruct (read_ok T x l oi H Ho) as (b & R & N). rewrite R. cbn [bind]. pose proof (Hf st1 b a) as HF. pose proof (Hcalm st1 b a) as HC.
        destruct (orderer st1 b a) as [st2 ans] eqn:Eo. cbn [fst snd] in HF, HC.
        assert (Ib : In b l) by (rewrite znth_z in N by lia; eapply nth_error_In; eauto).
        assert (Ins : forall i, ans <> Raises -> 0 <= i <= zlen l -> exists y st' o, (do y <- s_insert T x i a; Ok (y, st2, Some i)) = Ok (y, st', o) /\
          f st' <= f st + (Z.log2_up (zlen l + 1) + 1) /\
          match o with
          | Some i => (calm st -> calm st') /\ 0 <= i <= zlen l /\ lst_shows T y (ztake T i l ++ a :: zdrop T i l)
          | None => y = x /\ exists st x, In x l /\ forall c, snd (orderer st x a) <> Is c
          end).
        { intros i Hans Hi. destruct (s_insert_at T x l i a H Hi) as (y & Ey & S'). rewrite Ey. cbn [bind]. exists y, st2, (Some i).
          split; [reflexivity|]. split; [lia|]. split; [intros Hc; apply HC; auto|now split]. }
        cbv zeta. destruct ans as [[| |]| |]; try (apply Ins; [congruence|lia]).
        exists x, st2, None. split; [reflexivity|]. split; [lia|]. split; [reflexivity|]. exists st1, b. split; auto.
        rewrite Eo. cbn [snd]. congruence.
      + exists x, st1, None. split; [reflexivity|]. split; [lia|]. split; auto.
  Qed.
  Lemma tdict_cost x l key st : lst_shows T x l ->
    exists y st' o, tdict_key T St orderer x key st = Ok (y, st', o) /\
      f st' <= f st + (2 * Z.log2_up (zlen l + 1) + 1) /\ (o = None -> y = x).
  Proof.
    intros H. unfold tdict_key. destruct (tindex_cost x l key st H) as (st1 & o & E & F & O). rewrite E. cbn [bind].
    pose proof (Z.log2_up_nonneg (zlen l + 1)). destruct o as [[r oi]|].
    - destruct (r =? -1).
      + destruct (tadd_cost x l key st1 H) as (y & st2 & o & E2 & F2 & O2). exists y, st2, o. split; [exact E2|].
        split; [destruct (zlen l =? 0); lia|]. intros ->. apply O2.
      + exists x, st1, (Some r). split; [reflexivity|]. split; [lia|congruence].
    - exists x, st1, None. split; [reflexivity|]. split; [lia|auto].
  Qed.
End Any.

(* ---- a comparison without state: the models agree ---- *)
Section Stateless.
  Variable T : Type.
  Variable cmp : T -> T -> option comparison.
  Notation o := (stateless cmp).
  Definition agrees {X Y} (h : X -> list T * Y) (r : res X) (t : run T unit Y) : Prop :=
    match r with
    | Ok x => t = Ok (fst (h x), tt, Some (snd (h x)))
    | Err => exists a, t = Ok (a, tt, None)
    | UB => t = UB
    | NoFuel => t = NoFuel
    end.
  Definition h4 (x : list T * Z * Z * Z) : list T * (Z * Z * Z) := let '(a, p, l, r) := x in (a, (p, l, r)).
  Definition h3 (x : list T * Z * Z) : list T * (Z * Z) := let '(a, l, r) := x in (a, (l, r)).
  Definition h2 {X} (x : list T * X) : list T * X := x.

  Lemma agree_bind {A X Y} (h : X -> list T * Y) (m : res A) (g : A -> res X) (t : A -> run T unit Y) : m <> Err ->
    (forall a, m = Ok a -> agrees h (g a) (t a)) -> agrees h (do a <- m; g a) (do a <- m; t a).
  Proof. intros Hm H. destruct m; cbn [bind]; try reflexivity; [now apply H|congruence]. Qed.
  Lemma agree_then {X Y X' Y'} (h : X -> list T * Y) (h' : X' -> list T * Y') (m : res X) (t : run T unit Y)
    (g : X -> res X') (k : list T -> unit -> Y -> run T unit Y') :
    agrees h m t -> (forall x, m = Ok x -> agrees h' (g x) (k (fst (h x)) tt (snd (h x)))) ->
    agrees h' (do x <- m; g x) (andthen t k).
  Proof.
    intros Hm H. destruct m; cbn [bind]; cbn [agrees] in Hm.
    - subst t. cbn [andthen]. now apply H.
    - destruct Hm as (a & ->). cbn [andthen agrees]. eauto.
    - now subst t.
    - now subst t.
  Qed.
  Lemma aget_noerr (a : list T) i : aget a i <> Err.
  Proof. unfold aget. destruct (znth a i); congruence. Qed.
  Lemma swap_noerr (a : list T) i j : swap T a i j <> Err.
  Proof.
    unfold swap. unfold aget, aset. destruct (znth a i); cbn [bind]; [|congruence]. destruct (znth a j); cbn [bind]; [|congruence].
    match goal with |- context [if ?b then _ else _] => destruct b end; cbn [bind]; [|congruence].
    match goal with |- context [if ?b then _ else _] => destruct b end; congruence.
  Qed.
  Lemma cond_swap_noerr (b : bool) (a : list T) i j : (if b then swap T a i j else Ok a) <> Err.
  Proof. destruct b; [apply swap_noerr|congruence]. Qed.

  Lemma phase1_agrees base len : forall fuel a pivot left right flag,
    agrees h4 (phase1 T cmp a base len pivot left right flag fuel) (tphase1 T unit o a tt base len pivot left right flag fuel).
  Proof.
    induction fuel as [|fuel IH]; intros; cbn [phase1 tphase1]; [reflexivity|].
    destruct (left + right + 1 =? len); [reflexivity|]. cbv zeta.
    apply agree_bind; [apply aget_noerr|]. intros x _. apply agree_bind; [apply aget_noerr|]. intros y _.
    unfold stateless at 1. destruct (cmp x y) as [c|]; cbn [as_answer]; [|cbn [agrees]; eauto].
    match goal with |- context [if ?b then _ else _] => destruct b end; [apply IH|].
    apply agree_bind; [apply swap_noerr|]. intros; apply IH.
  Qed.
  Lemma phase2_agrees base pivot : forall n a reading writing,
    agrees h2 (phase2 T cmp a base pivot reading writing n) (tphase2 T unit o a tt base pivot reading writing n).
  Proof.
    induction n as [|n IH]; intros; cbn [phase2 tphase2]; [reflexivity|].
    apply agree_bind; [apply aget_noerr|]. intros x _. apply agree_bind; [apply aget_noerr|]. intros y _.
    unfold stateless at 1. destruct (cmp x y) as [[| |]|]; cbn [as_answer]; try apply IH; [|cbn [agrees]; eauto].
    apply agree_bind; [apply cond_swap_noerr|]. intros; apply IH.
  Qed.
  Lemma phase3_agrees base len pivot : forall n a reading writing,
    agrees h2 (phase3 T cmp a base len pivot reading writing n) (tphase3 T unit o a tt base len pivot reading writing n).
  Proof.
    induction n as [|n IH]; intros; cbn [phase3 tphase3]; [reflexivity|].
    apply agree_bind; [apply aget_noerr|]. intros x _. apply agree_bind; [apply aget_noerr|]. intros y _.
    unfold stateless at 1. destruct (cmp x y) as [[| |]|]; cbn [as_answer]; try apply IH.
    apply agree_bind; [apply cond_swap_noerr|]. intros; apply IH.
  Qed.
  Lemma partition_agrees a base len : agrees h3 (partition T cmp a base len) (tpartition T unit o a tt base len).
  Proof.
    unfold partition, tpartition. eapply agree_then; [apply phase1_agrees|]. intros [[[a1 p] l] r] _. cbn [h4 fst snd].
    eapply agree_then; [apply phase2_agrees|]. intros [a2 l2] _. cbn [h2 fst snd].
    eapply agree_then; [apply phase3_agrees|]. intros [a3 r3] _. reflexivity.
  Qed.
  Lemma qsort_agrees : forall fuel a base len, agrees h2 (qsort T cmp a base len fuel) (tsort T unit o a tt base len fuel).
  Proof.
    induction fuel as [|fuel IH]; intros; cbn [qsort tsort]; [reflexivity|]. destruct (len =? 0); [reflexivity|].
    eapply agree_then; [apply partition_agrees|]. intros [[a1 l] r] _. cbn [h3 fst snd].
    destruct (l <? r); (eapply agree_then; [apply IH|]; intros [a2 d1] _; cbn [h2 fst snd];
      eapply agree_then; [apply IH|]; intros [a3 d2] _; reflexivity).
  Qed.
  Lemma sort_agrees a base len :
    match sort_array T cmp a base len with
    | Ok (a', d) => tsort_array T unit o a tt base len = Ok (a', tt, Some d)
    | Err => exists a', tsort_array T unit o a tt base len = Ok (a', tt, None)
    | UB => tsort_array T unit o a tt base len = UB
    | NoFuel => tsort_array T unit o a tt base len = NoFuel
    end.
  Proof. pose proof (qsort_agrees (Z.to_nat len + 1) a base len) as H. unfold sort_array, tsort_array. destruct (qsort T cmp a base len _) as [[a' d]| | |]; exact H. Qed.

  Lemma search_agrees x key : forall fuel s e index,
    tsearch T unit o x key tt s e index fuel =
    match search T cmp x key s e index fuel with
    | Ok r => Ok (tt, Some r) | Err => Ok (tt, None) | UB => UB | NoFuel => NoFuel end.
  Proof.
    induction fuel as [|fuel IH]; intros; cbn [search tsearch]; [reflexivity|]. destruct (s <=? e); [|reflexivity]. cbv zeta.
    unfold read. unfold aget. destruct (znth _ _) as [y|]; cbn [bind]; [|reflexivity].
    destruct y; try reflexivity. cbn [bind]. unfold stateless at 1.
    destruct (cmp a key) as [[| |]|]; cbn [as_answer]; try reflexivity; apply IH.
  Qed.
  Lemma index_agrees x key :
    tindex T unit o x key tt =
    match index_of_internal T cmp x key with
    | Ok r => Ok (tt, Some r) | Err => Ok (tt, None) | UB => UB | NoFuel => NoFuel end.
  Proof. apply search_agrees. Qed.
  Lemma add_agrees x l a : lst_shows T x l ->
    tadd T unit o x a tt =
    match s_add T cmp x a with
    | Ok (y, i) => Ok (y, tt, Some i) | Err => Ok (x, tt, None) | UB => UB | NoFuel => NoFuel end.
  Proof.
    intros H. unfold tadd, s_add. destruct (count x =? 0) eqn:E0.
    - destruct (s_insert_at T x l 0 a H) as (y & E & _); [pose proof (zlen_nonneg l); lia|]. rewrite E. reflexivity.
    - rewrite index_agrees. destruct (index_of_internal T cmp x a) as [[r oi]| | |]; cbn [bind]; try reflexivity.
      destruct ((oi >=? 0) && (oi <? count x)) eqn:Er; [|reflexivity]. destruct (H) as (C & _).
      destruct (read_ok T x l oi H) as (b & R & _); [lia|]. rewrite R. cbn [bind]. unfold stateless.
      destruct (cmp b a) as [[| |]|]; cbn [as_answer];
      match goal with |- context [s_insert T x ?i a] => destruct (s_insert_at T x l i a H) as (y & E & _); [lia|]; rewrite E; reflexivity end.
  Qed.
End Stateless.

(* ---- the worst case of Sort is sorted input ---- *)
Section Worst.
  Variable T : Type.
  Variable c : T -> T -> comparison.
  Notation o := (counting (fun a b => Is (c a b))).

  Lemma w_phase1 pre post p rest : Forall (fun y => c p y = Lt) rest -> forall fuel right n,
    0 <= right <= zlen rest -> (Z.to_nat (zlen rest - right) < fuel)%nat ->
    tphase1 T Z o (pre ++ (p :: rest) ++ post) n (zlen pre) (1 + zlen rest) 0 0 right false fuel =
    Ok (pre ++ (p :: rest) ++ post, n + (zlen rest - right), Some (0, 0, zlen rest)).
  Proof.
    intros F. induction fuel as [|fuel IH]; intros right n Hr Hfu; [lia|]. cbn [tphase1]. cbv zeta.
    destruct (0 + right + 1 =? 1 + zlen rest) eqn:E.
    - replace right with (zlen rest) by lia. do 3 f_equal. lia.
    - replace (aget (pre ++ (p :: rest) ++ post) (zlen pre + 0)) with (Ok p) by (symmetry; apply aget_app; lia).
      destruct (zsplit1 rest (zlen rest - right - 1)) as (l1 & y & l2 & E1 & L1 & _); [lia|].
      replace (aget (pre ++ (p :: rest) ++ post) (zlen pre + (1 + zlen rest - right - 1))) with (Ok y).
      2: { symmetry. rewrite E1 at 1. replace (pre ++ (p :: l1 ++ y :: l2) ++ post) with ((pre ++ p :: l1) ++ y :: l2 ++ post) by lst.
           apply aget_app. rewrite zlen_app, zlen_cons. lia. }
      cbn [bind]. unfold counting at 1. assert (Cy : c p y = Lt) by (rewrite Forall_forall in F; apply F; rewrite E1; apply in_or_app; right; now left).
      rewrite Cy. cbn [negb andb orb]. rewrite IH by lia. do 3 f_equal. lia.
  Qed.
  Lemma w_phase3 pre post p rest : Forall (fun y => c p y = Lt) rest -> forall m reading n,
    reading = 1 + zlen rest - Z.of_nat m -> 1 <= reading ->
    tphase3 T Z o (pre ++ (p :: rest) ++ post) n (zlen pre) (1 + zlen rest) 0 reading 1 m =
    Ok (pre ++ (p :: rest) ++ post, n + Z.of_nat m, Some (zlen rest)).
  Proof.
    intros F. induction m as [|m IH]; intros reading n Hr H1; cbn [tphase3].
    - repeat f_equal; lia.
    - replace (aget (pre ++ (p :: rest) ++ post) (zlen pre + 0)) with (Ok p) by (symmetry; apply aget_app; lia).
      destruct (zsplit1 rest (reading - 1)) as (l1 & y & l2 & E1 & L1 & _); [lia|].
      replace (aget (pre ++ (p :: rest) ++ post) (zlen pre + reading)) with (Ok y).
      2: { symmetry. rewrite E1 at 1. replace (pre ++ (p :: l1 ++ y :: l2) ++ post) with ((pre ++ p :: l1) ++ y :: l2 ++ post) by lst.
           apply aget_app. rewrite zlen_app, zlen_cons. lia. }
      cbn [bind]. unfold counting at 1. assert (Cy : c p y = Lt) by (rewrite Forall_forall in F; apply F; rewrite E1; apply in_or_app; right; now left).
      rewrite Cy. rewrite IH by lia. do 3 f_equal. lia.
  Qed.
  Lemma w_sort : forall fuel pre seg post n, strictly_ascending c seg -> (length seg < fuel)%nat ->
    exists d, tsort T Z o (pre ++ seg ++ post) n (zlen pre) (zlen seg) fuel =
      Ok (pre ++ seg ++ post, n + zlen seg * (zlen seg - 1), Some d).
  Proof.
    induction fuel as [|fuel IH]; intros pre seg post n As Hl; [lia|]. cbn [tsort].
    destruct seg as [|p rest].
    - exists O. rewrite zlen_nil. cbn [Z.eqb app]. repeat f_equal. lia.
    - inversion As as [|? ? As' F]; subst. pose proof (zlen_nonneg rest). cbn [length] in Hl.
      rewrite zlen_cons. replace (1 + zlen rest =? 0) with false by lia. unfold tpartition.
      rewrite (w_phase1 pre post p rest F _ 0) by lia. cbn [andthen]. change (Z.to_nat 0) with O. cbn [tphase2 andthen].
      replace (1 + zlen rest - zlen rest) with 1 by lia.
      rewrite (w_phase3 pre post p rest F (Z.to_nat (zlen rest))) by lia. cbn [andthen].
      set (n1 := n + (zlen rest - 0) + Z.of_nat (Z.to_nat (zlen rest))).
      assert (En : n1 = n + 2 * zlen rest) by lia. clearbody n1.
      assert (Sub0 : forall k, (0 < fuel)%nat -> tsort T Z o (pre ++ (p :: rest) ++ post) k (zlen pre) 0 fuel = Ok (pre ++ (p :: rest) ++ post, k, Some O)).
      { intros k Hk. destruct fuel; [lia|]. reflexivity. }
      assert (Sub1 : forall k, exists d, tsort T Z o (pre ++ (p :: rest) ++ post) k (zlen pre + 1) (zlen rest) fuel =
        Ok (pre ++ (p :: rest) ++ post, k + zlen rest * (zlen rest - 1), Some d)).
      { intros k. destruct (IH (pre ++ [p]) rest post k) as (d & Ed); [exact As'|lia|]. exists d.
        replace (pre ++ (p :: rest) ++ post) with ((pre ++ [p]) ++ rest ++ post) by lst.
        replace (zlen pre + 1) with (zlen (pre ++ [p])) by (rewrite zlen_app, zlen_cons, zlen_nil; lia). exact Ed. }
      change (-1 + 1) with 0. replace (0 - 1 + 1) with 0 by lia. replace (1 + zlen rest - zlen rest) with 1 by lia.
      destruct (0 <? zlen rest) eqn:E0.
      + rewrite Sub0 by (unfold zlen in E0; lia). cbn [andthen]. destruct (Sub1 n1) as (d & Ed). rewrite Ed. cbn [andthen].
        eexists. do 3 f_equal. nia.
      + destruct (Sub1 n1) as (d & Ed). rewrite Ed. cbn [andthen]. destruct fuel.
        { exfalso. destruct (Sub1 0) as (? & ?). discriminate. }
        rewrite Sub0 by lia. cbn [andthen]. eexists. do 3 f_equal. nia.
  Qed.
  Lemma w_sort_array pre seg post n : strictly_ascending c seg ->
    exists d, tsort_array T Z o (pre ++ seg ++ post) n (zlen pre) (zlen seg) =
      Ok (pre ++ seg ++ post, n + zlen seg * (zlen seg - 1), Some d).
  Proof. intros. apply w_sort; auto. rewrite zlen_to_nat. lia. Qed.

  (* the binary search makes all its comparisons for a key above everything *)
  Lemma w_search x l key : lst_shows T x l -> Forall (fun y => c y key = Lt) l -> forall fuel n s e index,
    0 <= s -> e < zlen l -> s <= e + 1 -> (Z.to_nat (e - s + 1) < fuel)%nat ->
    exists oi, tsearch T Z o x key n s e index fuel = Ok (n + Z.log2_up (e - s + 2), Some (-1, oi)).
  Proof.
    intros H F. induction fuel as [|fuel IH]; intros n s e index Hs He Hse Hfu; [lia|]. cbn [tsearch].
    destruct (s <=? e) eqn:E.
    - pose proof (mid_range s e) as M. cbv zeta. set (i := s + Z.quot (e - s) 2) in *.
      assert (Hi : i = s + (e - s) / 2) by (unfold i; rewrite Z.quot_div_nonneg by lia; reflexivity). clearbody i.
      destruct (read_ok T x l i H) as (a & R & N); [lia|]. rewrite R. cbn [bind]. unfold counting at 1.
      assert (Ca : c a key = Lt) by (rewrite Forall_forall in F; apply F; rewrite znth_z in N by lia; eapply nth_error_In; eauto).
      rewrite Ca. destruct (IH (n + 1) (i + 1) e i) as (oi & Eo); try lia. exists oi. rewrite Eo. do 2 f_equal.
      assert (Hlog : Z.log2_up (e - s + 2) = 1 + Z.log2_up (e - (i + 1) + 2)); [|lia].
      assert (forall m, 1 <= m -> Z.log2_up (m + 1) = 1 + Z.log2 m) as LU.
      { intros m Hm. unfold Z.log2_up. replace (1 ?= m + 1) with Lt by (symmetry; apply Z.compare_lt_iff; lia).
        replace (Z.pred (m + 1)) with m by lia. lia. }
      replace (e - s + 2) with ((e - s + 1) + 1) by lia. rewrite LU by lia.
      replace (e - (i + 1) + 2) with ((e - s + 1) / 2 + 1) by (Z.to_euclidean_division_equations; lia).
      destruct (Z.eq_dec s e) as [->|].
      + replace (e - e + 1) with 1 by lia. reflexivity.
      + rewrite LU by (Z.to_euclidean_division_equations; lia).
        change ((e - s + 1) / 2) with ((e - s + 1) / 2 ^ 1). rewrite <- Z.shiftr_div_pow2 by lia. rewrite Z.log2_shiftr by lia.
        pose proof (Z.log2_le_mono 2 (e - s + 1)). change (Z.log2 2) with 1 in *. lia.
    - exists index. replace (e - s + 2) with 1 by lia. repeat f_equal. change (Z.log2_up 1) with 0. lia.
  Qed.
  Lemma w_index x l key n : lst_shows T x l -> Forall (fun y => c y key = Lt) l ->
    exists oi, tindex T Z o x key n = Ok (n + Z.log2_up (zlen l + 1), Some (-1, oi)).
  Proof.
    intros H F. unfold tindex. destruct (H) as (C & _). rewrite C. pose proof (zlen_nonneg l).
    destruct (w_search x l key H F (Z.to_nat (zlen l + 1)) n 0 (zlen l - 1) (-1)) as (oi & E); try lia.
    exists oi. rewrite E. replace (zlen l - 1 - 0 + 2) with (zlen l + 1) by lia. reflexivity.
  Qed.
End Worst.

Lemma counting_bound {T} (g : T -> T -> answer) : calls_bound (counting g) (fun n => n).
Proof. intros n x y. cbn. lia. Qed.

Lemma tsort_permutes T St (orderer : St -> T -> T -> St * answer) (pre seg post : list T) s :
  exists seg' s' o,
    tsort_array T St orderer (pre ++ seg ++ post) s (zlen pre) (zlen seg) = Ok (pre ++ seg' ++ post, s', o) /\
    Permutation seg seg' /\
    match o with Some depth => 2 ^ Z.of_nat depth <= zlen seg + 1 | None => no_answer orderer seg end.
Proof.
  destruct (tsort_any T St orderer (fun _ => 0) ltac:(intros ? ? ?; lia) (fun _ => True) (fun _ _ _ H _ => H) pre seg post s) as (seg' & s' & o & E & P & _ & O).
  exists seg', s', o. split; [exact E|]. split; [exact P|]. destruct o; [apply O|exact O].
Qed.
Lemma tsort_calm T St (orderer : St -> T -> T -> St * answer) calm : stays_calm orderer calm ->
  forall (pre seg post : list T) s a s' d, calm s ->
    tsort_array T St orderer (pre ++ seg ++ post) s (zlen pre) (zlen seg) = Ok (a, s', Some d) -> calm s'.
Proof.
  intros B pre seg post s a s' d Hc E.
  destruct (tsort_any T St orderer (fun _ => 0) ltac:(intros ? ? ?; lia) calm B pre seg post s) as (seg' & s1 & o & E1 & _ & _ & O).
  rewrite E1 in E. assert (o = Some d) by congruence. assert (s1 = s') by congruence. subst. now apply O.
Qed.
Lemma search_calm T St (orderer : St -> T -> T -> St * answer) calm : stays_calm orderer calm ->
  forall x l a st, lst_shows T x l -> calm st ->
  (forall st' r, tindex T St orderer x a st = Ok (st', Some r) -> calm st') /\
  (forall y st' i, tadd T St orderer x a st = Ok (y, st', Some i) -> calm st').
Proof.
  intros B x l a st H Hc. split.
  - intros st' [r oi] E.
    destruct (tindex_cost T St orderer (fun _ => 0) ltac:(intros ? ? ?; lia) calm B x l a st H) as (st1 & o & E1 & _ & O).
    rewrite E1 in E. assert (o = Some (r, oi)) by congruence. assert (st1 = st') by congruence. subst. now apply O.
  - intros y st' i E.
    destruct (tadd_cost T St orderer (fun _ => 0) ltac:(intros ? ? ?; lia) calm B x l a st H) as (y1 & st1 & o & E1 & _ & O).
    rewrite E1 in E. assert (o = Some i) by congruence. assert (st1 = st') by congruence. subst. now apply O.
Qed.
Lemma tadd_bound T St (orderer : St -> T -> T -> St * answer) measure : calls_bound orderer measure ->
  forall x l a st, lst_shows T x l ->
  exists y st' o, tadd T St orderer x a st = Ok (y, st', o) /\
    measure st' <= measure st + (if zlen l =? 0 then 0 else Z.log2_up (zlen l + 1) + 1) /\
    match o with
    | Some i => 0 <= i <= zlen l /\ lst_shows T y (ztake T i l ++ a :: zdrop T i l)
    | None => y = x /\ exists st x, In x l /\ forall c, snd (orderer st x a) <> Is c
    end.
Proof.
  intros B x l a st H. destruct (tadd_cost T St orderer measure B (fun _ => True) (fun _ _ _ H _ => H) x l a st H) as (y & st' & o & E & F & O).
  exists y, st', o. split; [exact E|]. split; [exact F|]. destruct o; [apply O|exact O].
Qed.
Lemma tdict_bound T St (orderer : St -> T -> T -> St * answer) measure : calls_bound orderer measure ->
  forall keys l key st, lst_shows T keys l ->
  exists keys' st' o, tdict_key T St orderer keys key st = Ok (keys', st', o) /\
    measure st' <= measure st + (2 * Z.log2_up (zlen l + 1) + 1) /\ (o = None -> keys' = keys).
Proof. intros B. exact (tdict_cost T St orderer measure B (fun _ => True) (fun _ _ _ H _ => H)). Qed.
Lemma tsort_cost T St (orderer : St -> T -> T -> St * answer) measure : calls_bound orderer measure ->
  forall (pre seg post : list T) s, exists a s' o,
    tsort_array T St orderer (pre ++ seg ++ post) s (zlen pre) (zlen seg) = Ok (a, s', o) /\
    measure s' <= measure s + zlen seg * (zlen seg - 1).
Proof.
  intros B pre seg post s. destruct (tsort_any T St orderer measure B (fun _ => True) (fun _ _ _ H _ => H) pre seg post s) as (seg' & s' & o & E & _ & F & _). eauto.
Qed.
Lemma tindex_bound T St (orderer : St -> T -> T -> St * answer) measure : calls_bound orderer measure ->
  forall x l key st, lst_shows T x l ->
  exists st' o, tindex T St orderer x key st = Ok (st', o) /\ measure st' <= measure st + Z.log2_up (zlen l + 1).
Proof.
  intros B x l key st H. destruct (tindex_cost T St orderer measure B (fun _ => True) (fun _ _ _ H _ => H) x l key st H) as (st' & o & E & F & _). eauto.
Qed.
Lemma srt_agree T (cmp : T -> T -> option comparison) x l a : lst_shows T x l ->
  tindex T unit (stateless cmp) x a tt =
    match index_of_internal T cmp x a with
    | Ok r => Ok (tt, Some r) | Err => Ok (tt, None) | UB => UB | NoFuel => NoFuel end /\
  tadd T unit (stateless cmp) x a tt =
    match s_add T cmp x a with
    | Ok (y, i) => Ok (y, tt, Some i) | Err => Ok (x, tt, None) | UB => UB | NoFuel => NoFuel end.
Proof. intros H. split; [apply index_agrees|now apply add_agrees with l]. Qed.

Lemma by_first_total : total_order (fun a b : Z * Z => Z.compare (fst a) (fst b)).
Proof.
  constructor.
  - intros. apply Z.compare_antisym.
  - intros a b d. rewrite !Z.compare_le_iff. lia.
Qed.
Lemma not_stable : ~ (forall T (c : T -> T -> comparison), total_order c ->
  forall source out, order_by T (fun a b => Some (c a b)) source = Ok out -> keeps_order c source out).
Proof.
  intros H. specialize (H (Z * Z)%type _ by_first_total [(2, 1); (1, 2); (1, 3)] _ eq_refl (1, 2)). discriminate H.
Qed.

(* 0, 1, ..., n - 1 *)
Fixpoint upto (a : Z) (n : nat) : list Z := match n with O => [] | S n' => a :: upto (a + 1) n' end.
Lemma upto_above n : forall a b, b < a -> Forall (fun y => Z.compare b y = Lt) (upto a n).
Proof. induction n as [|n IH]; intros a b H; cbn [upto]; constructor; [now apply Z.compare_lt_iff|]. apply IH. lia. Qed.
Lemma upto_ascending n : forall a, strictly_ascending Z.compare (upto a n).
Proof. induction n as [|n IH]; intros a; cbn [upto]; constructor; [apply IH|]. apply upto_above. lia. Qed.
Lemma upto_length n : forall a, length (upto a n) = n.
Proof. induction n as [|n IH]; intros; cbn [upto length]; auto. Qed.

Lemma square_beats_log k : 0 <= k -> exists m, 0 <= m /\ k * 2 ^ m * m < (2 ^ m - 1) * (2 ^ m - 1 - 1).
Proof.
  intros Hk. set (m := 3 * (k + 4)). exists m. split; [lia|].
  assert (P : forall j, 0 <= j -> j + 1 <= 2 ^ j).
  { intros j Hj. pattern j. apply natlike_ind; [cbn; lia| |exact Hj]. intros i Hi IH. rewrite Z.pow_succ_r by lia. lia. }
  assert (Q : (k + 5) * ((k + 5) * (k + 5)) <= 2 ^ m).
  { specialize (P (k + 4) ltac:(lia)). unfold m. clear m. replace (k + 5) with (k + 4 + 1) by lia. set (j := k + 4) in *.
    replace (3 * j) with (j + (j + j)) by lia. rewrite !Z.pow_add_r by lia. revert P. generalize (2 ^ j). intros q P4.
    apply Z.mul_le_mono_nonneg; [lia|lia|apply Z.mul_nonneg_nonneg; lia|]. apply Z.mul_le_mono_nonneg; lia. }
  set (p := 2 ^ m) in *. clearbody p.
  assert (k * m + 3 <= p).
  { unfold m. assert (0 <= k * k) by (apply Z.mul_nonneg_nonneg; lia). assert (5 * ((k + 5) * (k + 5)) <= (k + 5) * ((k + 5) * (k + 5))) by (apply Z.mul_le_mono_nonneg_r; [apply Z.mul_nonneg_nonneg|]; lia). lia. }
  clear Q.
  assert (0 <= p * (p - 3 - k * m)) by (apply Z.mul_nonneg_nonneg; [|lia]; assert (0 <= k * m) by (apply Z.mul_nonneg_nonneg; lia); lia). lia.
Qed.
Lemma not_n_log_n : ~ (exists k, forall (seg : list Z) a calls o,
  tsort_array Z Z (counting (fun a b => Is (Z.compare a b))) seg 0 0 (zlen seg) = Ok (a, calls, o) ->
  calls <= k * (zlen seg + 1) * Z.log2_up (zlen seg + 1)).
Proof.
  intros (k & H). destruct (square_beats_log (Z.max k 0)) as (m & Hm & Hb); [lia|].
  set (n := Z.to_nat (2 ^ m - 1)). assert (P : 0 < 2 ^ m) by (apply Z.pow_pos_nonneg; lia).
  assert (L : zlen (upto 0 n) = 2 ^ m - 1) by (unfold zlen; rewrite upto_length; unfold n; lia).
  destruct (w_sort_array Z Z.compare [] (upto 0 n) [] 0 (upto_ascending n 0)) as (d & E). rewrite !app_nil_r in E. cbn [app] in E.
  specialize (H (upto 0 n) _ _ _ E). rewrite L in H. replace (2 ^ m - 1 + 1) with (2 ^ m) in H by lia.
  rewrite Z.log2_up_pow2 in H by lia.
  assert (k * 2 ^ m * m <= Z.max k 0 * 2 ^ m * m); [|lia].
  apply Z.mul_le_mono_nonneg_r; [lia|]. apply Z.mul_le_mono_nonneg_r; lia.
Qed.
Lemma cost_case : calls_bound (counting (fun a b : Z => Is (Z.compare a b))) (fun n => n) /\
  strictly_ascending Z.compare [1; 2; 5; 8] /\
  tsort_array Z Z (counting (fun a b => Is (Z.compare a b))) [1; 2; 5; 8] 0 0 4 = Ok ([1; 2; 5; 8], 12, Some 1%nat) /\
  tsort_array Z Z (counting (fun a b => Is (Z.compare a b))) [5; 1; 8; 2] 0 0 4 = Ok ([1; 2; 5; 8], 8, Some 2%nat).
Proof. split; [apply counting_bound|]. split; [repeat constructor|]. split; reflexivity. Qed.
Lemma moody_calm : stays_calm moody (fun n => n <= 4) /\ ~ (fun n => n <= 4) 5.
Proof.
  split; [|lia]. intros n x y H. unfold moody. cbn [fst snd]. destruct (Z.eqb_spec n 4); [congruence|]. lia.
Qed.
