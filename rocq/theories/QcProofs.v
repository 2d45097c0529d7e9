From Coq Require Import ZifyBool ZifyNat.
From Verif Require Import Base BaseFacts LstProofs SrtProofs QsModel QsSpec QsProofs QstModel QstSpec QstProofs QcModel QcSpec.
Open Scope Z_scope.

Section Any.
  Variable T St : Type.
  Variable orderer : St -> T -> T -> St * answer.
  Variable construct : St -> T -> St * bool.
  Variable assign : St -> T -> T -> St * bool.
  Variable torn : T -> T -> T.
  Variable calm : St -> Prop.
  Hypothesis Hcalm : stays_calm orderer calm.
  Hypothesis Hcopy : copies_calm construct assign calm.
  Notation cswap := (cswap T St construct assign torn).
  Notation trouble := (trouble orderer construct assign).

  Definition good {X} (pre seg post : list T) (s : St) (P : X -> Prop) (r : run T St X) : Prop :=
    exists seg' s' o, r = Ok (pre ++ seg' ++ post, s', o) /\
      match o with Some x => Permutation seg seg' /\ (calm s -> calm s') /\ P x | None => wreck torn seg seg' /\ trouble seg end.

  Lemma trouble_perm a b : Permutation a b -> trouble a -> trouble b.
  Proof.
    intros H [K|[(s & x & I & E)|(s & x & y & I & J & E)]].
    - left. destruct K as (s & x & y & Hx & Hy & C). exists s, x, y. repeat split; auto; eapply Permutation_in; eauto.
    - right. left. exists s, x. split; auto. eapply Permutation_in; eauto.
    - right. right. exists s, x, y. repeat split; auto; eapply Permutation_in; eauto.
  Qed.
  Lemma wreck_perm a b c : Permutation a b -> wreck torn b c -> wreck torn a c.
  Proof.
    intros H [K|(x & y & rest & z & A & B & C)]; [left; etransitivity; eauto|]. right. exists x, y, rest, z. split; [etransitivity; eauto|auto].
  Qed.
  Lemma good_call {X} pre seg seg1 post s s' (P : X -> Prop) r :
    Permutation seg seg1 -> (calm s -> calm s') -> good pre seg1 post s' P r -> good pre seg post s P r.
  Proof.
    intros Hp Hc (seg' & s'' & o & E & O). exists seg', s'', o. split; [exact E|]. destruct o.
    - destruct O as (P1 & O1 & O2). split; [etransitivity; eauto|]. split; auto.
    - destruct O as [W R]. split; [eapply wreck_perm; eauto|]. eapply trouble_perm; [symmetry; exact Hp|exact R].
  Qed.
  Lemma good_stop {X} pre seg post s s' (P : X -> Prop) : trouble seg -> good pre seg post s P (Ok (pre ++ seg ++ post, s', None)).
  Proof. intros. exists seg, s', None. split; [reflexivity|]. split; auto. left. reflexivity. Qed.
  Lemma good_weaken {X} pre seg post s (P Q : X -> Prop) r : (forall x, P x -> Q x) -> good pre seg post s P r -> good pre seg post s Q r.
  Proof. intros I (seg' & s' & o & E & O). exists seg', s', o. split; [exact E|]. destruct o; auto. destruct O as (? & ? & ?). auto. Qed.
  Lemma good_bind {X Y} pre seg post s (P : X -> Prop) (Q : Y -> Prop) r (g : list T -> St -> X -> run T St Y) :
    good pre seg post s P r ->
    (forall seg' s' x, Permutation seg seg' -> P x -> good pre seg' post s' Q (g (pre ++ seg' ++ post) s' x)) ->
    good pre seg post s Q (andthen r g).
  Proof.
    intros (seg' & s' & o & E & O) G. subst r. unfold andthen. destruct o as [x|].
    - destruct O as (Pm & O1 & O2). eapply good_call; [exact Pm|exact O1|]. now apply G.
    - exists seg', s', None. auto.
  Qed.
  Lemma good_ret {X} pre seg post s (P : X -> Prop) x : P x -> good pre seg post s P (Ok (pre ++ seg ++ post, s, Some x)).
  Proof. intros. exists seg, s, (Some x). split; [reflexivity|]. split; [reflexivity|]. auto. Qed.

  Lemma aset_mid (l1 l2 : list T) x i z : i = zlen l1 -> aset (l1 ++ x :: l2) i z = Ok (l1 ++ z :: l2).
  Proof. intros ->. apply aset_app. reflexivity. Qed.
  Lemma cswap_good pre seg post s i j : 0 <= i < zlen seg -> 0 <= j < zlen seg -> i <> j ->
    good pre seg post s (fun _ => True) (cswap (pre ++ seg ++ post) s (zlen pre + i) (zlen pre + j)).
  Proof.
    intros Hi Hj N. destruct (get_seg T pre seg post i Hi) as (x & Ex & Ix). destruct (get_seg T pre seg post j Hj) as (y & Ey & Iy).
    unfold QcModel.cswap. rewrite Ex, Ey. cbn [bind].
    pose proof (proj1 Hcopy s x) as C1. destruct (construct s x) as [s1 b1] eqn:E1. cbn [fst snd] in C1.
    destruct b1.
    { apply good_stop. right. left. exists s, x. split; auto. now rewrite E1. }
    pose proof (proj2 Hcopy s1 x y) as C2. destruct (assign s1 x y) as [s2 b2] eqn:E2. cbn [fst snd] in C2.
    (* the two positions *)
    assert (exists f : T -> T -> list T, f x y = seg /\ (forall u v, Permutation (f u v) (f v u)) /\ (exists rest, forall u v, Permutation (f u v) (u :: v :: rest)) /\
      (forall u v z, aset (pre ++ f u v ++ post) (zlen pre + i) z = Ok (pre ++ f z v ++ post)) /\
      (forall u v z, aset (pre ++ f u v ++ post) (zlen pre + j) z = Ok (pre ++ f u z ++ post))) as (f & Fx & Fp & (rest & Fr) & Fi & Fj).
    { destruct (Z.lt_ge_cases i j).
      - destruct (two_split T seg i j) as (l1 & x0 & l2 & y0 & l3 & E & Ei & Ej); try lia. subst seg.
        assert (x0 = x) as ->.
        { replace (pre ++ (l1 ++ x0 :: l2 ++ y0 :: l3) ++ post) with ((pre ++ l1) ++ x0 :: l2 ++ y0 :: l3 ++ post) in Ex by lst.
          rewrite aget_app in Ex by (rewrite zlen_app; lia). congruence. }
        assert (y0 = y) as ->.
        { replace (pre ++ (l1 ++ x :: l2 ++ y0 :: l3) ++ post) with ((pre ++ l1 ++ x :: l2) ++ y0 :: l3 ++ post) in Ey by lst.
          rewrite aget_app in Ey by (rewrite !zlen_app, zlen_cons; lia). congruence. }
        exists (fun u v => l1 ++ u :: l2 ++ v :: l3). split; [reflexivity|].
        assert (forall u v, Permutation (l1 ++ u :: l2 ++ v :: l3) (u :: v :: l1 ++ l2 ++ l3)) as Pq.
        { intros u v. symmetry. apply Permutation_cons_app. rewrite (app_assoc l1 l2 (v :: l3)). apply Permutation_cons_app.
          now rewrite <- app_assoc. } 
        split; [intros u v; rewrite (Pq u v), (Pq v u); apply perm_swap|]. split; [eexists; exact Pq|]. split; intros u v z.
        + replace (pre ++ (l1 ++ u :: l2 ++ v :: l3) ++ post) with ((pre ++ l1) ++ u :: l2 ++ v :: l3 ++ post) by lst.
          rewrite aset_mid by (rewrite zlen_app; lia). f_equal. lst.
        + replace (pre ++ (l1 ++ u :: l2 ++ v :: l3) ++ post) with ((pre ++ l1 ++ u :: l2) ++ v :: l3 ++ post) by lst.
          rewrite aset_mid by (rewrite !zlen_app, zlen_cons; lia). f_equal. lst.
      - destruct (two_split T seg j i) as (l1 & y0 & l2 & x0 & l3 & E & Ej & Ei); try lia. subst seg.
        assert (y0 = y) as ->.
        { replace (pre ++ (l1 ++ y0 :: l2 ++ x0 :: l3) ++ post) with ((pre ++ l1) ++ y0 :: l2 ++ x0 :: l3 ++ post) in Ey by lst.
          rewrite aget_app in Ey by (rewrite zlen_app; lia). congruence. }
        assert (x0 = x) as ->.
        { replace (pre ++ (l1 ++ y :: l2 ++ x0 :: l3) ++ post) with ((pre ++ l1 ++ y :: l2) ++ x0 :: l3 ++ post) in Ex by lst.
          rewrite aget_app in Ex by (rewrite !zlen_app, zlen_cons; lia). congruence. }
        exists (fun u v => l1 ++ v :: l2 ++ u :: l3). split; [reflexivity|].
        assert (forall u v, Permutation (l1 ++ v :: l2 ++ u :: l3) (u :: v :: l1 ++ l2 ++ l3)) as Pq.
        { intros u v. rewrite perm_swap. symmetry. apply Permutation_cons_app. rewrite (app_assoc l1 l2 (u :: l3)). apply Permutation_cons_app.
          now rewrite <- app_assoc. }
        split; [intros u v; rewrite (Pq u v), (Pq v u); apply perm_swap|]. split; [eexists; exact Pq|]. split; intros u v z.
        + replace (pre ++ (l1 ++ v :: l2 ++ u :: l3) ++ post) with ((pre ++ l1 ++ v :: l2) ++ u :: l3 ++ post) by lst.
          rewrite aset_mid by (rewrite !zlen_app, zlen_cons; lia). f_equal. lst.
        + replace (pre ++ (l1 ++ v :: l2 ++ u :: l3) ++ post) with ((pre ++ l1) ++ v :: l2 ++ u :: l3 ++ post) by lst.
          rewrite aset_mid by (rewrite zlen_app; lia). f_equal. lst. }
    subst seg. destruct b2.
    { rewrite Fi. cbn [bind]. exists (f (torn x y) y), s2, None. split; [reflexivity|]. split.
      - right. exists x, y, rest, (torn x y). auto.
      - right. right. exists s1, x, y. split; [exact Ix|]. split; [exact Iy|]. now rewrite E2. }
    rewrite Fi. cbn [bind]. pose proof (proj2 Hcopy s2 y x) as C3. destruct (assign s2 y x) as [s3 b3] eqn:E3. cbn [fst snd] in C3.
    rewrite !Fj. cbn [bind]. destruct b3.
    - exists (f y (torn y x)), s3, None. split; [reflexivity|]. split.
      + right. exists x, y, rest, (torn y x). split; [apply Fr|]. split; [|auto]. rewrite Fr. apply perm_swap.
      + right. right. exists s2, y, x. split; [exact Iy|]. split; [exact Ix|]. now rewrite E3.
    - exists (f y x), s3, (Some tt). split; [reflexivity|]. split; [apply Fp|]. split; auto.
  Qed.

  Lemma cphase1_good pre post : forall fuel seg s pivot left right (flag : bool),
    0 <= left -> 0 <= right -> left + right + 1 <= zlen seg -> pivot = (if flag then zlen seg - right - 1 else left) ->
    (Z.to_nat (zlen seg - left - right - 1) < fuel)%nat ->
    good pre seg post s (fun '(p, l, r) => p = l /\ 0 <= l /\ 0 <= r /\ l + r + 1 = zlen seg)
      (cphase1 T St orderer construct assign torn (pre ++ seg ++ post) s (zlen pre) (zlen seg) pivot left right flag fuel).
  Proof.
    induction fuel as [|fuel IH]; intros seg s pivot left right flag Hl Hr Hlen Hp Hfu; [lia|]. cbn [cphase1]. cbv zeta.
    destruct (left + right + 1 =? zlen seg) eqn:E0.
    - apply good_ret. destruct flag; lia.
    - set (cand := if flag then left else zlen seg - right - 1).
      assert (Hc : 0 <= cand < zlen seg) by (unfold cand; destruct flag; lia).
      assert (Hpv : 0 <= pivot < zlen seg) by (destruct flag; lia).
      assert (Hn : pivot <> cand) by (unfold cand; destruct flag; lia).
      destruct (get_seg T pre seg post pivot Hpv) as (x & Ex & Ix). destruct (get_seg T pre seg post cand Hc) as (y & Ey & Iy).
      rewrite Ex, Ey. cbn [bind]. pose proof (Hcalm s x y) as HC. destruct (orderer s x y) as [s' ans] eqn:Eo. cbn [fst snd] in HC.
      assert (Bad : (forall c, ans <> Is c) -> trouble seg).
      { intros B. left. exists s, x, y. repeat split; auto. rewrite Eo. exact B. }
      destruct ans as [o| |]; [|apply good_stop, Bad; congruence|apply good_stop, Bad; congruence].
      match goal with |- context [if ?b then _ else _] => destruct b end.
      + eapply good_call; [reflexivity|intros Hcs; apply HC; [exact Hcs|congruence]|]. apply IH; destruct flag; try lia; auto.
      + eapply good_call; [reflexivity|intros Hcs; apply HC; [exact Hcs|congruence]|].
        eapply good_bind; [apply cswap_good; auto|]. intros seg1 s1 _ Ps _. pose proof (perm_zlen T _ _ Ps) as HL. rewrite HL.
        eapply good_weaken; [|apply IH]; unfold cand; destruct flag; cbn [negb]; try lia; auto.
  Qed.
  Lemma cphase2_good pre post pivot : forall n seg s reading writing,
    reading = Z.of_nat n - 1 -> reading <= writing -> writing < pivot -> pivot < zlen seg ->
    good pre seg post s (fun l => 0 <= l <= writing + 1)
      (cphase2 T St orderer construct assign torn (pre ++ seg ++ post) s (zlen pre) pivot reading writing n).
  Proof.
    induction n as [|n IH]; intros seg s reading writing Hr Hw Hp Hl; cbn [cphase2].
    - apply good_ret. lia.
    - destruct (get_seg T pre seg post pivot) as (x & Ex & Ix); [lia|]. destruct (get_seg T pre seg post reading) as (y & Ey & Iy); [lia|].
      rewrite Ex, Ey. cbn [bind]. pose proof (Hcalm s x y) as HC. destruct (orderer s x y) as [s' ans] eqn:Eo. cbn [fst snd] in HC.
      assert (Bad : (forall c, ans <> Is c) -> trouble seg).
      { intros B. left. exists s, x, y. repeat split; auto. rewrite Eo. exact B. }
      destruct ans as [[| |]| |]; try (apply good_stop, Bad; congruence).
      2,3: eapply good_call; [reflexivity|intros Hcs; apply HC; [exact Hcs|congruence]|]; apply IH; lia.
      eapply good_call; [reflexivity|intros Hcs; apply HC; [exact Hcs|congruence]|].
      apply (good_bind pre seg post s' (fun _ => True)).
      + destruct (Z.eqb_spec reading writing) as [E|N]; cbn [negb]; [now apply good_ret|]. apply cswap_good; lia.
      + intros seg1 s1 _ Ps _. pose proof (perm_zlen T _ _ Ps) as HL. eapply good_weaken; [|apply IH]; try lia. cbv beta. lia.
  Qed.
  Lemma cphase3_good pre post pivot : forall n seg s reading writing,
    reading = zlen seg - Z.of_nat n -> pivot < writing -> writing <= reading -> 0 <= pivot ->
    good pre seg post s (fun r => 0 <= r <= zlen seg - writing)
      (cphase3 T St orderer construct assign torn (pre ++ seg ++ post) s (zlen pre) (zlen seg) pivot reading writing n).
  Proof.
    induction n as [|n IH]; intros seg s reading writing Hr Hw Hp Hl; cbn [cphase3].
    - apply good_ret. lia.
    - destruct (get_seg T pre seg post pivot) as (x & Ex & Ix); [lia|]. destruct (get_seg T pre seg post reading) as (y & Ey & Iy); [lia|].
      rewrite Ex, Ey. cbn [bind]. pose proof (Hcalm s x y) as HC. destruct (orderer s x y) as [s' ans] eqn:Eo. cbn [fst snd] in HC.
      assert (Bad : (forall c, ans <> Is c) -> trouble seg).
      { intros B. left. exists s, x, y. repeat split; auto. rewrite Eo. exact B. }
      destruct ans as [[| |]| |]; try (apply good_stop, Bad; congruence).
      2,3,4: eapply good_call; [reflexivity|intros Hcs; apply HC; [exact Hcs|congruence]|]; apply IH; lia.
      eapply good_call; [reflexivity|intros Hcs; apply HC; [exact Hcs|congruence]|].
      apply (good_bind pre seg post s' (fun _ => True)).
      + destruct (Z.eqb_spec reading writing) as [E|N]; cbn [negb]; [now apply good_ret|]. apply cswap_good; lia.
      + intros seg1 s1 _ Ps _. pose proof (perm_zlen T _ _ Ps) as HL. rewrite HL. eapply good_weaken; [|apply IH]; try lia. cbv beta. lia.
  Qed.
  Lemma cpartition_good pre seg post s : 0 < zlen seg ->
    good pre seg post s (fun '(l, r) => 0 <= l /\ 0 <= r /\ l + r + 1 <= zlen seg)
      (cpartition T St orderer construct assign torn (pre ++ seg ++ post) s (zlen pre) (zlen seg)).
  Proof.
    intros Hl. unfold cpartition.
    eapply good_bind; [apply cphase1_good; lia|]. intros seg1 s1 [[p l] r] P1 (Ep & Hl0 & Hr0 & Hlr). cbn beta iota.
    pose proof (perm_zlen T _ _ P1) as L1. rewrite L1.
    eapply good_bind; [apply cphase2_good; lia|]. intros seg2 s2 l2 P2 Hl2. cbv beta in Hl2.
    pose proof (perm_zlen T _ _ P2) as L2. rewrite L2.
    eapply good_bind; [apply cphase3_good; lia|]. intros seg3 s3 r3 P3 Hr3. cbv beta in Hr3. apply good_ret. lia.
  Qed.
  Lemma good_sub {X} pre l m r post s (P : X -> Prop) run :
    good (pre ++ l) m (r ++ post) s P run -> good pre (l ++ m ++ r) post s P run.
  Proof.
    intros (seg' & s' & o & E & O). exists (l ++ seg' ++ r), s', o.
    split; [rewrite E; replace (pre ++ (l ++ seg' ++ r) ++ post) with ((pre ++ l) ++ seg' ++ r ++ post) by lst; reflexivity|].
    assert (forall z, In z m -> In z (l ++ m ++ r)) as IM by (intros z I; apply in_or_app; right; apply in_or_app; now left).
    destruct o.
    - destruct O as (Pm & O). split; [now apply Permutation_app_head, Permutation_app_tail|exact O].
    - destruct O as [W R]. split.
      + destruct W as [W|(x & y & rest & z & A & B & C)]; [left; now apply Permutation_app_head, Permutation_app_tail|].
        right. exists x, y, (l ++ rest ++ r), z.
        assert (forall q1 q2, Permutation (l ++ (q1 :: q2 :: rest) ++ r) (q1 :: q2 :: l ++ rest ++ r)) as Pq.
        { intros q1 q2. symmetry. cbn [app]. apply Permutation_cons_app, Permutation_cons_app. reflexivity. }
        rewrite A, B, !Pq. auto.
      + destruct R as [K|[(q & x & I & F)|(q & x & y & I & J & F)]].
        * left. destruct K as (q & x & y & Hx & Hy & C). exists q, x, y. repeat split; auto.
        * right. left. exists q, x. auto.
        * right. right. exists q, x, y. auto.
  Qed.
  Lemma csort_good : forall fuel pre seg post s, (length seg < fuel)%nat ->
    good pre seg post s (fun d => 2 ^ Z.of_nat d <= zlen seg + 1)
      (csort T St orderer construct assign torn (pre ++ seg ++ post) s (zlen pre) (zlen seg) fuel).
  Proof.
    induction fuel as [|fuel IH]; intros pre seg post s Hl; [lia|]. cbn [csort]. pose proof (zlen_nonneg seg) as Z0.
    destruct (zlen seg =? 0) eqn:E0.
    - apply good_ret. replace (zlen seg) with 0 by lia. change (2 ^ Z.of_nat 0) with 1. lia.
    - eapply good_bind; [apply cpartition_good; lia|]. intros seg1 s1 [l r] P1 (Hl0 & Hr0 & Hlr). cbn beta iota.
      pose proof (perm_zlen T _ _ P1) as L1. rewrite L1 in *.
      assert (Sub : forall seg2 s2 b n, zlen seg2 = zlen seg1 -> 0 <= b -> 0 <= n -> b + n <= zlen seg1 -> n < zlen seg1 ->
        good pre seg2 post s2 (fun d => 2 ^ Z.of_nat d <= n + 1)
          (csort T St orderer construct assign torn (pre ++ seg2 ++ post) s2 (zlen pre + b) n fuel)).
      { intros seg2 s2 b n Hz Hb Hn Hbn Hnn. destruct (zsplit seg2 b) as (u & v & E & Lu & _); [lia|].
        subst seg2. rewrite zlen_app in Hz. destruct (zsplit v n) as (w & v' & E & Lw & _); [lia|]. subst v.
        apply good_sub. replace (pre ++ (u ++ w ++ v') ++ post) with ((pre ++ u) ++ w ++ v' ++ post) by lst.
        rewrite <- Lw. replace (zlen pre + b) with (zlen (pre ++ u)) by (rewrite zlen_app; lia). apply IH.
        unfold zlen in *. lia. }
      destruct (l <? r) eqn:Elr.
      + eapply good_bind; [replace (zlen pre) with (zlen pre + 0) by lia; apply Sub; lia|]. intros seg2 s2 d1 P2 Hd1.
        pose proof (perm_zlen T _ _ P2). eapply good_bind; [apply Sub; lia|]. intros seg3 s3 d2 P3 Hd2.
        apply good_ret. cbv beta in *.
        destruct (Nat.max_spec (S d1) d2) as [[_ ->]|[_ ->]]; [lia|]. rewrite Nat2Z.inj_succ, Z.pow_succ_r by lia. lia.
      + eapply good_bind; [apply Sub; lia|]. intros seg2 s2 d1 P2 Hd1.
        pose proof (perm_zlen T _ _ P2). eapply good_bind; [replace (zlen pre) with (zlen pre + 0) by lia; apply Sub; lia|]. intros seg3 s3 d2 P3 Hd2.
        apply good_ret. cbv beta in *.
        destruct (Nat.max_spec (S d1) d2) as [[_ ->]|[_ ->]]; [lia|]. rewrite Nat2Z.inj_succ, Z.pow_succ_r by lia. lia.
  Qed.
  Lemma csort_any pre seg post s : exists seg' s' o,
    csort_array T St orderer construct assign torn (pre ++ seg ++ post) s (zlen pre) (zlen seg) = Ok (pre ++ seg' ++ post, s', o) /\
    match o with Some d => Permutation seg seg' /\ (calm s -> calm s') /\ 2 ^ Z.of_nat d <= zlen seg + 1 | None => wreck torn seg seg' /\ trouble seg end.
  Proof. apply csort_good. rewrite zlen_to_nat. lia. Qed.
End Any.

Lemma csort_ok T St orderer construct assign torn (pre seg post : list T) (s : St) : exists seg' s' o,
  csort_array T St orderer construct assign torn (pre ++ seg ++ post) s (zlen pre) (zlen seg) = Ok (pre ++ seg' ++ post, s', o) /\
  match o with
  | Some d => Permutation seg seg' /\ 2 ^ Z.of_nat d <= zlen seg + 1
  | None => wreck torn seg seg' /\ trouble orderer construct assign seg
  end.
Proof.
  destruct (csort_any T St orderer construct assign torn (fun _ => True) ltac:(intros ? ? ? ? ?; exact I) ltac:(split; intros; exact I) pre seg post s)
    as (seg' & s' & o & E & O). exists seg', s', o. split; [exact E|]. destruct o; [tauto|exact O].
Qed.
Lemma csort_calm T St orderer construct assign torn calm : stays_calm orderer calm -> copies_calm construct assign calm ->
  forall (pre seg post : list T) (s : St) a s' d, calm s ->
  csort_array T St orderer construct assign torn (pre ++ seg ++ post) s (zlen pre) (zlen seg) = Ok (a, s', Some d) -> calm s'.
Proof.
  intros B1 B2 pre seg post s a s' d Hc E.
  destruct (csort_any T St orderer construct assign torn calm B1 B2 pre seg post s) as (seg' & s1 & o & E1 & O).
  rewrite E1 in E. assert (o = Some d) by congruence. assert (s1 = s') by congruence. subst. now apply O.
Qed.

(* ---- agreement with QstModel ---- *)
Section Agree.
  Variable T St : Type.
  Variable orderer : St -> T -> T -> St * answer.
  Variable torn : T -> T -> T.
  Notation pc := (@plain_construct T St).
  Notation pa := (@plain_assign T St).
  Lemma cswap_plain a s i j : cswap T St pc pa torn a s i j = (do a <- swap T a i j; Ok (a, s, Some tt)).
  Proof.
    unfold cswap, swap, plain_construct, plain_assign. destruct (aget a i) as [x| | |]; try reflexivity. cbn [bind].
    destruct (aget a j) as [y| | |]; try reflexivity. cbn [bind]. destruct (aset a i y); try reflexivity. 
  Qed.
  Lemma cphase1_plain fuel : forall a s base len pivot l r flag,
    cphase1 T St orderer pc pa torn a s base len pivot l r flag fuel = tphase1 T St orderer a s base len pivot l r flag fuel.
  Proof.
    induction fuel as [|fuel IH]; intros; [reflexivity|]. cbn [cphase1 tphase1]. cbv zeta. destruct (l + r + 1 =? len); [reflexivity|].
    destruct (aget a (base + pivot)) as [x| | |]; try reflexivity. cbn [bind].
    destruct (aget a _) as [y| | |]; try reflexivity. cbn [bind]. destruct (orderer s x y) as [s' [o| |]]; try reflexivity.
    match goal with |- context [if ?b then _ else _] => destruct b end; [apply IH|].
    rewrite cswap_plain. destruct (swap T a _ _) as [a'| | |]; try reflexivity. cbn [bind andthen]. apply IH.
  Qed.
  Lemma cphase2_plain n : forall a s base pivot rd wr,
    cphase2 T St orderer pc pa torn a s base pivot rd wr n = tphase2 T St orderer a s base pivot rd wr n.
  Proof.
    induction n as [|n IH]; intros; [reflexivity|]. cbn [cphase2 tphase2].
    destruct (aget a (base + pivot)) as [x| | |]; try reflexivity. cbn [bind].
    destruct (aget a _) as [y| | |]; try reflexivity. cbn [bind]. destruct (orderer s x y) as [s' [[| |]| |]]; try reflexivity; try apply IH.
    destruct (negb (rd =? wr)); [|cbn [bind andthen]; apply IH].
    rewrite cswap_plain. destruct (swap T a _ _) as [a'| | |]; try reflexivity. cbn [bind andthen]. apply IH.
  Qed.
  Lemma cphase3_plain n : forall a s base len pivot rd wr,
    cphase3 T St orderer pc pa torn a s base len pivot rd wr n = tphase3 T St orderer a s base len pivot rd wr n.
  Proof.
    induction n as [|n IH]; intros; [reflexivity|]. cbn [cphase3 tphase3].
    destruct (aget a (base + pivot)) as [x| | |]; try reflexivity. cbn [bind].
    destruct (aget a _) as [y| | |]; try reflexivity. cbn [bind]. destruct (orderer s x y) as [s' [[| |]| |]]; try reflexivity; try apply IH.
    destruct (negb (rd =? wr)); [|cbn [bind andthen]; apply IH].
    rewrite cswap_plain. destruct (swap T a _ _) as [a'| | |]; try reflexivity. cbn [bind andthen]. apply IH.
  Qed.
  Lemma andthen_ext {X Y} (r : run T St X) (f g : list T -> St -> X -> run T St Y) : (forall a s x, f a s x = g a s x) -> andthen r f = andthen r g.
  Proof. intros H. unfold andthen. destruct r as [[[a s] [x|]]| | |]; auto. Qed.
  Lemma csort_plain fuel : forall a s base len,
    csort T St orderer pc pa torn a s base len fuel = tsort T St orderer a s base len fuel.
  Proof.
    induction fuel as [|fuel IH]; intros; [reflexivity|]. cbn [csort tsort]. destruct (len =? 0); [reflexivity|].
    assert (cpartition T St orderer pc pa torn a s base len = tpartition T St orderer a s base len) as ->.
    { unfold cpartition, tpartition. rewrite cphase1_plain. apply andthen_ext. intros a1 s1 [[p l] r].
      rewrite cphase2_plain. apply andthen_ext. intros. rewrite cphase3_plain. reflexivity. }
    apply andthen_ext. intros a1 s1 [l r]. destruct (l <? r); rewrite IH; apply andthen_ext; intros; rewrite IH; reflexivity.
  Qed.
  Lemma csort_array_plain a s base len : csort_array T St orderer pc pa torn a s base len = tsort_array T St orderer a s base len.
  Proof. apply csort_plain. Qed.
End Agree.

(* ---- an element is lost ---- *)
Lemma lost_second T (c : T -> T -> comparison) (torn : T -> T -> T) x y : c x y = Gt ->
  csort_array T nat (by_comparison c) (nth_construct 2) (nth_assign 2) torn [x; y] 0%nat 0 2 = Ok ([y; torn y x], 3%nat, None).
Proof.
  intros H. unfold csort_array. change (Z.to_nat 2 + 1)%nat with 3%nat. cbn [csort]. change (2 =? 0) with false. cbv iota.
  unfold cpartition. change (Z.to_nat 2) with 2%nat. cbn [cphase1]. cbv zeta.
  change (0 + 0 + 1 =? 2) with false. cbv iota. change (0 + 0) with 0. change (2 - 0 - 1) with 1. change (0 + 1) with 1.
  change (aget [x; y] 0) with (@Ok T x). change (aget [x; y] 1) with (@Ok T y). cbn [bind]. unfold by_comparison. rewrite H. cbn [negb andb orb].
  unfold cswap. change (aget [x; y] 0) with (@Ok T x). change (aget [x; y] 1) with (@Ok T y). cbn [bind]. unfold nth_construct, nth_assign. cbn [Nat.eqb].
  change (aset [x; y] 0 y) with (@Ok (list T) [y; y]). cbn [bind]. change (aset [y; y] 1 (torn y x)) with (@Ok (list T) [y; torn y x]). reflexivity.
Qed.
Lemma nth_calm : copies_calm (T:=Z) (nth_construct 4) (nth_assign 4) (fun n => n <> 5%nat) /\ stays_calm (by_comparison Z.compare) (fun n => n <> 5%nat).
Proof.
  split; [split|]; unfold nth_construct, nth_assign; cbn [fst snd].
  - intros s _ _ H ->%eq_add_S. discriminate.
  - intros s _ _ _ H ->%eq_add_S. discriminate.
  - intros s x y H _. exact H.
Qed.
