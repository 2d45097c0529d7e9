From Coq Require Import ZifyBool ZifyNat.
From Verif Require Import Base BaseFacts PoaModel PoaProofs BomModel BomSpec.
Open Scope Z_scope.

(* Every node belongs to one map, depth and prefix. *)
Definition label := ptr -> option (nat * nat * Z).
Definition good (lab : label) (m d : nat) (pre : Z) (x : word) : Prop :=
  match d with
  | O => x = Null \/ exists v, x = Obj v
  | S _ => x = Null \/ exists p, x = Node p /\ lab p = Some (m, d, pre)
  end.
Record binv (w : bom) (lab : label) : Prop := mkBinv {
  b_a : ainv (bheap w) (bal w);
  b_l : forall p t, lab p = Some t -> exists i, 0 <= i < allocated (bal w) /\ addr (bal w) i p;
  b_n : forall p m d pre, lab p = Some (m, d, pre) -> exists d', d = S d' /\ exists n, load (bheap w) p = Ok n /\ zlen n = 4 /\
        forall j, 0 <= j < 4 -> exists x, aget n j = Ok x /\ good lab m d' (pre * 4 + j) x;
  b_r : forall m x, nth_error (roots w) m = Some x -> good lab m 4 0 x }.
Inductive at_place (w : bom) (lab : label) : place -> nat -> nat -> Z -> Prop :=
| at_root : forall m, (m < length (roots w))%nat -> at_place w lab (Root m) m 4 0
| at_slot : forall p j m d pre, lab p = Some (m, S d, pre) -> 0 <= j < 4 -> at_place w lab (Slot p j) m d (pre * 4 + j).
Lemma at_fun w w' lab r m d pre m' d' pre' : at_place w lab r m d pre -> at_place w' lab r m' d' pre' -> m = m' /\ d = d' /\ pre = pre'.
Proof. intros H K. destruct H; inversion K; subst; auto. assert (Some (m, S d, pre) = Some (m', S d', pre0)) as X by congruence. inversion X; subst. auto. Qed.
Lemma peek_ok w lab r m d pre : binv w lab -> at_place w lab r m d pre -> exists x, peek w r = Ok x /\ good lab m d pre x.
Proof.
  intros B H. destruct H as [m H|p j m d pre H J]; cbn [peek].
  - destruct (nth_error (roots w) m) as [x|] eqn:E; [|apply nth_error_None in E; lia]. exists x. split; [auto|]. eapply b_r; eauto.
  - destruct (b_n _ _ B _ _ _ _ H) as (d' & X & n & L & _ & Q). inversion X; subst d'. rewrite L. cbn [bind]. auto.
Qed.
Lemma aget_aset {A} (n : list A) j x : 0 <= j < zlen n -> exists n', aset n j x = Ok n' /\ zlen n' = zlen n /\
  aget n' j = Ok x /\ (forall k, 0 <= k -> k <> j -> aget n' k = aget n k).
Proof.
  intros H. unfold aset. replace ((0 <=? j) && (j <? zlen n)) with true by lia. eexists. split; [reflexivity|].
  split; [unfold zlen; now rewrite upd_length|]. unfold aget. split.
  - rewrite znth_z by lia. rewrite upd_same by (unfold zlen in *; lia). reflexivity.
  - intros k K N. rewrite !znth_z by lia. rewrite upd_other by lia. reflexivity.
Qed.
(* writing one place changes that place only *)
Lemma poke_ok w lab r m d pre x : binv w lab -> at_place w lab r m d pre -> good lab m d pre x ->
  exists w', poke w r x = Ok w' /\ binv w' lab /\ length (roots w') = length (roots w) /\ peek w' r = Ok x /\
    bal w' = bal w /\
    (forall r' m' d' pre', at_place w lab r' m' d' pre' -> r' <> r -> peek w' r' = peek w r') /\
    (forall p, lab p = None -> load (bheap w') p = load (bheap w) p).
Proof.
  intros B H G. destruct H as [m H|p j m d pre H J]; cbn [poke].
  - destruct (nth_error (roots w) m) as [x0|] eqn:E; [|apply nth_error_None in E; lia].
    eexists. split; [reflexivity|]. split; [|split; [cbn; now rewrite upd_length|split; [cbn; now rewrite upd_same by auto|split; [reflexivity|split; [|reflexivity]]]]].
    + destruct B as [B1 B2 B3 B4]. constructor; cbn [bheap bal roots]; auto.
      intros m' x' E'. destruct (Nat.eq_dec m m') as [->|N].
      * rewrite upd_same in E' by auto. now inversion E'; subst.
      * rewrite upd_other in E' by auto. auto.
    + intros r' m' d' pre' A N. destruct A as [m' A|p j m' d pre A J]; cbn [peek bheap roots]; [|reflexivity].
      rewrite upd_other; [reflexivity|]. intros ->. auto.
  - destruct (b_n _ _ B _ _ _ _ H) as (d' & X & n & L & Ln & Q). inversion X; subst d'. rewrite L. cbn [bind].
    destruct (aget_aset n j x) as (n' & -> & Ln' & G1 & G2); [lia|]. cbn [bind].
    destruct (store_ok (bheap w) p n n' L) as (h & -> & S1 & S2 & S3 & S4). cbn [bind].
    eexists. split; [reflexivity|]. split; [|split; [reflexivity|split; [cbn [peek bheap]; rewrite S1; exact G1|split; [reflexivity|split]]]].
    + destruct B as [B1 B2 B3 B4]. constructor; cbn [bheap bal roots]; auto.
      * destruct B1 as [A1 A2 A3 A4]. constructor; auto. intros b Ib. destruct (A4 b Ib) as (c & Hc & Lc). destruct (S4 b c Hc) as (c' & Hc' & Lc'). exists c'. split; [auto|lia].
      * intros q m' d0 pre0 Hq. destruct (B3 _ _ _ _ Hq) as (d' & -> & nq & Lq & Lnq & Qq). exists d'. split; [auto|].
        assert (q = p \/ q <> p) as [->|N].
        { destruct q as [q1 q2], p as [p1 p2]. destruct (Nat.eq_dec q1 p1), (Z.eq_dec q2 p2); [left|right..]; congruence. }
        -- exists n'. split; [auto|]. split; [lia|]. intros k K. rewrite H in Hq. inversion Hq; subst.
           destruct (Z.eq_dec k j) as [->|Nk]; [exists x; auto|]. rewrite G2 by lia. auto.
        -- exists nq. rewrite S2 by auto. auto.
    + intros r' m' d' pre' A N. destruct A as [m' A|q k m' d' pre' A K]; cbn [peek bheap roots]; [reflexivity|].
      assert (q = p \/ q <> p) as [->|Nq].
      { destruct q as [q1 q2], p as [p1 p2]. destruct (Nat.eq_dec q1 p1), (Z.eq_dec q2 p2); [left|right..]; congruence. }
      * rewrite S1, L. cbn [bind]. apply G2; [lia|]. intros ->. auto.
      * rewrite S2 by auto. reflexivity.
    + intros q Hq. cbn [bheap]. apply S2. intros ->. congruence.
Qed.

Definition getp (w : bom) (d : nat) (r : place) (b : Z) : res word := do x <- peek w r; acc_get w d x b.
Lemma acc_get_node w d p b : acc_get w (S d) (Node p) b = getp w d (Slot p (fragment (S d) b)) b.
Proof.
  cbn [acc_get]. unfold getp. cbn [peek]. destruct (load (bheap w) p) as [n| | |]; cbn [bind]; auto.
  destruct (aget n _) as [x| | |]; cbn [bind]; auto. destruct x; destruct d; reflexivity.
Qed.
Lemma fragment_eq d b : 0 <= b -> fragment (S d) b = (b / 4 ^ Z.of_nat d) mod 4 /\
  (b / 4 ^ Z.of_nat (S d)) * 4 + fragment (S d) b = b / 4 ^ Z.of_nat d.
Proof.
  intros H. unfold fragment. replace (2 * (Z.of_nat (S d) - 1)) with (2 * Z.of_nat d) by lia.
  rewrite Z.shiftr_div_pow2 by lia. rewrite Z.pow_mul_r by lia. change (2 ^ 2) with 4. split; [reflexivity|].
  rewrite Nat2Z.inj_succ, Z.pow_succ_r by lia. rewrite (Z.mul_comm 4), <- Z.div_div by lia.
  pose proof (Z.div_mod (b / 4 ^ Z.of_nat d) 4). lia.
Qed.
Lemma slot_place w lab p m d b : lab p = Some (m, S d, b / 4 ^ Z.of_nat (S d)) -> 0 <= b ->
  at_place w lab (Slot p (fragment (S d) b)) m d (b / 4 ^ Z.of_nat d).
Proof.
  intros H P. destruct (fragment_eq d b P) as [F1 F2]. rewrite <- F2. apply at_slot; [auto|]. rewrite F1. apply Z.mod_pos_bound. lia.
Qed.
(* the final write *)
Lemma write_frame w w' lab r m b v : binv w lab -> at_place w lab r m 0 b -> 0 <= b -> poke w r v = Ok w' -> good lab m 0 b v ->
  forall d' r' m' b', 0 <= b' -> at_place w lab r' m' d' (b' / 4 ^ Z.of_nat d') -> (m' <> m \/ b' <> b) -> getp w' d' r' b' = getp w d' r' b'.
Proof.
  intros B A P K G. destruct (poke_ok _ _ _ _ _ _ v B A G) as (w1 & K1 & B1 & _ & P1 & _ & O & _). rewrite K in K1. inversion K1; subst w1.
  induction d' as [|d' IH]; intros r' m' b' Pb A' N.
  - unfold getp. rewrite (O _ _ _ _ A'); [reflexivity|]. intros ->. destruct (at_fun _ _ _ _ _ _ _ _ _ _ A A') as (X & _ & Y). rewrite Z.div_1_r in Y. lia.
  - unfold getp. rewrite (O _ _ _ _ A'). 2:{ intros ->. destruct (at_fun _ _ _ _ _ _ _ _ _ _ A A') as (_ & X & _). discriminate. }
    destruct (peek_ok w lab r' _ _ _ B A') as (x & -> & Gx). cbn [bind]. destruct Gx as [->|(p & -> & Lp)]; [reflexivity|].
    rewrite !acc_get_node. apply (IH _ m'); auto. apply slot_place; auto.
Qed.
(* hanging in a new node *)
Definition peqb (p q : ptr) : bool := Nat.eqb (fst p) (fst q) && (snd p =? snd q).
Lemma peqb_eq p q : peqb p q = true <-> p = q.
Proof. unfold peqb. destruct p, q. cbn [fst snd]. split; [intros H|intros [= -> ->]; lia]. f_equal; lia. Qed.
Definition ext (lab lab' : label) : Prop := forall p t, lab p = Some t -> lab' p = Some t.
Lemma at_ext w w' lab lab' r m d pre : ext lab lab' -> length (roots w') = length (roots w) -> at_place w lab r m d pre -> at_place w' lab' r m d pre.
Proof. intros E L H. destruct H; constructor; auto. lia. Qed.
Lemma good_ext lab lab' m d pre x : ext lab lab' -> good lab m d pre x -> good lab' m d pre x.
Proof. intros E. destruct d; cbn [good]; [auto|]. intros [->|(p & -> & H)]; [auto|right; eauto]. Qed.
Lemma hang_ok w lab r m d pre : binv w lab -> at_place w lab r m (S d) pre -> peek w r = Ok Null ->
  exists w' lab' p,
    (do (h, a, p) <- poa_create raw_node (bheap w) (bal w);
     match p with
     | None => UB
     | Some p =>
         do w <- poke (mkBom h a (roots w)) r (Node p);
         do h <- store (bheap w) p [Null; Null; Null; Null];
         Ok (mkBom h (bal w) (roots w))
     end) = Ok w' /\ binv w' lab' /\ ext lab lab' /\ length (roots w') = length (roots w) /\ peek w' r = Ok (Node p) /\ lab' p = Some (m, S d, pre) /\
    (forall r' m' d' pre', at_place w lab r' m' d' pre' -> r' <> r -> peek w' r' = peek w r') /\
    (forall j, 0 <= j < 4 -> peek w' (Slot p j) = Ok Null).
Proof.
  intros B A N.
  destruct (create_ok raw_node (bheap w) (bal w) (b_a _ _ B)) as (h1 & a1 & p & -> & A1 & BS & AL & AP & OLD & (x & HX) & _ & (c & Hc & Lc)).
  cbn [bind].
  assert (lab p = None) as FR.
  { destruct (lab p) as [t|] eqn:E; [|reflexivity]. destruct (b_l _ _ B _ _ E) as (i & Hi & Ai).
    pose proof (addr_inj h1 a1 i (allocated (bal w)) p A1 ltac:(lia) ltac:(lia) (OLD _ _ Ai) AP). lia. }
  assert (forall q v, load (bheap w) q = Ok v -> load h1 q = Ok v) as LD.
  { intros q v Hq. destruct HX as [->| ->]; auto using load_alloc. }
  set (w1 := mkBom h1 a1 (roots w)).
  assert (binv w1 lab) as B1.
  { constructor; cbn [bheap bal roots w1]; auto.
    - intros q t Hq. destruct (b_l _ _ B _ _ Hq) as (i & Hi & Ai). exists i. split; [lia|auto].
    - intros q m' d' pre' Hq. destruct (b_n _ _ B _ _ _ _ Hq) as (d0 & -> & n & Ln & Q). exists d0. split; [auto|]. exists n. auto.
    - apply B. }
  assert (at_place w1 lab r m (S d) pre) as A' by (apply (at_ext w w1 lab lab); auto; intros ? ? ?; auto).
  assert (forall r' m' d' pre', at_place w lab r' m' d' pre' -> peek w1 r' = peek w r') as P1.
  { intros r' m' d' pre' H. destruct H as [m' H|q j m' d' pre' H J]; cbn [peek w1 roots bheap]; [reflexivity|].
    destruct (b_n _ _ B _ _ _ _ H) as (d0 & _ & n & Ln & _). rewrite Ln, (LD _ _ Ln). reflexivity. }
  assert (exists n0, load h1 p = Ok n0) as [n0 L0].
  { unfold load. rewrite Hc. unfold aget. rewrite znth_z by lia. destruct (nth_error c (Z.to_nat (snd p))) eqn:E; [eauto|].
    apply nth_error_None in E. unfold zlen in Lc. lia. }
  (* poke: the new node is not yet labelled, so go through a label that has it *)
  set (lab' := fun q => if peqb q p then Some (m, S d, pre) else lab q).
  assert (ext lab lab') as E.
  { intros q t Hq. unfold lab'. destruct (peqb q p) eqn:Q; [|auto]. apply peqb_eq in Q. subst. congruence. }
  assert (lab' p = Some (m, S d, pre)) as LP by (unfold lab'; now replace (peqb p p) with true by (symmetry; now apply peqb_eq)).
  assert (forall q, q <> p -> lab' q = lab q) as LO.
  { intros q Nq. unfold lab'. destruct (peqb q p) eqn:Q; [|auto]. apply peqb_eq in Q. congruence. }
  assert (forall r' x', (forall m', r' = Root m' -> (m' < length (roots w))%nat) -> (forall q j, r' = Slot q j -> exists m' d' pre', lab q = Some (m', d', pre') /\ 0 <= j < 4) ->
    exists w2, poke w1 r' x' = Ok w2 /\ bal w2 = a1 /\ length (roots w2) = length (roots w) /\ peek w2 r' = Ok x' /\ ainv (bheap w2) a1 /\
      (forall r2 m2 d2 pre2, at_place w lab r2 m2 d2 pre2 -> r2 <> r' -> peek w2 r2 = peek w1 r2) /\
      (forall q, lab q = None -> load (bheap w2) q = load h1 q) /\
      (forall q n, lab q <> None -> load h1 q = Ok n -> exists n', load (bheap w2) q = Ok n' /\ zlen n' = zlen n)) as PK.
  { intros r' x' R1 R2. destruct r' as [m'|q j]; cbn [poke w1 roots bheap bal].
    - specialize (R1 _ eq_refl). destruct (nth_error (roots w) m') as [x0|] eqn:Er; [|apply nth_error_None in Er; lia].
      eexists. split; [reflexivity|]. cbn [bal roots bheap peek]. split; [auto|]. split; [apply upd_length|]. split; [now rewrite upd_same by auto|]. split; [auto|]. split; [|split; [auto|eauto]].
      intros r2 m2 d2 pre2 H2 N2. destruct H2; cbn [peek roots bheap w1]; [|auto]. rewrite upd_other; [auto|]. congruence.
    - destruct (R2 _ _ eq_refl) as (m' & d' & pre' & Lq & J).
      destruct (b_n _ _ B1 _ _ _ _ Lq) as (d0 & -> & n & Ln & Zn & _). cbn [bheap w1] in Ln. rewrite Ln. cbn [bind].
      destruct (aget_aset n j x') as (n' & -> & Zn' & G1 & G2); [lia|]. cbn [bind].
      destruct (store_ok h1 q n n' Ln) as (h & -> & S1 & S2 & S3 & S4). cbn [bind].
      eexists. split; [reflexivity|]. cbn [bal roots bheap peek]. split; [auto|]. split; [auto|]. split; [rewrite S1; exact G1|].
      split; [|split; [|split]].
      + destruct A1 as [X1 X2 X3 X4]. constructor; auto. intros b Ib. destruct (X4 b Ib) as (c0 & Hc0 & Lc0). destruct (S4 b c0 Hc0) as (c' & Hc' & Lc'). exists c'. split; [auto|lia].
      + intros r2 m2 d2 pre2 H2 N2. destruct H2 as [|q2 j2 m2 d2 pre2 H2 J2]; cbn [peek roots bheap w1]; [auto|].
        destruct (peqb q2 q) eqn:Q; [apply peqb_eq in Q; subst q2|].
        * rewrite S1, Ln. cbn [bind]. apply G2; [lia|]. congruence.
        * rewrite S2; [reflexivity|]. intros ->. rewrite (proj2 (peqb_eq q q) eq_refl) in Q. discriminate.
      + intros q2 Hq2. apply S2. intros ->. congruence.
      + intros q2 n2 _ L2. destruct (peqb q2 q) eqn:Q; [apply peqb_eq in Q; subst q2|].
        * exists n'. split; [auto|]. rewrite Ln in L2. inversion L2; subst. auto.
        * exists n2. split; [|auto]. rewrite S2; [auto|]. intros ->. rewrite (proj2 (peqb_eq q q) eq_refl) in Q. discriminate. }
  destruct (PK r (Node p)) as (w2 & -> & BA & LR & P2 & AI & O2 & U2 & V2).
  { intros m' ->. inversion A; subst. auto. }
  { intros q j ->. inversion A; subst. eauto 6. }
  cbn [bind].
  destruct (store_ok (bheap w2) p n0 [Null; Null; Null; Null]) as (h3 & -> & S1 & S2 & S3 & S4); [rewrite U2; auto|]. cbn [bind].
  exists (mkBom h3 (bal w2) (roots w2)), lab', p. split; [reflexivity|].
  assert (forall r2 m2 d2 pre2, at_place w lab r2 m2 d2 pre2 -> peek (mkBom h3 (bal w2) (roots w2)) r2 = peek w2 r2) as P3.
  { intros r2 m2 d2 pre2 H2. destruct H2; cbn [peek roots bheap]; [auto|]. rewrite S2; [auto|]. congruence. }
  assert (forall j, 0 <= j < 4 -> peek (mkBom h3 (bal w2) (roots w2)) (Slot p j) = Ok Null) as PN.
  { intros j J. cbn [peek bheap]. rewrite S1. cbn [bind]. assert (j = 0 \/ j = 1 \/ j = 2 \/ j = 3) as [->|[->|[->| ->]]] by lia; reflexivity. }
  split; [|split; [exact E|split; [exact LR|split; [rewrite (P3 _ _ _ _ A); exact P2|split; [exact LP|split; [|exact PN]]]]]].
  2:{ intros r' m' d' pre' H' N'. rewrite (P3 _ _ _ _ H'), (O2 _ _ _ _ H' N'), (P1 _ _ _ _ H'). reflexivity. }
  assert (forall r' m' d' pre' x', at_place w lab r' m' d' pre' -> peek (mkBom h3 (bal w2) (roots w2)) r' = Ok x' -> good lab' m' d' pre' x') as GD.
  { intros r' m' d' pre' x' H' Px. rewrite (P3 _ _ _ _ H') in Px.
    assert (r' = r \/ r' <> r) as [->|Nr].
    { destruct r' as [a|[qa qb] ja], r as [b|[pa pb] jb]; try (right; discriminate).
      - destruct (Nat.eq_dec a b); [left|right]; congruence.
      - destruct (Nat.eq_dec qa pa), (Z.eq_dec qb pb), (Z.eq_dec ja jb); try (right; congruence). left. congruence. }
    - destruct (at_fun _ _ _ _ _ _ _ _ _ _ A H') as (-> & <- & ->). rewrite P2 in Px. inversion Px; subst. cbn [good]. right. eauto.
    - rewrite (O2 _ _ _ _ H' Nr), (P1 _ _ _ _ H') in Px. destruct (peek_ok _ _ _ _ _ _ B H') as (y & Py & Gy). rewrite Py in Px. inversion Px; subst. eapply good_ext; eauto. }
  constructor; cbn [bheap bal roots].
  - rewrite BA. destruct AI as [X1 X2 X3 X4]. constructor; auto. intros b Ib. destruct (X4 b Ib) as (c0 & Hc0 & Lc0). destruct (S4 b c0 Hc0) as (c' & Hc' & Lc'). exists c'. split; [auto|lia].
  - rewrite BA. intros q t Hq. destruct (peqb q p) eqn:Q.
    + apply peqb_eq in Q. subst q. exists (allocated (bal w)). pose proof (ai_lo _ _ (b_a _ _ B)). split; [lia|exact AP].
    + assert (q <> p) as Nq by (intros ->; rewrite (proj2 (peqb_eq p p) eq_refl) in Q; discriminate). rewrite LO in Hq by auto.
      destruct (b_l _ _ B _ _ Hq) as (i & Hi & Ai). exists i. split; [lia|auto].
  - intros q m' d' pre' Hq. destruct (peqb q p) eqn:Q.
    + apply peqb_eq in Q. subst q. rewrite LP in Hq. inversion Hq; subst. exists d. split; [auto|]. eexists. split; [exact S1|]. split; [reflexivity|].
      intros j J. exists Null. split; [|destruct d; cbn; auto]. specialize (PN j J). cbn [peek bheap] in PN. rewrite S1 in PN. exact PN.
    + assert (q <> p) as Nq by (intros ->; rewrite (proj2 (peqb_eq p p) eq_refl) in Q; discriminate). rewrite LO in Hq by auto.
      destruct (b_n _ _ B _ _ _ _ Hq) as (d0 & -> & n & Ln & Zn & Qn). exists d0. split; [auto|].
      destruct (V2 q n ltac:(congruence) (LD _ _ Ln)) as (n' & Ln' & Zn'). exists n'. rewrite S2 by auto. split; [auto|]. split; [lia|].
      intros j J. assert (exists y, aget n' j = Ok y) as [y Hy].
      { unfold aget. rewrite znth_z by lia. destruct (nth_error n' (Z.to_nat j)) eqn:En; [eauto|]. apply nth_error_None in En. unfold zlen in *. lia. }
      exists y. split; [auto|]. apply (GD (Slot q j)); [constructor; auto|]. cbn [peek bheap]. rewrite S2 by auto. rewrite Ln'. cbn [bind]. exact Hy.
  - intros m' x' Er. apply (GD (Root m')); [constructor; rewrite <- LR; eapply nth_error_lt; eauto|]. cbn [peek roots]. now rewrite Er.
Qed.
Lemma hang_frame w lab w' lab' r p m d pre : binv w lab -> at_place w lab r m (S d) pre -> peek w r = Ok Null ->
  peek w' r = Ok (Node p) ->
  (forall r' m' d' pre', at_place w lab r' m' d' pre' -> r' <> r -> peek w' r' = peek w r') ->
  (forall j, 0 <= j < 4 -> peek w' (Slot p j) = Ok Null) -> ext lab lab' ->
  forall d' r' m' b', 0 <= b' -> at_place w lab r' m' d' (b' / 4 ^ Z.of_nat d') -> getp w' d' r' b' = getp w d' r' b'.
Proof.
  intros B A N P O Z E. induction d' as [|d' IH]; intros r' m' b' Pb A'.
  - unfold getp. rewrite (O _ _ _ _ A'); [reflexivity|]. intros ->. destruct (at_fun _ _ _ _ _ _ _ _ _ _ A A') as (_ & X & _). discriminate.
  - assert (r' = r \/ r' <> r) as [->|Nr].
    { destruct r' as [a|[qa qb] ja], r as [b|[pa pb] jb]; try (right; discriminate).
      - destruct (Nat.eq_dec a b); [left|right]; congruence.
      - destruct (Nat.eq_dec qa pa), (Z.eq_dec qb pb), (Z.eq_dec ja jb); try (right; congruence). left. congruence. }
    + unfold getp. rewrite N, P. cbn [bind]. rewrite acc_get_node. unfold getp. rewrite Z.
      * destruct d'; reflexivity.
      * destruct (fragment_eq d' b' Pb) as [F1 _]. rewrite F1. apply Z.mod_pos_bound. lia.
    + unfold getp. rewrite (O _ _ _ _ A' Nr). destruct (peek_ok w lab r' _ _ _ B A') as (x & -> & Gx). cbn [bind]. destruct Gx as [->|(q & -> & Lq)]; [reflexivity|].
      rewrite !acc_get_node. apply (IH _ m'); auto. apply slot_place; auto.
Qed.
Lemma acc_set_ok d : forall w lab r m b v, binv w lab -> 0 <= b -> at_place w lab r m d (b / 4 ^ Z.of_nat d) -> good lab m 0 b v ->
  exists w' lab', acc_set w d r b v = Ok w' /\ binv w' lab' /\ ext lab lab' /\ length (roots w') = length (roots w) /\
    getp w' d r b = Ok v /\
    (forall r' m' d' pre' p, at_place w lab r' m' d' pre' -> peek w r' = Ok (Node p) -> peek w' r' = Ok (Node p)) /\
    (forall d' r' m' b', 0 <= b' -> at_place w lab r' m' d' (b' / 4 ^ Z.of_nat d') -> (m' <> m \/ b' <> b) -> getp w' d' r' b' = getp w d' r' b').
Proof.
  induction d as [|d IH]; intros w lab r m b v B Pb A G; cbn [acc_set].
  - change (4 ^ Z.of_nat 0) with 1 in A. rewrite Z.div_1_r in A. destruct (poke_ok _ _ _ _ _ _ v B A G) as (w' & K & B' & L & P & _ & O & _).
    exists w', lab. split; [exact K|]. split; [exact B'|]. split; [intros p t; auto|]. split; [exact L|]. split; [|split].
    + unfold getp. rewrite P. cbn [bind acc_get]. destruct G as [->|[x ->]]; reflexivity.
    + intros r' m' d' pre' p A' P'. rewrite (O _ _ _ _ A'); [auto|]. intros ->.
      destruct (peek_ok _ _ _ _ _ _ B A) as (y & Py & Gy). rewrite P' in Py. inversion Py; subst. destruct Gy as [X|[? X]]; discriminate.
    + eapply write_frame; eauto.
  - destruct (peek_ok _ _ _ _ _ _ B A) as (x & Px & Gx). rewrite Px. cbn [bind].
    assert (exists w1 lab1 p, (match x with
              | Junk => UB
              | Null =>
                  do (h, a, p) <- poa_create raw_node (bheap w) (bal w);
                  match p with
                  | None => UB
                  | Some p =>
                      do w <- poke (mkBom h a (roots w)) r (Node p);
                      do h <- store (bheap w) p [Null; Null; Null; Null];
                      Ok (mkBom h (bal w) (roots w))
                  end
              | _ => Ok w
              end) = Ok w1 /\ binv w1 lab1 /\ ext lab lab1 /\ length (roots w1) = length (roots w) /\ peek w1 r = Ok (Node p) /\
              lab1 p = Some (m, S d, b / 4 ^ Z.of_nat (S d)) /\
              (forall r' m' d' pre' q, at_place w lab r' m' d' pre' -> peek w r' = Ok (Node q) -> peek w1 r' = Ok (Node q)) /\
              (forall d' r' m' b', 0 <= b' -> at_place w lab r' m' d' (b' / 4 ^ Z.of_nat d') -> getp w1 d' r' b' = getp w d' r' b'))
      as (w1 & lab1 & p & -> & B1 & E1 & L1 & P1 & LP & K1 & F1).
    { destruct Gx as [->|(p & -> & Lp)].
      - destruct (hang_ok w lab r m d _ B A Px) as (w1 & lab1 & p & R & B1 & E1 & L1 & P1 & LP & O1 & Z1).
        exists w1, lab1, p. split; [exact R|]. split; [auto|]. split; [auto|]. split; [auto|]. split; [auto|]. split; [auto|]. split.
        + intros r' m' d' pre' q A' Pq. rewrite (O1 _ _ _ _ A'); [auto|]. intros ->. congruence.
        + eapply hang_frame; eauto.
      - exists w, lab, p. split; [reflexivity|]. split; [auto|]. split; [intros ? ? ?; auto|]. split; [auto|]. split; [auto|]. split; [auto|]. split; auto. }
    cbn [bind]. rewrite P1. cbn [bind].
    pose proof (slot_place w1 lab1 p m d b LP Pb) as A1.
    destruct (IH w1 lab1 _ m b v B1 Pb A1) as (w2 & lab2 & R2 & B2 & E2 & L2 & P2 & K2 & F2); [destruct G; cbn; auto|].
    exists w2, lab2. split; [exact R2|]. split; [auto|]. split; [intros q t Hq; apply E2, E1, Hq|]. split; [lia|].
    split; [|split].
    + unfold getp. rewrite (K2 r m (S d) _ p (at_ext _ _ _ _ _ _ _ _ E1 L1 A) P1). cbn [bind]. rewrite acc_get_node. exact P2.
    + intros r' m' d' pre' q A' Pq. eapply K2; [eapply at_ext; eauto|]. eapply K1; eauto.
    + intros d' r' m' b' Pb' A' N. rewrite (F2 d' r' m' b' Pb' (at_ext _ _ _ _ _ _ _ _ E1 L1 A') N). eapply F1; eauto.
Qed.
Lemma root_place w lab m b : (m < length (roots w))%nat -> 0 <= b < 256 -> at_place w lab (Root m) m 4 (b / 4 ^ Z.of_nat 4).
Proof. intros M H. change (4 ^ Z.of_nat 4) with 256. rewrite Z.div_small by auto. now constructor. Qed.
(* ---- histories -------------------------------------------------------------------------- *)
Definition models (w : bom) (lab : label) (n : nat) (f : maps) : Prop :=
  binv w lab /\ length (roots w) = n /\ forall m b, (m < n)%nat -> 0 <= b < 256 -> bom_get w m b = Ok (val (f m b)).
Lemma bstep_ok w lab n f o : models w lab n f -> legal n o ->
  exists w' lab', bstep w o = Ok (w', snd (bspec1 f o)) /\ models w' lab' n (fst (bspec1 f o)).
Proof.
  intros (B & N & G) L. destruct o as [m i v|m i|]; cbn [bstep legal bspec1 fst snd] in *.
  - destruct L as [Lm Li]. unfold bom_set.
    destruct (acc_set_ok 4 w lab (Root m) m i (val v) B ltac:(lia)) as (w' & lab' & -> & B' & _ & L' & P & _ & F).
    + apply root_place; [lia|auto].
    + destruct v; cbn [val good]; eauto.
    + cbn [bind]. exists w', lab'. split; [reflexivity|]. split; [auto|]. split; [lia|]. intros m' b' Lm' Lb'.
      destruct (Nat.eqb m m' && (i =? b'))%bool eqn:Q.
      * assert (m' = m /\ b' = i) as [-> ->] by lia. exact P.
      * rewrite <- (G m' b' Lm' Lb'). apply (F 4%nat (Root m') m' b'); [lia|apply root_place; [lia|auto]|lia].
  - destruct L as [Lm Li]. rewrite G by auto. cbn [bind]. exists w, lab. split; [reflexivity|]. repeat split; auto; apply B.
  - destruct (create_ok raw_node (bheap w) (bal w) (b_a _ _ B)) as (h1 & a1 & p & -> & A1 & BS & AL & AP & OLD & (x & HX) & _ & _).
    cbn [bind]. eexists. exists lab. split; [reflexivity|].
    assert (forall q v, load (bheap w) q = Ok v -> load h1 q = Ok v) as LD.
    { intros q v Hq. destruct HX as [->| ->]; auto using load_alloc. }
    assert (forall r' m' d' pre', at_place w lab r' m' d' pre' -> peek (mkBom h1 a1 (roots w)) r' = peek w r') as P1.
    { intros r' m' d' pre' H. destruct H as [m' H|q j m' d' pre' H J]; cbn [peek roots bheap]; [reflexivity|].
      destruct (b_n _ _ B _ _ _ _ H) as (d0 & _ & n0 & Ln & _). rewrite Ln, (LD _ _ Ln). reflexivity. }
    split; [|split; [exact N|]].
    + constructor; cbn [bheap bal roots]; auto.
      * intros q t Hq. destruct (b_l _ _ B _ _ Hq) as (i & Hi & Ai). exists i. split; [lia|auto].
      * intros q m' d' pre' Hq. destruct (b_n _ _ B _ _ _ _ Hq) as (d0 & -> & n0 & Ln & Q). exists d0. split; [auto|]. exists n0. auto.
      * apply B.
    + intros m b Lm Lb. rewrite <- (G m b Lm Lb).
      assert (forall d' r' m' b', 0 <= b' -> at_place w lab r' m' d' (b' / 4 ^ Z.of_nat d') -> getp (mkBom h1 a1 (roots w)) d' r' b' = getp w d' r' b') as F.
      { induction d' as [|d' IH]; intros r' m' b' Pb A'; unfold getp; rewrite (P1 _ _ _ _ A'); [reflexivity|].
        destruct (peek_ok w lab r' _ _ _ B A') as (y & -> & Gy). cbn [bind]. destruct Gy as [->|(q & -> & Lq)]; [reflexivity|].
        rewrite !acc_get_node. apply (IH _ m'); auto. apply slot_place; auto. }
      apply (F 4%nat (Root m) m b); [lia|]. apply root_place; [lia|auto].
Qed.
Lemma brun_ok ops : forall w lab n f, models w lab n f -> Forall (legal n) ops -> exists w', brun w ops = Ok (w', bspec f ops).
Proof.
  induction ops as [|o ops IH]; intros w lab n f M L; [exists w; reflexivity|]. inversion L; subst.
  destruct (bstep_ok w lab n f o M) as (w1 & lab1 & R & M1); auto. cbn [brun bspec]. rewrite R. cbn [bind].
  destruct (bspec1 f o) as [f1 x]. cbn [fst snd] in *. destruct (IH _ _ _ _ M1) as (w2 & R2); auto. rewrite R2. cbn [bind]. eauto.
Qed.
Lemma bom_new_models bs n : 1 <= bs -> models (bom_new bs n) (fun _ => None) n empty_maps.
Proof.
  intros H. unfold models, bom_new. cbn [roots]. split; [|split; [apply repeat_length|]].
  - constructor; cbn [bheap bal roots poa_new]; try discriminate.
    + constructor; cbn; auto; try lia; try (intros b []); try constructor.
    + intros m x E. left. apply nth_error_In, repeat_spec in E. exact E.
  - intros m b Lm _. unfold bom_get. cbn [peek roots]. rewrite nth_error_repeat by auto. reflexivity.
Qed.
Lemma bom_history bs n ops : 1 <= bs -> Forall (legal n) ops -> exists w, brun (bom_new bs n) ops = Ok (w, bspec empty_maps ops).
Proof. intros H L. eapply brun_ok; [apply bom_new_models; auto|auto]. Qed.
Definition demo : list bop := [BSet 0 200 (Some 1%nat); BSet 1 200 (Some 2%nat); BSet 0 201 (Some 3%nat); BCreate; BSet 0 200 None; BGet 0 200; BGet 0 201; BGet 1 200; BGet 1 8; BGet 0 72].
