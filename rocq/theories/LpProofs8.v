(* Move assignment of lists *)
From Verif Require Import Base BaseFacts RcModel RcSpec RcProofs RcProofs2 LpModel LpSpec LpProofs LpProofs2 LpProofs3 LpProofs4 LpProofs5 LpProofs6 LpProofs7.
From Coq Require Import ZifyBool ZifyNat.
Open Scope nat_scope.

(* objects each of which is referred to from the stack or from within the group stay *)
Lemma group_lives w0 w (S : nat -> Prop) : (forall o, S o -> exists p, arefers w p o /\ forall h, phome w p = Some h -> S h) ->
  forall o, S o -> ~ adies w0 w o.
Proof.
  intros K o So D. revert So. pattern o. revert o D. apply adies_rec. intros o _ IH So.
  destruct (K o So) as (p & R & H). destruct (IH p R) as (h & E & _ & X). exact (X (H h E)).
Qed.

Lemma move_collect w l m c w2 w3 : l <> m -> al w m = Some c -> aheld w (item_of l) (alh w l) -> aheld w (item_of l) (alh w m) ->
  acollect w (set_l w l (Some [])) w2 -> asame w3 (set_l (set_l w2 l (Some c)) m (Some [])) ->
  acollect w (set_l (set_l w l (Some c)) m (Some [])) w3.
Proof.
  intros N Ec Hl Hm C S3. set (w1 := set_l w l (Some [])) in *. set (v := set_l (set_l w l (Some c)) m (Some [])).
  (* places that refer to objects *)
  assert (forall t o, ~ item_of l t -> arefers w t o -> arefers w1 t o) as P1.
  { intros [u|a i] o X; unfold arefers; cbn [at_ w1 set_l av al]; auto. cbn [item_of] in X. now replace (a =? l) with false by lia. }
  assert (forall t o, arefers v t o -> (exists j, t = PItem l j /\ arefers w1 (PItem m j) o) \/ (arefers w1 t o /\ phome w1 t = phome v t /\ ~ item_of l t /\ ~ item_of m t)) as P2.
  { intros [u|a i] o; unfold arefers; cbn [at_ v w1 set_l av al phome].
    - intros R. right. split; auto.
    - destruct (Nat.eqb_spec a m) as [->|]; [destruct i; discriminate|]. destruct (Nat.eqb_spec a l) as [->|].
      + intros R. left. exists i. split; auto. replace (m =? l) with false by lia. rewrite Ec. auto.
      + intros R. right. split; auto. }
  assert (forall t o, arefers w1 t o -> (exists j, t = PItem m j /\ arefers v (PItem l j) o) \/ (arefers v t o /\ phome w1 t = phome v t)) as P3.
  { intros [u|a i] o; unfold arefers; cbn [at_ v w1 set_l av al phome].
    - intros R. right. split; auto.
    - destruct (Nat.eqb_spec a l) as [->|]; [destruct i; discriminate|]. destruct (Nat.eqb_spec a m) as [->|].
      + intros R. left. exists i. split; auto. replace (l =? m) with false by lia. rewrite Nat.eqb_refl. rewrite Ec in R. auto.
      + intros R. right. split; auto. }
  assert (forall h, alh w m = Some h \/ alh w l = Some h -> ~ adies w w1 h) as D1.
  { intros h E. apply (group_lives _ _ (arooted w (item_of l))); [|destruct E as [E|E]; [apply Hm|apply Hl]; auto].
    intros o [o' t X R Rt]. exists t. split; [auto|]. intros h' Y. apply Rt. destruct t; exact Y. }
  assert (forall h, alh w l = Some h -> ~ adies w v h) as D2.
  { intros h E. apply (group_lives _ _ (arooted w (item_of l))); [|apply Hl; auto].
    intros o [o' t X R Rt]. destruct (P3 t o' (P1 t o' X R)) as [(j & -> & R')|[R' Y']].
    - exists (PItem l j). split; auto.
    - exists t. split; [exact R'|]. intros h' Y. apply Rt. rewrite <- Y' in Y. destruct t; exact Y. }
  assert (forall o, adies w w1 o <-> adies w v o) as D.
  { intros o. split; revert o; apply adies_rec; intros o Q IH; constructor; auto.
    - intros p R. destruct (P2 p o R) as [(j & -> & R')|(R' & E & _)].
      + exfalso. destruct (IH _ R') as (h & E & X & _). apply (D1 h); auto.
      + destruct (IH _ R') as (h & E' & _ & X). exists h. split; [congruence|exact X].
    - intros p R. destruct (P3 p o R) as [(j & -> & R')|(R' & E)].
      + exfalso. destruct (IH _ R') as (h & E & X & _). apply (D2 h); auto.
      + destruct (IH _ R') as (h & E' & _ & X). exists h. split; [congruence|exact X]. }
  assert (forall h, alh w m = Some h \/ alh w l = Some h -> ~ adies w v h) as D3 by (intros h E X; apply (D1 h E); now apply D).
  destruct C as (C1 & C2 & C3 & C4 & C5 & C6 & C7 & C8 & C9 & C10 & C11). destruct S3 as (B1 & B2 & B3 & B4 & B5 & B6 & B7 & B8).
  cbn [set_l av ah avar al alh aa an aln w1] in *.
  split; [|split; [|split; [|split; [|split; [|split; [|split; [|split; [|split; [|split]]]]]]]]]; cbn [set_l av ah avar al alh aa an aln v].
  - intros o. rewrite B6. intros E. destruct (C1 o E) as [Q1 Q2]. split; auto. intros X. apply Q2. now apply D.
  - intros o E. rewrite B6. destruct (C2 o E) as [Q|Q]; auto. right. now apply D.
  - intros u h E X. rewrite B1. apply (C3 u h); auto. now apply D.
  - intros u X. rewrite B1. apply C4. intros h E Y. apply (X h E). now apply D.
  - intros a h E X. rewrite B4. destruct (Nat.eqb_spec a m) as [->|]; [exfalso; apply (D3 h); auto|].
    destruct (Nat.eqb_spec a l) as [->|]; [exfalso; apply (D3 h); auto|]. apply (C5 a h); auto. now apply D.
  - intros a X. rewrite B4. destruct (Nat.eqb_spec a m) as [->|]; auto. destruct (Nat.eqb_spec a l) as [->|]; auto.
    rewrite C6. { now replace (a =? l) with false by lia. } intros h E Y. apply (X h E). now apply D.
  - intros u. now rewrite B2.
  - intros u. now rewrite B3.
  - intros u. now rewrite B5.
  - congruence.
  - congruence.
Qed.

Lemma Inv_swap w k s l m x y w' : Inv w k s -> at_list s l x -> room x = 0 -> at_list s m y -> l <> m -> lives w (lhome x) -> lives w (lhome y) ->
  (forall u, wv w' u = wv w u) -> (forall o, wa w' o = wa w o) -> wn w' = wn w -> wm w' = wm w ->
  (forall u, wh w' u = if inr u (base y) (room y) then lhome x else wh w u) ->
  let s' := upd (upd s l (Some (mkL (lhome x) (base y) (cnt y) (room y)))) m (Some (mkL (lhome y) 0 0 0)) in
  Inv w' k s' /\ asame (lw w' k s') (set_l (set_l (lw w k s) l (Some (items w y))) m (Some [])).
Proof.
  intros I A Rx B N Lx Ly V Ha Hn Hm Hh s'. set (x' := mkL (lhome x) (base y) (cnt y) (room y)) in *. set (y' := mkL (lhome y) 0 0 0) in *.
  assert (forall a z, at_list s' a z <-> (if a =? m then z = y' else if a =? l then z = x' else at_list s a z)) as At.
  { intros a z. unfold s', at_list in *. pose proof (nth_error_lt _ _ _ A). pose proof (nth_error_lt _ _ _ B).
    destruct (Nat.eqb_spec a m) as [->|].
    - rewrite upd_same by (rewrite upd_length; auto). split; congruence.
    - rewrite upd_other by auto. destruct (Nat.eqb_spec a l) as [->|].
      + rewrite upd_same by auto. split; congruence.
      + rewrite upd_other by auto. reflexivity. }
  assert (forall u, (exists o, wv w u = Some o) -> wv w' u <> None) as _ by (intros u [o E]; rewrite V; congruence).
  assert (forall h, lives w' h <-> lives w h) as Lv by (intros h; unfold lives; split; intros Q o E; specialize (Q o E); congruence).
  assert (forall a z, a <> l -> a <> m -> at_list s a z -> forall i, i < room z -> inr (base z + i) (base y) (room y) = false) as Out.
  { intros a z N1 N2 Q i Li. apply inr_f. intros X. apply (i_apart _ _ _ I a m z y i (base z + i - base y)); auto; lia. }
  split.
  - constructor.
    + rewrite Hm. apply (i_len _ _ _ I).
    + intros u o Q. unfold refers. rewrite V. apply (i_blank _ _ _ I); auto.
    + intros u Q. destruct (i_made _ _ _ I u Q) as (a & z & Az & Rz). destruct (Nat.eq_dec a m) as [->|N1].
      * exists l, x'. assert (z = y) by (unfold at_list in *; congruence). subst z. split; auto. apply At. replace (l =? m) with false by lia. now rewrite Nat.eqb_refl.
      * exists a, z. split; auto. apply At. replace (a =? m) with false by lia. destruct (Nat.eqb_spec a l) as [->|]; auto.
        exfalso. assert (z = x) by (unfold at_list in *; congruence). subst z. pose proof (i_cnt _ _ _ I _ _ A). lia.
    + intros a z Q. apply At in Q. destruct (Nat.eqb_spec a m); [subst z; cbn; lia|]. destruct (Nat.eqb_spec a l).
      * subst z. cbn. apply (i_cnt _ _ _ I m y B).
      * eapply (i_cnt _ _ _ I); eauto.
    + intros a z i Q Li. apply At in Q. destruct (Nat.eqb_spec a m); [subst z; cbn in Li; lia|]. destruct (Nat.eqb_spec a l).
      * subst z. cbn [x' base cnt room] in *. apply (i_kind _ _ _ I m y); auto.
      * eapply (i_kind _ _ _ I); eauto.
    + intros a z i Q Li. apply At in Q. rewrite Hh. destruct (Nat.eqb_spec a m); [subst z; cbn in Li; lia|]. destruct (Nat.eqb_spec a l).
      * subst z. cbn [x' base cnt room lhome] in *. rng. auto.
      * rewrite (Out a z) by auto. eapply (i_wh _ _ _ I); eauto.
    + intros a z i Q Li X. apply At in Q. rewrite V. rewrite Lv in X. destruct (Nat.eqb_spec a m); [subst z; cbn in Li; lia|]. destruct (Nat.eqb_spec a l).
      * subst z. cbn [x' base cnt room lhome] in *. apply (i_wv _ _ _ I m y); auto.
      * eapply (i_wv _ _ _ I); eauto.
    + intros a1 a2 z1 z2 i j Q1 Q2 Na Li Lj. apply At in Q1, Q2.
      destruct (Nat.eqb_spec a1 m); [subst z1; cbn in Li; lia|]. destruct (Nat.eqb_spec a2 m); [subst z2; cbn in Lj; lia|].
      destruct (Nat.eqb_spec a1 l); destruct (Nat.eqb_spec a2 l); try (subst; contradiction).
      * subst z1. cbn [x' base room] in *. apply (i_apart _ _ _ I m a2); auto.
      * subst z2. cbn [x' base room] in *. apply (i_apart _ _ _ I a1 m); auto.
      * apply (i_apart _ _ _ I a1 a2); auto.
    + intros a z h Q E. apply At in Q. rewrite Hn. destruct (Nat.eqb_spec a m); [subst z; apply (i_home _ _ _ I m y); auto|]. destruct (Nat.eqb_spec a l).
      * subst z. apply (i_home _ _ _ I l x); auto.
      * eapply (i_home _ _ _ I); eauto.
    + intros u h E D. rewrite V. rewrite Ha in D. rewrite Hh in E. destruct (inr u (base y) (room y)) eqn:X.
      * exfalso. rewrite (Lx h E) in D. discriminate.
      * eapply (i_dead _ _ _ I); eauto.
  - assert (forall z, items w' z = items w z) as It by (intros; apply items_ext; auto).
    split; [|split; [|split; [|split; [|split; [|split; [|split]]]]]]; unfold set_l; cbn [av ah avar al alh aa an aln lw].
    + intros u. now rewrite V.
    + intros u. rewrite Hh. destruct (kind_of k u) eqn:K; auto. destruct (inr u (base y) (room y)) eqn:X; auto. exfalso. apply inr_t in X.
      destruct (inb_kind _ _ _ _ _ u I B) as [Q|Q]; [exact X|congruence|congruence].
    + auto.
    + intros a. destruct (Nat.eqb_spec a m) as [->|].
      * assert (at_list s' m y') as Q by (apply At; now rewrite Nat.eqb_refl).
        change (al (lw w' k s') m = Some []). rewrite (al_at _ _ _ _ _ Q); [reflexivity|]. now apply Lv.
      * destruct (Nat.eqb_spec a l) as [->|].
        -- assert (at_list s' l x') as Q by (apply At; replace (l =? m) with false by lia; now rewrite Nat.eqb_refl).
           change (al (lw w' k s') l = Some (items w y)). rewrite (al_at _ _ _ _ _ Q); [|now apply Lv]. rewrite It. reflexivity.
        -- unfold s'. rewrite !upd_other by auto. destruct (nth_error s a) as [[z|]|]; auto. rewrite It. destruct (lhome z); auto. now rewrite Ha.
    + intros a. unfold at_list in *. unfold s'. pose proof (nth_error_lt _ _ _ A). pose proof (nth_error_lt _ _ _ B). destruct (Nat.eq_dec a m) as [->|].
      * rewrite upd_same by (rewrite upd_length; auto). rewrite B. reflexivity.
      * rewrite upd_other by auto. destruct (Nat.eq_dec a l) as [->|].
        -- rewrite upd_same by auto. rewrite A. reflexivity.
        -- now rewrite upd_other by auto.
    + auto.
    + auto.
    + unfold s'. now rewrite !upd_length.
Qed.

Lemma lmove_ok s l m : lgood s -> llegal (lworld_of s) (LMove l m) -> lresult s (LMove l m).
Proof.
  intros (G & I & NL & KP) (Nl & Nm & Hl & Hm). destruct (al (lworld_of s) l) as [cl|] eqn:Ecl; [|congruence]. destruct (al (lworld_of s) m) as [c|] eqn:Ec; [|congruence].
  destruct (list_ok s l cl I Ecl) as (x & A & L & Cx & Gx & Lc). destruct (list_ok s m c I Ec) as (y & B & Ly & Cy & Gy & Lcy).
  pose proof Hl as Hl0. pose proof Hm as Hm0. unfold lworld_of in Hl, Hm. rewrite (alh_at _ _ _ _ _ A) in Hl. rewrite (alh_at _ _ _ _ _ B) in Hm.
  pose proof (held_list s l x _ I A Hl) as H. pose proof (held_list s l x _ I A Hm) as H2.
  destruct (drop_ok _ _ _ l x G I A H) as (r' & k' & w1 & E & G' & [K1 K2] & C & Hh & V & I1 & S1).
  pose proof (held_lives' _ _ _ G' (held_after _ _ _ _ _ C Hh V H)) as L'. pose proof (held_lives' _ _ _ G' (held_after _ _ _ _ _ C Hh V H2)) as Ly'.
  set (x0 := mkL (lhome x) 0 0 0) in *. set (s1 := upd (ls s) l (Some x0)) in *.
  pose proof (collect_Inv _ _ _ _ _ I1 C) as IF.
  assert (acollect (lworld_of s) (set_l (lworld_of s) l (Some [])) (lw (world_of r') k' s1)) as AC.
  { eapply acollect_ext; [apply asame_refl|exact S1|apply asame_refl|]. exact (transfer _ _ _ _ _ _ _ I I1 C). }
  destruct (Nat.eq_dec l m) as [<-|N].
  - exists (mkT r' k' s1). split; [|split].
    + cbn [lstep]. rewrite Gx. cbn [bind]. rewrite E. cbn [bind]. rewrite (lget_ok _ _ _ _ A L'). cbn [bind]. rewrite Nat.eqb_refl. eapply pure_put; eauto.
    + apply (ls_move _ _ _ c); auto. eapply acollect_ext; [apply asame_refl| |apply asame_refl|exact AC].
      unfold set_l. split; [auto|]. split; [auto|]. split; [auto|]. split; [|auto 10]. cbn [al]. intros a. destruct (a =? l); auto.
    + split; [auto|]. split; [exact IF|]. auto.
  - assert (at_list s1 m y) as B1 by (apply (at_upd' _ _ _ _ _ _ A); replace (m =? l) with false by lia; auto).
    assert (at_list s1 l x0) as A1 by (apply (at_upd' _ _ _ _ _ _ A); now rewrite Nat.eqb_refl).
    destruct (rehome_ok (lhome x) (base y) (room y) r' G') as (r2 & E2 & G2 & NL2 & V2 & H3 & Al2 & Lo & Lv).
    { intros i Li. eapply (i_wv _ _ _ IF); eauto. } { intros o Q. apply (L' o Q). }
    destruct (Inv_swap (world_of r') k' s1 l m x0 y (world_of r2) IF A1 eq_refl B1 N L' Ly' V2 Al2 Lo Lv) as [I2 S2].
    { intros u. rewrite !wh_of. apply H3. }
    cbn [x0 lhome] in I2, S2. unfold s1 at 1 in I2. unfold s1 at 1 in S2. rewrite upd_twice in I2, S2.
    exists (mkT r2 k' (upd (upd (ls s) l (Some (mkL (lhome x) (base y) (cnt y) (room y)))) m (Some (mkL (lhome y) 0 0 0)))). split; [|split].
    + cbn [lstep]. rewrite Gx. cbn [bind]. rewrite Gy. cbn [bind]. rewrite E. cbn [bind]. rewrite (lget_ok _ _ _ _ A L'), (lget_ok _ _ _ _ B Ly'). cbn [bind].
      replace (l =? m) with false by lia. rewrite E2. reflexivity.
    + apply (ls_move _ _ _ c); auto. apply (move_collect (lworld_of s) l m c _ _ N Ec Hl0 Hm0 AC). unfold lworld_of at 1. cbn [rc kd ls].
      assert (items (world_of r') y = c) as Ei; [|rewrite <- Ei; exact S2].
      assert (al (lw (world_of r') k' s1) m = Some c) as Q; [|rewrite (al_at _ _ _ _ _ B1 Ly') in Q; congruence].
      destruct AC as (_ & _ & _ & _ & _ & C6 & _). rewrite C6; [cbn [set_l al]; now replace (m =? l) with false by lia|].
      intros h Eh. apply (group_lives _ _ (arooted (lworld_of s) (item_of l))); [|auto].
      intros o [o' t X R Rt]. exists t. split; [|intros h' Y; apply Rt; destruct t; exact Y].
      destruct t as [u|a i]; [exact R|]. unfold arefers in *. cbn [at_ set_l al item_of] in *. now replace (a =? l) with false by lia.
    + split; [auto|]. split; [exact I2|]. split; [auto|]. intros o Q. cbn [rc] in *. rewrite Al2 in Q. destruct (K2 KP o Q) as [u R]. exists u. unfold refers in *. now rewrite V2.
Qed.
