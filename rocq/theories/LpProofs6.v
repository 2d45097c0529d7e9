(* Whole list operations: Insert, Set, Clear, the destructor *)
From Verif Require Import Base BaseFacts RcModel RcSpec RcProofs RcProofs2 LpModel LpSpec LpProofs LpProofs2 LpProofs3 LpProofs4 LpProofs5.
From Coq Require Import ZifyBool ZifyNat.
Open Scope nat_scope.

Definition lgood (s : lst) : Prop := good (rc s) /\ Inv (world_of (rc s)) (kd s) (ls s) /\ no_leak (rc s) /\ kp (rc s).
Definition lresult (s : lst) (o : lop) : Prop := exists s', lstep s o = Ok s' /\ lspec (lworld_of s) o (lworld_of s') /\ lgood s'.

Lemma lget_ok r s l x : at_list s l x -> lives (world_of r) (lhome x) -> lget r s l = Ok x.
Proof.
  intros A L. unfold lget. rewrite A. unfold lives in L. destruct (lhome x) as [h|]; auto. specialize (L h eq_refl). cbn in L. now rewrite L.
Qed.
Lemma arg_ok s a : Inv (world_of (rc s)) (kd s) (ls s) -> at_ (lworld_of s) (of_arg a) <> None ->
  exists u, address s a = Ok u /\ addr (kd s) (ls s) (of_arg a) u /\ at_ (lworld_of s) (of_arg a) = wv (world_of (rc s)) u.
Proof.
  intros I N. destruct (at_ (lworld_of s) (of_arg a)) as [v|] eqn:E; [|congruence].
  destruct (at_addr _ _ _ _ _ E) as [u A]. exists u. destruct (place_at _ _ _ _ _ I A) as [Q _]. split; [|split; auto; unfold lworld_of in E; congruence].
  destruct a as [v'|m j]; cbn [of_arg addr address] in *.
  - destruct A as [-> ->]. reflexivity.
  - destruct A as (y & A & Lj & ->). unfold lworld_of in E. cbn [at_] in E.
    destruct (al _ m) as [c|] eqn:Em; [|discriminate]. destruct (al_some _ _ _ _ _ Em) as (y' & A' & L & _).
    assert (y' = y) by (unfold at_list in *; congruence). subst y'. rewrite (lget_ok _ _ _ _ A L). cbn [bind].
    now replace (j <? cnt y) with true by lia.
Qed.
Lemma list_ok s l c : Inv (world_of (rc s)) (kd s) (ls s) -> al (lworld_of s) l = Some c ->
  exists x, at_list (ls s) l x /\ lives (world_of (rc s)) (lhome x) /\ c = items (world_of (rc s)) x /\ lget (rc s) (ls s) l = Ok x /\ length c = cnt x.
Proof.
  intros I E. destruct (al_some _ _ _ _ _ E) as (x & A & L & ->). exists x. split; auto. split; auto. split; auto. split; [now apply lget_ok|apply items_len].
Qed.
Lemma asame_set_l a b l c : asame a b -> asame (set_l a l c) (set_l b l c).
Proof.
  intros (A1 & A2 & A3 & A4 & A5 & A6 & A7 & A8). unfold set_l. split; [auto|]. split; [auto|]. split; [auto|]. split; [|auto].
  cbn [al]. intros m. destruct (m =? l); auto.
Qed.
Lemma asame_set_v a b l c : asame a b -> asame (set_v a l c) (set_v b l c).
Proof.
  intros (A1 & A2 & A3 & A4 & A5 & A6 & A7 & A8). unfold set_v. split; [|auto 10].
  cbn [av]. intros m. destruct (m =? l); auto.
Qed.
Lemma asame_set_p a b p x : asame a b -> asame (set_p a p x) (set_p b p x).
Proof.
  intros H. destruct p as [v|l i]; cbn [set_p]; [now apply asame_set_v|]. pose proof H as (A1 & A2 & A3 & A4 & A5 & A6 & A7 & A8).
  rewrite A4. destruct (al b l); [now apply asame_set_l|auto].
Qed.
Lemma asame_take a b g mv : asame a b -> asame (take a g mv) (take b g mv).
Proof. intros H. unfold take. destruct mv; auto. now apply asame_set_p. Qed.
Lemma pure_put r k s l x0 x : at_list s l x0 -> lives (world_of r) (lhome x0) -> put r k s l x = Ok (mkT r k (upd s l (Some x))).
Proof. intros A L. unfold put. rewrite (lget_ok _ _ _ _ A L). reflexivity. Qed.
Lemma exec_app a b r k : exec (a ++ b) r k = do (r, k) <- exec a r k; exec b r k.
Proof.
  revert r k. induction a as [|o a IH]; intros r k; cbn [app exec bind]; auto.
  destruct (check k o) as [k1| | |]; cbn [bind]; auto. destruct (step r (effect_of o)) as [[r1 q]| | |]; cbn [bind]; auto.
Qed.
Lemma track_held P w0 w1 r h : track P w0 w1 r -> held_by w0 P h -> lives (world_of r) h.
Proof.
  intros T H o E. eapply root_alive; eauto.
Qed.

Lemma insert_ok s l i a mv : lgood s -> llegal (lworld_of s) (LInsert l i a mv) -> lresult s (LInsert l i a mv).
Proof.
  intros (G & I & NL & KP) ((c & Ec & Hi) & Na & Nl & Hl & Ha). destruct (list_ok s l c I Ec) as (x & A & L & Cx & Gx & Lc).
  destruct (arg_ok s a I Na) as (u & Eu & Au & Wu). rewrite Lc in Hi.
  set (w := world_of (rc s)) in *. set (k := kd s) in *.
  destruct (wv w u) as [v|] eqn:Wv; [|congruence].
  set (Q := fun t => mv = true /\ t = u).
  assert (forall t b, addr k (ls s) t b -> ~ (item_of l t \/ (mv = true /\ t = of_arg a)) -> ~ (inb x b \/ Q b)) as HM.
  { intros t b B N [X|[X1 ->]].
    - apply N. left. destruct (inb_i _ _ X) as (j & Lj & ->). pose proof (addr_live _ _ _ _ _ I B) as K.
      fold k in K. rewrite (i_kind _ _ _ I _ _ _ A Lj) in K. destruct (Nat.ltb_spec j (cnt x)); [|destruct K; discriminate].
      assert (t = PItem l j) as ->; [|reflexivity]. eapply addr_inj; eauto. cbn. exists x. auto.
    - apply N. right. split; auto. eapply addr_inj; eauto. }
  assert (held_by w (fun b => inb x b \/ Q b) (lhome x)) as H1.
  { eapply aheld_by; [exact I| |exact HM]. rewrite <- (alh_at w k (ls s) l x A). exact Hl. }
  assert (held_by w (fun b => inb x b \/ Q b) (wh w u)) as H2.
  { eapply aheld_by; [exact I| |exact HM]. rewrite <- (proj2 (place_at _ _ _ _ _ I Au)). exact Ha. }
  pose proof (addr_live _ _ _ _ _ I Au) as Ku.
  assert (~ inb x u) as Nx.
  { intros X. destruct (inb_i _ _ X) as (j & Lj & Ej). rewrite Ej in Ku. rewrite (i_kind _ _ _ I _ _ _ A Lj) in Ku.
    destruct (Nat.ltb_spec j (cnt x)); [|destruct Ku; discriminate].
    assert (of_arg a = PItem l j) as E; [|apply Nl; rewrite E; reflexivity]. eapply addr_inj; eauto. cbn. exists x. auto. }
  destruct (gap_ok (rc s) k (ls s) l x i Q G I A Hi H1) as (r2 & k2 & x1 & r0 & k0 & w2 & E2 & G0 & NL2 & KP0 & I0 & S0 & P0 & T2 & Gp).
  destruct Gp as (X1 & X2 & X3 & X4 & X5 & U1 & U2 & U3 & U4).
  set (w0 := world_of r0) in *. destruct (P0 u Ku) as (Q1 & Q2 & Q3). fold w in Q2, Q3.
  assert (forall b, live_kind (kind_of k0 b) -> ~ inb x b -> ~ inb x1 b) as Live1.
  { intros b Kb N X. destruct (U3 b X N) as [E _]. rewrite E in Kb. destruct Kb; discriminate. }
  assert (~ inb x1 u) as Nx1 by (apply Live1; congruence).
  destruct (U1 u Nx Nx1) as [Q4 Q5].
  set (d := base x1 + i). destruct (U4 i ltac:(lia)) as (Hd & Kd & Vd). fold d in Hd, Kd, Vd. rewrite Nat.eqb_refl in Kd, Vd.
  replace (i <? i) with false in Vd by lia.
  assert (d <> u) as Ndu by (intros E; rewrite E in Kd; destruct Ku; congruence).
  assert (forall h, held_by w (fun b => inb x b \/ Q b) h -> held_by w0 (fun b => inb x b \/ inb x1 b \/ Q b) h) as HH.
  { intros h. apply held_same. intros t o N Y2. pose proof (ref_live _ _ _ _ _ I Y2) as Kt.
    destruct (P0 t Kt) as (Z1 & Z2 & Z3). fold w in Z2, Z3. split; [|split; [unfold refers in *; congruence|congruence]].
    intros [X|[X|X]]; [apply N; auto| |apply N; auto]. revert X. apply Live1; [congruence|]. intros X. apply N. auto. }
  set (o := if mv then EMake d u else ECopy d u).
  destruct (track_eop (fun b => inb x b \/ inb x1 b \/ Q b) w0 w2 r2 o T2) as (r3 & R3 & T3 & NL3).
  { intros b Ub. assert (b = d \/ b = u) as [-> | ->] by (unfold o in Ub; destruct mv; exact Ub).
    - split; [|congruence]. apply (anchored_by _ _ _ (lhome x)); auto.
    - split; [|congruence]. apply (anchored_by _ _ _ (wh w u)); auto. }
  { intros b Wb. assert (b = d \/ (mv = true /\ b = u)) as [-> | Y].
    { unfold o in Wb. destruct mv; cbn in Wb; tauto. }
    - right. left. unfold inb, d. lia.
    - right. right. exact Y. }
  set (k3 := upd k2 d KMade).
  assert (d < length k2) as Ld by (apply kind_lt; congruence).
  assert (forall b, kind_of k3 b = if b =? d then KMade else kind_of k2 b) as K3 by (intros; apply kind_upd; auto).
  assert (exec [o] r2 k2 = Ok (r3, k3)) as Ex.
  { cbn [exec]. assert (check k2 o = Ok k3) as ->.
    { assert (is_raw k2 d = true) as E1 by (now apply is_raw_t). assert (usable k2 u = true) as E3 by (apply usable_t; congruence).
      unfold o. destruct mv; cbn [check]; rewrite E1, E3; reflexivity. }
    cbn [bind]. rewrite R3. reflexivity. }
  set (w3 := pure o w2) in *.
  assert (forall b, wv w3 b = if b =? d then Some v else if mv && (b =? u) then Some None else wv w2 b) as V3.
  { intros b. unfold w3, o. destruct mv; cbn [pure]; rewrite Q5, Q2, Wv; unfold set_var; cbn [wv]; reflexivity. }
  set (wB := if mv then set_var w0 u (Some None) else w0).
  assert (addr k0 (ls s) (of_arg a) u) as Au0.
  { destruct (of_arg a) as [n|m j]; cbn [addr] in *; [destruct Au; split; congruence|exact Au]. }
  assert (Inv wB k0 (ls s) /\ asame (lw wB k0 (ls s)) (take (lw w0 k0 (ls s)) a mv)) as [IB SB].
  { unfold wB, take. destruct mv; [|split; [auto|apply asame_refl]]. apply Inv_place; auto. congruence. }
  assert (forall b, wv wB b = if mv && (b =? u) then Some None else wv w0 b) as VB.
  { intros b. unfold wB. destruct mv; reflexivity. }
  assert (rest w3 w0) as R30 by (eapply rest_trans; [apply pure_rest|auto]).
  assert (rest w3 wB) as R3B. { destruct R30 as (Y1 & Y2 & Y3 & Y4). unfold wB. destruct mv; (split; [|split; [|split]]); auto. }
  assert (forall b, wh wB b = wh w0 b) as HB by (intros; unfold wB; destruct mv; auto).
  assert (lives wB (lhome x)) as LB.
  { assert (lives w0 (lhome x)) as L0 by (eapply held_lives'; [exact G0|apply HH; exact H1]). unfold wB. destruct mv; auto. }
  destruct (Inv_update wB k0 (ls s) l x w3 k3 x1 IB A LB X1 R3B) as [I3 S3].
  { unfold k3. now rewrite upd_length. }
  { intros b N N1. rewrite K3, V3, VB. assert (b <> d) as Nb by (intros ->; apply N1; unfold inb, d; lia).
    replace (b =? d) with false by lia. destruct (U1 b N N1) as [-> ->]. auto. }
  { intros b X N1. rewrite K3. assert (b <> d) as Nb by (intros ->; apply N1; unfold inb, d; lia). replace (b =? d) with false by lia.
    destruct (U2 b X N1) as [Y1 Y2]. split; auto. intros o'. unfold refers. rewrite V3. replace (b =? d) with false by lia.
    destruct (mv && (b =? u)); [discriminate|apply Y2]. }
  { exact U3. }
  { lia. }
  { intros j Lj. destruct (U4 j Lj) as (Y1 & Y2 & Y3). rewrite K3, V3, HB.
    assert (base x1 + j <> u) as Nu by (intros E; apply Nx1; unfold inb; lia).
    replace (base x1 + j =? u) with false by lia. rewrite andb_false_r.
    replace (base x1 + j =? d) with (j =? i) by (unfold d; lia). rewrite X2. split; [|split; [auto|split]].
    - rewrite Y2. destruct (Nat.eqb_spec j i); auto. replace (j <? S (cnt x)) with true by lia. auto.
    - destruct (Nat.eqb_spec j i); [discriminate|]. rewrite Y3. pose proof (i_cnt _ _ _ I _ _ A).
      replace (j =? i) with false by lia.
      assert (forall m, m < cnt x -> wv w0 (base x + m) <> None) as Y4.
      { intros m Lm. eapply (i_wv _ _ _ I0); eauto; [lia|]. eapply held_lives'; [exact G0|apply HH; exact H1]. }
      destruct (Nat.ltb_spec j i); [apply Y4; lia|]. destruct (Nat.ltb_spec j (S (cnt x))); [apply Y4; lia|discriminate].
    - intros Lc' o' R. unfold refers in R. rewrite V3 in R. replace (base x1 + j =? d) with false in R by (unfold d; lia).
      replace (base x1 + j =? u) with false in R by lia. rewrite andb_false_r, Y3 in R.
      replace (j <? i) with false in R by lia. replace (j =? i) with false in R by lia. replace (j <? S (cnt x)) with false in R by lia. discriminate. }
  assert (items w3 x1 = firstn i c ++ v :: skipn i c) as It.
  { assert (c = items w0 x) as C0.
    { rewrite Cx. apply items_ext; auto. intros j Lj. symmetry. apply P0. right. fold k. rewrite (i_kind _ _ _ I _ _ _ A) by (pose proof (i_cnt _ _ _ I _ _ A); lia).
      now replace (j <? cnt x) with true by lia. }
    assert (length (firstn i c) = i) as Lf by (rewrite firstn_length; lia).
    apply nth_error_ext. intros j. rewrite nth_items, X2.
    destruct (Nat.ltb_spec j (S (cnt x))) as [Lj|Lj].
    - rewrite V3. replace (base x1 + j =? u) with false. 2:{ symmetry. apply Nat.eqb_neq. intros E. apply Nx1. unfold inb. lia. }
      rewrite andb_false_r. replace (base x1 + j =? d) with (j =? i) by (unfold d; lia).
      destruct (U4 j ltac:(lia)) as (_ & _ & Y3).
      destruct (Nat.lt_trichotomy j i) as [Lt|[Eq|Gt]].
      + replace (j =? i) with false by lia. rewrite nth_error_app1 by lia. rewrite nth_error_firstn. replace (j <? i) with true in * by lia.
        rewrite Y3, C0, nth_items. now replace (j <? cnt x) with true by lia.
      + subst j. rewrite Nat.eqb_refl, nth_error_app2 by lia. rewrite Lf, Nat.sub_diag. reflexivity.
      + replace (j =? i) with false in * by lia. replace (j <? i) with false in Y3 by lia. replace (j <? S (cnt x)) with true in Y3 by lia.
        rewrite nth_error_app2 by lia. rewrite Lf. replace (j - i) with (S (j - 1 - i)) by lia. cbn [nth_error].
        rewrite nth_error_skipn. replace (i + (j - 1 - i)) with (j - 1) by lia. rewrite Y3, C0, nth_items. now replace (j - 1 <? cnt x) with true by lia.
    - symmetry. apply nth_error_None. rewrite app_length. cbn [length]. rewrite Lf, skipn_length. lia. }
  pose proof (track_collect _ _ _ _ T3) as C3. pose proof (collect_Inv _ _ _ _ _ I3 C3) as IF.
  pose proof (transfer _ _ _ _ _ _ _ I0 I3 C3) as AC.
  assert (lives (world_of r3) (lhome x)) as L3 by (eapply track_held; [exact T3|apply HH; exact H1]).
  exists (mkT r3 k3 (upd (ls s) l (Some x1))). split; [|split].
  - cbn [lstep]. rewrite Gx. cbn [bind]. rewrite Eu. cbn [bind]. replace (i <=? cnt x) with true by lia. fold k. rewrite E2. cbn [bind].
    fold d. fold o. rewrite Ex. cbn [bind]. eapply pure_put; eauto.
  - apply (ls_insert _ _ _ _ _ c v); [exact Ec|rewrite Wu; reflexivity|].
    assert (asame (lw (world_of r3) k3 (upd (ls s) l (Some x1))) (lw w3 k3 (upd (ls s) l (Some x1)))) as SF.
    { eapply no_deaths; [|exact AC]. intros p o' R. destruct (place_ref _ _ _ _ _ I0 R) as (b & B & Rb & _).
      assert (exists b', refers w3 b' o') as [b' Rb']; [|destruct (ref_place _ _ _ _ _ I3 Rb') as (q & _ & Rq & _); eauto].
      pose proof (addr_live _ _ _ _ _ I0 B) as Kb. destruct (inb_dec x b) as [X|X].
      - destruct (inb_i _ _ X) as (j & Lj & ->). rewrite (i_kind _ _ _ I0 _ _ _ A Lj) in Kb.
        destruct (Nat.ltb_spec j (cnt x)); [|destruct Kb; discriminate].
        set (j' := if j <? i then j else S j). exists (base x1 + j').
        assert (j' <> i /\ j' < S (cnt x)) as [Nj Lj'] by (unfold j'; destruct (Nat.ltb_spec j i); lia).
        destruct (U4 j' ltac:(lia)) as (_ & _ & Y3). unfold refers. rewrite V3. replace (base x1 + j' =? d) with false by (unfold d; lia).
        replace (base x1 + j' =? u) with false. 2:{ symmetry. apply Nat.eqb_neq. intros E. apply Nx1. unfold inb. lia. }
        rewrite andb_false_r, Y3. replace (j' =? i) with false by lia. replace (j' <? S (cnt x)) with true by lia.
        unfold j'. destruct (Nat.ltb_spec j i).
        + replace (j <? i) with true by lia. exact Rb.
        + replace (S j <? i) with false by lia. replace (S j - 1) with j by lia. exact Rb.
      - pose proof (Live1 b Kb X) as N1. destruct (U1 b X N1) as [_ Y].
        assert (b <> d) as Nb by (intros ->; apply N1; unfold inb, d; lia).
        destruct (mv && (b =? u)) eqn:M.
        + exists d. unfold refers. rewrite V3, Nat.eqb_refl. assert (b = u) by lia. subst b. unfold refers in Rb. congruence.
        + exists b. unfold refers. rewrite V3. replace (b =? d) with false by lia. rewrite M. rewrite Y. exact Rb. }
    eapply asame_trans; [exact SF|]. eapply asame_trans; [exact S3|]. rewrite It. apply asame_set_l. eapply asame_trans; [exact SB|].
    apply asame_take. exact S0.
  - split; [apply (k_good _ _ _ _ T3)|]. split; [exact IF|]. split; [auto|]. eapply track_kp; [exact T3|auto].
Qed.

Lemma set_ok s l i a mv : lgood s -> llegal (lworld_of s) (LSet l i a mv) -> lresult s (LSet l i a mv).
Proof.
  intros (G & I & NL & KP) ((c & Ec & Hi) & Na & Hl & Ha). destruct (list_ok s l c I Ec) as (x & A & L & Cx & Gx & Lc).
  destruct (arg_ok s a I Na) as (u & Eu & Au & Wu). rewrite Lc in Hi.
  set (w := world_of (rc s)) in *. set (k := kd s) in *.
  destruct (wv w u) as [v|] eqn:Wv; [|congruence]. set (d := base x + i).
  pose proof (i_cnt _ _ _ I _ _ A) as Hc.
  assert (addr k (ls s) (PItem l i) d) as Ad by (cbn; exists x; auto).
  set (P := fun b => b = d \/ (mv = true /\ b = u)).
  assert (forall t b, addr k (ls s) t b -> ~ (t = PItem l i \/ (mv = true /\ t = of_arg a)) -> ~ P b) as HM.
  { intros t b B N [->|[X1 ->]]; apply N; [left|right; split; auto]; eapply addr_inj; eauto. }
  assert (held_by w P (lhome x)) as H1.
  { eapply aheld_by; [exact I| |exact HM]. rewrite <- (alh_at w k (ls s) l x A). exact Hl. }
  assert (held_by w P (wh w u)) as H2.
  { eapply aheld_by; [exact I| |exact HM]. rewrite <- (proj2 (place_at _ _ _ _ _ I Au)). exact Ha. }
  assert (wv w d <> None) as Wd by (apply (i_wv _ _ _ I l x i A); [lia|auto]).
  set (o := if mv then EMove d u else ESet d u).
  destruct (track_eop P w w (rc s) o (track_init _ _ G)) as (r3 & R3 & T3 & NL3).
  { intros b Ub. assert (b = d \/ b = u) as [-> | ->] by (unfold o in Ub; destruct mv; exact Ub).
    - split; [|auto]. apply (anchored_by _ _ _ (lhome x)); auto. apply (i_wh _ _ _ I l); [auto|lia].
    - split; [|congruence]. apply (anchored_by _ _ _ (wh w u)); auto. }
  { intros b Wb. unfold P. unfold o in Wb. destruct mv; cbn in Wb; tauto. }
  assert (exec [o] (rc s) k = Ok (r3, k)) as Ex.
  { cbn [exec]. assert (check k o = Ok k) as ->.
    { assert (is_made k d = true) as E1.
      { apply is_made_t. unfold d. rewrite (i_kind _ _ _ I l x i A) by lia. now replace (i <? cnt x) with true by lia. }
      assert (usable k u = true) as E3 by (apply usable_t; eapply addr_live; eauto).
      unfold o. destruct mv; cbn [check]; rewrite E1, E3; reflexivity. }
    cbn [bind]. rewrite R3. reflexivity. }
  set (w3 := pure o w) in *.
  assert (Inv w3 k (ls s) /\ asame (lw w3 k (ls s)) (set_p (take (lw w k (ls s)) a mv) (PItem l i) v)) as [I3 S3].
  { unfold w3, o, take. destruct mv; cbn [pure].
    - rewrite Wv. destruct (Inv_place w k (ls s) (of_arg a) u None I Au) as [Y1 Y2]; [congruence|].
      destruct (Inv_place (set_var w u (Some None)) k (ls s) (PItem l i) d v Y1 Ad) as [Y3 Y4].
      { unfold set_var. cbn [wv]. destruct (d =? u); [discriminate|auto]. }
      split; auto. eapply asame_trans; [exact Y4|]. now apply asame_set_p.
    - rewrite Wv. apply Inv_place; auto. }
  pose proof (track_collect _ _ _ _ T3) as C3. pose proof (collect_Inv _ _ _ _ _ I3 C3) as IF.
  pose proof (transfer _ _ _ _ _ _ _ I I3 C3) as AC.
  assert (lives (world_of r3) (lhome x)) as L3 by (eapply track_held; [exact T3|exact H1]).
  assert (upd (ls s) l (Some x) = ls s) as Eu'.
  { apply nth_error_ext. intros m. destruct (Nat.eq_dec m l) as [->|N]; [|now rewrite upd_other by auto].
    rewrite upd_same; auto. eapply nth_error_lt; eauto. }
  exists (mkT r3 k (ls s)). split; [|split].
  - cbn [lstep]. rewrite Gx. cbn [bind]. rewrite Eu. cbn [bind]. replace (i <? cnt x) with true by lia. fold k. fold d. fold o. rewrite Ex. cbn [bind].
    rewrite (pure_put _ _ _ _ _ _ A L3). now rewrite Eu'.
  - apply (ls_set _ _ _ _ _ v); [rewrite Wu; reflexivity|]. eapply acollect_ext; [apply asame_refl|exact S3|apply asame_refl|exact AC].
  - split; [apply (k_good _ _ _ _ T3)|]. split; [exact IF|]. split; [auto|]. eapply track_kp; [exact T3|auto].
Qed.

Lemma item_inb w k s l x t b : Inv w k s -> at_list s l x -> addr k s t b -> ~ item_of l t -> ~ inb x b.
Proof.
  intros I A B N X. apply N. destruct (inb_i _ _ X) as (j & Lj & ->). pose proof (addr_live _ _ _ _ _ I B) as K.
  rewrite (i_kind _ _ _ I _ _ _ A Lj) in K. destruct (Nat.ltb_spec j (cnt x)); [|destruct K; discriminate].
  assert (t = PItem l j) as ->; [|reflexivity]. eapply addr_inj; eauto. cbn. exists x. auto.
Qed.
Lemma held_list s l x h : Inv (world_of (rc s)) (kd s) (ls s) -> at_list (ls s) l x -> aheld (lworld_of s) (item_of l) h ->
  held_by (world_of (rc s)) (inb x) h.
Proof. intros I A H. eapply aheld_by; [exact I|exact H|]. intros t b B N. eapply item_inb; eauto. Qed.

Lemma clear_ok s l : lgood s -> llegal (lworld_of s) (LClear l) -> lresult s (LClear l).
Proof.
  intros (G & I & NL & KP) (Nl & Hl). destruct (al (lworld_of s) l) as [c|] eqn:Ec; [|congruence].
  destruct (list_ok s l c I Ec) as (x & A & L & Cx & Gx & Lc). unfold lworld_of in Hl. rewrite (alh_at _ _ _ _ _ A) in Hl.
  pose proof (held_list s l x _ I A Hl) as H.
  destruct (drop_ok _ _ _ l x G I A H) as (r' & k' & w1 & E & G' & [K1 K2] & C & Hh & V & I1 & S1).
  pose proof (held_after _ _ _ _ _ C Hh V H) as H'. pose proof (held_lives' _ _ _ G' H') as L'.
  exists (mkT r' k' (upd (ls s) l (Some (mkL (lhome x) 0 0 0)))). split; [|split].
  - cbn [lstep]. rewrite Gx. cbn [bind]. rewrite E. cbn [bind]. eapply pure_put; eauto.
  - apply ls_clear. eapply acollect_ext; [apply asame_refl|exact S1|apply asame_refl|]. exact (transfer _ _ _ _ _ _ _ I I1 C).
  - split; [auto|]. split; [exact (collect_Inv _ _ _ _ _ I1 C)|]. auto.
Qed.
Lemma lend_ok s l : lgood s -> llegal (lworld_of s) (LEnd l) -> lresult s (LEnd l).
Proof.
  intros (G & I & NL & KP) (Nl & Hl). destruct (al (lworld_of s) l) as [c|] eqn:Ec; [|congruence].
  destruct (list_ok s l c I Ec) as (x & A & L & Cx & Gx & Lc). unfold lworld_of in Hl. rewrite (alh_at _ _ _ _ _ A) in Hl.
  assert (held_by (world_of (rc s)) (inb x) (lhome x)) as H by (intros o E; congruence).
  destruct (drop_ok _ _ _ l x G I A H) as (r' & k' & w1 & E & G' & [K1 K2] & C & Hh & V & I1 & S1).
  set (s1 := upd (ls s) l (Some (mkL (lhome x) 0 0 0))) in *.
  assert (at_list s1 l (mkL (lhome x) 0 0 0)) as A1 by (apply (at_upd' _ _ _ _ _ _ A); now rewrite Nat.eqb_refl).
  destruct (Inv_forget w1 k' s1 l (mkL (lhome x) 0 0 0) I1 A1 eq_refl Hl) as [I2 S2].
  assert (upd s1 l None = upd (ls s) l None) as Eu.
  { apply nth_error_ext. intros m. unfold s1. pose proof (nth_error_lt _ _ _ A) as Ll. destruct (Nat.eq_dec m l) as [->|N].
    - rewrite !upd_same; auto. now rewrite upd_length.
    - now rewrite !upd_other by auto. }
  rewrite Eu in I2, S2.
  exists (mkT r' k' (upd (ls s) l None)). split; [|split].
  - cbn [lstep]. rewrite Gx. cbn [bind]. rewrite Hl. rewrite E. reflexivity.
  - apply ls_lend. eapply acollect_ext; [apply asame_refl| |apply asame_refl|exact (transfer _ _ _ _ _ _ _ I I2 C)].
    eapply asame_trans; [exact S2|]. destruct S1 as (B1 & B2 & B3 & B4 & B5 & B6 & B7 & B8).
    split; [exact B1|]. split; [exact B2|]. split; [exact B3|]. split; [|split; [exact B5|split; [exact B6|split; [exact B7|exact B8]]]].
    intros m. specialize (B4 m). cbn [set_l al] in *. destruct (m =? l); auto.
  - split; [auto|]. split; [exact (collect_Inv _ _ _ _ _ I2 C)|]. auto.
Qed.
