From Coq Require Import ZifyBool ZifyNat.
From Verif Require Import Base BaseFacts PgrModel PgrSpec PgrProofs PgrProofs2.
Open Scope nat_scope.

Lemma upd_upd {A} (l : list A) i x y : upd (upd l i x) i y = upd l i y.
Proof. revert i. induction l as [|z l IH]; intros [|i]; cbn [upd]; congruence. Qed.
Lemma upd_id {A} (l : list A) i x : nth_error l i = Some x -> upd l i x = l.
Proof. revert i. induction l as [|y l IH]; intros [|i] H; cbn in *; try discriminate; [congruence|now rewrite IH]. Qed.

(* no counted reference to anything is made or lost, and no deletion begun or ended *)
Definition same_tasks (t t' : thread) : Prop := forall o, tc o t' = tc o t /\ td o t' = td o t /\ tf o t' = tf o t.
Definition excl_ok (w : pg) (i : nat) (t' : thread) : Prop := forall j s o f, j <> i -> nth_error (ths w) j = Some s ->
     (writes_cell o f t' = true -> uses_cell o f s = false) /\ (uses_cell o f t' = true -> writes_cell o f s = false).
Lemma same_step w i t t' : inv w -> nth_error (ths w) i = Some t -> (forall o, hv o t' = hv o t) -> same_tasks t t' ->
  good (heap w) t' -> excl_ok w i t' -> no_self (prog t') -> inv (sett w i t').
Proof.
  intros I Et H1 H2 H3 H4 H5. unfold sett. apply inv_step with (t := t); auto; [|apply oth_refl].
  intros o R A D E K. destruct (H2 o) as (-> & -> & ->). now rewrite H1.
Qed.
Lemma inc_step w i t t' p n c : inv w -> nth_error (ths w) i = Some t -> nth_error (heap w) p = Some (mkO (Some n) Alive c) ->
  1 <= hv p t + ce (heap w) p ->
  (forall o, hv o t' = hv o t + one o (Some p)) -> same_tasks t t' ->
  good (heap w) t' -> excl_ok w i t' -> no_self (prog t') -> inv (sett (seto w p (mkO (Some (n + 1)%Z) Alive c)) i t').
Proof.
  intros I Et E0 Hp H1 H2 H3 H4 H5. unfold sett, seto. cbn [heap ths log]. apply inv_step with (t := t); auto.
  - intros o R A D E K. destruct (H2 o) as (-> & -> & ->). rewrite H1. cbn [one].
    pose proof (ce_upd _ _ _ (mkO (Some (n + 1)%Z) Alive c) o E0) as Q. cbn [cells] in Q. here o p.
    + rewrite upd_same by (eapply nth_error_lt; eauto). rewrite E0 in K. cbn [okb lf cnt] in *. lia.
    + rewrite upd_other by auto. replace (R + (hv o t + 0) + ce (upd (heap w) p (mkO (Some (n + 1)%Z) Alive c)) o) with (R + hv o t + ce (heap w) o) by lia. exact K.
  - assert (forall o b, nth_error (heap w) o = Some b -> exists b', nth_error (upd (heap w) p (mkO (Some (n + 1)%Z) Alive c)) o = Some b' /\ cells b' = cells b) as Q.
    { intros o b Eb. destruct (Nat.eq_dec p o) as [<-|Np]; [rewrite upd_same by (eapply nth_error_lt; eauto); eexists; split; [reflexivity|rewrite Eb in E0; now injection E0 as ->]|].
      rewrite upd_other by auto. eauto. }
    unfold good in *. destruct (fin t'); auto.
    + destruct H3 as (A & B & b & C & D). split; [auto|split; [auto|]]. destruct (Q _ _ C) as (b' & Q1 & Q2). exists b'. rewrite Q2. auto.
    + destruct H3 as (B & b & C & D). split; [auto|]. destruct (Q _ _ C) as (b' & Q1 & Q2). exists b'. rewrite Q2. auto.
    + destruct H3 as (A & B & b & C & D). split; [auto|split; [auto|]]. destruct (Q _ _ C) as (b' & Q1 & Q2). exists b'. rewrite Q2. auto.
  - eapply oth_same; eauto.
Qed.
(* a member changes from v to v', and the thread gains v and loses v' *)
Lemma cell_step w i t t' o f b v v' : inv w -> nth_error (ths w) i = Some t -> nth_error (heap w) o = Some b ->
  nth_error (cells b) f = Some v ->
  (forall q, hv q t' + one q v' = hv q t + one q v) -> same_tasks t t' ->
  (forall j s, j <> i -> nth_error (ths w) j = Some s -> uses_cell o f s = false) ->
  good (heap (seto w o (setcell b f v'))) t' -> excl_ok w i t' -> no_self (prog t') ->
  inv (sett (seto w o (setcell b f v')) i t').
Proof.
  intros I Et E0 Ef H1 H2 H6 H3 H4 H5. unfold sett, seto in *. cbn [heap ths log] in *. apply inv_step with (t := t); auto.
  - intros q R A D E K. destruct (H2 q) as (-> & -> & ->). specialize (H1 q).
    pose proof (ce_upd _ _ _ (setcell b f v') q E0) as Q. unfold setcell in Q at 2. cbn [cells] in Q.
    pose proof (occ_upd q _ _ _ v' Ef) as Q2.
    replace (R + hv q t' + ce (upd (heap w) o (setcell b f v')) q) with (R + hv q t + ce (heap w) q) by lia.
    destruct (Nat.eq_dec o q) as [<-|N]; [|rewrite upd_other by auto; exact K].
    rewrite upd_same by (eapply nth_error_lt; eauto). rewrite E0 in K. exact K.
  - intros j s q b0 N Es U Eb. destruct (Nat.eq_dec o q) as [<-|Nq]; [|rewrite upd_other by auto; eauto].
    rewrite upd_same by (eapply nth_error_lt; eauto). eexists. split; [reflexivity|]. intros f' U'.
    rewrite E0 in Eb. injection Eb as <-. unfold setcell. cbn [cells]. destruct (Nat.eq_dec f f') as [<-|Nf]; [|now rewrite upd_other by auto].
    rewrite (H6 _ _ N Es) in U'. discriminate.
Qed.

Lemma excl_none w i t' : (forall o f, uses_cell o f t' = false) -> excl_ok w i t'.
Proof.
  intros H j s o f N Es. split; intros K; [apply writes_uses in K|]; rewrite H in K; discriminate.
Qed.
Lemma inc_ok w p n c : nth_error (heap w) p = Some (mkO (Some n) Alive c) -> inc w p = Ok (seto w p (mkO (Some (n + 1)%Z) Alive c)).
Proof. intros E. unfold inc. now rewrite E. Qed.
Lemma slot_set t y v o : free_slot t y -> occ o (upd (vars t) y v) = occ o (vars t) + one o v.
Proof. intros H. pose proof (occ_upd o _ _ _ v H) as Q. cbn [one] in Q. lia. Qed.
Lemma hv_held o t : In (Some o) (vars t) -> 1 <= hv o t.
Proof. intros H. apply occ_in in H. unfold hv. lia. Qed.

Ltac sums := unfold hv, same_tasks, tc, td, tf; cbn [vars work fin fref sum fold_right]; rewrite ?sum_nil.

Lemma rest_ok w i t : inv w -> nth_error (ths w) i = Some t -> work t = [] ->
  exists w', do_rest w i t = Ok w' /\ inv w'.
Proof.
  intros I Et Ew. pose proof (i_good w I _ _ Et) as G. pose proof (i_self w I _ _ Et) as Sf.
  unfold do_rest. unfold good in G. destruct (fin t) as [|y q|y x|y x|y o f|y o f p|o f x|y o f|y ms acc] eqn:Ef.
  - eauto.
  - eexists. split; [reflexivity|]. apply same_step with (t := t); auto.
    + intros o. sums. rewrite Ew, Ef. cbn [fref]. rewrite slot_set by auto. rewrite sum_nil. lia.
    + sums. rewrite Ew. auto.
    + exact Logic.I.
    + apply excl_none. reflexivity.
  - destruct (getv (vars t) x) as [p|] eqn:Ex.
    + pose proof (hv_held _ _ (getv_in _ _ _ Ex)) as Hh. destruct (held_obj w i t p I Et Hh) as (n & c & E0).
      rewrite (inc_ok _ _ _ _ E0). cbn [bind]. eexists. split; [reflexivity|]. apply inc_step with (t := t); auto; [lia| | | |].
      * intros o. sums. rewrite Ew, Ef. cbn [fref]. rewrite slot_set by auto. rewrite sum_nil. lia.
      * sums. rewrite Ew. auto.
      * exact Logic.I.
      * apply excl_none. reflexivity.
    + eexists. split; [reflexivity|]. apply same_step with (t := t); auto.
      * intros o. sums. rewrite Ew, Ef. cbn [fref]. rewrite sum_nil. lia.
      * sums. rewrite Ew. auto.
      * exact Logic.I.
      * apply excl_none. reflexivity.
  - destruct G as [G Nx]. eexists. split; [reflexivity|]. apply same_step with (t := t); auto.
    + intros o. sums. rewrite Ew, Ef. cbn [fref]. rewrite sum_nil.
      enough (occ o (upd (upd (vars t) y (getv (vars t) x)) x None) = occ o (vars t)) by lia.
      pose proof (slot_set t y (getv (vars t) x) o G) as Q. unfold getv in *. destruct (nth_error (vars t) x) as [v|] eqn:E.
      * assert (nth_error (upd (vars t) y v) x = Some v) as E2 by (rewrite upd_other by auto; exact E).
        pose proof (occ_upd o _ _ _ None E2) as Q2. cbn [one] in Q2. lia.
      * assert (upd (upd (vars t) y None) x None = vars t) as ->; [|reflexivity].
        rewrite (upd_id _ _ _ G). apply nth_error_None in E. clear - E. generalize dependent x. generalize (vars t).
        induction l as [|z l IH]; intros [|x] E; cbn [upd length] in *; try lia; auto. f_equal. apply IH. lia.
    + sums. rewrite Ew. auto.
    + exact Logic.I.
    + apply excl_none. reflexivity.
  - destruct G as [G Go]. destruct (held_obj w i t o I Et (hv_held _ _ Go)) as (n & c & E0).
    unfold deref. rewrite E0. cbn [lf bind cells]. eexists. split; [reflexivity|]. apply same_step with (t := t); auto.
    + intros q. sums. rewrite Ew, Ef. destruct (getv c f); cbn [fref]; rewrite sum_nil; lia.
    + sums. rewrite Ew. auto.
    + unfold good. cbn [fin]. destruct (getv c f) as [p|] eqn:Ec; auto. split; [exact G|split; [exact Go|]]. eexists. split; [exact E0|]. cbn [cells]. now apply getv_some.
    + unfold excl_ok. eapply (excl_sub w i t); auto; intros o' f'; unfold writes_cell, uses_cell; cbn [fin]; rewrite Ef; destruct (getv c f); congruence.
  - destruct G as (G & Go & b & Eb & Ec).
    destruct (held_cell w o b p I Eb (nth_error_In _ _ Ec)) as (n & c & E0).
    rewrite (inc_ok _ _ _ _ E0). cbn [bind]. eexists. split; [reflexivity|]. apply inc_step with (t := t); auto.
    + pose proof (sum_in (fun b => occ p (cells b)) _ _ _ Eb) as Q. cbv beta in Q. pose proof (proj1 (occ_in p (cells b)) (nth_error_In _ _ Ec)). unfold ce. lia.
    + intros q. sums. rewrite Ew, Ef. cbn [fref]. rewrite slot_set by auto. rewrite sum_nil. lia.
    + sums. rewrite Ew. auto.
    + exact Logic.I.
    + apply excl_none. reflexivity.
  - destruct G as (Go & b & Eb & Ec). destruct (getv (vars t) x) as [p|] eqn:Ex.
    + pose proof (hv_held _ _ (getv_in _ _ _ Ex)) as Hh. destruct (held_obj w i t p I Et Hh) as (n & c & E0).
      rewrite (inc_ok _ _ _ _ E0). cbn [bind].
      assert (exists y, y < length (vars t)) as [y Hy]. { exists x. apply getv_some in Ex. eapply nth_error_lt; eauto. }
      set (t1 := mkT (vars t) (prog t) [] (RBuild y [] [Some p])).
      assert (inv (sett (seto w p (mkO (Some (n + 1)%Z) Alive c)) i t1)) as I1.
      { apply inc_step with (t := t); auto; [lia| | |].
        - intros o'. unfold t1. sums. rewrite Ew, Ef. cbn [fref occ one]. rewrite sum_nil. lia.
        - unfold t1. sums. rewrite Ew. auto.
        - apply excl_none. reflexivity. }
      set (w1 := seto w p (mkO (Some (n + 1)%Z) Alive c)) in *.
      assert (exists b1, nth_error (heap w1) o = Some b1 /\ lf b1 = Alive /\ cells b1 = cells b) as (b1 & E1 & L1 & C1).
      { unfold w1, seto. cbn [heap]. destruct (Nat.eq_dec p o) as [->|N].
        - rewrite upd_same by (eapply nth_error_lt; eauto). eexists. split; [reflexivity|]. rewrite Eb in E0. injection E0 as ->. auto.
        - rewrite upd_other by auto. destruct (held_obj w i t o I Et (hv_held _ _ Go)) as (n2 & c2 & E2). rewrite Eb in E2. injection E2 as ->. eauto. }
      unfold deref. rewrite E1, L1. cbn [bind]. eexists. split; [reflexivity|].
      replace (sett (seto w1 o (setcell b1 f (Some p))) i (mkT (vars t) (prog t) [] RNone))
        with (sett (seto (sett w1 i t1) o (setcell b1 f (Some p))) i (mkT (vars t) (prog t) [] RNone))
        by (unfold sett, seto; cbn [heap ths log]; now rewrite upd_upd).
      apply cell_step with (t := t1) (v := None); auto.
      * unfold sett. cbn [ths]. apply upd_same. unfold w1, seto. cbn [ths]. eapply nth_error_lt; eauto.
      * rewrite C1. exact Ec.
      * intros q. unfold t1. sums. cbn [one occ]. lia.
      * unfold t1. sums. auto.
      * intros j s Nj Es. unfold sett, w1, seto in Es. cbn [ths] in Es. rewrite upd_other in Es by auto.
        eapply (i_excl w I i j t s); eauto. unfold writes_cell. rewrite Ef. now rewrite !Nat.eqb_refl.
      * exact Logic.I.
      * apply excl_none. reflexivity.
    + eexists. split; [reflexivity|]. apply same_step with (t := t); auto.
      * intros q. sums. rewrite Ew, Ef. cbn [fref]. rewrite sum_nil. lia.
      * sums. rewrite Ew. auto.
      * exact Logic.I.
      * apply excl_none. reflexivity.
  - destruct G as (G & Go & b & Eb & v & Ec). destruct (held_obj w i t o I Et (hv_held _ _ Go)) as (n & c & E0).
    unfold deref. rewrite E0. cbn [lf bind]. eexists. split; [reflexivity|]. rewrite Eb in E0. injection E0 as ->.
    apply cell_step with (t := t) (v := v); auto.
    + intros q. sums. rewrite Ew, Ef. cbn [fref one]. rewrite slot_set by auto. rewrite (getv_nth _ _ _ Ec), sum_nil. lia.
    + sums. rewrite Ew. auto.
    + intros j s Nj Es. eapply (i_excl w I i j t s); eauto. unfold writes_cell. rewrite Ef. now rewrite !Nat.eqb_refl.
    + exact Logic.I.
    + apply excl_none. reflexivity.
  - destruct ms as [|m ms].
    + eexists. split; [reflexivity|]. unfold sett. cbn [heap ths log].
      destruct (nth_error (vars t) y) as [v|] eqn:Ey; [|apply nth_error_None in Ey; lia].
      apply (inv_step w i t); auto.
      * intros o R A D E K. rewrite ce_app. cbn [cells]. unfold hv, tc, td, tf in *. cbn [vars work fin fref]. rewrite Ew, Ef in K. cbn [fref] in K. rewrite !sum_nil in K.
        destruct (dec_of_sums o (getv (vars t) y)) as (-> & -> & -> & ->). rewrite (getv_nth _ _ _ Ey).
        pose proof (occ_upd o _ _ _ None Ey) as Q. cbn [one] in Q. cbn [one].
        destruct (Nat.eq_dec (length (heap w)) o) as [<-|N].
        -- rewrite nth_error_app2, Nat.sub_diag by lia. cbn [nth_error]. rewrite Nat.eqb_refl.
           rewrite (proj2 (nth_error_None (heap w) (length (heap w)))) in K by lia. cbn [okb lf cnt] in *. destruct v as [v|]; cbn [one] in *; lia.
        -- rewrite (proj2 (Nat.eqb_neq o (length (heap w)))) by auto.
           replace (nth_error (heap w ++ [mkO (Some 1%Z) Alive acc]) o) with (nth_error (heap w) o).
           ++ replace (R + (occ o (upd (vars t) y None) + one o v + 0) + (ce (heap w) o + occ o acc)) with (R + (occ o (vars t) + 0 + occ o acc) + ce (heap w) o) by lia. exact K.
           ++ destruct (Nat.lt_ge_cases o (length (heap w))); [now rewrite nth_error_app1|].
              rewrite nth_error_app2 by lia. rewrite (proj2 (nth_error_None (heap w) o)) by lia. symmetry. apply nth_error_None. cbn [length]. lia.
      * unfold good, free_slot. cbn [fin vars]. apply upd_same. auto.
      * intros j s o b Nj Es U Eb. exists b. split; [|auto]. rewrite nth_error_app1; [auto|eapply nth_error_lt; eauto].
      * apply excl_none. reflexivity.
    + destruct (getv (vars t) m) as [p|] eqn:Ex.
      * pose proof (hv_held _ _ (getv_in _ _ _ Ex)) as Hh. destruct (held_obj w i t p I Et Hh) as (n & c & E0).
        rewrite (inc_ok _ _ _ _ E0). cbn [bind]. eexists. split; [reflexivity|]. apply inc_step with (t := t); auto; [lia| | |].
        -- intros o. sums. rewrite Ew, Ef. cbn [fref]. rewrite occ_app. cbn [occ one]. rewrite sum_nil. lia.
        -- sums. rewrite Ew. auto.
        -- apply excl_none. reflexivity.
      * eexists. split; [reflexivity|]. apply same_step with (t := t); auto.
        -- intros o. sums. rewrite Ew, Ef. cbn [fref]. rewrite occ_app. cbn [occ one]. rewrite sum_nil. lia.
        -- sums. rewrite Ew. auto.
        -- apply excl_none. reflexivity.
Qed.
