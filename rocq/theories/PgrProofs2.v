From Coq Require Import ZifyBool ZifyNat.
From Verif Require Import Base BaseFacts PgrModel PgrSpec PgrProofs.
Open Scope nat_scope.

Lemma ce_upd h p b b' o : nth_error h p = Some b -> ce (upd h p b') o + occ o (cells b) = ce h o + occ o (cells b').
Proof. intros E. exact (sum_upd (fun b => occ o (cells b)) h p b b' E). Qed.
Lemma ce_app h b o : ce (h ++ [b]) o = ce h o + occ o (cells b).
Proof. unfold ce. rewrite sum_app, sum_cons, sum_nil. lia. Qed.
Lemma excl_sub w i t t' : inv w -> nth_error (ths w) i = Some t ->
  (forall o f, writes_cell o f t' = true -> writes_cell o f t = true) ->
  (forall o f, uses_cell o f t' = true -> uses_cell o f t = true) ->
  forall j s o f, j <> i -> nth_error (ths w) j = Some s ->
     (writes_cell o f t' = true -> uses_cell o f s = false) /\ (uses_cell o f t' = true -> writes_cell o f s = false).
Proof.
  intros I Et H1 H2 j s o f N Es. split; intros H.
  - eapply (i_excl w I i j); eauto.
  - destruct (writes_cell o f s) eqn:E; auto. pose proof (i_excl w I j i s t o f N Es Et E) as X. rewrite (H2 _ _ H) in X. discriminate.
Qed.
Lemma oth_refl w i : forall j s o b, j <> i -> nth_error (ths w) j = Some s -> uses_obj o s = true -> nth_error (heap w) o = Some b ->
     exists b', nth_error (heap w) o = Some b' /\ forall f, uses_cell o f s = true -> nth_error (cells b') f = nth_error (cells b) f.
Proof. intros. eauto. Qed.
Lemma oth_same w i p b0 b1 : nth_error (heap w) p = Some b0 -> cells b1 = cells b0 ->
  forall j s o b, j <> i -> nth_error (ths w) j = Some s -> uses_obj o s = true -> nth_error (heap w) o = Some b ->
     exists b', nth_error (upd (heap w) p b1) o = Some b' /\ forall f, uses_cell o f s = true -> nth_error (cells b') f = nth_error (cells b) f.
Proof.
  intros E0 Ec j s o b N Es U Eb. destruct (Nat.eq_dec p o) as [<-|Np].
  - rewrite upd_same by (eapply nth_error_lt; eauto). exists b1. split; auto. intros. congruence.
  - rewrite upd_other by auto. eauto.
Qed.
(* okb of an object whose counter, life and numbers changed *)
Ltac here o p := destruct (Nat.eq_dec p o) as [<-|?]; [rewrite ?Nat.eqb_refl in *|rewrite ?(proj2 (Nat.eqb_neq o p)) in * by auto].

Lemma task_ok w i t a k : inv w -> nth_error (ths w) i = Some t -> work t = a :: k ->
  exists w', do_task w i t a k = Ok w' /\ inv w'.
Proof.
  intros I Et Ew. pose proof (i_good w I _ _ Et) as G. pose proof (i_self w I _ _ Et) as Sf.
  assert (forall v, good (heap w) (mkT (vars t) (prog t) v (fin t))) as G0 by (intros v; exact G).
  assert (forall v j s o f, j <> i -> nth_error (ths w) j = Some s ->
     (writes_cell o f (mkT (vars t) (prog t) v (fin t)) = true -> uses_cell o f s = false) /\
     (uses_cell o f (mkT (vars t) (prog t) v (fin t)) = true -> writes_cell o f s = false)) as X0
    by (intros v; apply (excl_sub w i t); auto).
  (* good in a heap in which the cells did not change *)
  assert (forall p b0 b1 v, nth_error (heap w) p = Some b0 -> cells b1 = cells b0 ->
      good (upd (heap w) p b1) (mkT (vars t) (prog t) v (fin t))) as G1.
  { intros p b0 b1 v E0 Ec. clear - G E0 Ec. unfold good, free_slot in *. cbn [fin vars] in *.
    assert (forall o b, nth_error (heap w) o = Some b -> exists b', nth_error (upd (heap w) p b1) o = Some b' /\ cells b' = cells b) as Q.
    { intros o b Eb. destruct (Nat.eq_dec p o) as [<-|Np]; [rewrite upd_same by (eapply nth_error_lt; eauto); exists b1; split; congruence|].
      rewrite upd_other by auto. eauto. }
    destruct (fin t); auto.
    - destruct G as (A & B & b & C & D). split; [auto|split; [auto|]]. destruct (Q _ _ C) as (b' & Q1 & Q2). exists b'. rewrite Q2. auto.
    - destruct G as (B & b & C & D). split; [auto|]. destruct (Q _ _ C) as (b' & Q1 & Q2). exists b'. rewrite Q2. auto.
    - destruct G as (A & B & b & C & D). split; [auto|split; [auto|]]. destruct (Q _ _ C) as (b' & Q1 & Q2). exists b'. rewrite Q2. auto. }
  destruct a as [p|p|p|p]; cbn [do_task].
  - (* DECRC *)
    assert (1 <= hv p t) as Hh by (unfold hv; rewrite Ew, sum_cons; cbn [is_dec]; rewrite Nat.eqb_refl; lia).
    destruct (held_obj w i t p I Et Hh) as (n & c & E0). rewrite E0.
    eexists. split; [reflexivity|]. unfold sett, seto. cbn [heap ths log].
    apply inv_step with (t := t); [exact I|exact Et| | | |apply X0|exact Sf].
    + intros o R A D E K. pose proof (ce_upd _ _ _ (mkO (Some (n - 1)%Z) Alive c) o E0) as Q. cbn [cells] in Q.
      unfold hv, tc, td, tf in *. cbn [vars work fin]. rewrite Ew in K. rewrite !sum_cons in K. cbn [is_dec is_counter is_destroy is_free] in K.
      destruct (Z.eqb_spec (n - 1) 0) as [Z1|Z1]; rewrite ?sum_cons; cbn [is_dec is_counter is_destroy is_free]; here o p.
      * rewrite upd_same by (eapply nth_error_lt; eauto). rewrite E0 in K. cbn [okb lf cnt] in *. lia.
      * rewrite upd_other by auto. replace (ce (upd (heap w) p (mkO (Some (n - 1)%Z) Alive c)) o) with (ce (heap w) o) by lia. exact K.
      * rewrite upd_same by (eapply nth_error_lt; eauto). rewrite E0 in K. cbn [okb lf cnt] in *. lia.
      * rewrite upd_other by auto. replace (ce (upd (heap w) p (mkO (Some (n - 1)%Z) Alive c)) o) with (ce (heap w) o) by lia. exact K.
    + eapply G1; eauto.
    + eapply oth_same; eauto.
  - (* delete counter *)
    assert (exists n c, nth_error (heap w) p = Some (mkO (Some n) Alive c)) as (n & c & E0).
    { pose proof (sum_in (tc p) _ _ _ Et) as Q. unfold tc in Q at 1. rewrite Ew, sum_cons in Q. cbn [is_counter] in Q. rewrite Nat.eqb_refl in Q.
      pose proof (i_obj w I p) as K. destruct (nth_error (heap w) p) as [[[n|] l c]|]; cbn [okb lf cnt] in K; [destruct l; try contradiction; eauto|destruct l; lia|lia]. }
    rewrite E0. eexists. split; [reflexivity|]. unfold sett, seto. cbn [heap ths log].
    apply inv_step with (t := t); [exact I|exact Et| | | |apply X0|exact Sf].
    + intros o R A D E K. pose proof (ce_upd _ _ _ (mkO None Alive c) o E0) as Q. cbn [cells] in Q.
      unfold hv, tc, td, tf in *. cbn [vars work fin]. rewrite Ew in K. rewrite !sum_cons in *. cbn [is_dec is_counter is_destroy is_free] in *. here o p.
      * rewrite upd_same by (eapply nth_error_lt; eauto). rewrite E0 in K. cbn [okb lf cnt] in *. lia.
      * rewrite upd_other by auto. replace (ce (upd (heap w) p (mkO None Alive c)) o) with (ce (heap w) o) by lia. exact K.
    + eapply G1; eauto.
    + eapply oth_same; eauto.
  - (* the destructor *)
    pose proof (sum_in (td p) _ _ _ Et) as Q0. unfold td in Q0 at 1. rewrite Ew, sum_cons in Q0. cbn [is_destroy] in Q0. rewrite Nat.eqb_refl in Q0.
    pose proof (i_obj w I p) as K0.
    assert (exists c, nth_error (heap w) p = Some (mkO None Alive c)) as (c & E0).
    { destruct (nth_error (heap w) p) as [[[n|] l c]|]; cbn [okb lf cnt] in K0; [destruct l; try contradiction; lia|destruct l; eauto; lia|lia]. }
    assert (sum (hv p) (ths w) = 0) as Z0 by (rewrite E0 in K0; cbn [okb lf cnt] in K0; lia).
    assert (forall j s, nth_error (ths w) j = Some s -> ~ In (Some p) (vars s)) as NV.
    { intros j s Es H. apply occ_in in H. pose proof (sum_in (hv p) _ _ _ Es) as Q. unfold hv in Q at 1. lia. }
    assert (forall j s, nth_error (ths w) j = Some s -> uses_obj p s = false) as NU.
    { intros j s Es. destruct (uses_obj p s) eqn:E; auto. exfalso. eapply NV; eauto. eapply uses_held; eauto. eapply (i_good w I); eauto. }
    replace (existsb (uses_obj p) (ths w)) with false.
    2:{ symmetry. apply not_true_iff_false. intros H. apply existsb_exists in H. destruct H as (s & Is & Us).
        apply In_nth_error in Is. destruct Is as [j Ej]. rewrite (NU _ _ Ej) in Us. discriminate. }
    unfold deref. rewrite E0. cbn [lf cells cnt bind]. eexists. split; [reflexivity|]. unfold sett, seto. cbn [heap ths log].
    apply inv_step with (t := t); [exact I|exact Et| | | |apply X0|exact Sf].
    + intros o R A D E K. pose proof (ce_upd _ _ _ (mkO None Dying []) o E0) as Q. cbn [cells occ] in Q.
      destruct (cell_sums o c) as (C1 & C2 & C3 & C4).
      unfold hv, tc, td, tf in *. cbn [vars work fin]. rewrite !sum_app, C1, C2, C3, C4. rewrite Ew in K. rewrite !sum_cons in *. cbn [is_dec is_counter is_destroy is_free] in *. here o p.
      * rewrite upd_same by (eapply nth_error_lt; eauto). rewrite E0 in K. cbn [okb lf cnt] in *. lia.
      * rewrite upd_other by auto. replace (R + (occ o (vars t) + (occ o c + (0 + sum (is_dec o) k)) + fref o (fin t)) + ce (upd (heap w) p (mkO None Dying [])) o)
          with (R + (occ o (vars t) + (0 + sum (is_dec o) k) + fref o (fin t)) + ce (heap w) o) by lia. exact K.
    + pose proof (NU _ _ Et) as NU0. unfold good, uses_obj in *. cbn [fin vars]. destruct (fin t); auto;
        apply Nat.eqb_neq in NU0; rewrite upd_other by auto; exact G.
    + intros j s o b Nj Es Us Eb. destruct (Nat.eq_dec p o) as [<-|Np]; [rewrite (NU _ _ Es) in Us; discriminate|].
      rewrite upd_other by auto. eauto.
  - (* the memory *)
    pose proof (sum_in (tf p) _ _ _ Et) as Q0. unfold tf in Q0 at 1. rewrite Ew, sum_cons in Q0. cbn [is_free] in Q0. rewrite Nat.eqb_refl in Q0.
    pose proof (i_obj w I p) as K0.
    assert (exists c, nth_error (heap w) p = Some (mkO None Dying c)) as (c & E0).
    { destruct (nth_error (heap w) p) as [[[n|] l c]|]; cbn [okb lf cnt] in K0; [destruct l; try contradiction; lia|destruct l; eauto; lia|lia]. }
    rewrite E0. eexists. split; [reflexivity|]. unfold sett, seto. cbn [heap ths log].
    apply (inv_step w i t (mkT (vars t) (prog t) k (fin t)) (upd (heap w) p (mkO None Gone c)) (p :: log w)); [exact I|exact Et| | | |apply X0|exact Sf].
    + intros o R A D E K. pose proof (ce_upd _ _ _ (mkO None Gone c) o E0) as Q. cbn [cells] in Q.
      unfold hv, tc, td, tf, lc in *. cbn [vars work fin count_occ]. rewrite Ew in K. rewrite !sum_cons in K. cbn [is_dec is_counter is_destroy is_free] in *. here o p.
      * rewrite upd_same by (eapply nth_error_lt; eauto). rewrite E0 in K. cbn [okb lf cnt] in *. destruct (Nat.eq_dec p p); [lia|congruence].
      * rewrite upd_other by auto. destruct (Nat.eq_dec p o); [congruence|].
        replace (ce (upd (heap w) p (mkO None Gone c)) o) with (ce (heap w) o) by lia. exact K.
    + eapply G1; eauto.
    + eapply oth_same; eauto.
Qed.
