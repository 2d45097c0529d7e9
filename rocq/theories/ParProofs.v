From Coq Require Import ZifyBool ZifyNat.
From Verif Require Import Base BaseFacts ParModel ParSpec.
Open Scope nat_scope.

Lemma owned_upd l i t t' : nth_error l i = Some t -> owned (upd l i t') + own t = owned l + own t'.
Proof.
  unfold owned. revert i. induction l as [|x l IH]; intros [|i] H; cbn [nth_error upd fold_right] in *; try discriminate.
  - inversion H; subst. lia.
  - specialize (IH _ H). lia.
Qed.
Lemma owned_in l i t : nth_error l i = Some t -> own t <= owned l.
Proof.
  unfold owned. revert i. induction l as [|x l IH]; intros [|i] H; cbn [nth_error fold_right] in *; try discriminate.
  - inversion H; subst. lia.
  - specialize (IH _ H). lia.
Qed.

(* while copies exist nobody deletes; afterwards exactly one thread does *)
Inductive inv (w : par) : Prop :=
| i_live : cnt w = Some (Z.of_nat (owned (ths w))) -> 1 <= owned (ths w) -> obj w = true -> deleters w = [] ->
    (forall i t, nth_error (ths w) i = Some t -> ph t = Outside) -> inv w
| i_dying : forall d p td, owned (ths w) = 0 -> obj w = true -> deleters w = [] -> latest w = Some d ->
    nth_error (ths w) d = Some td -> ph td = p -> p <> Outside -> (p = BeforeCounter -> cnt w <> None) -> (p = BeforeObject -> cnt w = None) ->
    (forall i t, i <> d -> nth_error (ths w) i = Some t -> ph t = Outside) -> inv w
| i_dead : forall d, owned (ths w) = 0 -> obj w = false -> cnt w = None -> deleters w = [d] -> latest w = Some d ->
    (forall i t, nth_error (ths w) i = Some t -> ph t = Outside) -> inv w.

Lemma upd_id {A} (l : list A) i x : nth_error l i = Some x -> upd l i x = l.
Proof. revert i. induction l as [|y l IH]; intros [|i] H; cbn in *; try discriminate; [congruence|now rewrite IH]. Qed.

Lemma tstep_ok w i : inv w -> exists w', tstep w i = Ok w' /\ inv w' /\
  (obj w = true -> obj w' = false -> owned (ths w) = 0 /\ latest w = Some i).
Proof.
  intros H. unfold tstep. destruct (nth_error (ths w) i) as [t|] eqn:Et; [|exists w; repeat split; auto; congruence].
  pose proof (nth_error_lt _ _ _ Et) as Li.
  destruct H as [Hc Ho Hb Hd Hp|d p td Ho Hb Hd Hl Htd Hph Np Hc1 Hc2 Hp|d Ho Hb Hc Hd Hl Hp].
  - (* copies exist *)
    rewrite (Hp i t Et).
    assert (forall k p' c' o', own t = S k ->
      inv (mkPar c' (obj w) (upd (ths w) i (mkT o' p' Outside)) (latest w) (deleters w)) \/ c' <> Some (Z.of_nat (owned (upd (ths w) i (mkT o' p' Outside)))) \/ o' = 0) as K.
    { intros k p' c' o' Ek. destruct (Nat.eq_dec o' 0); auto.
      assert (c' = Some (Z.of_nat (owned (upd (ths w) i (mkT o' p' Outside)))) \/ c' <> Some (Z.of_nat (owned (upd (ths w) i (mkT o' p' Outside))))) as [->|]; auto.
      { destruct c' as [z|]; [|right; discriminate]. destruct (Z.eq_dec z (Z.of_nat (owned (upd (ths w) i (mkT o' p' Outside))))); [left; congruence|right; congruence]. }
      left. pose proof (owned_upd _ _ _ (mkT o' p' Outside) Et) as Q. cbn [own] in Q.
      apply i_live; cbn [cnt ths obj deleters]; auto.
      - pose proof (owned_in (upd (ths w) i (mkT o' p' Outside)) i _ (upd_same _ _ _ Li)) as Q2. cbn [own] in Q2. lia.
      - intros j t'. destruct (Nat.eq_dec j i) as [->|N]; [rewrite upd_same by auto; intros X; inversion X; reflexivity|].
        rewrite upd_other by auto. eauto. }
    destruct (prog t) as [|a pr] eqn:Ep; [exists w; (split; [reflexivity|split; [apply i_live; auto|congruence]])|].
    destruct (own t) as [|k] eqn:Ek; [destruct a; exists w; (split; [reflexivity|split; [apply i_live; auto|congruence]])|].
    destruct a as [| | |j].
    + rewrite Hc. eexists. split; [reflexivity|]. split; [|cbn [obj]; congruence].
      destruct (K k pr (Some (Z.of_nat (owned (ths w)) + 1)%Z) (S (S k)) eq_refl) as [|[X|X]]; auto; [|discriminate].
      exfalso. apply X. f_equal. pose proof (owned_upd _ _ _ (mkT (S (S k)) pr Outside) Et) as Q. cbn [own] in Q. lia.
    + rewrite Hc. eexists. split; [reflexivity|]. split; [|cbn [obj]; congruence].
      pose proof (fun ph' => owned_upd _ _ _ (mkT k pr ph') Et) as Q. cbn [own] in Q.
      destruct (Z.eqb_spec (Z.of_nat (owned (ths w)) - 1) 0) as [Z|Z].
      * apply (i_dying _ i BeforeCounter (mkT k pr BeforeCounter)); cbn [cnt ths obj deleters latest]; auto; try discriminate.
        -- specialize (Q BeforeCounter). lia.
        -- now apply upd_same.
        -- intros j t' N. rewrite upd_other by auto. eauto.
      * specialize (Q Outside). apply i_live; cbn [cnt ths obj deleters latest]; auto.
        -- f_equal. lia.
        -- lia.
        -- intros j t'. destruct (Nat.eq_dec j i) as [->|N]; [rewrite upd_same by auto; intros X; inversion X; reflexivity|].
           rewrite upd_other by auto. eauto.
    + rewrite Hb. eexists. split; [reflexivity|]. split; [|cbn [obj]; congruence].
      destruct (K k pr (cnt w) (S k) eq_refl) as [X|[X|X]]; [now rewrite Hb in X| |discriminate].
      exfalso. apply X. rewrite Hc. f_equal. pose proof (owned_upd _ _ _ (mkT (S k) pr Outside) Et) as Q. cbn [own] in Q. lia.
    + set (l := upd (ths w) i (mkT k pr Outside)). destruct (nth_error l j) as [t'|] eqn:Ej; [|exists w; (split; [reflexivity|split; [apply i_live; auto|congruence]])].
      eexists. split; [reflexivity|]. split; [|cbn [obj]; congruence].
      pose proof (owned_upd _ _ _ (mkT k pr Outside) Et) as Q. fold l in Q. cbn [own] in Q.
      pose proof (owned_upd _ _ _ (mkT (S (own t')) (prog t') (ph t')) Ej) as Q2. cbn [own] in Q2.
      assert (forall a b, nth_error l a = Some b -> ph b = Outside) as PL.
      { intros a b. unfold l. destruct (Nat.eq_dec a i) as [->|N]; [rewrite upd_same by auto; intros X; inversion X; reflexivity|].
        rewrite upd_other by auto. eauto. }
      apply i_live; cbn [cnt ths obj deleters latest]; auto.
      * rewrite Hc. f_equal. lia.
      * lia.
      * intros a b. destruct (Nat.eq_dec a j) as [->|N].
        -- rewrite upd_same by (eapply nth_error_lt; eauto). intros X. inversion X. cbn. eauto.
        -- rewrite upd_other by auto. eauto.
  - (* one thread deletes *)
    assert (own t = 0) as Ot by (pose proof (owned_in _ _ _ Et); lia).
    destruct (Nat.eq_dec i d) as [->|N].
    + assert (td = t) by congruence. subst td. destruct (ph t) eqn:Eph; [congruence| |].
      * destruct (cnt w) as [z|] eqn:Ec; [|exfalso; apply Hc1; congruence]. eexists. split; [reflexivity|]. split; [|cbn [obj]; congruence].
        apply (i_dying _ d BeforeObject (mkT (own t) (prog t) BeforeObject)); cbn [cnt ths obj deleters latest]; auto; try discriminate.
        -- pose proof (owned_upd _ _ _ (mkT (own t) (prog t) BeforeObject) Et) as Q. cbn [own] in Q. lia.
        -- now apply upd_same.
        -- intros j t' N. rewrite upd_other by auto. eauto.
      * rewrite Hb. eexists. split; [reflexivity|]. split; [|auto]. rewrite Hd.
        apply (i_dead _ d); cbn [cnt ths obj deleters latest]; auto.
        -- pose proof (owned_upd _ _ _ (mkT (own t) (prog t) Outside) Et) as Q. cbn [own] in Q. lia.
        -- intros j t'. destruct (Nat.eq_dec j d) as [->|N]; [rewrite upd_same by auto; intros X; inversion X; reflexivity|].
           rewrite upd_other by auto. eauto.
    + rewrite (Hp i t N Et), Ot. assert (inv w) as HI by (eapply i_dying; eauto).
      destruct (prog t) as [|[] ?]; exists w; repeat split; auto; congruence.
  - assert (own t = 0) as Ot by (pose proof (owned_in _ _ _ Et); lia).
    rewrite (Hp i t Et), Ot. assert (inv w) as HI by (eapply i_dead; eauto).
    destruct (prog t) as [|[] ?]; exists w; repeat split; auto; congruence.
Qed.
Lemma prun_ok sched : forall w, inv w -> exists w', prun w sched = Ok w' /\ inv w'.
Proof.
  induction sched as [|i sched IH]; intros w H; [exists w; auto|].
  destruct (tstep_ok w i H) as (w1 & R & H1 & _). cbn [prun]. rewrite R. cbn [bind]. auto.
Qed.
Lemma start_inv l : 1 <= owned (ths (start l)) -> inv (start l).
Proof.
  intros H. apply i_live; auto. intros i t E. cbn [start ths] in E. rewrite nth_error_map in E.
  destruct (nth_error l i); [|discriminate]. inversion E. reflexivity.
Qed.
Lemma par_safe l sched : 1 <= owned (ths (start l)) -> exists w, prun (start l) sched = Ok w /\
  (1 <= owned (ths w) -> obj w = true /\ cnt w = Some (Z.of_nat (owned (ths w))) /\ idle w) /\
  (obj w = true -> deleters w = []) /\
  (obj w = false -> cnt w = None /\ exists d, deleters w = [d] /\ latest w = Some d) /\
  (owned (ths w) = 0 -> idle w -> obj w = false).
Proof.
  intros H. destruct (prun_ok sched _ (start_inv l H)) as (w & R & I). exists w. split; [exact R|].
  assert ((forall i t, nth_error (ths w) i = Some t -> ph t = Outside) -> idle w) as ID.
  { intros Q. apply Forall_forall. intros t It. apply In_nth_error in It. destruct It as [i It]. eauto. }
  destruct I as [Hc Ho Hb Hd Hp|d p td Ho Hb Hd Hl Htd Hph Np Hc1 Hc2 Hp|d Ho Hb Hc Hd Hl Hp].
  - repeat split; auto; try congruence. intros Q. lia.
  - split; [lia|]. split; auto. split; [congruence|]. intros _ Q. unfold idle in Q. rewrite Forall_forall in Q.
    exfalso. apply Np. rewrite <- Hph. apply Q. eapply nth_error_In; eauto.
  - split; [lia|]. split; [congruence|]. split; eauto.
Qed.
Lemma par_last l sched i w w' : 1 <= owned (ths (start l)) -> prun (start l) sched = Ok w -> tstep w i = Ok w' ->
  obj w = true -> obj w' = false -> owned (ths w) = 0 /\ latest w = Some i.
Proof.
  intros H R T A B. destruct (prun_ok sched _ (start_inv l H)) as (w1 & R1 & I). assert (w1 = w) by congruence. subst w1.
  destruct (tstep_ok w i I) as (w2 & T2 & _ & K). assert (w2 = w') by congruence. subst. auto.
Qed.

(* ---- when every thread drops what it owns, every complete run deletes ------------------- *)
Lemma prun_app a b w : prun w (a ++ b) = do w' <- prun w a; prun w' b.
Proof. revert w. induction a as [|i a IH]; intros w; [reflexivity|]. cbn [app prun]. destruct (tstep w i); cbn [bind]; auto. Qed.

Definition quiet (t : thread) : Prop := after (own t) (prog t) = Some 0.
Lemma quiet_step w i w' : tstep w i = Ok w' -> Forall quiet (ths w) -> Forall quiet (ths w').
Proof.
  unfold tstep. intros H Q. destruct (nth_error (ths w) i) as [t|] eqn:Et; [|inversion H; subst; auto].
  pose proof (proj1 (Forall_forall _ _) Q t (nth_error_In _ _ Et)) as Qt. unfold quiet in Qt.
  assert (forall t', quiet t' -> Forall quiet (upd (ths w) i t')) as K.
  { intros t' Qt'. apply Forall_forall. intros x Ix. apply In_nth_error in Ix. destruct Ix as [j Ix].
    destruct (Nat.eq_dec j i) as [->|N].
    - rewrite upd_same in Ix by (eapply nth_error_lt; eauto). now inversion Ix; subst.
    - rewrite upd_other in Ix by auto. eapply Forall_forall; [exact Q|]. eapply nth_error_In; eauto. }
  destruct (ph t).
  - destruct (prog t) as [|a p] eqn:Ep; [inversion H; subst; auto|].
    destruct a; destruct (own t) as [|k] eqn:Ek; cbn [after] in Qt; try discriminate.
    + destruct (cnt w); inversion H; subst. apply K. exact Qt.
    + destruct (cnt w); inversion H; subst. apply K. unfold quiet. cbn [own prog]. exact Qt.
    + destruct (obj w); inversion H; subst. apply K. exact Qt.
  - destruct (cnt w); inversion H; subst. apply K. exact Qt.
  - destruct (obj w); inversion H; subst. apply K. exact Qt.
Qed.
Lemma quiet_run sched : forall w w', prun w sched = Ok w' -> Forall quiet (ths w) -> Forall quiet (ths w').
Proof.
  induction sched as [|i sched IH]; cbn [prun]; intros w w' H Q; [inversion H; subst; auto|].
  destruct (tstep w i) as [w1| | |] eqn:E; try discriminate. cbn [bind] in H. eapply IH; [exact H|]. eapply quiet_step; eauto.
Qed.
Lemma par_done l sched w : 1 <= owned (ths (start l)) -> Forall (fun x => after (fst x) (snd x) = Some 0) l ->
  prun (start l) sched = Ok w -> Forall (fun t => prog t = []) (ths w) -> idle w ->
  obj w = false /\ exists d, deleters w = [d].
Proof.
  intros H A R F I. destruct (par_safe l sched H) as (w1 & R1 & _ & _ & K1 & K2). assert (w1 = w) by congruence. subst w1.
  assert (Forall quiet (ths w)) as Q.
  { eapply quiet_run; [exact R|]. cbn [start ths]. apply Forall_forall. intros t It. apply in_map_iff in It.
    destruct It as (x & <- & Ix). unfold quiet. cbn [own prog]. eapply Forall_forall in A; eauto. }
  assert (owned (ths w) = 0) as Z.
  { unfold owned. clear -Q F. induction (ths w) as [|t ts IH]; [reflexivity|]. inversion Q; inversion F; subst. cbn [fold_right].
    rewrite IH by auto. unfold quiet in *. rewrite H5 in H1. cbn in H1. inversion H1. lia. }
  split; [auto|]. destruct (K1 (K2 Z I)) as (_ & d & D & _). eauto.
Qed.
Definition demo : list (nat * list act) := [(1%nat, [Copy; Use; Drop; Drop]); (2%nat, [Drop; Use; Drop])].
