(* Histories, storage, indices out of range; concrete programs *)
From Verif Require Import Base BaseFacts RcModel RcSpec RcProofs RcProofs2 LpModel LpSpec LpProofs LpProofs2 LpProofs3 LpProofs4 LpProofs5 LpProofs6 LpProofs7 LpProofs8 LpProofs9.
From Coq Require Import ZifyBool ZifyNat.
Open Scope nat_scope.

Lemma repeat_nth {A} (x : A) n i y : nth_error (repeat x n) i = Some y -> y = x.
Proof. intros H. apply nth_error_In in H. now apply repeat_spec in H. Qed.
Lemma init_world n u : wv (world_of (init n)) u = None /\ wh (world_of (init n)) u = None.
Proof.
  unfold world_of, init. cbn [wv wh vs]. destruct (nth_error (repeat (None, None) n) u) as [[a h]|] eqn:E; auto.
  apply repeat_nth in E. inversion E; subst. auto.
Qed.
Lemma init_lgood n : lgood (init_l n).
Proof.
  unfold lgood, init_l. cbn [rc kd ls]. split; [apply init_good|]. split; [|split].
  - assert (forall l x, ~ at_list [] l x) as Q by (intros [|l] x; discriminate).
    constructor; try (intros; exfalso; eapply Q; eassumption).
    + rewrite repeat_length. cbn [world_of wm init vs]. now rewrite repeat_length.
    + intros u o _. unfold refers. rewrite (proj1 (init_world n u)). discriminate.
    + intros u. unfold kind_of. destruct (nth_error (repeat KVar n) u) eqn:E; [|discriminate]. apply repeat_nth in E. subst. discriminate.
    + intros u h. rewrite (proj2 (init_world n u)). discriminate.
  - apply init_no_leak.
  - intros o. unfold alive, init. cbn [ob]. destruct o; discriminate.
Qed.
Lemma lrun_ok os : forall s, lgood s -> llegal_run s os -> exists s', lrun s os = Ok s' /\ lhistory s os s' /\ lgood s'.
Proof.
  induction os as [|o os IH]; intros s G L; cbn [llegal_run lrun] in *.
  - exists s. split; [auto|]. split; [constructor|auto].
  - destruct L as [L1 L2]. destruct (lstep_ok s o G L1) as (s1 & E & Sp & G1). destruct (IH s1 G1 (L2 s1 E)) as (s2 & R & H & G2).
    exists s2. rewrite E. cbn [bind]. split; [auto|]. split; [|auto]. econstructor; eauto.
Qed.
Lemma reach_lgood n os s : llegal_run (init_l n) os -> lrun (init_l n) os = Ok s -> lgood s.
Proof. intros L R. destruct (lrun_ok os _ (init_lgood n) L) as (s' & R' & _ & G). assert (s' = s) by congruence. now subst. Qed.
Lemma lhistory_ok n os : llegal_run (init_l n) os -> exists s, lrun (init_l n) os = Ok s /\ lhistory (init_l n) os s.
Proof. intros L. destruct (lrun_ok os _ (init_lgood n) L) as (s & R & H & _). eauto. Qed.
Lemma lalive_ok n os s o : llegal_run (init_l n) os -> lrun (init_l n) os = Ok s ->
  (aa (lworld_of s) o = true <-> exists p, arefers (lworld_of s) p o).
Proof.
  intros L R. destruct (reach_lgood _ _ _ L R) as (G & I & NL & KP). split.
  - intros A. destruct (KP o A) as [u Ru]. destruct (ref_place _ _ _ _ _ I Ru) as (p & _ & Q & _). eauto.
  - intros [p Rp]. destruct (place_ref _ _ _ _ _ I Rp) as (u & _ & Ru & _). eapply good_refers; eauto.
Qed.
Lemma lcounter_ok n os s u p h o : llegal_run (init_l n) os -> lrun (init_l n) os = Ok s ->
  nth_error (vs (rc s)) u = Some (Some p, h) -> pr p = Some o ->
  alive (rc s) o = true /\ exists c, pc p = Some c /\ nth_error (cn (rc s)) c = Some (Some (Z.of_nat (owners (rc s) o))).
Proof.
  intros L R H P. destruct (reach_lgood _ _ _ L R) as ((E & HJ & _) & _).
  assert (ex (rc s) u = Some p) as X by (unfold ex; now rewrite H).
  destruct (var_cases (rc s) E HJ u p X) as [(c & o' & Ec & ->)|(_ & _ & Pr)]; [|congruence].
  cbn in P. inversion P; subst o'. destruct (j_ref _ _ _ HJ _ _ _ Ec) as [[m Hm] A]. split; auto.
  exists c. split; auto. rewrite (owners_ok _ _ _ _ _ HJ Ec), Hm. repeat f_equal. apply (j_cnt _ _ _ HJ _ _ Hm).
Qed.
Lemma lcounter_released n os s c k : llegal_run (init_l n) os -> lrun (init_l n) os = Ok s ->
  nth_error (cn (rc s)) c = Some (Some k) -> exists q o, at_ (lworld_of s) q = Some (Some o) /\ exists u p h, nth_error (vs (rc s)) u = Some (Some p, h) /\ pc p = Some c /\ pr p = Some o.
Proof.
  intros L R H. destruct (reach_lgood _ _ _ L R) as ((E & HJ & _) & I & N & _).
  pose proof (j_cnt _ _ _ HJ _ _ H) as Q. destruct (cc E c) as [|m] eqn:C.
  - exfalso. apply (N c). rewrite H. subst k. reflexivity.
  - destruct (cc_ex E c) as (u & o & Eu); [lia|]. destruct (j_live _ _ _ _ _ HJ Eu) as [p Hp].
    pose proof (j_var _ _ _ HJ u) as V. rewrite Hp, Eu in V. subst p. assert (refers (world_of (rc s)) u o) as Ru by (unfold refers; rewrite wv_of, Hp; reflexivity).
    destruct (ref_place _ _ _ _ _ I Ru) as (q & _ & Rq & _). exists q, o. split; [exact Rq|]. unfold ex in Hp.
    destruct (nth_error (vs (rc s)) u) as [[x h]|] eqn:Qu; [|discriminate]. subst x. eexists u, _, h. split; [exact Qu|]. split; reflexivity.
Qed.

(* ---- storage ------------------------------------------------------------------------------- *)
Definition storage (x : kind) : Prop := x = KRaw \/ x = KMade.
Definition owned (k : list kind) (s : list (option lrec)) : Prop := forall u, storage (kind_of k u) -> exists l x, at_list s l x /\ inb x u.
Lemma check_storage k o k' a : check k o = Ok k' -> (storage (kind_of k' a) <-> storage (kind_of k a)) /\ length k' = length k.
Proof.
  assert (forall d x y, kind_of k d = y -> storage x -> storage y -> (storage (kind_of (upd k d x) a) <-> storage (kind_of k a)) /\ length (upd k d x) = length k) as U.
  { intros d x y E X Y. split; [|apply upd_length]. assert (d < length k) as Ld by (apply kind_lt; intros Q; rewrite Q in E; subst y; destruct Y; discriminate).
    rewrite kind_upd by auto. destruct (Nat.eqb_spec a d) as [->|]; [|reflexivity]. rewrite E. tauto. }
  destruct o as [d u|d u|d u|d u|d]; cbn [check].
  - destruct (is_raw k d) eqn:Q; [|discriminate]. apply is_raw_t in Q. destruct (usable k u); [|discriminate]. intros E. inversion E. subst k'. apply (U d KMade KRaw); unfold storage; auto.
  - destruct (is_raw k d) eqn:Q; [|discriminate]. apply is_raw_t in Q. destruct (usable k u); [|discriminate]. intros E. inversion E. subst k'. apply (U d KMade KRaw); unfold storage; auto.
  - destruct (is_made k d && usable k u); [|discriminate]. intros E. inversion E. subst k'. split; reflexivity.
  - destruct (is_made k d && usable k u); [|discriminate]. intros E. inversion E. subst k'. split; reflexivity.
  - destruct (is_made k d) eqn:Q; [|discriminate]. apply is_made_t in Q. intros E. inversion E. subst k'. apply (U d KRaw KMade); unfold storage; auto.
Qed.
Lemma exec_storage os a : forall r k r' k', exec os r k = Ok (r', k') -> (storage (kind_of k' a) <-> storage (kind_of k a)) /\ length k' = length k.
Proof.
  induction os as [|o os IH]; intros r k r' k' E; cbn [exec] in E; [inversion E; subst; split; reflexivity|].
  destruct (check k o) as [k1| | |] eqn:C; cbn [bind] in E; try discriminate. destruct (step r (effect_of o)) as [[r1 q]| | |]; cbn [bind] in E; try discriminate.
  destruct (check_storage _ _ _ a C) as [C1 C2]. destruct (IH _ _ _ _ E) as [I1 I2]. split; [rewrite I1; exact C1|congruence].
Qed.
Lemma deallocate_storage b n a : forall k k', deallocate k b n = Ok k' -> (storage (kind_of k' a) <-> storage (kind_of k a) /\ ~ (b <= a < b + n)) /\ length k' = length k.
Proof.
  revert b. induction n as [|n IH]; intros b k k' E; cbn [deallocate] in E.
  - inversion E. subst. split; [|auto]. split; [intros; split; [auto|lia]|tauto].
  - destruct (is_raw k b) eqn:Q; [|discriminate]. apply is_raw_t in Q. destruct (IH _ _ _ E) as [I1 I2]. assert (b < length k) as Lb by (apply kind_lt; congruence).
    rewrite kind_upd in I1 by auto. rewrite upd_length in I2. split; [|auto]. rewrite I1. destruct (Nat.eqb_spec a b) as [->|].
    + split; [intros [[?|?] _]; discriminate|]. intros [_ X]. lia.
    + split; intros [X Y]; split; auto; lia.
Qed.
Lemma owned_put k s l x x' k' : at_list s l x -> (forall u, storage (kind_of k' u) -> (inb x' u \/ (storage (kind_of k u) /\ ~ inb x u))) ->
  owned k s -> owned k' (upd s l (Some x')).
Proof.
  intros A H O u Q. destruct (H u Q) as [X|[X Y]].
  - exists l, x'. split; auto. apply (at_upd' _ _ _ _ _ _ A). now rewrite Nat.eqb_refl.
  - destruct (O u X) as (m & z & B & Z). exists m, z. split; auto. apply (at_upd' _ _ _ _ _ _ A). destruct (Nat.eqb_spec m l) as [->|]; auto.
    exfalso. apply Y. unfold at_list in *. assert (z = x) by congruence. now subst.
Qed.
Lemma drop_storage r k x r' k' : cnt x <= room x -> drop r k x = Ok (r', k') -> forall u, storage (kind_of k' u) -> storage (kind_of k u) /\ ~ inb x u.
Proof.
  unfold drop. intros Hc E u. destruct (exec (dtors (base x) (cnt x)) r k) as [[r1 k1]| | |] eqn:Q; cbn [bind] in E; try discriminate.
  destruct (deallocate k1 (base x) (room x)) as [k2| | |] eqn:Q2; cbn [bind] in E; try discriminate. inversion E; subst.
  destruct (exec_storage _ u _ _ _ _ Q) as [A1 _]. destruct (deallocate_storage _ _ u _ _ Q2) as [A2 _]. rewrite A2, A1. unfold inb. tauto.
Qed.
Lemma allocate_storage r k h n : forall u, storage (kind_of (snd (allocate r k h n)) u) -> storage (kind_of k u) \/ length k <= u < length k + n.
Proof. intros u. cbn [allocate snd]. rewrite kind_app. destruct (inr u (length k) n) eqn:X; auto. apply inr_t in X. auto. Qed.
Lemma insert_storage r k x i r' k' x' : length k = length (vs r) -> insert_uninitialized r k x i 1 = Ok (r', k', x') ->
  forall u, storage (kind_of k' u) -> inb x' u \/ (storage (kind_of k u) /\ ~ inb x u).
Proof.
  unfold insert_uninitialized. intros Lk E u. remember ((cnt x + 1) * 5 / 4 + 1) as nc. clear Heqnc. destruct (room x <? cnt x + 1).
  - pose proof (allocate_storage r k (lhome x) nc u) as Al. destruct (allocate r k (lhome x) nc) as [r0 k0]. cbn [snd] in Al.
    destruct (exec _ r0 k0) as [[r1 k1]| | |] eqn:Q; cbn [bind] in E; try discriminate.
    destruct (deallocate k1 (base x) (room x)) as [k2| | |] eqn:Q2; cbn [bind] in E; try discriminate. inversion E; subst.
    destruct (exec_storage _ u _ _ _ _ Q) as [A1 _]. destruct (deallocate_storage _ _ u _ _ Q2) as [A2 _]. rewrite A2, A1. intros [S1 N1].
    unfold inb. cbn [base room]. destruct (Al S1) as [X|X]; [right; auto|left; lia].
  - destruct (i <? cnt x).
    + destruct (exec _ r k) as [[r1 k1]| | |] eqn:Q; cbn [bind] in E; try discriminate. inversion E; subst. destruct (exec_storage _ u _ _ _ _ Q) as [A1 _]. rewrite A1.
      unfold inb. cbn [base room]. destruct (inb_dec x u) as [X|X]; unfold inb in X; [left; lia|right; auto].
    + inversion E; subst. unfold inb. cbn [base room]. destruct (inb_dec x u) as [X|X]; unfold inb in X; [left; lia|right; auto].
Qed.
Ltac binds H := repeat match type of H with (do _ <- ?m; _) = Ok _ => let F := fresh "F" in destruct m eqn:F; cbn [bind] in H; try discriminate H end.
Lemma pset_len s v x s' : pset s v x = Ok s' -> length (vs s') = length (vs s).
Proof. unfold pset. destruct (nth_error (vs s) v) as [[[p|] h]|]; try discriminate. intros E. inversion E. cbn [vs]. apply upd_length. Qed.
Lemma pkill_len s v s' : pkill s v = Ok s' -> length (vs s') = length (vs s).
Proof. unfold pkill. destruct (nth_error (vs s) v) as [[[p|] h]|]; try discriminate. intros E. inversion E. cbn [vs]. apply upd_length. Qed.
Lemma dec_len f : forall del v s s', dec f del v s = Ok s' -> length (vs s') = length (vs s).
Proof.
  induction f as [|f IH]; intros del v s s' E; cbn [dec] in E; [discriminate|]. binds E. destruct (pc a) as [c|]; [|congruence].
  binds E. destruct (a0 - 1 =? 0)%Z; [|inversion E; reflexivity]. binds E. apply pset_len in E. rewrite E. clear E s'.
  destruct del; [|inversion F1; reflexivity]. destruct (pd a); [|discriminate]. destruct (po a) as [o|]; [|inversion F1; reflexivity].
  destruct (alive _ o); [|discriminate].
  match type of F1 with (_ ?ws ?t) = _ => assert (length (vs t) = length (vs s)) as <- by reflexivity; revert F1; generalize ws; generalize t end.
  intros s0 ws. revert s0. induction ws as [|w ws IHw]; intros s0 F1.
  - inversion F1; reflexivity.
  - binds F1. rewrite (IHw _ F1). rewrite (pkill_len _ _ _ F3). eapply IH; eauto.
Qed.
Lemma effect_len r o r' q : step r (effect_of o) = Ok (r', q) -> length (vs r') = length (vs r).
Proof.
  intros E. assert (forall p s, inc s p = Ok r' -> length (vs r') = length (vs s)) as Inc.
  { intros p s. unfold inc. destruct (pc p); [|congruence]. intros H. binds H. inversion H. reflexivity. }
  destruct o as [d u|d u|d u|d u|d]; cbn [effect_of step] in E; try (destruct (d =? u); [binds E; inversion E; subst; reflexivity|]); binds E; inversion E; subst;
    repeat match goal with
    | F : pset _ _ _ = Ok _ |- _ => apply pset_len in F
    | F : dec _ _ _ _ = Ok _ |- _ => apply dec_len in F
    | F : inc _ _ = Ok _ |- _ => apply Inc in F
    end; congruence.
Qed.
Lemma exec_len os : forall r k r' k', exec os r k = Ok (r', k') -> length (vs r') = length (vs r) /\ length k' = length k.
Proof.
  induction os as [|o os IH]; intros r k r' k' E; cbn [exec] in E; [inversion E; subst; split; reflexivity|].
  destruct (check k o) as [k1| | |] eqn:C; cbn [bind] in E; try discriminate. destruct (step r (effect_of o)) as [[r1 q]| | |] eqn:Q; cbn [bind] in E; try discriminate.
  destruct (check_storage _ _ _ 0 C) as [_ C2]. apply effect_len in Q. destruct (IH _ _ _ _ E) as [I1 I2]. split; congruence.
Qed.
Lemma release_storage r k x old r' k' x' : length k = length (vs r) ->
  release r k x old = Ok (r', k', x') -> forall u, storage (kind_of k' u) -> inb x' u \/ (storage (kind_of k u) /\ ~ inb x u).
Proof.
  unfold release. intros Lk E u. remember (room x * 5 / 8) as nc. clear Heqnc. assert (storage (kind_of k u) -> inb x u \/ storage (kind_of k u) /\ ~ inb x u) as Keep by (destruct (inb_dec x u); auto).
  destruct (room x =? 0); [inversion E; subst; auto|].
  destruct (exec (dtors (base x + cnt x) (old - cnt x)) r k) as [[r0 k0]| | |] eqn:Q0; cbn [bind] in E; try discriminate. destruct (exec_len _ _ _ _ _ Q0) as [L1 L2].
  destruct (exec_storage _ u _ _ _ _ Q0) as [A0 _]. destruct ((cnt x <=? room x / 2) && (cnt x <=? 8) && (cnt x <? nc)).
  - pose proof (allocate_storage r0 k0 (lhome x) nc u) as Al. destruct (allocate r0 k0 (lhome x) nc) as [ra ka]. cbn [snd] in Al.
    destruct (exec _ ra ka) as [[r1 k1]| | |] eqn:Q; cbn [bind] in E; try discriminate.
    destruct (deallocate k1 (base x) (room x)) as [k2| | |] eqn:Q2; cbn [bind] in E; try discriminate. inversion E; subst.
    destruct (exec_storage _ u _ _ _ _ Q) as [A1 _]. destruct (deallocate_storage _ _ u _ _ Q2) as [A2 _]. rewrite A2, A1. intros [S1 N1].
    unfold inb. cbn [base room]. destruct (Al S1) as [X|X]; [right; split; [now apply A0|auto]|left; lia].
  - inversion E; subst. rewrite A0. exact Keep.
Qed.

Lemma owned_lists k s h m : owned k s -> owned k (s ++ repeat (Some (mkL h 0 0 0)) m).
Proof. intros O u Q. destruct (O u Q) as (l & x & A & X). exists l, x. split; auto. apply at_more. auto. Qed.
Lemma lget_at r s l x : lget r s l = Ok x -> at_list s l x.
Proof.
  unfold lget, at_list. destruct (nth_error s l) as [[y|]|]; try discriminate. destruct (lhome y) as [h|]; [destruct (alive r h)|]; congruence.
Qed.
Lemma put_at r k s l x s' : put r k s l x = Ok s' -> s' = mkT r k (upd s l (Some x)).
Proof. unfold put. destruct (lget r s l); cbn [bind]; congruence. Qed.
Lemma lstep_owned s o s' : lgood s -> lstep s o = Ok s' -> owned (kd s) (ls s) -> owned (kd s') (ls s').
Proof.
  intros (G & I & _) E O. pose proof (i_len _ _ _ I) as Lk. cbn [world_of wm] in Lk.
  assert (forall p, on_rc s p = Ok s' -> owned (kd s') (ls s')) as Var.
  { intros p H. unfold on_rc in H. destruct (step (rc s) p) as [[r q]| | |]; cbn [bind] in H; try discriminate. inversion H. exact O. }
  destruct o as [v|v k m|v a|v a|v|v| |l|l i a mv|l i a mv|l i n|l|l m]; cbn [lstep] in E.
  - binds E. eapply Var; eauto.
  - binds E. destruct a0 as [r1 [o|]]; [|discriminate]. destruct (step r1 (PWrap v o)) as [[r2 q]| | |]; cbn [bind] in E; try discriminate. inversion E; subst. cbn [kd ls].
    apply owned_lists. intros u Q. apply O. rewrite kind_app_var in Q. destruct (inr u (length (kd s)) k); [destruct Q; discriminate|auto].
  - binds E. eapply Var; eauto.
  - binds E. eapply Var; eauto.
  - binds E. eapply Var; eauto.
  - binds E. eapply Var; eauto.
  - inversion E; subst. cbn [kd ls]. apply (owned_lists _ _ None 1). auto.
  - binds E. apply lget_at in F. destruct (lhome a); [discriminate|]. binds E. destruct a0 as [r k]. inversion E; subst. cbn [kd ls].
    pose proof (drop_storage _ _ _ _ _ (i_cnt _ _ _ I _ _ F) F0) as D. intros u Q. destruct (D u Q) as [Q1 Q2]. destruct (O u Q1) as (m & z & A & Z).
    exists m, z. split; auto. apply (at_upd' _ _ _ _ _ _ F). destruct (Nat.eqb_spec m l) as [->|]; auto. exfalso. apply Q2. unfold at_list in *. assert (z = a) by congruence. now subst.
  - binds E. apply lget_at in F. destruct (i <=? cnt a0); [|discriminate]. binds E. destruct a2 as [[r k] x1]. cbn [bind] in E.
    destruct (exec _ r k) as [[r1 k1]| | |] eqn:Q; cbn [bind] in E; try discriminate. apply put_at in E. subst s'. cbn [kd ls].
    apply (owned_put (kd s) _ _ a0); auto. intros u S1. destruct (exec_storage _ u _ _ _ _ Q) as [A1 _]. apply A1 in S1. eapply insert_storage; eauto.
  - binds E. apply lget_at in F. destruct (i <? cnt a0); [|discriminate]. destruct (exec _ (rc s) (kd s)) as [[r1 k1]| | |] eqn:Q; cbn [bind] in E; try discriminate.
    apply put_at in E. subst s'. cbn [kd ls]. apply (owned_put (kd s) _ _ a0); auto. intros u S1. destruct (exec_storage _ u _ _ _ _ Q) as [A1 _]. apply A1 in S1.
    destruct (inb_dec a0 u); auto.
  - binds E. apply lget_at in F. destruct (i + n <=? cnt a); [|discriminate]. destruct (exec _ (rc s) (kd s)) as [[r1 k1]| | |] eqn:Q; cbn [bind] in E; try discriminate.
    destruct (release _ _ _ _) as [[[r2 k2] x2]| | |] eqn:Q2; cbn [bind] in E; try discriminate. apply put_at in E. subst s'. cbn [kd ls].
    apply (owned_put (kd s) _ _ a); auto. intros u S1. destruct (exec_len _ _ _ _ _ Q) as [L1 L2]. assert (length k1 = length (vs r1)) as L3 by congruence.
    destruct (release_storage _ _ _ _ _ _ _ L3 Q2 u S1) as [X|[X Y]]; [auto|]. right. split; [|exact Y]. destruct (exec_storage _ u _ _ _ _ Q) as [A1 _]. now apply A1.
  - binds E. apply lget_at in F. destruct a0 as [r k]. apply put_at in E. subst s'. cbn [kd ls]. apply (owned_put (kd s) _ _ a); auto.
    intros u S1. right. eapply drop_storage; eauto. eapply (i_cnt _ _ _ I); eauto.
  - binds E. apply lget_at in F, F0. destruct a1 as [r k]. cbn [bind] in E. binds E.
    pose proof (drop_storage _ _ _ _ _ (i_cnt _ _ _ I _ _ F) F1) as D. destruct (Nat.eqb_spec l m) as [<-|N].
    + apply put_at in E. subst s'. cbn [kd ls]. apply (owned_put (kd s) _ _ a); auto.
    + binds E. inversion E; subst. cbn [kd ls]. apply lget_at in F3. intros u Q. destruct (D u Q) as [Q1 Q2]. destruct (O u Q1) as (b & z & A & Z).
      assert (a2 = a0) by (unfold at_list in *; congruence). subst a2. pose proof (nth_error_lt _ _ _ F). pose proof (nth_error_lt _ _ _ F0).
      destruct (Nat.eq_dec b m) as [->|N1].
      * exists l, (mkL (lhome a) (base a0) (cnt a0) (room a0)). split.
        -- unfold at_list. rewrite upd_other by auto. now rewrite upd_same by auto.
        -- assert (z = a0) by (unfold at_list in *; congruence). subst z. exact Z.
      * exists b, z. split; auto. unfold at_list. rewrite upd_other by auto. destruct (Nat.eq_dec b l) as [->|N2]; [|now rewrite upd_other by auto].
        exfalso. apply Q2. unfold at_list in *. assert (z = a) by congruence. now subst.
Qed.
Lemma lrun_owned os : forall s s', lgood s -> llegal_run s os -> lrun s os = Ok s' -> owned (kd s) (ls s) -> owned (kd s') (ls s').
Proof.
  induction os as [|o os IH]; intros s s' G L R O; cbn [llegal_run lrun] in *; [inversion R; subst; auto|].
  destruct L as [L1 L2]. destruct (lstep_ok s o G L1) as (s1 & E & Sp & G1). rewrite E in R. cbn [bind] in R. apply (IH s1); auto. apply (lstep_owned s o); auto.
Qed.
Lemma buffers_ok n os s u : llegal_run (init_l n) os -> lrun (init_l n) os = Ok s ->
  kind_of (kd s) u = KRaw \/ kind_of (kd s) u = KMade <-> in_buffer s u.
Proof.
  intros L R. pose proof (reach_lgood _ _ _ L R) as (G & I & _). split.
  - intros Q. apply (lrun_owned os (init_l n) s (init_lgood n) L R); auto. intros a [X|X]; cbn [init_l kd] in X; unfold kind_of in X;
      (destruct (nth_error (repeat KVar n) a) eqn:E; [|discriminate]; apply repeat_nth in E; congruence).
  - intros (l & x & A & X). destruct (inb_kind _ _ _ _ _ _ I A X); auto.
Qed.
Lemma apart_ok n os s l m x y u : llegal_run (init_l n) os -> lrun (init_l n) os = Ok s ->
  nth_error (ls s) l = Some (Some x) -> nth_error (ls s) m = Some (Some y) -> l <> m -> base x <= u < base x + room x -> ~ (base y <= u < base y + room y).
Proof.
  intros L R A B N X Y. pose proof (reach_lgood _ _ _ L R) as (G & I & _). eapply (inb_other _ _ _ l m x y u I); eauto.
Qed.
Lemma missing_err s a : Inv (world_of (rc s)) (kd s) (ls s) -> missing (lworld_of s) a -> address s a = Err.
Proof.
  intros I. destruct a as [u|m i]; [intros []|]. intros (c & Ec & Hi). destruct (list_ok s m c I Ec) as (x & A & Lx & Cx & Gx & Lc).
  cbn [address]. rewrite Gx. cbn [bind]. now replace (i <? cnt x) with false by lia.
Qed.
Lemma var_ok s v : avar (lworld_of s) v = true -> is_var s v = Ok tt.
Proof. cbn. unfold is_var. destruct (kind_of (kd s) v); auto; discriminate. Qed.
Lemma lrange_ok n os s o : llegal_run (init_l n) os -> lrun (init_l n) os = Ok s -> out_of_range (lworld_of s) o -> lstep s o = Err.
Proof.
  intros L R H. pose proof (reach_lgood _ _ _ L R) as (G & I & _).
  destruct o as [v|v k m|v a|v a|v|v| |l|l i a mv|l i a mv|l i n'|l|l m]; cbn [out_of_range] in H; try contradiction; cbn [lstep].
  - destruct H as (Hv & Hm). rewrite (var_ok s v Hv), (missing_err s a I Hm). reflexivity.
  - destruct H as (Hv & Hm). rewrite (var_ok s v Hv), (missing_err s a I Hm). reflexivity.
  - destruct H as (c & Ec & [Hm|(Na & Hi)]); destruct (list_ok s l c I Ec) as (x & A & Lx & Cx & Gx & Lc); rewrite Gx; cbn [bind].
    { now rewrite (missing_err s a I Hm). }
    destruct (arg_ok s a I Na) as (u & Eu & _). rewrite Eu. cbn [bind]. now replace (i <=? cnt x) with false by lia.
  - destruct H as (c & Ec & [Hm|(Na & Hi)]); destruct (list_ok s l c I Ec) as (x & A & Lx & Cx & Gx & Lc); rewrite Gx; cbn [bind].
    { now rewrite (missing_err s a I Hm). }
    destruct (arg_ok s a I Na) as (u & Eu & _). rewrite Eu. cbn [bind]. now replace (i <? cnt x) with false by lia.
  - destruct H as (c & Ec & Hi). destruct (list_ok s l c I Ec) as (x & A & Lx & Cx & Gx & Lc). rewrite Gx. cbn [bind].
    now replace (i + n' <=? cnt x) with false by lia.
Qed.

(* ---- concrete programs --------------------------------------------------------------------- *)
Ltac lnext := match goal with |- forall s', lstep _ _ = Ok s' -> _ =>
  let s' := fresh "s" in let H := fresh "H" in intros s' H; vm_compute in H; injection H as <- end.
Ltac stack := let o := fresh in let H := fresh in intros o H; discriminate H.
Ltac holder t := let o := fresh "o" in let H := fresh "H" in intros o H; vm_compute in H; injection H as <-;
  apply (arooted_by _ _ _ t); [cbn; intuition discriminate|reflexivity|].
Ltac has_list := eexists; split; [vm_compute; reflexivity|cbn; lia].
Ltac slot := split; [reflexivity|split; reflexivity].
(* a tree whose root moves into a list; its child joins the list and stays when the root goes *)
Definition tree_demo : list lop :=
  [MMake 0 0 1; MMake 1 0 1; LInsert 0 0 (AVar 1) false; LNew; LInsert 2 0 (AVar 0) true; MEnd 0; MEnd 1;
   MCopy 2 (AItem 2 0); LInsert 2 0 (AItem 0 0) false; MEnd 2; LRemove 2 1 1; LClear 2].
Lemma tree_legal : llegal_run (init_l 3) tree_demo.
Proof.
  unfold tree_demo. cbn [llegal_run].
  split; [slot|]. lnext. split; [slot|]. lnext.
  split; [cbn [llegal]; split; [has_list|split; [discriminate|split; [cbn; tauto|split; [holder (PVar 0); stack|stack]]]]|]. lnext.
  split; [exact I|]. lnext.
  split; [cbn [llegal]; split; [has_list|split; [discriminate|split; [cbn; tauto|split; [stack|stack]]]]|]. lnext.
  split; [split; [discriminate|reflexivity]|]. lnext. split; [split; [discriminate|reflexivity]|]. lnext.
  split; [split; [slot|discriminate]|]. lnext.
  split; [cbn [llegal]; split; [has_list|split; [discriminate|split; [cbn; lia|split; [stack|holder (PVar 2); stack]]]]|]. lnext.
  split; [split; [discriminate|reflexivity]|]. lnext.
  split; [cbn [llegal]; split; [has_list|stack]|]. lnext.
  split; [cbn [llegal]; split; [discriminate|stack]|]. lnext. exact I.
Qed.
Lemma tree_runs : exists s1 s2 s3, lrun (init_l 3) (firstn 10 tree_demo) = Ok s1 /\ al (lworld_of s1) 2 = Some [Some 1; Some 0] /\
  al (lworld_of s1) 0 = Some [Some 1] /\
  lrun (init_l 3) (firstn 11 tree_demo) = Ok s2 /\ al (lworld_of s2) 2 = Some [Some 1] /\ al (lworld_of s2) 0 = None /\
  aa (lworld_of s2) 0 = false /\ aa (lworld_of s2) 1 = true /\
  lrun (init_l 3) tree_demo = Ok s3 /\ al (lworld_of s3) 2 = Some [] /\ aa (lworld_of s3) 1 = false /\ cn (rc s3) = [None; None].
Proof. do 3 eexists. split; [vm_compute; reflexivity|]. split; [reflexivity|]. split; [reflexivity|]. split; [vm_compute; reflexivity|].
  split; [reflexivity|]. split; [reflexivity|]. split; [reflexivity|]. split; [reflexivity|]. split; [vm_compute; reflexivity|]. split; [reflexivity|]. split; reflexivity. Qed.
(* a grandchild: its parent is only held by the list inside the root *)
Definition deep_demo : list lop :=
  [MMake 0 0 1; MMake 1 0 1; LInsert 0 0 (AVar 1) true; MSetNull 1; MMake 2 1 0; LInsert 1 0 (AVar 2) false; MEnd 2; MAssign 5 (AVar 0); MSetNull 5; LClear 1; MEnd 0].
Lemma deep_legal : llegal_run (init_l 3) deep_demo.
Proof.
  unfold deep_demo. cbn [llegal_run].
  split; [slot|]. lnext. split; [slot|]. lnext.
  split; [cbn [llegal]; split; [has_list|split; [discriminate|split; [cbn; tauto|split; [holder (PVar 0); stack|stack]]]]|]. lnext.
  split; [cbn [llegal]; split; [discriminate|stack]|]. lnext.
  split; [slot|]. lnext.
  split; [cbn [llegal]; split; [has_list|split; [discriminate|split; [cbn; tauto|split; [holder (PItem 0 0); holder (PVar 0); stack|stack]]]]|]. lnext.
  split; [split; [discriminate|reflexivity]|]. lnext.
  split; [cbn [llegal]; split; [discriminate|split; [discriminate|split; [holder (PItem 1 0); holder (PItem 0 0); holder (PVar 0); stack|stack]]]|]. lnext.
  split; [cbn [llegal]; split; [discriminate|holder (PItem 1 0); holder (PItem 0 0); holder (PVar 0); stack]|]. lnext.
  split; [cbn [llegal]; split; [discriminate|holder (PItem 0 0); holder (PVar 0); stack]|]. lnext.
  split; [split; [discriminate|reflexivity]|]. lnext. exact I.
Qed.
Lemma deep_runs : exists s1 s2 s3, lrun (init_l 3) (firstn 8 deep_demo) = Ok s1 /\ al (lworld_of s1) 0 = Some [Some 1] /\
  al (lworld_of s1) 1 = Some [Some 2] /\ av (lworld_of s1) 5 = Some (Some 0) /\
  lrun (init_l 3) (firstn 10 deep_demo) = Ok s2 /\ al (lworld_of s2) 0 = Some [Some 1] /\ al (lworld_of s2) 1 = Some [] /\
  aa (lworld_of s2) 2 = false /\ aa (lworld_of s2) 1 = true /\
  lrun (init_l 3) deep_demo = Ok s3 /\ ob (rc s3) = [false; false; false] /\ cn (rc s3) = [None; None; None].
Proof. do 3 eexists. split; [vm_compute; reflexivity|]. split; [reflexivity|]. split; [reflexivity|]. split; [reflexivity|]. split; [vm_compute; reflexivity|].
  split; [reflexivity|]. split; [reflexivity|]. split; [reflexivity|]. split; [reflexivity|]. split; [vm_compute; reflexivity|]. split; reflexivity. Qed.
(* children of an item move into the list: the list drops its items first, and the children's list goes with them *)
Definition lift_demo : list lop := [LNew; MMake 0 0 1; LInsert 0 0 (AVar 0) true].
Lemma lift_bad : llegal_run (init_l 1) lift_demo /\ exists s, lrun (init_l 1) lift_demo = Ok s /\
  al (lworld_of s) 0 = Some [Some 0] /\ al (lworld_of s) 1 = Some [] /\ lstep s (LMove 0 1) = UB.
Proof.
  split.
  - unfold lift_demo. cbn [llegal_run]. split; [exact I|]. lnext. split; [slot|]. lnext.
    split; [cbn [llegal]; split; [has_list|split; [discriminate|split; [cbn; tauto|split; [stack|stack]]]]|]. lnext. exact I.
  - eexists. split; [vm_compute; reflexivity|]. split; [reflexivity|]. split; reflexivity.
Qed.
(* an object that only its own list keeps *)
Definition ring_demo : list lop := [MMake 0 0 1; MCopy 1 (AVar 0); LInsert 0 0 (AVar 0) false; MEnd 0; MEnd 1].
Lemma ring_bad : llegal_run (init_l 2) ring_demo /\ exists s, lrun (init_l 2) ring_demo = Ok s /\
  al (lworld_of s) 0 = Some [Some 0] /\ lstep s (LClear 0) = UB /\ lstep s (LRemove 0 0 1) = UB.
Proof.
  split.
  - unfold ring_demo. cbn [llegal_run]. split; [slot|]. lnext. split; [split; [slot|discriminate]|]. lnext.
    split; [cbn [llegal]; split; [has_list|split; [discriminate|split; [cbn; tauto|split; [holder (PVar 1); stack|stack]]]]|]. lnext.
    split; [split; [discriminate|reflexivity]|]. lnext. split; [split; [discriminate|reflexivity]|]. lnext. exact I.
  - eexists. split; [vm_compute; reflexivity|]. split; [reflexivity|]. split; reflexivity.
Qed.
(* an item of a full list given to Add of the same list *)
Definition full_demo : list lop := [LNew; MMake 0 0 0; LInsert 0 0 (AVar 0) false; LInsert 0 1 (AVar 0) false].
Lemma full_bad : llegal_run (init_l 1) full_demo /\ exists s, lrun (init_l 1) full_demo = Ok s /\
  al (lworld_of s) 0 = Some [Some 0; Some 0] /\ lstep s (LInsert 0 2 (AItem 0 0) false) = UB.
Proof.
  split.
  - unfold full_demo. cbn [llegal_run]. split; [exact I|]. lnext. split; [slot|]. lnext.
    split; [cbn [llegal]; split; [has_list|split; [discriminate|split; [cbn; tauto|split; [stack|stack]]]]|]. lnext.
    split; [cbn [llegal]; split; [has_list|split; [discriminate|split; [cbn; tauto|split; [stack|stack]]]]|]. lnext. exact I.
  - eexists. split; [vm_compute; reflexivity|]. split; reflexivity.
Qed.
