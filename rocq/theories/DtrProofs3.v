From Coq Require Import ZifyBool ZifyNat Sorting.Sorted.
From Verif Require Import Base BaseFacts RcModel RcSpec RcProofs RcProofs2 DtrModel DtrSpec DtrProofs DtrProofs2.
Open Scope nat_scope.

Lemma sorted_app {A} (R : A -> A -> Prop) a b : StronglySorted R a -> StronglySorted R b -> (forall x y, In x a -> In y b -> R x y) -> StronglySorted R (a ++ b).
Proof.
  induction a as [|x a IH]; cbn; auto. intros Ha Hb H. apply StronglySorted_inv in Ha. destruct Ha as [Ha1 Ha2].
  constructor; [apply IH; auto|]. rewrite Forall_app. split; auto. apply Forall_forall. intros y I. apply H; auto.
Qed.
Lemma sorted_rev l : StronglySorted lt l -> StronglySorted gt (rev l).
Proof.
  induction l as [|x l IH]; cbn; intros H; [constructor|]. apply StronglySorted_inv in H. destruct H as [H1 H2].
  apply sorted_app; auto.
  - constructor; constructor.
  - intros y z I [<-|[]]. apply in_rev in I. rewrite Forall_forall in H2. apply H2 in I. lia.
Qed.
Lemma sorted_seq k : forall a, StronglySorted lt (seq a k).
Proof.
  induction k as [|k IH]; intros a; cbn; constructor; auto. apply Forall_forall. intros x I. apply in_seq in I. lia.
Qed.
Lemma sorted_filter f l : StronglySorted lt l -> StronglySorted lt (filter f l).
Proof.
  induction l as [|x l IH]; cbn; auto. intros H. apply StronglySorted_inv in H. destruct H as [H1 H2].
  destruct (f x); auto. constructor; auto. apply Forall_forall. intros y I. apply filter_In in I. rewrite Forall_forall in H2. apply H2. tauto.
Qed.
Lemma members_sorted s o : StronglySorted gt (members s o).
Proof. unfold members. apply sorted_rev, sorted_filter, sorted_seq. Qed.

Lemma lets_go_ok es s t rest E v s' ts : Inv es s (t :: rest) E -> busy (t :: rest) = busy rest ->
  ex s v <> None -> ~ In v (busy rest) -> start_dec v s = Ok (s', ts) -> lets_go s rest v s' ts.
Proof.
  intros HI Hb Hv Nv R. destruct (ex s v) as [p|] eqn:P; [clear Hv|congruence].
  pose proof (i_J _ _ _ _ HI) as HJ. rewrite Hb in HJ.
  destruct (start_dec_ok s E (busy rest) HJ v p P Nv) as (s1 & ts1 & E' & R' & J' & V1 & V2 & Hvs & Hl & Hh & Hts).
  assert (s1 = s' /\ ts1 = ts) as [-> ->] by (split; congruence). clear R'.
  assert (forall u o, owner s rest u o <-> exists c, ev E u = Some (Some (c, o))) as OE.
  { intros u o. rewrite <- (own_ev _ _ _ _ u o HI). unfold owner. now rewrite Hb. }
  split.
  - split; [|split; [|split]].
    + intros u. rewrite !wv_of. unfold ex. now rewrite Hvs.
    + intros u. rewrite !wh_of. unfold home. now rewrite Hvs.
    + cbn [wn world_of]. destruct Hts as [(_ & -> & _)|(o & _ & _ & -> & _)]; auto. apply upd_length.
    + cbn [wm world_of]. now rewrite Hvs.
  - destruct Hts as [(-> & Ho & K)|(o & -> & Ao & Ho & [c V] & K)].
    + right. split; [|split; [reflexivity|intros o'; unfold alive; now rewrite Ho]].
      intros o [O1 O2]. apply OE in O1. destruct O1 as [c V]. destruct (K c o V) as (u & c' & N & V'). apply N, O2, OE. eauto.
    + left. exists o, (members s o). split; [|split; [reflexivity|split; [apply members_sorted|split]]].
      * split; [apply OE; eauto|]. intros u O. apply OE in O. destruct O as [c' V']. eauto.
      * intros u. rewrite wh_of. apply members_in.
      * intros o'. unfold alive at 1. rewrite Ho. apply alive_true, nth_error_lt in Ao. rewrite alive_upd by auto.
        fold (alive s o'). destruct (Nat.eqb_spec o' o) as [->|N]; split; try discriminate; auto; intros [Q1 Q]; auto; congruence.
Qed.

(* constructions and moves, from the code alone *)
Lemma pinit_world s v p s' : pinit s v p = Ok s' -> same_world (world_of s') (set_var (world_of s) v (Some (pr p))).
Proof.
  intros H. unfold pinit in H. destruct (nth_error (vs s) v) as [[[q|] h]|] eqn:X; try discriminate.
  assert (s' = sv s v (Some p)) as ->. { unfold sv, home. rewrite X. congruence. }
  apply (world_sv s v (Some p)). eapply nth_error_lt; eauto.
Qed.
Lemma pset_world s v p s' : pset s v p = Ok s' -> same_world (world_of s') (set_var (world_of s) v (Some (pr p))).
Proof.
  intros H. unfold pset in H. destruct (nth_error (vs s) v) as [[[q|] h]|] eqn:X; try discriminate.
  assert (s' = sv s v (Some p)) as ->. { unfold sv, home. rewrite X. congruence. }
  apply (world_sv s v (Some p)). eapply nth_error_lt; eauto.
Qed.
Lemma pkill_world s v s' : pkill s v = Ok s' -> same_world (world_of s') (set_var (world_of s) v None).
Proof.
  intros H. unfold pkill in H. destruct (nth_error (vs s) v) as [[[q|] h]|] eqn:X; try discriminate.
  assert (s' = sv s v None) as ->. { unfold sv, home. rewrite X. congruence. }
  apply (world_sv s v None). eapply nth_error_lt; eauto.
Qed.
Lemma inc_world s p s' : inc s p = Ok s' -> world_of s' = world_of s.
Proof.
  unfold inc. destruct (pc p) as [c|]; [|congruence]. destruct (cget s c); cbn [bind]; try discriminate. intros H.
  assert (s' = cset s c (Some (a + 1)%Z)) as -> by congruence. reflexivity.
Qed.
Lemma pget_world s u p : pget s u = Ok p -> wv (world_of s) u = Some (pr p).
Proof.
  unfold pget. cbn [world_of wv]. destruct (nth_error (vs s) u) as [[[q|] h]|]; try discriminate. congruence.
Qed.
Lemma world_st a b : vs a = vs b -> ob a = ob b -> world_of a = world_of b.
Proof. apply world_eq. Qed.
Ltac sw := match goal with
  | F : pinit _ _ _ = Ok ?x, G : inc ?x _ = Ok ?y |- same_world (world_of ?y) _ => rewrite (inc_world _ _ _ G); apply (pinit_world _ _ _ _ F)
  | F : pinit _ _ _ = Ok ?x |- same_world (world_of ?x) _ => apply (pinit_world _ _ _ _ F)
  end.
Lemma moved_world s v p s1 u s2 : pinit s v p = Ok s1 -> pset s1 u null = Ok s2 ->
  same_world (world_of s2) (set_var (set_var (world_of s) v (Some (pr p))) u (Some None)).
Proof.
  intros F G. eapply same_trans; [apply (pset_world _ _ _ _ G)|]. apply same_set, (pinit_world _ _ _ _ F).
Qed.
Lemma step_world s o s' r : step s o = Ok (s', r) ->
  match o with PDestroy _ | PSetNull _ | PAssign _ _ | PMoveAssign _ _ | PDetach _ => False | _ => True end ->
  spec (world_of s) o (world_of s') r.
Proof.
  destruct o; cbn [step]; intros H N; try contradiction N; clear N.
  - binds H. inversion H; subst. constructor. sw.
  - inversion H; subst. constructor.
    + intros u. cbn [world_of wv wm vs]. destruct (Nat.ltb_spec u (length (vs s))).
      * now rewrite nth_error_app1.
      * rewrite nth_error_app2 by auto. destruct (Nat.ltb_spec u (length (vs s) + k)).
        -- rewrite nth_error_repeat by lia. reflexivity.
        -- replace (nth_error _ _) with (@None (option ptr * option nat)); auto. symmetry. apply nth_error_None. rewrite repeat_length. lia.
    + intros u. cbn [world_of wh wm vs wn]. destruct (Nat.ltb_spec u (length (vs s))).
      * now rewrite nth_error_app1.
      * rewrite nth_error_app2 by auto. destruct (Nat.ltb_spec u (length (vs s) + k)).
        -- rewrite nth_error_repeat by lia. reflexivity.
        -- replace (nth_error _ _) with (@None (option ptr * option nat)); auto. symmetry. apply nth_error_None. rewrite repeat_length. lia.
    + intros o. cbn [world_of wa wn]. unfold alive at 1. cbn [ob]. destruct (Nat.eqb_spec o (length (ob s))) as [->|N].
      * rewrite nth_error_app2 by lia. now rewrite Nat.sub_diag.
      * unfold alive. destruct (Nat.lt_ge_cases o (length (ob s))).
        -- now rewrite nth_error_app1.
        -- rewrite nth_error_app2 by lia. destruct (o - length (ob s)) eqn:Q; [lia|]. cbn.
           destruct n; cbn; replace (nth_error (ob s) o) with (@None bool); auto; symmetry; apply nth_error_None; lia.
    + cbn [world_of wn ob]. rewrite app_length. cbn. lia.
    + cbn [world_of wm vs]. rewrite app_length, repeat_length. reflexivity.
  - binds H. inversion H; subst. constructor. rewrite (inc_world _ _ _ F0). exact (pinit_world _ _ _ _ F).
  - binds H. inversion H; subst. econstructor; [apply pget_world; eauto|]. sw.
  - binds H. pose proof (pget_world _ _ _ F) as W. destruct (pr a) eqn:Pr; binds H; inversion H; subst.
    + econstructor; [exact W|]. rewrite <- Pr. sw.
    + econstructor; [exact W|]. exact (pinit_world _ _ _ _ F0).
  - binds H. inversion H; subst. econstructor; [apply pget_world; eauto|]. eapply moved_world; eauto.
  - binds H. pose proof (pget_world _ _ _ F) as W. destruct (pr a) eqn:Pr; binds H; inversion H; subst.
    + econstructor; [exact W|]. rewrite <- Pr. eapply moved_world; eauto.
    + econstructor; [exact W|]. eapply same_trans; [exact (pinit_world _ _ _ _ F0)|].
      split; [|repeat split; auto]. intros t. unfold set_var. cbn [wv pr null]. destruct (Nat.eqb_spec t w) as [->|]; auto.
      destruct (w =? v); auto.
  - binds H. pose proof (pget_world _ _ _ F) as W. inversion H; subst. econstructor; [exact W|].
    rewrite (inc_world _ _ _ F1). pose proof (pinit_world _ _ _ _ F0) as Q. exact Q.
Qed.
Lemma detach_world es s rest E v s' r : Inv es s (TOp (PDetach v) :: rest) E -> allowed s rest (TOp (PDetach v)) ->
  step s (PDetach v) = Ok (s', r) -> spec (world_of s) (PDetach v) (world_of s') r.
Proof.
  intros HI [U Hs] H. destruct (usable_ex _ _ _ U) as (p & P & Nv). pose proof (i_J _ _ _ _ HI) as HJ. cbn [busy] in HJ.
  assert (wv (world_of s) v = Some (pr p)) as W by (rewrite wv_of, P; reflexivity).
  cbn [step] in H. rewrite (pget_ok _ _ _ P) in H. cbn [bind] in H. unfold fuel_of in H. rewrite dec_eq, (pget_ok _ _ _ P) in H. cbn [bind] in H.
  destruct (d_cases s E _ HJ v p Nv P) as [(c & o & Ec & ->)|(Ec & Pc & Pr)].
  2:{ rewrite Pc in H. cbn [bind] in H. inversion H; subst. econstructor; eauto. split; [|repeat split; auto].
      intros u. unfold set_var. cbn [wv]. destruct (Nat.eqb_spec u v) as [->|]; auto. now rewrite W, Pr. }
  cbn [pc pr] in *. destruct (j_ref _ _ _ HJ _ _ _ Ec) as [[n Hn] Ha]. unfold cget in H. rewrite Hn in H. cbn [bind] in H. cbv zeta in H.
  pose proof (j_cnt _ _ _ HJ _ _ Hn) as En.
  assert (v < length E) as LE by (eapply ev_lt; eauto).
  set (E' := upd E v (Some None)).
  pose proof (cc_upd E v _ (Some None) c (ev_some _ _ _ Ec)) as Q. cbn [isc] in Q. rewrite Nat.eqb_refl in Q. cbn [b2n] in Q. fold E' in Q.
  assert (forall u, ev E' u = if Nat.eqb u v then Some None else ev E u) as V2 by (intros; apply ev_upd; auto).
  assert (cc E' c = 0) as Z0.
  { destruct (cc E' c) eqn:Z0; auto. destruct (cc_ex E' c) as (t & o' & Ht); [lia|]. exfalso. rewrite V2 in Ht.
    destruct (Nat.eqb_spec t v) as [->|Nt]; [discriminate|].
    assert (o' = o) as -> by (apply (j_inj _ _ _ HJ t v c c o' o Ht Ec); reflexivity).
    apply Nt. apply (Hs o t).
    - apply (proj2 (own_ev _ _ _ _ v o HI)). eauto.
    - apply (proj2 (own_ev _ _ _ _ t o HI)). eauto. }
  replace (n - 1 =? 0)%Z with true in H by lia. cbn [bind] in H. binds H. inversion H; subst. econstructor; eauto.
  exact (pset_world _ _ _ _ F).
Qed.

Lemma effect_ok code n prog es s t rest s' ts' : runs code (start n prog) es (s, t :: rest) -> allowed s rest t ->
  dtr_step code s t rest = Ok (s', ts') -> effect code s t rest s' ts'.
Proof.
  intros H A R. apply runs_inv in H. destruct H as [E HI]. cbn [fst snd] in HI.
  assert (forall v mid, busy (t :: rest) = busy rest -> ex s v <> None -> ~ In v (busy rest) ->
    (do (x, ts) <- start_dec v s; Ok (x, ts ++ mid)) = Ok (s', ts') -> exists ts, lets_go s rest v s' ts /\ ts' = ts ++ mid) as K.
  { intros v mid Hb X N Q. destruct (start_dec v s) as [[s1 ts1]| | |] eqn:D; cbn [bind] in Q; try discriminate.
    assert (s1 = s' /\ ts' = ts1 ++ mid) as [-> ->] by (split; congruence). exists ts1. split; auto. eapply lets_go_ok; eauto. }
  destruct t as [o|o k|ws|v|v|v w|v w].
  - assert ((match o with PDestroy _ | PSetNull _ | PAssign _ _ | PMoveAssign _ _ => False | _ => True end) ->
      exists r, step s o = Ok (s', r) /\ ts' = rest) as S1.
    { intros N. assert ((do (x, _) <- step s o; Ok (x, rest)) = Ok (s', ts')) as R' by (destruct o; try contradiction N; exact R).
      destruct (step s o) as [[s1 r]| | |]; cbn [bind] in R'; try discriminate. exists r. split; congruence. }
    destruct o; cbn [effect]; try (destruct (S1 I) as (r & S2 & ->); split; [|reflexivity]; exists r;
      first [exact (step_world _ _ _ _ S2 I)|exact (detach_world _ _ _ _ _ _ _ HI A S2)]).
    + destruct A as (U & _ & _). destruct (usable_ex _ _ _ U) as (p & P & N). apply K; auto. congruence.
    + destruct (usable_ex _ _ _ A) as (p & P & N). apply K; auto. congruence.
    + destruct A as [U _]. destruct (usable_ex _ _ _ U) as (p & P & N). cbn [dtr_step] in R. destruct (v =? w).
      * rewrite (pget_ok _ _ _ P) in R. cbn [bind] in R. split; congruence.
      * apply K; auto. congruence.
    + destruct A as [U _]. destruct (usable_ex _ _ _ U) as (p & P & N). cbn [dtr_step] in R. destruct (v =? w).
      * rewrite (pget_ok _ _ _ P) in R. cbn [bind] in R. split; congruence.
      * apply K; auto. congruence.
  - cbn [dtr_step effect] in *. destruct (code o k s); split; congruence.
  - cbn [dtr_step effect] in *. destruct ws as [|w ws]; [split; congruence|]. destruct A as [A1 A2].
    apply K; auto. destruct (i_mem _ _ _ _ HI w) as [X _]; [now left|exact X].
  - cbn [dtr_step effect] in *. binds R. assert (s' = a /\ ts' = rest) as [-> ->] by (split; congruence). split; auto. exact (pset_world _ _ _ _ F).
  - cbn [dtr_step effect] in *. binds R. assert (s' = a /\ ts' = rest) as [-> ->] by (split; congruence). split; auto. exact (pkill_world _ _ _ F).
  - cbn [dtr_step effect] in *. binds R. assert (s' = a1 /\ ts' = rest) as [-> ->] by (split; congruence).
    pose proof (pget_world _ _ _ F) as W. rewrite W. split; [|split; [discriminate|reflexivity]].
    rewrite (inc_world _ _ _ F1). exact (pset_world _ _ _ _ F0).
  - cbn [dtr_step effect] in *. binds R. assert (s' = a1 /\ ts' = rest) as [-> ->] by (split; congruence).
    pose proof (pget_world _ _ _ F) as W. rewrite W. split; [|split; [discriminate|reflexivity]].
    eapply same_trans; [exact (pset_world _ _ _ _ F1)|]. apply same_set. exact (pset_world _ _ _ _ F0).
Qed.
