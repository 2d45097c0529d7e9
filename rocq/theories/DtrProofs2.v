From Coq Require Import ZifyBool ZifyNat.
From Verif Require Import Base BaseFacts RcModel RcSpec RcProofs RcProofs2 DtrModel DtrSpec DtrProofs.
Open Scope nat_scope.

Lemma prog_none prog : busy (map TOp prog) = [] /\ sources (map TOp prog) = [] /\ mems (map TOp prog) = [] /\
  kills (map TOp prog) = [] /\ begins (map TOp prog) = [] /\ wf (map TOp prog).
Proof. induction prog as [|o prog IH]; cbn; auto 10. Qed.
Lemma start_inv n prog : exists E, Inv [] (init n) (map TOp prog) E.
Proof.
  destruct (init_good n) as [E [HJ HG]]. exists E. destruct (prog_none prog) as (P1 & P2 & P3 & P4 & P5 & P6).
  constructor; rewrite ?P1, ?P2, ?P3, ?P4, ?P5; auto; try (intros ? []; fail); try (intros ? ? []; fail).
  - intros u h Q. left. eauto.
  - constructor.
  - intros o. unfold init. cbn. split; [intros []|lia].
  - intros _ o [v []].
  - intros o [v []].
  - intros _. apply init_no_leak.
Qed.
Lemma runs_inv code n prog es c : runs code (start n prog) es c -> exists E, Inv es (fst c) (snd c) E.
Proof.
  intros H. remember (start n prog) as c0 eqn:E0. induction H as [c|c es s t rest c' H IH A R]; subst.
  - apply start_inv.
  - destruct (IH eq_refl) as [E HI]. destruct (all_fine code es s rest E t HI A) as (s' & ts' & E' & R' & HI').
    exists E'. assert (c' = (s', ts')) as -> by congruence. exact HI'.
Qed.
Lemma safe_ok code n prog es s t rest : runs code (start n prog) es (s, t :: rest) -> allowed s rest t ->
  exists c, dtr_step code s t rest = Ok c.
Proof.
  intros H A. apply runs_inv in H. destruct H as [E HI]. destruct (all_fine code es s rest E t HI A) as (s' & ts' & E' & R & _). eauto.
Qed.
Lemma alive_now code n prog es s ts o : runs code (start n prog) es (s, ts) -> no_detach_in es -> wrapped_in es o ->
  (alive s o = true <-> exists u, owner s ts u o).
Proof.
  intros H N W. apply runs_inv in H. destruct H as [E HI]. cbn [fst snd] in HI. split.
  - intros A. destruct (i_held _ _ _ _ HI N o W A) as (u & c & V). exists u. apply (own_ev _ _ _ _ u o HI). eauto.
  - intros [u O]. apply (own_ev _ _ _ _ u o HI) in O. destruct O as [c V]. apply (j_ref _ _ _ (i_J _ _ _ _ HI) _ _ _ V).
Qed.
Lemma owner_alive code n prog es s ts u o : runs code (start n prog) es (s, ts) -> owner s ts u o -> alive s o = true.
Proof.
  intros H O. apply runs_inv in H. destruct H as [E HI]. cbn [fst snd] in HI.
  apply (own_ev _ _ _ _ u o HI) in O. destruct O as [c V]. apply (j_ref _ _ _ (i_J _ _ _ _ HI) _ _ _ V).
Qed.

Lemma filter_seq {A} (f : A -> bool) (l : list A) : forall k,
  length (filter f l) = length (filter (fun i => match nth_error l (i - k) with Some x => f x | None => false end) (seq k (length l))).
Proof.
  induction l as [|x l IH]; intros k; cbn [filter length seq]; auto.
  rewrite Nat.sub_diag. cbn [nth_error].
  assert (filter (fun i => match nth_error (x :: l) (i - k) with Some x => f x | None => false end) (seq (S k) (length l)) =
          filter (fun i => match nth_error l (i - S k) with Some x => f x | None => false end) (seq (S k) (length l))) as Q.
  { apply filter_ext_in. intros i I. apply in_seq in I. replace (i - k) with (S (i - S k)) by lia. reflexivity. }
  destruct (f x); cbn [length]; rewrite Q, <- IH; reflexivity.
Qed.
Lemma owners_cc es s ts E u c o : Inv es s ts E -> ev E u = Some (Some (c, o)) -> owners_now s ts o = cc E c.
Proof.
  intros HI Hu. unfold owners_now, cc. rewrite (filter_seq (isc c) E 0). pose proof (i_J _ _ _ _ HI) as HJ.
  rewrite (j_len _ _ _ HJ). f_equal. apply filter_ext_in. intros i I. rewrite Nat.sub_0_r.
  pose proof (j_var _ _ _ HJ i) as V. destruct (in_dec Nat.eq_dec i (busy ts)) as [Ib|Nb].
  - pose proof (i_busy _ _ _ _ HI i Ib) as Q. apply ev_some in Q. now rewrite Q.
  - destruct (ex s i) as [p|] eqn:X.
    + assert (exists h, nth_error (vs s) i = Some (Some p, h)) as [h Hn].
      { unfold ex in X. destruct (nth_error (vs s) i) as [[q h]|]; [|discriminate]. subst q. eauto. }
      rewrite Hn. destruct (d_cases s E _ HJ i p Nb X) as [(c' & o' & V' & ->)|(V' & _ & Pr)].
      * pose proof (ev_some _ _ _ V') as Q. rewrite Q. cbn [pr isc].
        pose proof (j_inj _ _ _ HJ _ _ _ _ _ _ V' Hu) as K. destruct (Nat.eqb_spec o' o), (Nat.eqb_spec c' c); tauto.
      * pose proof (ev_some _ _ _ V') as Q. rewrite Q, Pr. reflexivity.
    + unfold ev in V. unfold ex in X.
      replace (match nth_error (vs s) i with Some (Some p, _) => match pr p with Some o' => o' =? o | None => false end | _ => false end) with false
        by (destruct (nth_error (vs s) i) as [[q h]|]; [subst q|]; reflexivity).
      destruct (nth_error E i) as [x|]; [subst x|]; reflexivity.
Qed.
Lemma counter_now code n prog es s ts u o : runs code (start n prog) es (s, ts) -> owner s ts u o ->
  exists p h c, nth_error (vs s) u = Some (Some p, h) /\ pc p = Some c /\
    nth_error (cn s) c = Some (Some (Z.of_nat (owners_now s ts o))).
Proof.
  intros H O. apply runs_inv in H. destruct H as [E HI]. cbn [fst snd] in HI. pose proof (i_J _ _ _ _ HI) as HJ.
  apply (own_ev _ _ _ _ u o HI) in O. destruct O as [c V].
  rewrite (owners_cc _ _ _ _ _ _ _ HI V). destruct (j_live _ _ _ _ _ HJ V) as [p P].
  pose proof (j_var _ _ _ HJ u) as Q. rewrite P, V in Q. subst p.
  unfold ex in P. destruct (nth_error (vs s) u) as [[q h]|] eqn:Hn; [|discriminate]. subst q.
  eexists _, h, c. split; [reflexivity|]. split; [reflexivity|].
  destruct (j_ref _ _ _ HJ _ _ _ V) as [[m Hm] _]. rewrite Hm. now rewrite (j_cnt _ _ _ HJ _ _ Hm).
Qed.
Lemma released_now code n prog es s ts c k : runs code (start n prog) es (s, ts) -> no_detach_in es ->
  nth_error (cn s) c = Some (Some k) -> exists u p h, nth_error (vs s) u = Some (Some p, h) /\ pc p = Some c /\ ~ In u (busy ts).
Proof.
  intros H N Hc. apply runs_inv in H. destruct H as [E HI]. cbn [fst snd] in HI. pose proof (i_J _ _ _ _ HI) as HJ.
  pose proof (j_cnt _ _ _ HJ _ _ Hc) as Hk. destruct (cc_ex E c) as (u & o & V).
  { destruct (cc E c) eqn:Q; [|lia]. exfalso. apply (i_leak _ _ _ _ HI N c). rewrite Hc, Hk. reflexivity. }
  destruct (j_live _ _ _ _ _ HJ V) as [p P]. pose proof (j_var _ _ _ HJ u) as Q. rewrite P, V in Q. subst p.
  unfold ex in P. destruct (nth_error (vs s) u) as [[q h]|] eqn:Hn; [|discriminate]. subst q.
  eexists u, _, h. split; [exact Hn|]. split; [reflexivity|]. intros I. rewrite (i_busy _ _ _ _ HI u I) in V. discriminate.
Qed.
Lemma once_ok code n prog es s ts : runs code (start n prog) es (s, ts) ->
  NoDup (dtors es) /\ (forall o, In o (dtors es) -> o < length (ob s) /\ alive s o = false) /\
  (ts = [] -> forall o, o < length (ob s) -> alive s o = false -> In o (dtors es)).
Proof.
  intros H. apply runs_inv in H. destruct H as [E HI]. cbn [fst snd] in HI.
  pose proof (i_dtor _ _ _ _ HI) as D. pose proof (i_dead _ _ _ _ HI) as K. split; [|split].
  - clear - D. revert D. generalize (begins ts). intros l. induction (dtors es) as [|o d IH]; cbn; intros D; [constructor|].
    inversion D as [|? ? D1 D2]; subst. constructor; auto. intros I. apply D1, in_or_app. auto.
  - intros o I. apply K, in_or_app. auto.
  - intros -> o L A. cbn [begins] in K. rewrite app_nil_r in K. apply K. auto.
Qed.
Lemma gone_ok code n prog es s u h : runs code (start n prog) es (s, []) ->
  wh (world_of s) u = Some h -> alive s h = false -> wv (world_of s) u = None.
Proof.
  intros H Hh A. apply runs_inv in H. destruct H as [E HI]. cbn [fst snd] in HI. rewrite wh_of in Hh. rewrite wv_of.
  destruct (i_gone _ _ _ _ HI u h Hh A) as [Q|[[]|[]]]. now rewrite Q.
Qed.

(* ---- the members of an object while its destructor runs -------------------------------- *)
Definition bodies (s : st) (ts : list task) : Prop := forall a o k b, ts = a ++ TBody o k :: b ->
  o < length (ob s) /\ exists ws b', b = TMembers ws :: b' /\ forall u, home s u = Some o -> In u ws.
Lemma bodies_tail s t ts : bodies s (t :: ts) -> bodies s ts.
Proof. intros H a o k b ->. exact (H (t :: a) o k b eq_refl). Qed.
Lemma bodies_cons s t ts : (forall o k, t <> TBody o k) -> bodies s ts -> bodies s (t :: ts).
Proof.
  intros N H [|x a] o k b Q; cbn [app] in Q; inversion Q; subst; [exfalso; eapply N; eauto|]. eapply H; eauto.
Qed.
Lemma bodies_body s o k ws ts : o < length (ob s) -> (forall u, home s u = Some o -> In u ws) -> bodies s ts -> bodies s (TBody o k :: TMembers ws :: ts).
Proof.
  intros L W H [|x a] o' k' b Q; cbn [app] in Q; inversion Q; subst.
  - split; auto. eauto.
  - eapply (bodies_cons s (TMembers ws) ts); [discriminate|exact H|eauto].
Qed.
Lemma bodies_same s s' ts : length (ob s) <= length (ob s') -> (forall u o, home s' u = Some o -> o < length (ob s) -> home s u = Some o) ->
  bodies s ts -> bodies s' ts.
Proof.
  intros L W H a o k b Q. destruct (H a o k b Q) as (L' & ws & b' & Q' & K). split; [lia|]. exists ws, b'. split; auto.
Qed.
Definition frame (s s' : st) : Prop := length (ob s) <= length (ob s') /\ (forall u o, home s' u = Some o -> o < length (ob s) -> home s u = Some o).
Lemma frame_refl s : frame s s.
Proof. split; auto. Qed.
Lemma frame_trans a b c : frame a b -> frame b c -> frame a c.
Proof. intros [A1 A2] [B1 B2]. split; [lia|]. intros u o H L. apply A2; auto. apply B2; auto. lia. Qed.
Lemma frame_vs s s' : ob s' = ob s -> (forall u, home s' u = home s u) -> frame s s'.
Proof. intros H1 H2. split; [now rewrite H1|]. intros u o. now rewrite H2. Qed.
Lemma pset_frame s v p s' : pset s v p = Ok s' -> frame s s'.
Proof.
  unfold pset. destruct (nth_error (vs s) v) as [[[q|] h]|] eqn:X; try discriminate. intros H.
  assert (s' = mkSt (cn s) (ob s) (upd (vs s) v (Some p, h))) as -> by congruence. apply frame_vs; auto.
  intros u. unfold home. cbn [vs]. destruct (Nat.eq_dec u v) as [->|N]; [rewrite upd_same, X; auto; eapply nth_error_lt; eauto|rewrite upd_other by auto; reflexivity].
Qed.
Lemma pinit_frame s v p s' : pinit s v p = Ok s' -> frame s s'.
Proof.
  unfold pinit. destruct (nth_error (vs s) v) as [[[q|] h]|] eqn:X; try discriminate. intros H.
  assert (s' = mkSt (cn s) (ob s) (upd (vs s) v (Some p, h))) as -> by congruence. apply frame_vs; auto.
  intros u. unfold home. cbn [vs]. destruct (Nat.eq_dec u v) as [->|N]; [rewrite upd_same, X; auto; eapply nth_error_lt; eauto|rewrite upd_other by auto; reflexivity].
Qed.
Lemma pkill_frame s v s' : pkill s v = Ok s' -> frame s s'.
Proof.
  unfold pkill. destruct (nth_error (vs s) v) as [[[q|] h]|] eqn:X; try discriminate. intros H.
  assert (s' = mkSt (cn s) (ob s) (upd (vs s) v (None, h))) as -> by congruence. apply frame_vs; auto.
  intros u. unfold home. cbn [vs]. destruct (Nat.eq_dec u v) as [->|N]; [rewrite upd_same, X; auto; eapply nth_error_lt; eauto|rewrite upd_other by auto; reflexivity].
Qed.
Lemma inc_frame s p s' : inc s p = Ok s' -> frame s s'.
Proof.
  unfold inc. destruct (pc p) as [c|].
  - destruct (cget s c) as [m| | |]; cbn [bind]; try discriminate. intros H. assert (s' = cset s c (Some (m + 1)%Z)) as -> by congruence. now apply frame_vs.
  - intros H. assert (s' = s) as -> by congruence. apply frame_refl.
Qed.
Lemma start_dec_frame v s s' ts : start_dec v s = Ok (s', ts) -> frame s s' /\
  (forall rest, bodies s rest -> bodies s' (ts ++ rest)).
Proof.
  unfold start_dec. destruct (pget s v) as [p| | |]; cbn [bind]; try discriminate. destruct (pc p) as [c|].
  2:{ intros H. assert (s' = s /\ ts = []) as [-> ->] by (split; congruence). split; [apply frame_refl|auto]. }
  destruct (cget s c) as [m| | |]; cbn [bind]; try discriminate.
  destruct (m - 1 =? 0)%Z.
  2:{ intros H. assert (s' = cset s c (Some (m - 1)%Z) /\ ts = []) as [-> ->] by (split; congruence). split; [now apply frame_vs|auto]. }
  destruct (pd p); [|discriminate]. destruct (po p) as [o|].
  2:{ intros H. inversion H; subst s' ts. split; [now apply frame_vs|]. intros rest B. apply bodies_cons; [discriminate|exact B]. }
  match goal with |- context [alive ?x o] => change (alive x o) with (alive s o) end.
  destruct (alive s o) eqn:A; [|discriminate]. intros H.
  assert (s' = mkSt (upd (upd (cn s) c (Some (m - 1)%Z)) c None) (upd (ob s) o false) (vs s)) as -> by (inversion H; reflexivity).
  assert (ts = [TBody o 0; TMembers (members s o); TNull v]) as -> by (inversion H; reflexivity).
  apply alive_true, nth_error_lt in A. split.
  - split; [cbn [ob]; rewrite upd_length; lia|]. intros u o' Q _. exact Q.
  - intros rest B. cbn [app]. apply bodies_body.
    + cbn [ob]. rewrite upd_length. exact A.
    + intros u Q. apply members_in. exact Q.
    + apply bodies_cons; [discriminate|]. intros a o' k b Q. destruct (B a o' k b Q) as (L' & ws & b' & Q1 & Q2).
      cbn [ob]. rewrite upd_length. eauto.
Qed.
Ltac binds H := repeat match type of H with (do _ <- ?m; _) = Ok _ => let F := fresh "F" in destruct m eqn:F; cbn [bind] in H; try discriminate H end.
Lemma dec_false_frame f v s s' : dec f false v s = Ok s' -> frame s s'.
Proof.
  destruct f; [discriminate|]. rewrite dec_eq. destruct (pget s v) as [p| | |]; cbn [bind]; try discriminate. destruct (pc p) as [c|].
  2:{ intros H. assert (s' = s) as -> by congruence. apply frame_refl. }
  destruct (cget s c) as [m| | |]; cbn [bind]; try discriminate. cbv zeta.
  destruct (m - 1 =? 0)%Z; cbn [bind].
  - intros H. apply pset_frame in H. eapply frame_trans; [|exact H]. now apply frame_vs.
  - intros H. assert (s' = cset s c (Some (m - 1)%Z)) as -> by congruence. now apply frame_vs.
Qed.
Lemma step_bodies code s t rest s' ts' : dtr_step code s t rest = Ok (s', ts') -> bodies s (t :: rest) -> bodies s' ts'.
Proof.
  intros R B. pose proof (bodies_tail _ _ _ B) as B'.
  assert (forall s1, frame s s1 -> bodies s1 rest) as K by (intros s1 [F1 F2]; eapply bodies_same; eauto).
  assert (forall s1 ts1 v mid, start_dec v s = Ok (s1, ts1) -> (forall o k, ~ In (TBody o k) mid) -> bodies s1 (ts1 ++ mid ++ rest)) as KD.
  { intros s1 ts1 v mid Q N. apply (start_dec_frame _ _ _ _ Q). clear - B' N. induction mid as [|x mid IH]; [exact B'|].
    cbn [app]. apply bodies_cons; [intros o k ->; apply (N o k); now left|]. apply IH. intros o k I. apply (N o k). now right. }
  destruct t as [o|o k|ws|v|v|v w|v w].
  - assert (forall s1 r, (do (x, _) <- (Ok (s1, r) : res (st * option nat)); Ok (x, rest)) = Ok (s', ts') -> s' = s1 /\ ts' = rest) as Z1.
    { intros s1 r Q. cbn in Q. split; congruence. }
    assert ((match o with PDestroy _ | PSetNull _ | PAssign _ _ | PMoveAssign _ _ => False | _ => True end) ->
            (forall s1 r, step s o = Ok (s1, r) -> frame s s1) -> bodies s' ts') as K1.
    { intros N F. assert ((do (x, _) <- step s o; Ok (x, rest)) = Ok (s', ts')) as R' by (destruct o; try contradiction N; exact R).
      destruct (step s o) as [[s1 r]| | |] eqn:S1; cbn [bind] in R'; try discriminate.
      assert (s' = s1 /\ ts' = rest) as [-> ->] by (split; congruence). apply K. eauto. }
    destruct o; try (apply K1; [exact I|]; intros s1 r; cbn [step]).
    + intros Q. binds Q. inversion Q; subst. eapply pinit_frame; eauto.
    + intros Q. apply (f_equal (fun x => match x with Ok (y, _) => y | _ => s end)) in Q. subst s1. split.
      * cbn [ob]. rewrite app_length. lia.
      * intros u o Q L. unfold home in *. cbn [vs] in Q. destruct (Nat.lt_ge_cases u (length (vs s))) as [Lu|Lu].
        -- rewrite nth_error_app1 in Q by auto. exact Q.
        -- rewrite nth_error_app2 in Q by auto. destruct (nth_error (repeat _ k) _) as [[q h]|] eqn:Q1; [|discriminate].
           apply nth_error_In, repeat_spec in Q1. assert (h = Some (length (ob s))) as -> by congruence. assert (o = length (ob s)) by congruence. lia.
    + intros Q. binds Q. inversion Q; subst. eapply frame_trans; [|eapply inc_frame; eauto]. apply pinit_frame in F. eapply frame_trans; [|exact F]. now apply frame_vs.
    + intros Q. binds Q. inversion Q; subst. eapply frame_trans; [eapply pinit_frame; eauto|eapply inc_frame; eauto].
    + intros Q. binds Q. destruct (pr a); binds Q; inversion Q; subst; [eapply frame_trans; [eapply pinit_frame; eauto|eapply inc_frame; eauto]|eapply pinit_frame; eauto].
    + intros Q. binds Q. inversion Q; subst. eapply frame_trans; [eapply pinit_frame; eauto|eapply pset_frame; eauto].
    + intros Q. binds Q. destruct (pr a); binds Q; inversion Q; subst; [eapply frame_trans; [eapply pinit_frame; eauto|eapply pset_frame; eauto]|eapply pinit_frame; eauto].
    + intros Q. binds Q. inversion Q; subst. eapply frame_trans; [eapply pinit_frame; eauto|eapply inc_frame; eauto].
    + cbn [dtr_step] in R. destruct (start_dec v s) as [[s1 ts1]| | |] eqn:Q; cbn [bind] in R; try discriminate.
      assert (s' = s1 /\ ts' = ts1 ++ [TKill v] ++ rest) as [-> ->] by (split; cbn; congruence). apply (KD _ _ v); auto. intros ? ? [?|[]]; discriminate.
    + cbn [dtr_step] in R. destruct (start_dec v s) as [[s1 ts1]| | |] eqn:Q; cbn [bind] in R; try discriminate.
      assert (s' = s1 /\ ts' = ts1 ++ [TNull v] ++ rest) as [-> ->] by (split; cbn; congruence). apply (KD _ _ v); auto. intros ? ? [?|[]]; discriminate.
    + cbn [dtr_step] in R. destruct (v =? w).
      * destruct (pget s v); cbn [bind] in R; try discriminate. assert (s' = s /\ ts' = rest) as [-> ->] by (split; congruence). exact B'.
      * destruct (start_dec v s) as [[s1 ts1]| | |] eqn:Q; cbn [bind] in R; try discriminate.
        assert (s' = s1 /\ ts' = ts1 ++ [TSet v w] ++ rest) as [-> ->] by (split; cbn; congruence). apply (KD _ _ v); auto. intros ? ? [?|[]]; discriminate.
    + cbn [dtr_step] in R. destruct (v =? w).
      * destruct (pget s v); cbn [bind] in R; try discriminate. assert (s' = s /\ ts' = rest) as [-> ->] by (split; congruence). exact B'.
      * destruct (start_dec v s) as [[s1 ts1]| | |] eqn:Q; cbn [bind] in R; try discriminate.
        assert (s' = s1 /\ ts' = ts1 ++ [TMoveSet v w] ++ rest) as [-> ->] by (split; cbn; congruence). apply (KD _ _ v); auto. intros ? ? [?|[]]; discriminate.
    + intros Q. binds Q. inversion Q; subst. eapply dec_false_frame; eauto.
  - cbn [dtr_step] in R. destruct (code o k s).
    + assert (s' = s /\ ts' = TOp o0 :: TBody o (S k) :: rest) as [-> ->] by (split; congruence).
      apply bodies_cons; [discriminate|]. destruct (B [] o k rest eq_refl) as (L & ws & b' & -> & W).
      apply bodies_body; auto. exact (bodies_tail _ _ _ B').
    + assert (s' = s /\ ts' = rest) as [-> ->] by (split; congruence). exact B'.
  - cbn [dtr_step] in R. destruct ws as [|w ws].
    + assert (s' = s /\ ts' = rest) as [-> ->] by (split; congruence). exact B'.
    + destruct (start_dec w s) as [[s1 ts1]| | |] eqn:Q; cbn [bind] in R; try discriminate.
      assert (s' = s1 /\ ts' = ts1 ++ [TKill w; TMembers ws] ++ rest) as [-> ->] by (split; cbn; congruence). apply (KD _ _ w); auto.
      intros ? ? [?|[?|[]]]; discriminate.
  - cbn [dtr_step] in R. binds R. assert (s' = a /\ ts' = rest) as [-> ->] by (split; congruence). apply K. eapply pset_frame; eauto.
  - cbn [dtr_step] in R. binds R. assert (s' = a /\ ts' = rest) as [-> ->] by (split; congruence). apply K. eapply pkill_frame; eauto.
  - cbn [dtr_step] in R. binds R. assert (s' = a1 /\ ts' = rest) as [-> ->] by (split; congruence). apply K.
    eapply frame_trans; [eapply pset_frame; eauto|eapply inc_frame; eauto].
  - cbn [dtr_step] in R. binds R. assert (s' = a1 /\ ts' = rest) as [-> ->] by (split; congruence). apply K.
    eapply frame_trans; [eapply pset_frame; eauto|eapply pset_frame; eauto].
Qed.
Lemma runs_bodies code n prog es c : runs code (start n prog) es c -> bodies (fst c) (snd c).
Proof.
  intros H. remember (start n prog) as c0 eqn:E0. induction H as [c|c es s t rest c' H IH A R]; subst.
  - cbn. clear. intros a o k b Q. exfalso. assert (In (TBody o k) (map TOp prog)) as I by (rewrite Q; apply in_or_app; right; now left).
    apply in_map_iff in I. destruct I as (x & I & _). discriminate.
  - destruct c' as [s' ts']. eapply step_bodies; eauto.
Qed.
Lemma members_exist code n prog es s a o k b u : runs code (start n prog) es (s, a ++ TBody o k :: b) ->
  wh (world_of s) u = Some o -> exists_var (world_of s) u.
Proof.
  intros H Hh. pose proof (runs_bodies _ _ _ _ _ H) as B. cbn [fst snd] in B. apply runs_inv in H. destruct H as [E HI]. cbn [fst snd] in HI.
  destruct (B a o k b eq_refl) as (_ & ws & b' & -> & W). rewrite wh_of in Hh. apply W in Hh.
  destruct (i_mem _ _ _ _ HI u) as [Q _].
  { rewrite mems_app. apply in_or_app. right. cbn [mems]. apply in_or_app. auto. }
  unfold exists_var. rewrite wv_of. destruct (ex s u); congruence.
Qed.

(* ---- termination -------------------------------------------------------------------------- *)
Section Term.
Variable code : nat -> nat -> st -> option op.
Variable bound : nat -> nat.
Hypothesis FB : finite_bodies code bound.
Definition raw1 (t : task) : nat := match t with TOp (PRaw _) => 1 | _ => 0 end.
Definition raws (ts : list task) : nat := list_sum (map raw1 ts).
Definition weight (t : task) : nat :=
  match t with
  | TOp _ => 3
  | TBody o k => 1 + 4 * (bound o - k)
  | TMembers ws => 1 + 3 * length ws
  | _ => 1
  end.
Definition load (ts : list task) : nat := list_sum (map weight ts).
Definition big (c : st * list task) : nat := count_true (ob (fst c)) + raws (snd c).
Lemma raws_app a b : raws (a ++ b) = raws a + raws b.
Proof. unfold raws. now rewrite map_app, list_sum_app. Qed.
Lemma load_app a b : load (a ++ b) = load a + load b.
Proof. unfold load. now rewrite map_app, list_sum_app. Qed.
Lemma count_app a b : count_true (a ++ b) = count_true a + count_true b.
Proof. unfold count_true. now rewrite filter_app, app_length. Qed.
Lemma start_dec_size v s s' ts : start_dec v s = Ok (s', ts) ->
  count_true (ob s') = count_true (ob s) /\ load ts <= 1 /\ raws ts = 0 \/
  S (count_true (ob s')) = count_true (ob s) /\ raws ts = 0.
Proof.
  unfold start_dec. destruct (pget s v) as [p| | |]; cbn [bind]; try discriminate. destruct (pc p) as [c|] eqn:Pc.
  2:{ intros H. assert (s' = s /\ ts = []) as [-> ->] by (split; congruence). left. cbn. auto. }
  destruct (cget s c) as [m| | |]; cbn [bind]; try discriminate.
  destruct (m - 1 =? 0)%Z.
  2:{ intros H. assert (s' = cset s c (Some (m - 1)%Z) /\ ts = []) as [-> ->] by (split; congruence). left. cbn. auto. }
  destruct (pd p); [|discriminate]. destruct (po p) as [o|] eqn:Po.
  2:{ intros H. inversion H; subst s' ts. left. split; [reflexivity|]. split; [cbn; lia|reflexivity]. }
  match goal with |- context [alive ?x o] => change (alive x o) with (alive s o) end.
  destruct (alive s o) eqn:A; [|discriminate]. intros H. right.
  inversion H; subst s' ts. split; [|reflexivity]. cbn [ob]. apply count_true_upd. now apply alive_true.
Qed.

Lemma step_big o s s' r : step s o = Ok (s', r) ->
  match o with PDestroy _ | PSetNull _ | PAssign _ _ | PMoveAssign _ _ => True
  | PRaw _ => count_true (ob s') = S (count_true (ob s)) | _ => ob s' = ob s end.
Proof using.
  assert (forall s v p s', pset s v p = Ok s' -> ob s' = ob s) as P1.
  { intros s0 v p s1. unfold pset. destruct (nth_error (vs s0) v) as [[[q|] h]|]; try discriminate. intros H. now inversion H. }
  assert (forall s v p s', pinit s v p = Ok s' -> ob s' = ob s) as P2.
  { intros s0 v p s1. unfold pinit. destruct (nth_error (vs s0) v) as [[[q|] h]|]; try discriminate. intros H. now inversion H. }
  assert (forall s p s', inc s p = Ok s' -> ob s' = ob s) as P3.
  { intros s0 p s1. unfold inc. destruct (pc p); [|intros H; now inversion H]. destruct (cget s0 n); cbn [bind]; try discriminate. intros H. now inversion H. }
  destruct o; cbn [step]; auto; intros H.
  - binds H. inversion H; subst. eauto.
  - inversion H; subst. cbn [ob]. rewrite count_app. cbn. lia.
  - binds H. inversion H; subst. apply P2 in F. apply P3 in F0. now rewrite F0, F.
  - binds H. inversion H; subst. apply P2 in F0. apply P3 in F1. now rewrite F1, F0.
  - binds H. destruct (pr a); binds H; inversion H; subst; [apply P2 in F0; apply P3 in F1; now rewrite F1, F0|eauto].
  - binds H. inversion H; subst. apply P2 in F0. apply P1 in F1. now rewrite F1, F0.
  - binds H. destruct (pr a); binds H; inversion H; subst; [apply P2 in F0; apply P1 in F1; now rewrite F1, F0|eauto].
  - binds H. inversion H; subst. apply P2 in F0. apply P3 in F1. now rewrite F1, F0.
  - binds H. inversion H; subst. unfold fuel_of in F0. rewrite dec_eq in F0. rewrite F in F0. cbn [bind] in F0. destruct (pc a); [|now inversion F0].
    destruct (cget s n); cbn [bind] in F0; try discriminate. cbv zeta in F0. destruct (a0 - 1 =? 0)%Z; cbn [bind] in F0; [apply P1 in F0; exact F0|now inversion F0].
Qed.
Definition less (c' c : st * list task) : Prop := big c' < big c \/ big c' = big c /\ load (snd c') < load (snd c).
Lemma less_wf : well_founded less.
Proof using.
  assert (forall n m c, big c < n -> load (snd c) < m -> Acc less c) as K.
  { induction n as [|n IHn]; [lia|]. induction m as [|m IHm]; [lia|]. intros c L1 L2. constructor. intros c' [H|[H1 H2]].
    - apply (IHn (S (load (snd c')))); lia.
    - apply IHm; lia. }
  intros c. apply (K (S (big c)) (S (load (snd c)))); lia.
Qed.
Lemma follows_less c' c : follows code c' c -> less c' c.
Proof using FB.
  destruct FB as [F1 F2]. intros (s & t & rest & -> & R). destruct c' as [s' ts']. unfold less, big. cbn [fst snd].
  assert (forall v mid, raws mid = 0 -> raw1 t = 0 -> load mid + 2 <= weight t ->
    (do (x, ts) <- start_dec v s; Ok (x, ts ++ mid ++ rest)) = Ok (s', ts') ->
    count_true (ob s') + raws ts' < count_true (ob s) + raws (t :: rest) \/
    count_true (ob s') + raws ts' = count_true (ob s) + raws (t :: rest) /\ load ts' < load (t :: rest)) as K.
  { intros v mid M1 M2 M3 Q. destruct (start_dec v s) as [[s1 ts1]| | |] eqn:D; cbn [bind] in Q; try discriminate.
    assert (s' = s1 /\ ts' = ts1 ++ mid ++ rest) as [-> ->] by (split; congruence).
    change (t :: rest) with ([t] ++ rest). rewrite !raws_app, !load_app, M1.
    assert (raws [t] = 0) as -> by (unfold raws; cbn; lia). assert (load [t] = weight t) as -> by (unfold load; cbn; lia).
    destruct (start_dec_size _ _ _ _ D) as [(Z1 & Z2 & Z3)|[Z1 Z2]]; lia. }
  assert (ob s' = ob s -> raws ts' = raws rest -> raw1 t = 0 -> load ts' < weight t + load rest ->
    count_true (ob s') + raws ts' < count_true (ob s) + raws (t :: rest) \/
    count_true (ob s') + raws ts' = count_true (ob s) + raws (t :: rest) /\ load ts' < load (t :: rest)) as K1.
  { intros -> -> H1 H2. change (t :: rest) with ([t] ++ rest). rewrite raws_app, load_app.
    assert (raws [t] = 0) as -> by (unfold raws; cbn; lia). assert (load [t] = weight t) as -> by (unfold load; cbn; lia). lia. }
  destruct t as [o|o k|ws|v|v|v w|v w].
  - assert ((match o with PDestroy _ | PSetNull _ | PAssign _ _ | PMoveAssign _ _ => False | _ => True end) ->
      exists r, step s o = Ok (s', r) /\ ts' = rest) as S1.
    { intros N. assert ((do (x, _) <- step s o; Ok (x, rest)) = Ok (s', ts')) as R' by (destruct o; try contradiction N; exact R).
      destruct (step s o) as [[s1 r]| | |]; cbn [bind] in R'; try discriminate. exists r. split; congruence. }
    destruct o; try (destruct (S1 I) as (r & S2 & ->); pose proof (step_big _ _ _ _ S2) as S3; cbn beta iota in S3);
      try (apply K1; [exact S3|reflexivity|reflexivity|cbn; lia]; fail).
    + right. rewrite S3. change (TOp (PRaw k) :: rest) with ([TOp (PRaw k)] ++ rest). rewrite raws_app, load_app. cbn. lia.
    + apply (K v [TKill v]); auto.
    + apply (K v [TNull v]); auto.
    + cbn [dtr_step] in R. destruct (v =? w).
      * destruct (pget s v); cbn [bind] in R; try discriminate. assert (s' = s /\ ts' = rest) as [-> ->] by (split; congruence). apply K1; auto. cbn; lia.
      * apply (K v [TSet v w]); auto.
    + cbn [dtr_step] in R. destruct (v =? w).
      * destruct (pget s v); cbn [bind] in R; try discriminate. assert (s' = s /\ ts' = rest) as [-> ->] by (split; congruence). apply K1; auto. cbn; lia.
      * apply (K v [TMoveSet v w]); auto.
  - cbn [dtr_step] in R. destruct (code o k s) as [p|] eqn:C.
    + assert (s' = s /\ ts' = TOp p :: TBody o (S k) :: rest) as [-> ->] by (split; congruence).
      assert (k < bound o) as Lk. { destruct (Nat.lt_ge_cases k (bound o)); auto. rewrite (F1 o k s) in C by auto. discriminate. }
      apply K1; auto.
      * unfold raws. cbn [map list_sum fold_right]. destruct p; cbn; auto. exfalso. eapply F2; eauto.
      * change (TOp p :: TBody o (S k) :: rest) with ([TOp p; TBody o (S k)] ++ rest). rewrite load_app. unfold load at 1. cbn [map weight list_sum fold_right]. cbn [weight]. lia.
    + assert (s' = s /\ ts' = rest) as [-> ->] by (split; congruence). apply K1; auto. cbn [weight]. lia.
  - cbn [dtr_step] in R. destruct ws as [|w ws].
    + assert (s' = s /\ ts' = rest) as [-> ->] by (split; congruence). apply K1; auto.
    + apply (K w [TKill w; TMembers ws]); auto. unfold load. cbn [map weight list_sum fold_right length]. lia.
  - cbn [dtr_step] in R. binds R. assert (s' = a /\ ts' = rest) as [-> ->] by (split; congruence). apply K1; auto.
    unfold pset in F. destruct (nth_error (vs s) v) as [[[q|] h]|]; try discriminate. now inversion F.
  - cbn [dtr_step] in R. binds R. assert (s' = a /\ ts' = rest) as [-> ->] by (split; congruence). apply K1; auto.
    unfold pkill in F. destruct (nth_error (vs s) v) as [[[q|] h]|]; try discriminate. now inversion F.
  - assert (exists r, (do p <- pget s w; do s0 <- pset s v p; do s0 <- inc s0 p; Ok (s0, rest)) = Ok (s', r) /\ ts' = r) as (r & R' & ->) by (exists ts'; auto).
    cbn [dtr_step] in R. binds R'. inversion R'; subst. apply K1; auto.
    unfold pset in F0. destruct (nth_error (vs s) v) as [[[q|] h]|]; try discriminate. inversion F0; subst.
    unfold inc in F3. destruct (pc a); [|now inversion F3]. match type of F3 with (do _ <- ?m; _) = _ => destruct m; cbn [bind] in F3; try discriminate end. now inversion F3.
  - cbn [dtr_step] in R. binds R. inversion R; subst. apply K1; auto.
    unfold pset in F0. destruct (nth_error (vs s) v) as [[[q|] h]|]; try discriminate. inversion F0; subst.
    unfold pset in F3. cbn [vs] in F3. match type of F3 with match ?m with _ => _ end = _ => destruct m as [[[q'|] h']|]; try discriminate end. now inversion F3.
Qed.
Lemma terminates_ok c : Acc (follows code) c.
Proof using FB.
  assert (forall c, Acc less c -> Acc (follows code) c) as K.
  { clear c. intros c H. induction H as [c H IH]. constructor. intros c' F. apply IH. now apply follows_less. }
  apply K, less_wf.
Qed.
Lemma completes_ok n prog : (forall es s t rest, runs code (start n prog) es (s, t :: rest) -> allowed s rest t) ->
  exists es s, runs code (start n prog) es (s, []).
Proof using FB.
  intros HA. assert (forall c, Acc (follows code) c -> forall es, runs code (start n prog) es c -> exists es' s, runs code (start n prog) es' (s, [])) as K.
  { intros c H. induction H as [c H IH]. intros es R. destruct c as [s [|t rest]]; [eauto|].
    pose proof (HA _ _ _ _ R) as A. destruct (safe_ok _ _ _ _ _ _ _ R A) as [c' S].
    apply (IH c') with (es := es ++ event_of t); [exists s, t, rest; auto|]. eapply runs_snoc; eauto. }
  eapply K; [apply terminates_ok|apply runs_nil].
Qed.
End Term.

(* ---- without destructors -------------------------------------------------------------------- *)
Lemma goes_trans code a b c : goes code a b -> goes code b c -> goes code a c.
Proof. intros H. induction H; auto. intros G. eapply goes_cons; eauto. Qed.
Lemma dec_goes : forall f v s s', dec f true v s = Ok s' ->
  exists s1 ts, start_dec v s = Ok (s1, ts) /\ forall rest, goes no_code (s1, ts ++ rest) (s', rest).
Proof.
  induction f as [|f IH]; intros v s s' H; [discriminate|].
  rewrite dec_eq in H. unfold start_dec. destruct (pget s v) as [p| | |]; cbn [bind] in *; try discriminate.
  destruct (pc p) as [c|].
  2:{ assert (s' = s) as -> by congruence. exists s, []. split; [reflexivity|]. intros rest. apply goes_nil. }
  destruct (cget s c) as [m| | |]; cbn [bind] in *; try discriminate. cbv zeta in *.
  destruct (m - 1 =? 0)%Z.
  2:{ assert (s' = cset s c (Some (m - 1)%Z)) as -> by congruence. eexists _, []. split; [reflexivity|]. intros rest. apply goes_nil. }
  destruct (pd p); [|discriminate]. destruct (po p) as [o|].
  2:{ cbn [bind] in H. eexists _, [TNull v]. split; [reflexivity|]. intros rest. eapply goes_cons; [|apply goes_nil].
      cbn [dtr_step]. rewrite H. reflexivity. }
  match type of H with context [alive ?x o] => change (alive x o) with (alive s o) in * end.
  destruct (alive s o); [|discriminate].
  match type of H with context [each f _ ?x] => set (s2 := x) in * end.
  assert (forall ws s s', each f ws s = Ok s' -> forall rest, goes no_code (s, TMembers ws :: rest) (s', rest)) as L.
  { clear - IH. induction ws as [|w ws IHw]; intros s s' H rest; cbn [each] in H.
    - eapply goes_cons; [reflexivity|]. assert (s' = s) as -> by congruence. apply goes_nil.
    - fold (each f) in H. binds H. destruct (IH _ _ _ F) as (s1 & ts & R & G).
      eapply goes_cons; [cbn [dtr_step]; rewrite R; reflexivity|]. eapply goes_trans; [apply G|].
      eapply goes_cons; [cbn [dtr_step]; rewrite F0; reflexivity|]. apply IHw. exact H. }
  destruct (each f (members s2 o) s2) as [s3| | |] eqn:Es; cbn [bind] in H; try discriminate.
  exists s2, [TBody o 0; TMembers (members s2 o); TNull v]. split; [reflexivity|]. intros rest. cbn [app].
  eapply goes_cons; [reflexivity|]. eapply goes_trans; [apply L; exact Es|].
  eapply goes_cons; [cbn [dtr_step]; rewrite H; reflexivity|]. apply goes_nil.
Qed.
Lemma no_bodies_ok s o s' r rest : step s o = Ok (s', r) -> goes no_code (s, TOp o :: rest) (s', rest).
Proof.
  assert ((match o with PDestroy _ | PSetNull _ | PAssign _ _ | PMoveAssign _ _ => False | _ => True end) ->
    step s o = Ok (s', r) -> goes no_code (s, TOp o :: rest) (s', rest)) as K.
  { intros N H. eapply goes_cons; [|apply goes_nil]. destruct o; try contradiction N; cbn [dtr_step]; rewrite H; reflexivity. }
  destruct o; try (apply K; exact I); clear K; cbn [step]; intros H.
  - binds H. inversion H; subst. destruct (dec_goes _ _ _ _ F) as (s1 & ts & R & G).
    eapply goes_cons; [cbn [dtr_step]; rewrite R; reflexivity|]. eapply goes_trans; [apply G|].
    eapply goes_cons; [cbn [dtr_step]; rewrite F0; reflexivity|]. apply goes_nil.
  - binds H. inversion H; subst. destruct (dec_goes _ _ _ _ F) as (s1 & ts & R & G).
    eapply goes_cons; [cbn [dtr_step]; rewrite R; reflexivity|]. eapply goes_trans; [apply G|].
    eapply goes_cons; [cbn [dtr_step]; rewrite F0; reflexivity|]. apply goes_nil.
  - destruct (v =? w) eqn:Evw.
    + binds H. inversion H; subst. eapply goes_cons; [cbn [dtr_step]; rewrite Evw, F; reflexivity|apply goes_nil].
    + binds H. inversion H; subst. destruct (dec_goes _ _ _ _ F) as (s1 & ts & R & G).
      eapply goes_cons; [cbn [dtr_step]; rewrite Evw, R; reflexivity|]. eapply goes_trans; [apply G|].
      eapply goes_cons; [cbn [dtr_step]; rewrite F0; cbn [bind]; rewrite F1; cbn [bind]; rewrite F2; reflexivity|apply goes_nil].
  - destruct (v =? w) eqn:Evw.
    + binds H. inversion H; subst. eapply goes_cons; [cbn [dtr_step]; rewrite Evw, F; reflexivity|apply goes_nil].
    + binds H. inversion H; subst. destruct (dec_goes _ _ _ _ F) as (s1 & ts & R & G).
      eapply goes_cons; [cbn [dtr_step]; rewrite Evw, R; reflexivity|]. eapply goes_trans; [apply G|].
      eapply goes_cons; [cbn [dtr_step]; rewrite F0; cbn [bind]; rewrite F1; cbn [bind]; rewrite F2; reflexivity|apply goes_nil].
Qed.

(* ---- examples ---------------------------------------------------------------------------------- *)
Lemma runs_cons code s t rest c es c' : allowed s rest t -> dtr_step code s t rest = Ok c -> runs code c es c' ->
  runs code (s, t :: rest) (event_of t ++ es) c'.
Proof.
  intros A R H. induction H as [c|c es s1 t1 rest1 c1 H IH A1 R1].
  - rewrite app_nil_r. change (event_of t) with ([] ++ event_of t). eapply runs_snoc; eauto. apply runs_nil.
  - rewrite app_assoc. eapply runs_snoc; eauto.
Qed.
Ltac var_solve := first
  [ exact I
  | discriminate
  | reflexivity
  | (cbn; lia)
  | (cbn; tauto)
  | (cbn; intuition discriminate)
  | (let u := fresh "u" in let R := fresh "R" in intros u [R _]; do 7 (destruct u as [|u]; [discriminate R|]); destruct u; discriminate R)
  | (split; var_solve) ].
Ltac run_step := eapply runs_cons; [unfold allowed, usable, free_slot, exists_var; repeat (split; [var_solve|]); var_solve | vm_compute; reflexivity | ].
Lemma saving_runs : exists es s, runs saving (start 3 saving_prog) es (s, []) /\
  no_detach_in es /\ wrapped_in es 0 /\ wrapped_in es 1 /\ dtors es = [0; 1] /\ ob s = [false; false] /\ cn s = [None; None].
Proof.
  eexists _, _. split.
  - unfold start, saving_prog. cbn [map]. change (init 3) with (mkSt [] [] [(None, None); (None, None); (None, None)]).
    repeat run_step. apply runs_nil.
  - split; [intros v H; cbn in H; intuition discriminate|]. split; [exists 0; cbn; tauto|]. split; [exists 1; cbn; tauto|]. auto.
Qed.
(* in the middle: object 0 is being destroyed, object 1 has two owners *)
Lemma saving_middle : exists es s ts, runs saving (start 3 saving_prog) es (s, ts) /\ no_detach_in es /\ wrapped_in es 1 /\
  busy ts = [0; 0] /\ alive s 0 = false /\ owner s ts 2 1 /\ owners_now s ts 1 = 2 /\ exists k b, ts = TBody 0 k :: b.
Proof.
  eexists _, _, _. split.
  - unfold start, saving_prog. cbn [map]. change (init 3) with (mkSt [] [] [(None, None); (None, None); (None, None)]).
    do 11 run_step. apply runs_nil.
  - split; [intros v H; cbn in H; intuition discriminate|]. split; [exists 1; cbn; tauto|]. split; [reflexivity|]. split; [reflexivity|].
    split; [split; [reflexivity|cbn; intuition discriminate]|]. split; [reflexivity|]. eauto.
Qed.
Lemma saving_finite : finite_bodies saving (fun _ => 2).
Proof.
  split.
  - intros [|o] [|[|k]] s H; try reflexivity; lia.
  - intros [|o] [|[|k]] s m; discriminate.
Qed.
Ltac go := eapply goes_cons; [vm_compute; reflexivity|].
Lemma reads_busy : fails (only (PCopy 1 0)) (start 2 [PRaw 0; PWrap 0 0; PSetNull 0]).
Proof. eexists _, _, _. split; [unfold start; cbn [map]; do 4 go; apply goes_nil|vm_compute; reflexivity]. Qed.
Lemma writes_busy : fails (only (PSetNull 0)) (start 2 [PRaw 0; PWrap 0 0; PSetNull 0]).
Proof. eexists _, _, _. split; [unfold start; cbn [map]; do 4 go; apply goes_nil|vm_compute; reflexivity]. Qed.
Lemma kills_source : fails (only (PDestroy 1)) (start 2 [PRaw 0; PWrap 0 0; PRaw 0; PWrap 1 1; PAssign 0 1]).
Proof. eexists _, _, _. split; [unfold start; cbn [map]; do 14 go; apply goes_nil|vm_compute; reflexivity]. Qed.
