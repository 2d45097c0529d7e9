(* Exceptions of comparisons are not swallowed. *)
From Verif Require Import Base LstModel SrtModel DctModel AnyModel AnySpec LeqModel AngModel.
Open Scope Z_scope.

Section Calm.
  Context (A V St : Type) (cmp : St -> A -> A -> St * option comparison) (less : St -> A -> A -> St * option bool) (veq : St -> V -> V -> St * option bool).
  Context (calm : St -> Prop) (K : keeps_calm cmp less calm) (KV : forall st a b st' c, calm st -> veq st a b = (st', Some c) -> calm st').

  Lemma asearch_calm x key : forall fuel s e index st st' p, calm st -> asearch A St cmp x key s e index fuel st = Ok (st', Some p) -> calm st'.
  Proof.
    induction fuel as [|fuel IH]; intros s e index st st' p H; cbn [asearch]; [discriminate|]. destruct (s <=? e); [|intros Q; now injection Q as <- <-]. cbv zeta.
    destruct (read A (buf x) (s + Z.quot (e - s) 2)) as [y| | |]; cbn [bind]; try discriminate. destruct (cmp st y key) as [st1 [[| |]|]] eqn:E; try discriminate.
    - intros Q. injection Q as <- <-. eapply (proj1 K); eauto.
    - apply IH. eapply (proj1 K); eauto.
    - apply IH. eapply (proj1 K); eauto.
  Qed.
  Lemma ainternal_calm x key st st' p : calm st -> ainternal A St cmp x key st = Ok (st', Some p) -> calm st'.
  Proof. apply asearch_calm. Qed.
  Lemma aadd_calm x a st st' p : calm st -> aadd A St cmp less x a st = Ok (st', Some p) -> calm st'.
  Proof.
    intros H. unfold aadd. destruct (count x =? 0); [destruct (s_insert A x 0 a); cbn [bind]; intros Q; try discriminate; now injection Q as <- <-|].
    destruct (ainternal A St cmp x a st) as [[st1 [[i oi]|]]| | |] eqn:E; cbn [bind]; try discriminate.
    destruct ((oi >=? 0) && (oi <? count x)); [|discriminate]. destruct (read A (buf x) oi); cbn [bind]; try discriminate.
    destruct (less st1 a0 a) as [st2 [c|]] eqn:E2; [|discriminate]. cbv zeta. destruct (s_insert A x _ a); cbn [bind]; intros Q; try discriminate. injection Q as <- <-.
    eapply (proj2 K); [|exact E2]. eapply ainternal_calm; eauto.
  Qed.
  Lemma astep_calm x st o y st' r : calm st -> astep A St cmp less x st o = Ok (y, st', r) -> r <> RError -> calm st'.
  Proof.
    intros H. destruct o; cbn [astep]; unfold catch.
    - destruct (aadd A St cmp less x a st) as [[st1 [[z i]|]]| | |] eqn:E; cbn [bind]; intros Q N; try discriminate; injection Q as <- <- <-; [|congruence].
      eapply aadd_calm; eauto.
    - destruct (ainternal A St cmp x a st) as [[st1 [[i oi]|]]| | |] eqn:E; cbn [bind]; intros Q N; try discriminate; [|injection Q as <- <- <-; congruence].
      apply ainternal_calm in E; auto. destruct ((i >=? 0) && (i <? count x)); [|now injection Q as <- <- <-].
      destruct (remove_at A x i); cbn [bind] in Q; try discriminate. now injection Q as <- <- <-.
    - destruct (remove_at A x i); cbn [bind]; intros Q N; try discriminate; now injection Q as <- <- <-.
    - destruct (remove_range A x i n); cbn [bind]; intros Q N; try discriminate; now injection Q as <- <- <-.
    - destruct (clear A x); cbn [bind]; intros Q N; try discriminate; now injection Q as <- <- <-.
    - destruct (get A x i); cbn [bind]; intros Q N; try discriminate; now injection Q as <- <- <-.
    - intros Q N. now injection Q as <- <- <-.
    - destruct (ainternal A St cmp x a st) as [[st1 [[i oi]|]]| | |] eqn:E; cbn [bind]; intros Q N; try discriminate; injection Q as <- <- <-; [|congruence]. eapply ainternal_calm; eauto.
    - destruct (ainternal A St cmp x a st) as [[st1 [[i oi]|]]| | |] eqn:E; cbn [bind]; intros Q N; try discriminate; injection Q as <- <- <-; [|congruence]. eapply ainternal_calm; eauto.
  Qed.
  Lemma arun_calm os : forall x st y st' rs, calm st -> arun A St cmp less x st os = Ok (y, st', rs) -> ~ In RError rs -> calm st'.
  Proof.
    induction os as [|o os IH]; intros x st y st' rs H; cbn [arun]; [intros Q _; now injection Q as <- <- <-|].
    destruct (astep A St cmp less x st o) as [[[x1 st1] r]| | |] eqn:E; cbn [bind]; intros Q N; try discriminate.
    destruct (arun A St cmp less x1 st1 os) as [[[x2 st2] rs2]| | |] eqn:E2; cbn [bind] in Q; try discriminate. injection Q as <- <- <-.
    apply (IH _ _ _ _ _) in E2; [exact E2| |intros Hi; apply N; now right]. eapply astep_calm; [exact H|exact E|]. intros ->. apply N. now left.
  Qed.

  Lemma find_calm {X} x k st (dflt : X) (f : St -> Z -> res (X * St * dout A V)) y st' r : calm st ->
    (forall st1 i, calm st1 -> f st1 i = Ok (y, st', r) -> r <> OError -> calm st') ->
    (do (st, r) <- ainternal A St cmp x k st; match r with Some (i, _) => f st i | None => Ok (dflt, st, OError) end) = Ok (y, st', r) -> r <> OError -> calm st'.
  Proof.
    intros H F. destruct (ainternal A St cmp x k st) as [[st1 [[i oi]|]]| | |] eqn:E; cbn [bind]; intros Q N; try discriminate.
    - apply (F st1 i); auto. exact (ainternal_calm _ _ _ _ _ H E).
    - injection Q as <- <- <-. congruence.
  Qed.
  Lemma adinsert_calm d k v st y st' r : calm st -> adinsert A V St cmp less d k v st = Ok (y, st', r) -> r <> OError -> calm st'.
  Proof.
    intros H. unfold adinsert. destruct (aadd A St cmp less (keys d) k st) as [[st1 [[z i]|]]| | |] eqn:E; cbn [bind]; intros Q N; try discriminate; [|injection Q as <- <- <-; congruence].
    destruct (late (insert V (vals d) i v)); cbn [bind] in Q; try discriminate. injection Q as <- <- <-. eapply aadd_calm; eauto.
  Qed.
  Lemma adstep_calm d st o y st' r : calm st -> adstep A V St cmp less d st o = Ok (y, st', r) -> r <> OError -> calm st'.
  Proof.
    intros H. destruct o as [k v|k v|k| |k|k| |i|i]; cbn [adstep].
    - apply find_calm; [exact H|]. intros st1 i H1. destruct (negb (i =? -1)); [intros Q N; injection Q as <- <- <-; congruence|]. now apply adinsert_calm.
    - apply find_calm; [exact H|]. intros st1 i H1. destruct (i =? -1); [now apply adinsert_calm|]. destruct (late (set V (vals d) i v)); cbn [bind]; intros Q N; try discriminate. now injection Q as <- <- <-.
    - apply find_calm; [exact H|]. intros st1 i H1. destruct (negb (i =? -1)); [|intros Q N; now injection Q as <- <- <-].
      destruct (late (remove_at A (keys d) i)); cbn [bind]; try discriminate. destruct (late (remove_at V (vals d) i)); cbn [bind]; intros Q N; try discriminate. now injection Q as <- <- <-.
    - destruct (clear A (keys d)); cbn [bind]; try discriminate. destruct (late (clear V (vals d))); cbn [bind]; intros Q N; try discriminate. now injection Q as <- <- <-.
    - apply find_calm; [exact H|]. intros st1 i H1. destruct (get V (vals d) i); intros Q N; try discriminate; now injection Q as <- <- <-.
    - apply find_calm; [exact H|]. intros st1 i H1 Q N. now injection Q as <- <- <-.
    - intros Q N. now injection Q as <- <- <-.
    - destruct (get A (keys d) i); intros Q N; try discriminate; now injection Q as <- <- <-.
    - destruct (get V (vals d) i); intros Q N; try discriminate; now injection Q as <- <- <-.
  Qed.
  Lemma adrun_calm os : forall d st y st' rs, calm st -> adrun A V St cmp less d st os = Ok (y, st', rs) -> ~ In OError rs -> calm st'.
  Proof.
    induction os as [|o os IH]; intros x st y st' rs H; cbn [adrun]; [intros Q _; now injection Q as <- <- <-|].
    destruct (adstep A V St cmp less x st o) as [[[x1 st1] r]| | |] eqn:E; cbn [bind]; intros Q N; try discriminate.
    destruct (adrun A V St cmp less x1 st1 os) as [[[x2 st2] rs2]| | |] eqn:E2; cbn [bind] in Q; try discriminate. injection Q as <- <- <-.
    apply (IH _ _ _ _ _) in E2; [exact E2| |intros Hi; apply N; now right]. eapply adstep_calm; [exact H|exact E|]. intros ->. apply N. now left.
  Qed.

  Lemma append_calm g p v st y st' r : calm st -> append A V St g p v st = Ok (y, st', r) -> calm st'.
  Proof.
    intros H. unfold append. destruct (late (deref A V g p)) as [x| | |]; cbn [bind]; try discriminate. destruct (late (insert V x (count x) v)); cbn [bind]; intros Q; try discriminate.
    now injection Q as <- <- <-.
  Qed.
  Lemma at_index_calm g i st f y st' r : calm st -> at_index A V St g i st f = Ok (y, st', r) -> calm st'.
  Proof.
    intros H. unfold at_index. destruct (g_by_index A V g i) as [x| | |]; try discriminate; [|intros Q; now injection Q as <- <- <-].
    destruct (f x); cbn [bind]; intros Q; try discriminate. now injection Q as <- <- <-.
  Qed.
  Lemma eindex_calm x v st st' j : calm st -> eindex V V St veq x v st = Ok (st', Some j) -> calm st'.
  Proof.
    unfold eindex. generalize 0, (Z.to_nat (count x)). intros i n. revert i st. induction n as [|n IH]; intros i st H; cbn [eloop]; [intros Q; now injection Q as <- <-|].
    destruct (read V (buf x) i) as [y| | |]; cbn [bind]; try discriminate. destruct (veq st y v) as [st1 [[|]|]] eqn:E; try discriminate.
    - intros Q. injection Q as <- <-. eapply KV; eauto.
    - apply IH. eapply KV; eauto.
  Qed.
  Lemma agstep_calm g st o y st' r : calm st -> agstep A V St cmp less veq g st o = Ok (y, st', r) -> r <> OError -> calm st'.
  Proof.
    intros H. destruct o as [k v|k|k v| |k|k v| |i|k|k i]; cbn [agstep].
    - apply find_calm; [exact H|]. intros st1 i H1. cbv zeta. cbn [gkeys gvals gheap]. destruct (i =? -1).
      + destruct (aadd A St cmp less (gkeys g) k st1) as [[st2 [[ks j]|]]| | |] eqn:E; cbn [bind]; intros Q N; try discriminate; [|injection Q as <- <- <-; congruence].
        destruct (late (insert nat (gvals g) j (length (gheap g)))); cbn [bind] in Q; try discriminate. eapply append_calm; [|exact Q]. eapply aadd_calm; eauto.
      + destruct (late (get nat (gvals g) i)); cbn [bind]; intros Q N; try discriminate. eapply append_calm; eauto.
    - apply find_calm; [exact H|]. intros st1 i H1. destruct (negb (i =? -1)); [|intros Q N; now injection Q as <- <- <-].
      destruct (late (remove_at A (gkeys g) i)); cbn [bind]; try discriminate. destruct (late (get nat (gvals g) i)); cbn [bind]; try discriminate.
      destruct (late (remove_at nat (gvals g) i)); cbn [bind]; try discriminate. destruct (late (delete A V _ _)); cbn [bind]; intros Q N; try discriminate. now injection Q as <- <- <-.
    - apply find_calm; [exact H|]. intros st1 i H1. destruct (negb (i =? -1)); [|intros Q N; now injection Q as <- <- <-].
      destruct (late (get nat (gvals g) i)); cbn [bind]; try discriminate. destruct (late (deref A V g _)) as [x| | |]; cbn [bind]; try discriminate.
      destruct (eindex V V St veq x v st1) as [[st2 [j|]]| | |] eqn:E; cbn [late bind]; try discriminate; [|intros Q N; injection Q as <- <- <-; congruence].
      assert (H2 : calm st2) by (eapply eindex_calm; eauto).
      destruct (late (if (j >=? 0) && (j <? count x) then remove_at V x j else Ok x)) as [z| | |]; cbn [bind]; try discriminate. cbv zeta. destruct (count z =? 0); [|intros Q N; now injection Q as <- <- <-].
      destruct (late (remove_at A _ i)); cbn [bind]; try discriminate. destruct (late (remove_at nat _ i)); cbn [bind]; try discriminate.
      destruct (late (delete A V _ _)); cbn [bind]; intros Q N; try discriminate. now injection Q as <- <- <-.
    - destruct (late (g_clear A V g)); cbn [bind]; intros Q N; try discriminate. now injection Q as <- <- <-.
    - apply find_calm; [exact H|]. intros st1 i H1 Q N. now injection Q as <- <- <-.
    - apply find_calm; [exact H|]. intros st1 i H1. destruct (negb (i =? -1)); [|intros Q N; now injection Q as <- <- <-].
      destruct (g_by_index A V g i) as [x| | |]; try discriminate; [|intros Q N; now injection Q as <- <- <-].
      destruct (eindex V V St veq x v st1) as [[st2 [j|]]| | |] eqn:E; cbn [late bind]; intros Q N; try discriminate; injection Q as <- <- <-; [|congruence].
      eapply eindex_calm; eauto.
    - intros Q N. now injection Q as <- <- <-.
    - destruct (get A (gkeys g) i); intros Q N; try discriminate; now injection Q as <- <- <-.
    - apply find_calm; [exact H|]. intros st1 i H1 Q N. eapply at_index_calm; eauto.
    - apply find_calm; [exact H|]. intros st1 j H1 Q N. eapply at_index_calm; eauto.
  Qed.
  Lemma agrun_calm os : forall d st y st' rs, calm st -> agrun A V St cmp less veq d st os = Ok (y, st', rs) -> ~ In OError rs -> calm st'.
  Proof.
    induction os as [|o os IH]; intros x st y st' rs H; cbn [agrun]; [intros Q _; now injection Q as <- <- <-|].
    destruct (agstep A V St cmp less veq x st o) as [[[x1 st1] r]| | |] eqn:E; cbn [bind]; intros Q N; try discriminate.
    destruct (agrun A V St cmp less veq x1 st1 os) as [[[x2 st2] rs2]| | |] eqn:E2; cbn [bind] in Q; try discriminate. injection Q as <- <- <-.
    apply (IH _ _ _ _ _) in E2; [exact E2| |intros Hi; apply N; now right]. eapply agstep_calm; [exact H|exact E|]. intros ->. apply N. now left.
  Qed.
End Calm.
