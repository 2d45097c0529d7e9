From Coq Require Import ZifyBool ZifyNat.
From Verif Require Import Base BaseFacts RcModel RcSpec RcProofs RcProofs2 PmModel PmSpec.
Open Scope nat_scope.

Lemma free_vs s v : free_slot (world_of s) v -> exists h, nth_error (vs s) v = Some (None, h).
Proof.
  intros (L & W & _). cbn [world_of wm wv] in *. destruct (nth_error (vs s) v) as [[[p|] h]|] eqn:E; [discriminate|eauto|].
  apply nth_error_None in E. lia.
Qed.
Lemma pfail_ok s v o : legal (world_of s) (PWrap v o) -> pstep s (PFail v o) = Ok (s, None, true).
Proof. intros (F & _). destruct (free_vs s v F) as [h E]. cbn [pstep]. now rewrite E. Qed.

Lemma prun_ok es : forall s, good s -> plegal_run s es ->
  exists s' rs, prun s es = Ok (s', pfails es) /\ run s (pkept es) = Ok (s', rs) /\ legal_run s (pkept es) /\ good s'.
Proof.
  induction es as [|e es IH]; intros s G L.
  - exists s, []. repeat split; auto.
  - destruct L as [L1 L2]. destruct e as [a|v o]; cbn [plegal] in L1.
    + destruct (step_ok s a G L1) as (s1 & r & R & _ & G1 & _).
      assert (pstep s (POp a) = Ok (s1, r, false)) as P by (cbn [pstep]; now rewrite R).
      destruct (IH s1 G1 (L2 _ _ _ P)) as (s' & rs & A & B & C & D).
      exists s', (r :: rs). cbn [prun]. rewrite P. cbn [bind]. rewrite A. cbn [bind pfails map pkept flat_map app run].
      split; [reflexivity|]. change (flat_map _ es) with (pkept es). rewrite R. cbn [bind]. rewrite B. split; [reflexivity|]. split; [|auto].
      cbn [legal_run]. split; auto. intros s2 r2 R2. assert (s2 = s1) by congruence. now subst.
    + pose proof (pfail_ok s v o L1) as P. destruct (IH s G (L2 _ _ _ P)) as (s' & rs & A & B & C & D).
      exists s', rs. cbn [prun]. rewrite P. cbn [bind]. rewrite A. cbn [bind pfails map pkept flat_map app]. auto.
Qed.
Lemma ptr_ok n es : plegal_run (init n) es ->
  exists s rs, prun (init n) es = Ok (s, pfails es) /\ legal_run (init n) (pkept es) /\ run (init n) (pkept es) = Ok (s, rs).
Proof. intros L. destruct (prun_ok es _ (init_good n) L) as (s & rs & A & B & C & _). eauto. Qed.

Lemma plegal_app es1 : forall s es2, good s -> plegal_run s (es1 ++ es2) ->
  exists s1, plegal_run s es1 /\ prun s es1 = Ok (s1, pfails es1) /\ good s1 /\ plegal_run s1 es2.
Proof.
  induction es1 as [|e es1 IH]; intros s es2 G L.
  - exists s. repeat split; auto.
  - destruct L as [L1 L2].
    assert (exists s1 r x, pstep s e = Ok (s1, r, x) /\ x = (match e with POp _ => false | PFail _ _ => true end) /\ good s1) as (s1 & r & x & P & X & G1).
    { destruct e as [a|v o]; cbn [plegal] in L1.
      - destruct (step_ok s a G L1) as (s1 & r & R & _ & G1 & _). exists s1, r, false. cbn [pstep]. rewrite R. auto.
      - exists s, None, true. rewrite pfail_ok by auto. auto. }
    destruct (IH s1 es2 G1 (L2 _ _ _ P)) as (s2 & A & B & C & D). exists s2. cbn [plegal_run prun]. split; [|split; [|auto]].
    + split; auto. intros t r' x' P'. assert (t = s1) by congruence. now subst.
    + rewrite P. cbn [bind]. rewrite B. cbn [bind pfails map]. now rewrite X.
Qed.
Lemma prun_app es1 : forall s es2 s1 b, prun s es1 = Ok (s1, b) ->
  prun s (es1 ++ es2) = (do (s2, b2) <- prun s1 es2; Ok (s2, b ++ b2)).
Proof.
  induction es1 as [|e es1 IH]; intros s es2 s1 b R; cbn [prun app] in *.
  - inversion R; subst. destruct (prun s1 es2) as [[? ?]| | |]; reflexivity.
  - destruct (pstep s e) as [[[s0 r] x]| | |]; try discriminate. cbn [bind] in *. destruct (prun s0 es1) as [[s3 b3]| | |] eqn:E; try discriminate.
    cbn [bind] in R. inversion R; subst. rewrite (IH _ es2 _ _ E). destruct (prun s1 es2) as [[? ?]| | |]; reflexivity.
Qed.
Lemma ptr_leak n es1 v o es2 s xs : plegal_run (init n) (es1 ++ PFail v o :: es2) -> not_wrapped (pkept es2) o ->
  prun (init n) (es1 ++ PFail v o :: es2) = Ok (s, xs) -> alive s o = true /\ forall u, ~ refers (world_of s) u o.
Proof.
  intros L Nw R. destruct (plegal_app es1 _ _ (init_good n) L) as (s1 & _ & R1 & G1 & L1).
  rewrite (prun_app _ _ _ _ _ R1) in R. destruct L1 as [Lw L2]. cbn [plegal] in Lw. pose proof (pfail_ok s1 v o Lw) as P.
  cbn [prun] in R. rewrite P in R. cbn [bind] in R. specialize (L2 _ _ _ P).
  destruct (prun_ok es2 s1 G1 L2) as (s' & rs & A & B & C & D). rewrite A in R. cbn [bind] in R. inversion R; subst.
  destruct Lw as (_ & Al & Nr). apply (left_alone (pkept es2) s1 s rs o); auto.
Qed.
