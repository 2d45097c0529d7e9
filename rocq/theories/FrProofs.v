(* Proofs about running functions *)
From Verif Require Import Base BaseFacts RcModel RcSpec RcProofs RcProofs2 FrModel FrSpec.

Lemma refers_pget s u i : refers (world_of s) u i -> exists p, pget s u = Ok p /\ pr p = Some i.
Proof.
  unfold refers. cbn [wv world_of]. unfold pget. destruct (nth_error (vs s) u) as [[[p|] h]|]; try discriminate.
  intros Q. exists p. split; [reflexivity|congruence].
Qed.

Lemma fstep_ok s o : good (base s) -> flegal s o ->
  exists s', fstep s o = Ok s' /\ good (base s') /\
    match o with
    | Do a => exists r, step (base s) a = Ok (base s', r) /\ spec (world_of (base s)) a (world_of (base s')) r /\ frames s' = frames s
    | Call u => base s' = base s /\ exists i, frames s' = i :: frames s /\ alive (base s) i = true /\ refers (world_of (base s)) u i
    | Use => s' = s
    | Return => base s' = base s /\ exists i, frames s = i :: frames s'
    end.
Proof.
  intros G L. destruct o as [a|u| |]; cbn [fstep flegal] in *.
  - destruct (step_ok (base s) a G L) as (s1 & r & R & Sp & G1 & _). rewrite R. cbn [bind]. eexists. split; [reflexivity|].
    cbn [base frames]. split; [exact G1|]. exists r. auto.
  - destruct L as [i R]. pose proof (good_refers _ _ _ G R) as A. destruct (refers_pget _ _ _ R) as (p & -> & Q). cbn [bind]. rewrite Q, A.
    eexists. split; [reflexivity|]. cbn [base frames]. split; [exact G|]. split; [reflexivity|]. exists i. auto.
  - destruct (frames s) as [|i fr] eqn:F; [contradiction|]. destruct L as [u R]. rewrite (good_refers _ _ _ G R). eexists. split; [reflexivity|]. auto.
  - destruct (frames s) as [|i fr] eqn:F; [congruence|]. eexists. split; [reflexivity|]. cbn [base frames]. split; [exact G|]. split; [reflexivity|]. eauto.
Qed.
Lemma frun_ok os : forall s, good (base s) -> flegal_run s os -> exists s', frun s os = Ok s' /\ good (base s').
Proof.
  induction os as [|o os IH]; intros s G L; cbn [frun flegal_run] in *; [eauto|].
  destruct L as [L1 L2]. destruct (fstep_ok s o G L1) as (s1 & R & G1 & _). rewrite R. cbn [bind]. apply IH; auto.
Qed.
Lemma history n os : flegal_run (start n) os -> exists s, frun (start n) os = Ok s.
Proof. intros L. destruct (frun_ok os (start n) (init_good n) L) as (s & R & _). eauto. Qed.

Definition running (s : fst) : Prop := forall i, In i (frames s) -> i < length (ob (base s)) /\ kept (base s) i.
Lemma fstep_running s o s' : good (base s) -> flegal s o -> match o with Do (PDetach _) => False | _ => True end ->
  fstep s o = Ok s' -> running s -> running s'.
Proof.
  intros G L D R K. destruct (fstep_ok s o G L) as (s1 & R1 & G1 & Q). assert (s1 = s') by congruence. subst s1. clear R1.
  destruct o as [a|u| |].
  - destruct Q as (r & Rs & Sp & F). intros i Hi. rewrite F in Hi. destruct (K i Hi) as [Li Ki].
    pose proof (spec_count _ _ _ _ Sp) as Cnt. cbn [wn world_of] in Cnt. split; [lia|].
    apply (spec_kept (base s) a (base s') r i); auto.
  - destruct Q as (B & i & F & A & Rf). intros j Hj. rewrite F in Hj. rewrite B. destruct Hj as [<-|Hj]; [|now apply K].
    split; [apply alive_true, nth_error_lt in A; exact A|]. split; eauto.
  - subst s'. exact K.
  - destruct Q as (B & i & F). intros j Hj. rewrite B. apply K. rewrite F. now right.
Qed.
Lemma frun_running os : forall s s', good (base s) -> flegal_run s os -> keeps_all os -> frun s os = Ok s' -> running s -> good (base s') /\ running s'.
Proof.
  induction os as [|o os IH]; intros s s' G L D R K; cbn [frun flegal_run] in *.
  - assert (s = s') by congruence. subst. auto.
  - destruct L as [L1 L2]. apply bind_ok in R. destruct R as (s1 & R1 & R). inversion D; subst.
    destruct (fstep_ok s o G L1) as (s2 & R2 & G2 & _). assert (s2 = s1) by congruence. subst s2.
    apply (IH s1 s'); auto. apply (fstep_running s o s1); auto.
Qed.
Lemma start_running n : running (start n).
Proof. intros i []. Qed.
Lemma captures n os s i : flegal_run (start n) os -> keeps_all os -> frun (start n) os = Ok s -> In i (frames s) ->
  (alive (base s) i = true <-> owned s i).
Proof.
  intros L D R Hi. destruct (frun_running os (start n) s (init_good n) L D R (start_running n)) as [_ K]. apply (K i Hi).
Qed.
Lemma use_exact n os s i fr : flegal_run (start n) os -> keeps_all os -> frun (start n) os = Ok s -> frames s = i :: fr ->
  (owned s i /\ fstep s Use = Ok s) \/ (~ owned s i /\ fstep s Use = UB).
Proof.
  intros L D R F. pose proof (captures n os s i L D R) as K. rewrite F in K. specialize (K (or_introl eq_refl)).
  cbn [fstep]. rewrite F. destruct (alive (base s) i) eqn:A.
  - left. split; [now apply K|reflexivity].
  - right. split; [|reflexivity]. intros O. apply K in O. discriminate.
Qed.

(* a variable that is not touched *)
Lemma spec_untouched w o w' r g i : spec w o w' r -> legal w o -> ~ touches g (Do o) -> g < wm w ->
  wh w g = None -> refers w g i -> wh w' g = None /\ refers w' g i /\ g < wm w'.
Proof.
  intros Sp L T Lt H R. unfold refers in *.
  assert (same_case : forall v x, v <> g -> same_world w' (set_var w v x) -> wh w' g = None /\ wv w' g = Some (Some i) /\ g < wm w').
  { intros v x N (W1 & W2 & _ & _ & W5). rewrite W1, W2, W5. unfold set_var; cbn [wv wh wm]. destruct (Nat.eqb_spec g v); [congruence|auto]. }
  assert (fresh : forall v, wv w v = None -> v <> g) by (intros v Q ->; congruence).
  assert (collect_case : forall w1, wh w1 g = None -> wv w1 g = Some (Some i) -> wm w1 = wm w -> collect w w1 w' -> wh w' g = None /\ wv w' g = Some (Some i) /\ g < wm w').
  { intros w1 A B D (_ & _ & _ & C4 & C5 & _ & C7). rewrite C5, C7, D. rewrite C4 by (intros h Q; congruence). auto. }
  inversion Sp; subst; cbn [legal touches] in *; unfold free_slot, held in *.
  - eapply same_case; [|eassumption]. apply fresh; tauto.
  - replace (wv w' g) with (wv w g) by (rewrite H0; now replace (g <? wm w) with true by lia).
    replace (wh w' g) with (wh w g) by (rewrite H1; now replace (g <? wm w) with true by lia). repeat split; auto. lia.
  - eapply same_case; [|eassumption]. apply fresh; tauto.
  - eapply same_case; [|eassumption]. apply fresh; tauto.
  - eapply same_case; [|eassumption]. apply fresh; tauto.
  - match goal with W : same_world _ _ |- _ => destruct W as (W1 & W2 & _ & _ & W5) end. rewrite W1, W2, W5. unfold set_var; cbn [wv wh wm].
    assert (v <> g) by (apply fresh; tauto). destruct (Nat.eqb_spec g u); [congruence|]. destruct (Nat.eqb_spec g v); [congruence|auto].
  - match goal with W : same_world _ _ |- _ => destruct W as (W1 & W2 & _ & _ & W5) end. rewrite W1, W2, W5. unfold set_var; cbn [wv wh wm].
    assert (v <> g) by (apply fresh; tauto). destruct (Nat.eqb_spec g u); [congruence|]. destruct (Nat.eqb_spec g v); [congruence|auto].
  - eapply same_case; [|eassumption]. apply fresh; tauto.
  - eapply collect_case; [| | |eassumption]; unfold set_var; cbn [wv wh wm]; auto. destruct (Nat.eqb_spec g v); congruence.
  - eapply collect_case; [| | |eassumption]; unfold set_var; cbn [wv wh wm]; auto. destruct (Nat.eqb_spec g v); congruence.
  - eapply collect_case; [| | |eassumption]; unfold set_var; cbn [wv wh wm]; auto. destruct (Nat.eqb_spec g v); congruence.
  - eapply collect_case; [| | |eassumption]; unfold set_var; cbn [wv wh wm]; auto.
    destruct (Nat.eqb_spec g u); [subst; tauto|]. destruct (Nat.eqb_spec g v); [subst; tauto|auto].
  - match goal with W : same_world _ _ |- _ => destruct W as (W1 & W2 & _ & _ & W5) end. rewrite W1, W2, W5. auto.
  - eapply same_case; [|eassumption]. congruence.
Qed.
Lemma refers_lt s u i : refers (world_of s) u i -> u < length (vs s).
Proof. unfold refers. cbn [wv world_of]. destruct (nth_error (vs s) u) eqn:Q; [|discriminate]. intros _. eapply nth_error_lt; exact Q. Qed.
Lemma body_keeps body : forall s g i, good (base s) -> flegal_run s body -> Forall (fun o => ~ touches g o) body -> local_copy s g i ->
  exists s', frun s body = Ok s' /\ local_copy s' g i /\ alive (base s') i = true.
Proof.
  induction body as [|o body IH]; intros s g i G L T [H R]; cbn [frun flegal_run] in *.
  - exists s. split; [reflexivity|]. split; [now split|]. eapply good_refers; eauto.
  - destruct L as [L1 L2]. inversion T; subst. destruct (fstep_ok s o G L1) as (s1 & R1 & G1 & Q). rewrite R1. cbn [bind].
    apply IH; auto. destruct o as [a|u| |].
    + destruct Q as (r & _ & Sp & _). destruct (spec_untouched _ _ _ _ g i Sp L1 H2 (refers_lt _ _ _ R) H R) as (A & B & _). now split.
    + destruct Q as (B & _). unfold local_copy. rewrite B. now split.
    + subst s1. now split.
    + destruct Q as (B & _). unfold local_copy. rewrite B. now split.
Qed.
Lemma flegal_app os body : forall s, flegal_run s (os ++ body) -> flegal_run s os /\ forall s', frun s os = Ok s' -> flegal_run s' body.
Proof.
  induction os as [|o os IH]; intros s L; cbn [app flegal_run frun] in *.
  - split; [exact I|]. intros s' Q. assert (s = s') by congruence. now subst.
  - destruct L as [L1 L2]. split.
    + split; [exact L1|]. intros s1 R. apply (IH s1). now apply L2.
    + intros s' Q. apply bind_ok in Q. destruct Q as (s1 & R1 & Q). apply (IH s1); auto.
Qed.
Lemma copy_keeps n os s g i body : flegal_run (start n) (os ++ body) -> frun (start n) os = Ok s -> local_copy s g i ->
  Forall (fun o => ~ touches g o) body ->
  exists s', frun s body = Ok s' /\ local_copy s' g i /\ alive (base s') i = true.
Proof.
  intros L R C T. destruct (flegal_app os body _ L) as [L1 L2]. destruct (frun_ok os (start n) (init_good n) L1) as (s1 & R1 & G1).
  assert (s1 = s) by (unfold start in *; congruence). subst s1. apply body_keeps; auto.
Qed.

(* a function that replaces the only Func that refers to it *)
Lemma replaced n os s i fr f w : flegal_run (start n) os -> keeps_all os -> frun (start n) os = Ok s -> frames s = i :: fr ->
  sole s f i -> f <> w -> flegal s (Do (PAssign f w)) ->
  exists s', fstep s (Do (PAssign f w)) = Ok s' /\ frames s' = i :: fr /\ alive (base s') i = false /\ fstep s' Use = UB.
Proof.
  intros L D R F S N Lg. destruct (frun_running os (start n) s (init_good n) L D R (start_running n)) as [G K].
  destruct (fstep_ok s _ G Lg) as (s' & R' & G' & r & _ & Sp & F'). exists s'. split; [exact R'|]. rewrite F', F. split; [reflexivity|].
  assert (K' : kept (base s') i). { apply (fstep_running s (Do (PAssign f w)) s' G Lg I R' K). rewrite F', F. now left. }
  assert (A : alive (base s') i = false).
  { destruct (alive (base s') i) eqn:A; auto. exfalso. apply K' in A. destruct A as [u Ru]. unfold refers in Ru.
    inversion Sp; subst. match goal with C : collect _ _ _ |- _ => destruct C as (_ & _ & C3 & C4 & _) end.
    assert (Q : wv (set_var (world_of (base s)) f (Some x)) u = Some (Some i)).
    { destruct (wh (world_of (base s)) u) as [h|] eqn:Hu.
      - destruct (alive_dec (base s') h) as [Ah|Ah].
        + rewrite <- C4; [exact Ru|]. intros h' Q Dd. rewrite (C3 u h' Q Dd) in Ru. discriminate.
        + rewrite <- C4; [exact Ru|]. intros h' Q Dd. rewrite (C3 u h' Q Dd) in Ru. discriminate.
      - rewrite <- C4; [exact Ru|]. intros h' Q. cbn [set_var wh] in Q. congruence. }
    unfold set_var in Q. cbn [wv] in Q. destruct (Nat.eqb_spec u f) as [->|Nu].
    - assert (x = Some i) by congruence. subst x. apply N. symmetry. now apply S.
    - apply Nu. now apply S. }
  split; [exact A|]. cbn [fstep]. rewrite F', F, A. reflexivity.
Qed.
(* a function that replaces itself by a Func it captured *)
Lemma successor n os s i f m : flegal_run (start n) os -> frun (start n) os = Ok s ->
  local_copy s f i -> sole s f i -> captured s m i -> fstep s (Do (PAssign f m)) = UB.
Proof.
  intros L R [Hf Rf] S [Hm Xm]. destruct (frun_ok os (start n) (init_good n) L) as (s1 & R1 & G). assert (s1 = s) by congruence. subst s1. clear R1.
  assert (Lg : legal (world_of (base s)) (PSetNull f)).
  { cbn [legal]. split; [unfold exists_var, refers in *; congruence|]. intros h Q. congruence. }
  destruct (step_ok (base s) _ G Lg) as (t & r & Rt & Sp & Gt & _). inversion Sp; subst.
  assert (Nf : m <> f) by (intros ->; congruence).
  assert (Dm : wv (world_of t) m = None).
  { match goal with C : collect _ _ _ |- _ => destruct C as (_ & _ & C3 & _) end. apply (C3 m i); [exact Hm|].
    constructor; [eauto|]. intros u Q. exfalso. unfold refers, set_var in Q. cbn [wv] in Q.
    destruct (Nat.eqb_spec u f) as [Eu|Nu]; [discriminate|]. apply Nu. apply S. exact Q. }
  cbn [fstep step]. replace (Nat.eqb f m) with false by (symmetry; apply Nat.eqb_neq; congruence).
  cbn [step] in Rt. apply bind_ok in Rt. destruct Rt as (t1 & R1 & Rt). rewrite R1. cbn [bind].
  apply bind_ok in Rt. destruct Rt as (t2 & R2 & Rt). assert (t2 = t) by congruence. subst t2.
  assert (U : pget t1 m = UB).
  { unfold pset in R2. cbn [wv world_of] in Dm. unfold pget. destruct (nth_error (vs t1) f) as [[[q|] hq]|] eqn:Qf; try discriminate.
    assert (Et : t = mkSt (cn t1) (ob t1) (upd (vs t1) f (Some null, hq))) by congruence. rewrite Et in Dm. cbn [vs] in Dm. rewrite upd_other in Dm by congruence.
    destruct (nth_error (vs t1) m) as [[[q'|] h']|]; auto. discriminate. }
  rewrite U. reflexivity.
Qed.

Ltac fnext := match goal with |- forall s', fstep _ _ = Ok s' -> _ =>
  let s' := fresh "s" in let H := fresh "H" in intros s' H; vm_compute in H; injection H as <- end.
Lemma through_copy_legal : flegal_run (start 3) through_copy.
Proof.
  unfold through_copy, setup. cbn [map app flegal_run].
  split; [exact I|]. fnext. split; [split; [slot_ok|split; [reflexivity|no_refs]]|]. fnext.
  split; [exact I|]. fnext. split; [split; [slot_ok|split; [reflexivity|no_refs]]|]. fnext.
  split.
  { split.
    - split; [discriminate|]. intros h H. cbn in H. injection H as <-.
      apply (rooted_by _ _ _ 0); [discriminate|reflexivity|]. intros h H. discriminate.
    - split; [discriminate|]. intros h H. discriminate. }
  fnext. split; [split; [slot_ok|discriminate]|]. fnext.
  split; [exists 0; reflexivity|]. fnext.
  split.
  { split.
    - split; [discriminate|]. intros h H. discriminate.
    - split; [discriminate|]. intros h H. cbn in H. injection H as <-.
      apply (rooted_by _ _ _ 2); [discriminate|reflexivity|]. intros h H. discriminate. }
  fnext. split; [exists 2; reflexivity|]. fnext.
  split; [exists 1; reflexivity|]. fnext. split; [exists 0; reflexivity|]. fnext.
  split; [discriminate|]. fnext. split; [discriminate|]. fnext. exact I.
Qed.
