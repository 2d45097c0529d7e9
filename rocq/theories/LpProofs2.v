(* What the element loops do to storage *)
From Verif Require Import Base BaseFacts RcModel RcSpec RcProofs RcProofs2 LpModel LpSpec LpProofs.
From Coq Require Import ZifyBool ZifyNat.
Open Scope nat_scope.

Definition inr (a b n : nat) : bool := (b <=? a) && (a <? b + n).
Lemma inr_t a b n : inr a b n = true <-> b <= a < b + n.
Proof. unfold inr. lia. Qed.
Lemma inr_f a b n : inr a b n = false <-> ~ (b <= a < b + n).
Proof. unfold inr. lia. Qed.
Ltac rng := repeat match goal with
  | |- context [inr ?a ?b ?n] => let H := fresh "R" in destruct (inr a b n) eqn:H; [apply inr_t in H|apply inr_f in H]
  | |- context [Nat.eqb ?a ?b] => destruct (Nat.eqb_spec a b)
  end; try lia.

(* moved elements *)
Definition shift (d u n : nat) (f : nat -> option (option nat)) (a : nat) : option (option nat) :=
  if inr a d n then f (u + (a - d)) else if inr a u n then Some None else f a.
Definition ended (b n : nat) (f : nat -> option (option nat)) (a : nat) : option (option nat) := if inr a b n then Some None else f a.

Lemma pure_move mk d u w x : (mk = EMake \/ mk = EMove) -> wv w u = Some x ->
  forall a, wv (pure (mk d u) w) a = if a =? d then Some x else if a =? u then Some None else wv w a.
Proof. intros [-> | ->] H a; cbn [pure]; rewrite H; reflexivity. Qed.

Lemma pures_up mk d u n w : (mk = EMake \/ mk = EMove) -> (d < u \/ u + n <= d) -> (forall i, i < n -> wv w (u + i) <> None) ->
  forall a, wv (pures (map (fun i => mk (d + i) (u + i)) (seq 0 n)) w) a = shift d u n (wv w) a.
Proof.
  intros M. induction n as [|n IH]; intros D U a.
  - cbn. unfold shift. rng. reflexivity.
  - rewrite seq_S, map_app, pures_app. cbn [map pures plus].
    assert (forall a, wv (pures (map (fun i => mk (d + i) (u + i)) (seq 0 n)) w) a = shift d u n (wv w) a) as IH'.
    { apply IH; [lia|]. intros. apply U. lia. }
    destruct (wv w (u + n)) as [x|] eqn:X; [|exfalso; apply (U n); auto].
    rewrite (pure_move mk _ _ _ x M).
    + rewrite IH'. unfold shift. rng; try congruence; try (f_equal; lia).
      all: replace (u + (a - d)) with (u + n) by lia; congruence.
    + rewrite IH'. unfold shift. rng. exact X.
Qed.
Lemma pures_down mk d u n : (mk = EMake \/ mk = EMove) -> u < d -> forall w, (forall i, i < n -> wv w (u + i) <> None) ->
  forall a, wv (pures (map (fun i => mk (d + i) (u + i)) (rev (seq 0 n))) w) a = shift d u n (wv w) a.
Proof.
  intros M D. induction n as [|n IH]; intros w U a.
  - cbn. unfold shift. rng. reflexivity.
  - rewrite seq_S, rev_app_distr. cbn [rev app map pures plus].
    destruct (wv w (u + n)) as [x|] eqn:X; [|exfalso; apply (U n); auto].
    pose proof (pure_move mk (d + n) (u + n) w x M X) as Q.
    rewrite IH.
    + unfold shift. rng; rewrite ?Q; rng; try congruence; try (f_equal; lia).
      all: replace (u + (a - d)) with (u + n) by lia; congruence.
    + intros i Li. rewrite Q. rng; try congruence. apply U. lia.
Qed.
Lemma pures_end b n : forall w a, wv (pures (dtors b n) w) a = ended b n (wv w) a.
Proof.
  unfold dtors. induction n as [|n IH]; intros w a.
  - cbn. unfold ended. rng. reflexivity.
  - rewrite seq_S, map_app, pures_app. cbn [map pures plus pure]. unfold set_var. cbn [wv]. rewrite IH. unfold ended. rng; auto.
Qed.
Lemma move_ctors_ok d u n w : (d + n <= u \/ u + n <= d) -> (forall i, i < n -> wv w (u + i) <> None) ->
  forall a, wv (pures (move_ctors d u n) w) a = shift d u n (wv w) a.
Proof.
  intros D U a. destruct n as [|n].
  - cbn. unfold shift. rng. reflexivity.
  - apply (pures_up EMake); auto. lia.
Qed.
Lemma move_assignments_ok d u n w : d <> u -> (forall i, i < n -> wv w (u + i) <> None) ->
  forall a, wv (pures (move_assignments d u n) w) a = shift d u n (wv w) a.
Proof.
  intros D U a. unfold move_assignments. destruct (Nat.ltb_spec d u).
  - apply (pures_up EMove); auto.
  - replace (u <? d) with true by lia. apply (pures_down EMove); auto. lia.
Qed.
(* a sequence changes nothing but the contents of variables *)
Definition rest (w' w : world) : Prop := (forall u, wh w' u = wh w u) /\ (forall o, wa w' o = wa w o) /\ wn w' = wn w /\ wm w' = wm w.
Lemma rest_refl w : rest w w.
Proof. repeat split; auto. Qed.
Lemma rest_trans a b c : rest a b -> rest b c -> rest a c.
Proof. intros (A1 & A2 & A3 & A4) (B1 & B2 & B3 & B4). split; [intros; now rewrite A1|]. split; [intros; now rewrite A2|]. split; congruence. Qed.
Lemma pure_rest o w : rest (pure o w) w.
Proof. destruct o as [d u|d u|d u|d u|d]; cbn [pure]; try (destruct (wv w u)); repeat split; auto. Qed.
Lemma pures_rest os : forall w, rest (pures os w) w.
Proof. induction os as [|o os IH]; intros w; cbn [pures]; [apply rest_refl|]. eapply rest_trans; [apply IH|apply pure_rest]. Qed.

(* ---- which storage has an element -------------------------------------------------------- *)
Lemma kind_lt k a : kind_of k a <> KFree -> a < length k.
Proof. unfold kind_of. destruct (nth_error k a) eqn:E; [|congruence]. intros _. eapply nth_error_lt; eauto. Qed.
Lemma kind_upd k d x a : d < length k -> kind_of (upd k d x) a = if a =? d then x else kind_of k a.
Proof.
  intros L. unfold kind_of. destruct (Nat.eqb_spec a d) as [->|N]; [now rewrite upd_same|]. rewrite upd_other by auto. reflexivity.
Qed.
Lemma is_raw_t k a : is_raw k a = true <-> kind_of k a = KRaw.
Proof. unfold is_raw. destruct (kind_of k a); split; congruence. Qed.
Lemma is_made_t k a : is_made k a = true <-> kind_of k a = KMade.
Proof. unfold is_made. destruct (kind_of k a); split; congruence. Qed.
Definition live_kind (x : kind) : Prop := x = KVar \/ x = KMade.
Lemma usable_t k a : usable k a = true <-> live_kind (kind_of k a).
Proof. unfold usable, live_kind. destruct (kind_of k a); split; intuition congruence. Qed.

Definition kset (b n : nat) (x : kind) (f : nat -> kind) (a : nat) : kind := if inr a b n then x else f a.
Lemma checks_ctors d u n k : (forall i, i < n -> kind_of k (d + i) = KRaw) -> (forall i, i < n -> live_kind (kind_of k (u + i))) ->
  exists k', checks (move_ctors d u n) k = Ok k' /\ length k' = length k /\ forall a, kind_of k' a = kset d n KMade (kind_of k) a.
Proof.
  unfold move_ctors. induction n as [|n IH]; intros D U.
  - exists k. cbn. repeat split. intros a. unfold kset. rng. reflexivity.
  - destruct IH as (k1 & C1 & L1 & K1); [intros; apply D; lia|intros; apply U; lia|].
    rewrite seq_S, map_app, checks_app, C1. cbn [bind map checks check plus].
    replace (is_raw k1 (d + n)) with true.
    2:{ symmetry. apply is_raw_t. rewrite K1. unfold kset. rng. apply D. lia. }
    replace (usable k1 (u + n)) with true.
    2:{ symmetry. apply usable_t. rewrite K1. unfold kset. rng; [now right|]. apply U. lia. }
    cbn [andb bind]. eexists. split; [reflexivity|]. rewrite upd_length. split; auto. intros a.
    rewrite kind_upd. 2:{ rewrite L1. apply kind_lt. rewrite D by lia. discriminate. }
    rewrite K1. unfold kset. rng; auto.
Qed.
Lemma checks_assign (l : list nat) d u k : (forall i, In i l -> kind_of k (d + i) = KMade) -> (forall i, In i l -> live_kind (kind_of k (u + i))) ->
  checks (map (fun i => EMove (d + i) (u + i)) l) k = Ok k.
Proof.
  induction l as [|i l IH]; intros D U; cbn [map checks]; auto. cbn [check].
  replace (is_made k (d + i)) with true by (symmetry; apply is_made_t, D; now left).
  replace (usable k (u + i)) with true by (symmetry; apply usable_t, U; now left).
  cbn [andb bind]. apply IH; intros j I; [apply D|apply U]; now right.
Qed.
Lemma checks_assignments d u n k : (forall i, i < n -> kind_of k (d + i) = KMade) -> (forall i, i < n -> live_kind (kind_of k (u + i))) ->
  checks (move_assignments d u n) k = Ok k.
Proof.
  intros D U. unfold move_assignments. destruct (d <? u); [|destruct (u <? d); [|reflexivity]]; apply checks_assign; intros i I; rewrite <- ?in_rev in I; apply in_seq in I; [apply D|apply U|apply D|apply U]; lia.
Qed.
Lemma checks_dtors b n k : (forall i, i < n -> kind_of k (b + i) = KMade) ->
  exists k', checks (dtors b n) k = Ok k' /\ length k' = length k /\ forall a, kind_of k' a = kset b n KRaw (kind_of k) a.
Proof.
  unfold dtors. induction n as [|n IH]; intros D.
  - exists k. cbn. repeat split. intros a. unfold kset. rng. reflexivity.
  - destruct IH as (k1 & C1 & L1 & K1); [intros; apply D; lia|].
    rewrite seq_S, map_app, checks_app, C1. cbn [bind map checks check plus].
    replace (is_made k1 (b + n)) with true.
    2:{ symmetry. apply is_made_t. rewrite K1. unfold kset. rng. apply D. lia. }
    cbn [bind]. eexists. split; [reflexivity|]. rewrite upd_length. split; auto. intros a.
    rewrite kind_upd. 2:{ rewrite L1. apply kind_lt. rewrite D by lia. discriminate. }
    rewrite K1. unfold kset. rng; auto.
Qed.
Lemma deallocate_ok b n : forall k, (forall i, i < n -> kind_of k (b + i) = KRaw) ->
  exists k', deallocate k b n = Ok k' /\ length k' = length k /\ forall a, kind_of k' a = kset b n KFree (kind_of k) a.
Proof.
  revert b. induction n as [|n IH]; intros b k D.
  - exists k. cbn. repeat split. intros a. unfold kset. rng. reflexivity.
  - cbn [deallocate]. pose proof (D 0 ltac:(lia)) as D0. rewrite Nat.add_0_r in D0.
    replace (is_raw k b) with true by (symmetry; now apply is_raw_t).
    assert (b < length k) as Lb by (apply kind_lt; congruence).
    destruct (IH (S b) (upd k b KFree)) as (k' & R & L & K).
    { intros i Li. rewrite kind_upd by auto. rng. replace (S b + i) with (b + S i) by lia. apply D. lia. }
    exists k'. split; auto. split; [now rewrite L, upd_length|]. intros a. rewrite K. unfold kset. rewrite kind_upd by auto. rng; auto.
Qed.
Lemma kind_app k n a : kind_of (k ++ repeat KRaw n) a = if inr a (length k) n then KRaw else kind_of k a.
Proof.
  unfold kind_of. rng.
  - rewrite nth_error_app2 by lia. rewrite nth_error_repeat by lia. reflexivity.
  - destruct (Nat.lt_ge_cases a (length k)).
    + now rewrite nth_error_app1.
    + replace (nth_error (k ++ repeat KRaw n) a) with (@None kind). 2:{ symmetry. apply nth_error_None. rewrite app_length, repeat_length. lia. }
      replace (nth_error k a) with (@None kind); auto. symmetry. now apply nth_error_None.
Qed.
Lemma kind_app_var k n a : kind_of (k ++ repeat KVar n) a = if inr a (length k) n then KVar else kind_of k a.
Proof.
  unfold kind_of. rng.
  - rewrite nth_error_app2 by lia. rewrite nth_error_repeat by lia. reflexivity.
  - destruct (Nat.lt_ge_cases a (length k)).
    + now rewrite nth_error_app1.
    + replace (nth_error (k ++ repeat KVar n) a) with (@None kind). 2:{ symmetry. apply nth_error_None. rewrite app_length, repeat_length. lia. }
      replace (nth_error k a) with (@None kind); auto. symmetry. now apply nth_error_None.
Qed.

(* ---- which variables a plan uses ----------------------------------------------------------- *)
Definition uses_any (os : list eop) (v : nat) : Prop := exists o, In o os /\ uses o v.
Lemma writes_uses o v : writes o v -> uses o v.
Proof. destruct o; cbn; tauto. Qed.
Lemma uses_app a b v : uses_any (a ++ b) v -> uses_any a v \/ uses_any b v.
Proof. intros (o & I & U). apply in_app_or in I. destruct I; [left|right]; exists o; auto. Qed.
Lemma uses_ctors d u n v : uses_any (move_ctors d u n) v -> d <= v < d + n \/ u <= v < u + n.
Proof.
  intros (o & I & U). apply in_map_iff in I. destruct I as (i & <- & I). apply in_seq in I. cbn in U. lia.
Qed.
Lemma uses_assignments d u n v : uses_any (move_assignments d u n) v -> d <= v < d + n \/ u <= v < u + n.
Proof.
  intros (o & I & U). unfold move_assignments in I. destruct (d <? u); [|destruct (u <? d); [|destruct I]];
    apply in_map_iff in I; destruct I as (i & <- & I); rewrite <- ?in_rev in I; apply in_seq in I; cbn in U; lia.
Qed.
Lemma uses_dtors b n v : uses_any (dtors b n) v -> b <= v < b + n.
Proof.
  intros (o & I & U). apply in_map_iff in I. destruct I as (i & <- & I). apply in_seq in I. cbn in U. lia.
Qed.
