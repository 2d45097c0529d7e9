From Verif Require Import Base SrtSpec LzyModel LzySpec LzyProofs.
Open Scope Z_scope.

(* C30: a pipeline yields what the list functions yield *)
Theorem C30_pipeline : forall (A : Type) (p : pipe A), tame p -> yields (fun f => elements f p) (denote p).
Proof. exact elements_ok. Qed.
Print Assumptions C30_pipeline.
(* with any numbers for Skip and Take: exactly the values listed by [means], which are those
   of the list functions unless a Take sees the shifted index of a Skip *)
Theorem C30_exact : forall (A : Type) (p : pipe A), sane p -> yields (fun f => elements f p) (means p).
Proof. exact elements_exact. Qed.
Print Assumptions C30_exact.
Theorem C30_means : forall (A : Type) (p : pipe A), tame p -> sane p /\ means p = denote p.
Proof. exact means_denote. Qed.
Print Assumptions C30_means.
Example C30_exact_case : sane (PTake (PSelect (PSkip (PRange 5 4) 2) (fun x => x * 10)) 0) /\
  means (PTake (PSelect (PSkip (PRange 5 4) 2) (fun x => x * 10)) 0) = [70] /\
  means (PTake (PSkip (PTake (PSkip (PList [1; 2; 3; 4; 5]) (-1)) 4) (-1)) 4) = [1; 2].
Proof. split; [cbn [sane]; lia|]. split; reflexivity. Qed.
(* Repeat(n), 1 <= n, on a lazy list that reads a dictionary or group raises when it begins
   its second turn, even if it has to make none *)
Theorem C30_repeat_raises : forall (A : Type) (p : pipe A) (n : Z), sane p -> restarts p = false -> 1 <= n ->
  raises (fun f => elements f (PRepeat p n)).
Proof. exact repeat_raises. Qed.
Print Assumptions C30_repeat_raises.
Example C30_repeat_case : sane (PSelect (POnce [1; 2]) (fun x => x + 1)) /\ restarts (PSelect (POnce [1; 2]) (fun x => x + 1)) = false /\
  restarts (PEvaluate (PSelect (POnce [1; 2]) (fun x => x + 1)) false) = true.
Proof. split; [exact I|]. split; reflexivity. Qed.
(* outside [tame]: Repeat on a dictionary raises, even Repeat(1) *)
Theorem C30_repeat_dictionary_refuted : raises (fun f => elements f (PRepeat (POnce [1; 2]) 1)).
Proof. exact repeat_once_raises. Qed.
Print Assumptions C30_repeat_dictionary_refuted.
(* outside [tame]: Range(start, count) ending at the largest integer overflows *)
Theorem C30_range_overflow_refuted : forall f, (2 <= f)%nat -> elements f (PRange (2 ^ 63 - 2) 2) = UB.
Proof. exact range_overflows. Qed.
Print Assumptions C30_range_overflow_refuted.

(* C31: Take(n) yields the first min(n, length) values *)
Theorem C31_take : forall (A : Type) (p : pipe A) (n : Z), tame p -> 1 <= n \/ starts_plain p = true ->
  exists r, yields (fun f => elements f (PTake p n)) r /\ r = firstn (Z.to_nat n) (denote p) /\ zlen r = Z.min (Z.max n 0) (zlen (denote p)).
Proof. exact take_ok. Qed.
Print Assumptions C31_take.
(* for every n, on every lazy list: Take(n) yields nothing if the index is already n - 1 or
   more before the first value, else the first max(1, n - offset) values *)
Theorem C31_exact : forall (A : Type) (p : pipe A) (n : Z), sane p ->
  yields (fun f => elements f (PTake p n)) (firstn (taken (first_index p) (offset p) n) (means p)).
Proof. exact take_exact. Qed.
Print Assumptions C31_exact.
Example C31_exact_case : taken (first_index (PSkip (PList [1; 2; 3]) 1)) 0 0 = 1%nat /\ taken (first_index (PSkip (PList [1; 2; 3]) 1)) 0 (-1) = 0%nat /\
  taken (-1) 0 3 = 3%nat /\ taken (-1) 0 0 = 0%nat.
Proof. repeat split; reflexivity. Qed.
(* [1;2;3].Skip(1).Take(0) yields one value *)
Theorem C31_take_zero_refuted : yields (fun f => elements f (PTake (PSkip (PList [1; 2; 3]) 1) 0)) [2].
Proof. exact skip_take_more. Qed.
Print Assumptions C31_take_zero_refuted.
(* [1;2;3].Skip(-1).Take(1) yields none *)
Theorem C31_skip_negative_refuted : yields (fun f => elements f (PTake (PSkip (PList [1; 2; 3]) (-1)) 1)) [].
Proof. exact skip_take_less. Qed.
Print Assumptions C31_skip_negative_refuted.

(* C25: Reset after any number of Next *)
Theorem C25_reset : forall (A : Type) (p : pipe A) (m : nat), tame p -> resets p = true ->
  yields (on p (fun f e => do e <- nexts m f e; do e <- reset e; drain f e)) (denote p).
Proof. exact reset_ok. Qed.
Print Assumptions C25_reset.
(* with any numbers for Skip and Take, it works or raises: it raises exactly for the lazy
   lists that read a dictionary or group without evaluating it *)
Theorem C25_reset_exact : forall (A : Type) (p : pipe A) (m : nat), sane p -> restarts p = true ->
  yields (on p (fun f e => do e <- nexts m f e; do e <- reset e; drain f e)) (means p).
Proof. exact reset_exact. Qed.
Print Assumptions C25_reset_exact.
Theorem C25_reset_raises : forall (A : Type) (p : pipe A) (m : nat), sane p -> restarts p = false ->
  raises (on p (fun f e => do e <- nexts m f e; do e <- reset e; drain f e)).
Proof. exact reset_err. Qed.
Print Assumptions C25_reset_raises.

(* C32 *)
Theorem C32_distinct : forall (A : Type) (c : A -> A -> comparison) (p : pipe A), tame p -> total_order c ->
  exists r, yields (fun f => elements f (PDistinct c p)) r /\ r = firsts c (denote p) /\ all_different c r /\ forall x, has c r x <-> has c (denote p) x.
Proof. exact distinct_ok. Qed.
Print Assumptions C32_distinct.
Theorem C32_intersect : forall (A : Type) (c : A -> A -> comparison) (p q : pipe A), tame p -> tame q -> total_order c ->
  exists r, yields (fun f => elements f (PIntersect c p q)) r /\ part_of r (firsts c (denote p)) /\ all_different c r /\
    forall x, has c r x <-> has c (denote p) x /\ has c (denote q) x.
Proof. exact intersect_ok. Qed.
Print Assumptions C32_intersect.
Theorem C32_except : forall (A : Type) (c : A -> A -> comparison) (p q : pipe A), tame p -> tame q -> total_order c ->
  exists r, yields (fun f => elements f (PExcept c p q)) r /\ part_of r (firsts c (denote p)) /\ all_different c r /\
    forall x, has c r x <-> has c (denote p) x /\ ~ has c (denote q) x.
Proof. exact except_ok. Qed.
Print Assumptions C32_except.
Theorem C32_union : forall (A : Type) (c : A -> A -> comparison) (p q : pipe A), tame p -> tame q -> total_order c ->
  exists r, yields (fun f => elements f (PUnion c p q)) r /\ r = firsts c (denote p ++ denote q) /\ all_different c r /\
    forall x, has c r x <-> has c (denote p) x \/ has c (denote q) x.
Proof. exact union_ok. Qed.
Print Assumptions C32_union.

(* C33 *)
Theorem C33_aggregate_init : forall (A I : Type) (p : pipe A) (g : I -> A -> I) (init : I), tame p ->
  yields (on p (fun f e => aggregate_init f g init e)) (fold_left g (denote p) init).
Proof. exact agg_init_ok. Qed.
Print Assumptions C33_aggregate_init.
Theorem C33_aggregate : forall (A : Type) (p : pipe A) (g : A -> A -> A), tame p ->
  match denote p with
  | [] => raises (on p (fun f e => aggregate f g e))
  | x :: r => yields (on p (fun f e => aggregate f g e)) (fold_left g r x) end.
Proof. exact agg_ok. Qed.
Print Assumptions C33_aggregate.
Theorem C33_all : forall (A : Type) (p : pipe A) (q : A -> bool), tame p ->
  exists b, yields (on p (fun f e => all f q e)) b /\ (b = true <-> forall x, In x (denote p) -> q x = true).
Proof. exact all_ok. Qed.
Print Assumptions C33_all.
Theorem C33_any : forall (A : Type) (p : pipe A) (q : A -> bool), tame p ->
  exists b, yields (on p (fun f e => any f q e)) b /\ (b = true <-> exists x, In x (denote p) /\ q x = true).
Proof. exact any_ok. Qed.
Print Assumptions C33_any.
Theorem C33_max : forall (A : Type) (c : A -> A -> comparison) (p : pipe A), tame p -> total_order c ->
  (denote p = [] -> raises (on p (fun f e => max f c e))) /\
  (denote p <> [] -> exists m, yields (on p (fun f e => max f c e)) m /\ In m (denote p) /\ forall x, In x (denote p) -> c x m <> Gt).
Proof. exact max_ok. Qed.
Print Assumptions C33_max.
Theorem C33_min : forall (A : Type) (c : A -> A -> comparison) (p : pipe A), tame p -> total_order c ->
  (denote p = [] -> raises (on p (fun f e => min f c e))) /\
  (denote p <> [] -> exists m, yields (on p (fun f e => min f c e)) m /\ In m (denote p) /\ forall x, In x (denote p) -> c m x <> Gt).
Proof. exact min_ok. Qed.
Print Assumptions C33_min.
Theorem C33_first : forall (A : Type) (p : pipe A) (d : A), tame p ->
  match denote p with
  | [] => raises (on p (fun f e => first f e)) /\ yields (on p (fun f e => first_or f d e)) d
  | x :: _ => yields (on p (fun f e => first f e)) x /\ yields (on p (fun f e => first_or f d e)) x end.
Proof. exact first_ok. Qed.
Print Assumptions C33_first.
Theorem C33_last : forall (A : Type) (p : pipe A) (d : A), tame p ->
  (denote p = [] -> raises (on p (fun f e => last f e)) /\ yields (on p (fun f e => last_or f d e)) d) /\
  (forall l x, denote p = l ++ [x] -> yields (on p (fun f e => last f e)) x /\ yields (on p (fun f e => last_or f d e)) x).
Proof. exact last_ok. Qed.
Print Assumptions C33_last.
Theorem C33_count : forall (A : Type) (p : pipe A), tame p -> yields (on p (fun f e => count f e)) (zlen (denote p)).
Proof. exact count_is. Qed.
Print Assumptions C33_count.
Theorem C33_is_empty : forall (A : Type) (p : pipe A), tame p ->
  exists b, yields (on p (fun f e => is_empty f e)) b /\ (b = true <-> denote p = []).
Proof. exact is_empty_ok. Qed.
Print Assumptions C33_is_empty.

(* C35: one group for every key, in the order in which the keys appear first *)
Theorem C35_group_by : forall (A K : Type) (c : K -> K -> comparison) (keq : K -> K -> bool) (kf : A -> K) (p : pipe A),
  tame p -> total_order c -> (forall a b, keq a b = true <-> c a b = Eq) ->
  exists gs, yields (on p (fun f e => group_by f c keq kf e)) gs /\
    map fst gs = firsts c (map kf (denote p)) /\
    (forall k e, In (k, e) gs -> exists g, yields (fun f => drain f e) g /\ part_of g (denote p) /\
       (forall t, In t g <-> In t (denote p) /\ c k (kf t) = Eq) /\ g = filter (fun t => keq k (kf t)) (denote p)) /\
    (forall t, In t (denote p) -> exists k e, In (k, e) gs /\ c k (kf t) = Eq /\ forall k' e', In (k', e') gs -> c k' (kf t) = Eq -> k' = k).
Proof. exact group_ok. Qed.
Print Assumptions C35_group_by.
(* whatever == of the keys says: the keys are those of Distinct, and each group holds the values whose key is == to it *)
Theorem C35_group_by_any_equality : forall (A K : Type) (c : K -> K -> comparison) (keq : K -> K -> bool) (kf : A -> K) (p : pipe A),
  tame p -> total_order c ->
  exists gs, yields (on p (fun f e => group_by f c keq kf e)) gs /\
    map fst gs = firsts c (map kf (denote p)) /\
    (forall k e, In (k, e) gs -> yields (fun f => drain f e) (filter (fun t => keq k (kf t)) (denote p))).
Proof. exact group_any. Qed.
Print Assumptions C35_group_by_any_equality.
(* so when <=> calls keys equal that == tells apart, a value can be in no group at all *)
Theorem C35_group_by_disagreeing_refuted : exists (c : Z -> Z -> comparison) (p : pipe Z) t, total_order c /\ tame p /\ In t (denote p) /\
  exists gs, yields (on p (fun f e => group_by f c Z.eqb (fun x => x) e)) gs /\ forall k e g, In (k, e) gs -> yields (fun f => drain f e) g -> ~ In t g.
Proof. exact group_loses. Qed.
Print Assumptions C35_group_by_disagreeing_refuted.
Theorem C35_select_many : forall (A B : Type) (p : pipe A) (g : A -> pipe B) (fe : A -> enum B), tame p ->
  (forall x, In x (denote p) -> tame (g x) /\ yields (fun f => build f (g x)) (fe x)) ->
  yields (on p (fun f e => do r <- select_many f fe e; drain f r)) (flat_map (fun x => denote (g x)) (denote p)).
Proof. exact many_ok. Qed.
Print Assumptions C35_select_many.

(* C36 *)
Theorem C36_compare : forall (A B : Type) (c : A -> B -> option comparison) (p : pipe A) (q : pipe B), tame p -> tame q ->
  yields (on p (fun f a => do b <- build f q; compare f c a b)) (lex c (denote p) (denote q)).
Proof. exact compare_ok. Qed.
Print Assumptions C36_compare.
Theorem C36_antisymmetric : forall (A : Type) (c : A -> A -> option comparison), partial_order c -> forall l m, lex c m l = opp (lex c l m).
Proof. exact lex_opp. Qed.
Print Assumptions C36_antisymmetric.
Theorem C36_transitive : forall (A : Type) (c : A -> A -> option comparison), partial_order c ->
  forall l m n, leo (lex c) l m -> leo (lex c) m n -> leo (lex c) l n.
Proof. exact lex_trans. Qed.
Print Assumptions C36_transitive.
Theorem C36_equal : forall (A B : Type) (c : A -> B -> option comparison) l m, lex c l m = Some Eq <-> Forall2 (fun x y => c x y = Some Eq) l m.
Proof. exact lex_eq. Qed.
Print Assumptions C36_equal.

(* cases that meet the hypotheses *)
Example tame_case : tame (PTake (PUnion Z.compare (PSelect (PSkip (PList [5; 3; 5; 1]) 1) (fun x => x * 2)) (PRepeat (PRange 1 3) 2)) 4).
Proof. cbn [tame resets starts_plain]. repeat split; try lia; auto; apply z_total. Qed.
Example elements_case : elements 60 (PTake (PUnion Z.compare (PSelect (PSkip (PList [5; 3; 5; 1]) 1) (fun x => x * 2)) (PRepeat (PRange 1 3) 2)) 4) = Ok [6; 10; 2; 1].
Proof. vm_compute. reflexivity. Qed.
Example resets_case : resets (PRepeat (PSelect (PSkip (PList [5; 3; 5; 1]) 1) (fun x => x * 2)) 2) = true.
Proof. reflexivity. Qed.
Example order_case : partial_order (fun x y => Some (Z.compare x y)).
Proof.
  split; intros a b; [cbn [opp]; now rewrite Z.compare_antisym|]. unfold leo. intros d H1 H2.
  assert (a <= b) by (destruct (Z.compare_spec a b); destruct H1; try congruence; lia).
  assert (b <= d) by (destruct (Z.compare_spec b d); destruct H2; try congruence; lia).
  destruct (Z.compare_spec a d); auto; lia.
Qed.
Example key_case : forall a b, Z.eqb a b = true <-> Z.compare a b = Eq.
Proof. intros a b. now rewrite Z.compare_eq_iff, Z.eqb_eq. Qed.
