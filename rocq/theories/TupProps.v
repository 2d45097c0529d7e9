(* Properties C46 and C47. *)
From Verif Require Import Base TupModel TupSpec TupProofs.

(* C46: comparing tuples of any width gives the comparison of the first elements that differ *)
Theorem C46_lexicographic : forall es a b, compare es a b = first_difference (results es a b).
Proof. exact compare_lex. Qed.
Print Assumptions C46_lexicographic.
(* C46: total orders on the elements give a total order on the tuples, partial orders a partial order *)
Theorem C46_total : forall es, Forall (fun e => total_order (cmp e)) es -> total_order (compare es).
Proof. exact tuple_total. Qed.
Print Assumptions C46_total.
Theorem C46_partial_order : forall es, Forall (fun e => partial_order (cmp e)) es -> partial_order (compare es).
Proof. exact tuple_partial. Qed.
Print Assumptions C46_partial_order.
(* C46: == holds iff all elements are equal, and agrees with <=> if it does for the elements *)
Theorem C46_equal : forall es a b, equal es a b = true <-> all_equal es a b.
Proof. exact equal_iff. Qed.
Print Assumptions C46_equal.
Theorem C46_consistent : forall es, Forall (fun e => forall a b, eqe e a b = true <-> cmp e a b = Equal) es ->
  forall a b, equal es a b = true <-> compare es a b = Equal.
Proof. exact tuple_consistent. Qed.
Print Assumptions C46_consistent.
(* C46: the same for Pair *)
Theorem C46_pair_lexicographic : forall k v a b,
  pair_compare k v a b = first_difference [cmp k (fst a) (fst b); cmp v (snd a) (snd b)].
Proof. exact pair_lex. Qed.
Print Assumptions C46_pair_lexicographic.
Theorem C46_pair_total : forall k v, total_order (cmp k) -> total_order (cmp v) -> total_order (pair_compare k v).
Proof. exact pair_total. Qed.
Print Assumptions C46_pair_total.
Theorem C46_pair_tuple : forall k v a b,
  pair_compare k v a b = compare [k; v] (fst a, (snd a, tt)) (fst b, (snd b, tt)) /\
  pair_equal k v a b = equal [k; v] (fst a, (snd a, tt)) (fst b, (snd b, tt)).
Proof. exact pair_is_tuple. Qed.
Print Assumptions C46_pair_tuple.
Example C46_case1 : total_order (cmp zelem).
Proof. exact zcmp_total. Qed.
Example C46_case2 : compare [zelem; zelem; zelem] (1, (5, (2, tt)))%Z (1, (3, (9, tt)))%Z = Greater.
Proof. reflexivity. Qed.

(* C47: every category converts to the one OrderingOf picks *)
Theorem C47_common : forall l, common l (ordering_of l).
Proof. exact ordering_common. Qed.
Print Assumptions C47_common.
(* C47: it is the strongest such category when some category in the list is not strong_ordering *)
Theorem C47_strongest_partial : forall l, (exists c, In c l /\ c <> Strong) -> strongest_common l (ordering_of l).
Proof. exact ordering_strongest. Qed.
Print Assumptions C47_strongest_partial.
(* C47 is false of every list of strong orderings, the empty list included: OrderingOf picks partial_ordering *)
Theorem C47_all_strong_refuted : forall l, Forall (fun c => c = Strong) l ->
  strongest_common l Strong /\ ordering_of l = Partial.
Proof. exact ordering_all_strong. Qed.
Print Assumptions C47_all_strong_refuted.
Example C47_case : ordering_of [Strong; Weak; Strong] = Weak /\ ordering_of [Weak; Partial] = Partial.
Proof. split; reflexivity. Qed.
