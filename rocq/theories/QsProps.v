(* Theorems about Sort and OrderBy. *)
From Verif Require Import Base SrtSpec QsModel QsSpec QsProofs DctProofs.
Open Scope Z_scope.

(* C27: with a total preorder, the range becomes an ascending permutation of itself and
   nothing outside the range changes. *)
Theorem C27_sorts : forall T c, total_order c -> forall pre seg post : list T,
  exists seg' d, sort_array T (fun a b => Some (c a b)) (pre ++ seg ++ post) (zlen pre) (zlen seg) = Ok (pre ++ seg' ++ post, d) /\
     Permutation seg seg' /\ ascending T c seg'.
Proof. exact sort_array_total. Qed.
Print Assumptions C27_sorts.

(* C27: with any comparator it terminates in bounds and permutes the range, at a recursion
   depth of at most log2 (length + 1); it raises an error only if two elements of the range
   are unordered. *)
Theorem C27_any_comparator : forall T cmp (pre seg post : list T),
  (sort_array T cmp (pre ++ seg ++ post) (zlen pre) (zlen seg) = Err /\ exists x y, In x seg /\ In y seg /\ cmp x y = None) \/
  (exists seg' d, sort_array T cmp (pre ++ seg ++ post) (zlen pre) (zlen seg) = Ok (pre ++ seg' ++ post, d) /\
     Permutation seg seg' /\ 2 ^ Z.of_nat d <= zlen seg + 1).
Proof. exact sort_array_any. Qed.
Print Assumptions C27_any_comparator.

(* C34 *)
Theorem C34_order_by : forall T c, total_order c -> forall source : list T,
  exists out, order_by T (fun a b => Some (c a b)) source = Ok out /\ Permutation source out /\ ascending T c out.
Proof. exact order_by_ok. Qed.
Print Assumptions C34_order_by.
(* OrderByKey: comparing keys is again a total preorder *)
Theorem C34_order_by_key : forall T U (f : T -> U) c, total_order c -> total_order (fun a b => c (f a) (f b)).
Proof. exact key_total. Qed.
Print Assumptions C34_order_by_key.

Example C27_case : total_order Z.compare /\
  sort_array Z (fun a b => Some (Z.compare a b)) [99; 3; 1; 2; 3; 0; -99] 1 5 = Ok ([99; 0; 1; 2; 3; 3; -99], 1%nat).
Proof. exact (conj Z_total eq_refl). Qed.
