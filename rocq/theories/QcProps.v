(* Theorems about sorting elements whose copies may throw. *)
From Verif Require Import Base QstModel QstSpec QcModel QcSpec QcProofs.
Open Scope Z_scope.

(* C80: whatever the comparison and the copies do, the call ends, touches nothing outside the range, and without an
   exception leaves a permutation.  With one, at most one element of the range has been replaced, by what the failed
   assignment left of it; and something did throw. *)
Theorem C80_sort_partial : forall T St (orderer : St -> T -> T -> St * answer) construct assign torn (pre seg post : list T) s,
  exists seg' s' o,
    csort_array T St orderer construct assign torn (pre ++ seg ++ post) s (zlen pre) (zlen seg) = Ok (pre ++ seg' ++ post, s', o) /\
    match o with
    | Some depth => Permutation seg seg' /\ 2 ^ Z.of_nat depth <= zlen seg + 1
    | None => wreck torn seg seg' /\ trouble orderer construct assign seg
    end.
Proof. exact csort_ok. Qed.
Print Assumptions C80_sort_partial.

(* C80: no exception is swallowed.  [calm] stands for "nothing has thrown yet". *)
Theorem C80_exceptions_propagate : forall T St (orderer : St -> T -> T -> St * answer) construct assign torn calm,
  stays_calm orderer calm -> copies_calm construct assign calm ->
  forall (pre seg post : list T) s a s' d, calm s ->
    csort_array T St orderer construct assign torn (pre ++ seg ++ post) s (zlen pre) (zlen seg) = Ok (a, s', Some d) -> calm s'.
Proof. exact csort_calm. Qed.
Print Assumptions C80_exceptions_propagate.

(* C80: if copies never throw this is the Sort of C27. *)
Theorem C80_models_agree : forall T St (orderer : St -> T -> T -> St * answer) torn (a : list T) s base len,
  csort_array T St orderer plain_construct plain_assign torn a s base len = tsort_array T St orderer a s base len.
Proof. exact csort_array_plain. Qed.
Print Assumptions C80_models_agree.

(* C80: the elements are not always all there after an exception: sorting any two elements in descending order, with the
   third copy throwing, leaves the smaller one and what the failed assignment made of its copy.  If a failed assignment
   does not change its target, the smaller element is there twice and the larger one is gone. *)
Theorem C80_lost_refuted : forall T (c : T -> T -> comparison) torn x y, c x y = Gt ->
  csort_array T nat (by_comparison c) (nth_construct 2) (nth_assign 2) torn [x; y] 0%nat 0 2 = Ok ([y; torn y x], 3%nat, None).
Proof. exact lost_second. Qed.
Print Assumptions C80_lost_refuted.

(* the fifth copy throws, failed assignments leave 0: one element is replaced, the others are there; nothing else changes *)
Example C80_case : csort_array Z nat (by_comparison Z.compare) (nth_construct 4) (nth_assign 4) (fun _ _ => 0) [9; 3; 1; 2; 5; 4; 9] 0%nat 1 5
  = Ok ([9; 2; 1; 3; 0; 4; 9], 5%nat, None).
Proof. reflexivity. Qed.
Example C80_calm_case : copies_calm (T:=Z) (nth_construct 4) (nth_assign 4) (fun n => n <> 5%nat) /\ stays_calm (by_comparison Z.compare) (fun n => n <> 5%nat).
Proof. exact nth_calm. Qed.
