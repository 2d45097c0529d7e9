From Coq Require Import Permutation.
From Verif Require Import Base LzyModel LzySpec LstModel LstSpec SrtModel SrtSpec CpyModel CpySpec CpyProofs.
Open Scope Z_scope.

(* C37: afterwards the destination holds its old content (when appending) and then the
   content of the source.  Sources: array, list, sorted list, pointer and count. *)
Theorem C37_array_from_indexed : forall (A : Type) (dflt : option A) x l s m append, arr_shows A x l -> src_shows s m ->
  exists y, copy_arr_ra A dflt x s append = Ok y /\ arr_shows A y (kept append l ++ map Some m).
Proof. exact (fun A dflt => copy_arr_ra_ok A dflt (fun _ _ => Eq)). Qed.
Print Assumptions C37_array_from_indexed.
Theorem C37_list_from_indexed : forall (A : Type) (c : A -> A -> comparison) x l s m append, lst_shows A x l -> src_shows s m ->
  exists y, copy_lst_ra A (fun a b => Some (c a b)) KList x s append = Ok y /\ lst_shows A y (kept append l ++ m).
Proof. exact copy_lst_ra_ok. Qed.
Print Assumptions C37_list_from_indexed.
Theorem C37_sorted_from_indexed : forall (A : Type) (c : A -> A -> comparison) x l s m append,
  total_order c -> lst_shows A x l -> ascending A c l -> src_shows s m ->
  exists y r, copy_lst_ra A (fun a b => Some (c a b)) KSorted x s append = Ok y /\ lst_shows A y r /\ ascending A c r /\ Permutation r (kept append l ++ m).
Proof. exact copy_srt_ra_ok. Qed.
Print Assumptions C37_sorted_from_indexed.
(* Sources: lazy lists *)
Theorem C37_array_from_enumerable : forall (A : Type) (dflt : option A) x l (p : pipe A) append, arr_shows A x l -> tame p ->
  exists y, yields (fun f => copy_arr_en A dflt f x p append) y /\ arr_shows A y (kept append l ++ map Some (denote p)).
Proof. exact (fun A dflt => copy_arr_en_ok A dflt (fun _ _ => Eq)). Qed.
Print Assumptions C37_array_from_enumerable.
Theorem C37_list_from_enumerable : forall (A : Type) (c : A -> A -> comparison) x l (p : pipe A) append, lst_shows A x l -> tame p ->
  exists y, yields (fun f => copy_lst_en A (fun a b => Some (c a b)) f KList x p append) y /\ lst_shows A y (kept append l ++ denote p).
Proof. exact copy_lst_en_ok. Qed.
Print Assumptions C37_list_from_enumerable.
Theorem C37_sorted_from_enumerable : forall (A : Type) (c : A -> A -> comparison) x l (p : pipe A) append,
  total_order c -> lst_shows A x l -> ascending A c l -> tame p ->
  exists y r, yields (fun f => copy_lst_en A (fun a b => Some (c a b)) f KSorted x p append) y /\ lst_shows A y r /\ ascending A c r /\
    Permutation r (kept append l ++ denote p).
Proof. exact copy_srt_en_ok. Qed.
Print Assumptions C37_sorted_from_enumerable.
(* Destination: a string *)
Theorem C37_string : forall (A : Type) (dflt : option A) ds s m append, src_shows s m -> copy_string A dflt ds s append = Ok (kept append ds ++ m).
Proof. exact (fun A dflt => copy_string_ok A dflt (fun _ _ => Eq)). Qed.
Print Assumptions C37_string.

(* With the same list as source and destination the list is emptied, *)
Theorem C37_self_refuted : forall (A : Type) x l, lst_shows A x l -> exists y, copy_self A x false = Ok y /\ lst_shows A y [].
Proof. exact copy_self_empties. Qed.
Print Assumptions C37_self_refuted.
(* or, when appending, an element that was moved away is read. *)
Theorem C37_self_append_refuted : exists x : lst Z, lst_shows Z x [7] /\ copy_self Z x true = UB.
Proof. exact copy_self_dangles. Qed.
Print Assumptions C37_self_append_refuted.
(* A negative count removes elements from the array that is appended to. *)
Theorem C37_negative_count_refuted : exists x y : arr Z,
  arr_shows Z x [Some 1; Some 2; Some 3] /\ copy_arr_ra Z None x (RSlice [] (-1)) true = Ok y /\ arr_shows Z y [Some 1; Some 2].
Proof. exact copy_negative_slice. Qed.
Print Assumptions C37_negative_count_refuted.

Example C37_case : arr_shows Z (mkArr [Live 1] 1) [Some 1] /\ src_shows (RLst (mkLst [Live 5; Live 6; Raw] 2 3 0)) [5; 6] /\
  copy_arr_ra Z None (mkArr [Live 1] 1) (RLst (mkLst [Live 5; Live 6; Raw] 2 3 0)) true = Ok (mkArr [Live 1; Live 5; Live 6] 3) /\
  copy_string Z None [1; 2] (RSlice [3; 4; 5] 2) true = Ok [1; 2; 3; 4].
Proof. repeat split; try reflexivity; [repeat constructor|now exists 1%nat]. Qed.
