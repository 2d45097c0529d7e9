(* C19, C20: SortedList (Source/Collections/List.h:682-835) *)
From Coq Require Import Permutation.
From Verif Require Import Base BaseFacts LstModel LstSpec SrtModel SrtSpec SrtProofs.
Open Scope Z_scope.

(* C19: for any total preorder and any history the list runs without undefined behaviour,
   every step is allowed by ok_step and every intermediate list is ascending. *)
Theorem C19_history : forall (A : Type) (c : A -> A -> comparison), total_order c ->
  forall os, Forall (client_ok A) os ->
  exists x rs l, s_run A (fun a b => Some (c a b)) empty_lst os = Ok (x, rs) /\
    lst_shows A x l /\ ok_run A c [] os l rs.
Proof. exact sorted_history. Qed.
Print Assumptions C19_history.

(* what the allowed steps do to the multiset of elements *)
Theorem C19_multiset : forall (A : Type) (c : A -> A -> comparison) l o l' r, ok_step A c l o l' r ->
  match o with
  | SAdd a => Permutation l' (a :: l)
  | SRemove a => r = RBool true /\ (exists b, same A c b a /\ Permutation l (b :: l')) \/
                 r = RBool false /\ l' = l /\ forall b, In b l -> ~ same A c b a
  | SClear => l' = []
  | SRemoveAt _ | SRemoveRange _ _ => exists gone, Permutation l (gone ++ l')
  | _ => l' = l
  end.
Proof. exact ok_step_multiset. Qed.
Print Assumptions C19_multiset.

(* whatever the comparison does (inconsistent, unordered), the binary search terminates
   inside the buffer; an unordered pair raises an error *)
Theorem C19_any_comparator : forall (A : Type) (cmp : A -> A -> option comparison) os,
  Forall (client_ok A) os ->
  exists x rs l, s_run A cmp empty_lst os = Ok (x, rs) /\ lst_shows A x l.
Proof. exact any_comparator. Qed.
Print Assumptions C19_any_comparator.

Example C19_nonvacuous : total_order Z.compare /\
  exists x, s_run Z (fun a b => Some (Z.compare a b)) empty_lst
    [SAdd 5; SAdd 3; SAdd 9; SAdd 5; SContains 9; SIndexOf 4; SRemove 5; SGet 1; SRemoveRange 1 2; SCount; SRemoveAt 7]
  = Ok (x, [RInt 0; RInt 0; RInt 2; RInt 1; RBool true; RInt (-1); RBool true; RVal 5; RBool true; RInt 1; RError]).
Proof.
  split.
  - split; [intros a b; now rewrite Z.compare_antisym|]. intros a b d H1 H2. rewrite Z.compare_le_iff in *. lia.
  - eexists. vm_compute. reflexivity.
Qed.

(* The documentation says IndexOf returns the first equal element. *)
Theorem C19_first_index_refuted : exists x rs,
  s_run Z (fun a b => Some (Z.compare a b)) empty_lst [SAdd 7; SAdd 7; SAdd 7; SIndexOf 7] = Ok (x, rs) /\
  nth_error rs 3 = Some (RInt 1).
Proof. do 2 eexists. split; [vm_compute; reflexivity|reflexivity]. Qed.
Print Assumptions C19_first_index_refuted.

(* C20 is false: the copy constructor moves the contents out of its const source. *)
Theorem C20_copy_refuted : forall (A : Type) (x : lst A) l, lst_shows A x l ->
  lst_shows A (fst (s_copy A x)) l /\ lst_shows A (snd (s_copy A x)) [].
Proof. exact copy_steals. Qed.
Print Assumptions C20_copy_refuted.

Example C20_nonvacuous : lst_shows Z (mkLst [Live 3; Live 4] 2 2 0) [3; 4].
Proof. repeat split. now exists 0%nat. Qed.
