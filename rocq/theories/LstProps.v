(* C15-C18: List and Array (Source/Collections/List.h).
   Elements are of any type A with any equality test eqb; dflt is what the default
   constructor makes (None: storage left uninitialised, trivially constructible types). *)
From Verif Require Import Base BaseFacts LstModel LstSpec LstProofs.
Open Scope Z_scope.

(* C15: any program over any number of list variables that keeps to the rules of the
   sequence specification runs without undefined behaviour and answers as it. *)
Theorem C15_list : forall (A : Type) (eqb : A -> A -> bool) n os t ys,
  srun A eqb (repeat None n) os = Ok (t, ys) ->
  exists s, run A eqb (repeat None n) os = Ok (s, ys) /\ shows A s t.
Proof. exact list_refines. Qed.
Print Assumptions C15_list.

Example C15_list_nonvacuous :
  srun Z Z.eqb (repeat None 2)
    [LNew 0; LAdd 0 5; LAdd 0 7; LInsert 0 1 9; LRemove 0 5; LAdd 0 7; LIndexOf 0 7;
     LMoveNew 1 0; LRemoveRange 1 1 2; LGet 1 0; LGet 1 1; LCount 0; LDestroy 0; LDestroy 1]%Z
  = Ok ([None; None],
        [RNone; RInt 0; RInt 1; RInt 1; RBool true; RInt 2; RInt 1;
         RNone; RBool true; RVal 9; RError; RInt 0; RNone; RNone]).
Proof. reflexivity. Qed.

Theorem C15_array : forall (A : Type) (eqb : A -> A -> bool) (dflt : option A) n os t ys,
  asrun A eqb dflt (repeat None n) os = Ok (t, ys) ->
  exists s, arun A eqb dflt (repeat None n) os = Ok (s, ys) /\ ashows A s t.
Proof. exact array_refines. Qed.
Print Assumptions C15_array.

Example C15_array_nonvacuous :
  asrun Z Z.eqb None (repeat None 2)
    [ANew 0 2; ASet 0 0 4; AResize 0 3; AGet 0 0; AFrom 1 [1; 2; 3] 2; AContains 1 3;
     AMoveAssign 0 1; ACount 0; AGet 0 2]%Z
  = Ok ([Some [Some 1; Some 2]; Some []],
        [RNone; RBool true; RNone; RVal 4; RNone; RBool false; RNone; RInt 2; RError]%Z).
Proof. reflexivity. Qed.

(* Full statement: Insert(i, list[j]) inserts the value list[j].  False: without spare
   capacity the argument dangles, and with it the argument may refer to another element
   by the time it is copied. *)
Theorem C15_insert_own_element_refuted : exists (x y : lst Z),
  lst_shows Z x [1; 2; 3] /\
  insert_own Z x 0 2 = Ok y /\ lst_shows Z y [2; 1; 2; 3] /\      (* expected 3;1;2;3 *)
  insert_own Z x 1 1 = UB /\ insert_own Z y 0 3 = UB.
Proof.
  exists (mkLst [Live 1; Live 2; Live 3; Raw] 3 4 3), (mkLst [Live 2; Live 1; Live 2; Live 3] 4 4 6).
  repeat split; try reflexivity; [now exists 1%nat|now exists 0%nat].
Qed.
Print Assumptions C15_insert_own_element_refuted.

(* C16: at every point of such a program exactly the slots below the count hold elements;
   run = Ok already says that no step constructed over a live element, destroyed, moved
   or read a raw slot, left the buffer or freed a buffer still holding an element. *)
Theorem C16_list_slots : forall (A : Type) (eqb : A -> A -> bool) n os t ys s ys' v x,
  srun A eqb (repeat None n) os = Ok (t, ys) ->
  run A eqb (repeat None n) os = Ok (s, ys') ->
  nth_error s v = Some (Some x) -> exact_slots A x.
Proof. exact list_slots. Qed.
Print Assumptions C16_list_slots.

(* destroying the list then destroys every element before its buffer is freed *)
Theorem C16_list_destroy : forall (A : Type) (eqb : A -> A -> bool) n os t ys s ys' v x,
  srun A eqb (repeat None n) os = Ok (t, ys) ->
  run A eqb (repeat None n) os = Ok (s, ys') ->
  nth_error s v = Some (Some x) -> destruct A x = Ok tt.
Proof. exact list_destroy. Qed.
Print Assumptions C16_list_destroy.

Example C16_nonvacuous : exists s ys,
  run Z Z.eqb [None] [LNew 0; LAdd 0 5; LAdd 0 7; LInsert 0 0 9; LRemoveAt 0 1]%Z = Ok (s, ys) /\
  nth_error s 0 = Some (Some (mkLst [Live 9; Live 7; Raw; Raw] 2 4 3)).
Proof. do 2 eexists. split; [vm_compute; reflexivity|vm_compute; reflexivity]. Qed.

Theorem C16_array_slots : forall (A : Type) (eqb : A -> A -> bool) (dflt : option A) n os t ys s ys' v x,
  asrun A eqb dflt (repeat None n) os = Ok (t, ys) ->
  arun A eqb dflt (repeat None n) os = Ok (s, ys') ->
  nth_error s v = Some (Some x) -> exact_aslots A x /\ a_destruct A x = Ok tt.
Proof. exact array_slots. Qed.
Print Assumptions C16_array_slots.

Example C16_array_nonvacuous : exists s ys,
  arun Z Z.eqb (Some 0) [None] [ANew 0 2; ASet 0 1 5; AResize 0 3]%Z = Ok (s, ys) /\
  nth_error s 0 = Some (Some (mkArr [Live 0; Live 5; Live 0] 3)).
Proof. do 2 eexists. split; [vm_compute; reflexivity|vm_compute; reflexivity]. Qed.

(* C17 *)
Theorem C17_capacity : forall (A : Type) (eqb : A -> A -> bool) n os t ys s ys' v x,
  srun A eqb (repeat None n) os = Ok (t, ys) ->
  run A eqb (repeat None n) os = Ok (s, ys') ->
  nth_error s v = Some (Some x) -> 0 <= count x <= cap x /\ zlen (buf x) = cap x.
Proof. exact cap_ge_count. Qed.
Print Assumptions C17_capacity.

Theorem C17_growth : forall (A : Type) x l i a y,
  lst_shows A x l -> insert A x i a = Ok y -> cap y <> cap x -> 4 * cap y > 5 * cap x.
Proof. exact growth. Qed.
Print Assumptions C17_growth.

(* n appends to a new list move at most 5n elements; at most a quarter plus one of the
   buffer is spare *)
Theorem C17_append_cost : forall (A : Type) (l : list A),
  exists y, append_all A empty_lst l = Ok y /\ lst_shows A y l /\
    moves y <= 5 * zlen l /\ cap y <= zlen l * 5 / 4 + 1.
Proof. exact append_cost. Qed.
Print Assumptions C17_append_cost.

Example C17_nonvacuous : exists x y,
  append_all Z empty_lst [1; 2]%Z = Ok x /\ lst_shows Z x [1; 2] /\
  insert Z x 1 9 = Ok y /\ cap x = 2 /\ cap y = 4 /\ moves y = 2.
Proof.
  exists (mkLst [Live 1; Live 2] 2 2 0), (mkLst [Live 1; Live 9; Live 2; Raw] 3 4 2).
  repeat split; try reflexivity. now exists 0%nat.
Qed.

(* C18: errors exactly outside the container.  (That an error leaves everything unchanged
   is part of C15: step returns the same state with RError.) *)
Theorem C18_get : forall (A : Type) x l i,
  lst_shows A x l -> (get A x i = Err <-> ~ 0 <= i < zlen l).
Proof. exact get_err. Qed.
Print Assumptions C18_get.
Theorem C18_set : forall (A : Type) x l i a,
  lst_shows A x l -> (set A x i a = Err <-> ~ 0 <= i < zlen l).
Proof. exact set_err. Qed.
Print Assumptions C18_set.
Theorem C18_insert : forall (A : Type) x l i a,
  lst_shows A x l -> (insert A x i a = Err <-> ~ 0 <= i <= zlen l).
Proof. exact insert_err. Qed.
Print Assumptions C18_insert.
Theorem C18_remove_at : forall (A : Type) x l i,
  lst_shows A x l -> (remove_at A x i = Err <-> ~ 0 <= i < zlen l).
Proof. exact remove_at_err. Qed.
Print Assumptions C18_remove_at.

(* the length must not be negative, and index + length must be representable *)
Theorem C18_remove_range_partial : forall (A : Type) x l i n,
  lst_shows A x l -> 0 <= n -> i + n < 2 ^ 63 ->
  (remove_range A x i n = Err <-> ~ (0 <= i /\ i + n <= zlen l)).
Proof. exact remove_range_err. Qed.
Print Assumptions C18_remove_range_partial.

(* A negative length passes both checks as long as index + length >= 0, and the move then
   always writes to slots that hold no element. *)
Theorem C18_remove_range_negative_refuted : forall (A : Type) x l i n,
  lst_shows A x l -> 0 <= i <= zlen l -> n < 0 -> 0 <= i + n -> zlen l < 2 ^ 63 ->
  remove_range A x i n = UB.
Proof. exact remove_range_negative. Qed.
Print Assumptions C18_remove_range_negative_refuted.

(* RemoveRange for all arguments *)
Theorem C18_remove_range : forall (A : Type) x l i n, lst_shows A x l -> zlen l < 2 ^ 63 -> - 2 ^ 63 <= n ->
  if (i <? 0) || (zlen l <? i) then remove_range A x i n = Err
  else if 2 ^ 63 <=? i + n then remove_range A x i n = UB
  else if (i + n <? 0) || (zlen l <? i + n) then remove_range A x i n = Err
  else if n <? 0 then remove_range A x i n = UB
  else exists y, remove_range A x i n = Ok y /\ lst_shows A y (ztake A i l ++ zdrop A (i + n) l).
Proof. exact remove_range_any. Qed.
Print Assumptions C18_remove_range.
Example C18_remove_range_nonvacuous : let x := mkLst [Live 5; Live 6; Live 7; Raw] 3 4 0 in
  lst_shows Z x [5; 6; 7] /\
  (exists y, remove_range Z x 1 1 = Ok y /\ count y = 2) /\
  remove_range Z x 4 0 = Err /\ remove_range Z x 1 5 = Err /\ remove_range Z x 1 (2 ^ 63 - 1) = UB /\ remove_range Z x 2 (-1) = UB.
Proof.
  cbv zeta. split; [repeat split; try reflexivity; now exists 1%nat|]. split; [eexists; split; vm_compute; reflexivity|].
  repeat split; vm_compute; reflexivity.
Qed.

Theorem C18_array_get : forall (A : Type) x l i,
  arr_shows A x l -> (a_get A x i = Err <-> ~ 0 <= i < zlen l).
Proof. exact a_get_err. Qed.
Print Assumptions C18_array_get.
Theorem C18_array_set : forall (A : Type) x l i a,
  arr_shows A x l -> (a_set A x i a = Err <-> ~ 0 <= i < zlen l).
Proof. exact (fun A => a_set_err A (fun _ _ => true)). Qed.
Print Assumptions C18_array_set.
Theorem C18_array_resize : forall (A : Type) (dflt : option A) x l n,
  arr_shows A x l -> (a_resize A dflt x n = Err <-> n < 0).
Proof. exact a_resize_err. Qed.
Print Assumptions C18_array_resize.

Example C18_nonvacuous :
  lst_shows Z (mkLst [Live 1; Live 2; Raw] 2 3 0) [1; 2] /\
  get Z (mkLst [Live 1; Live 2; Raw] 2 3 0) 2 = Err /\
  get Z (mkLst [Live 1; Live 2; Raw] 2 3 0) 1 = Ok 2 /\
  arr_shows Z (mkArr [Live 1; Moved] 2) [Some 1; None].
Proof.
  repeat split; try reflexivity; [now exists 1%nat|].
  repeat constructor; discriminate.
Qed.
