(* SortedList: Source/Collections/List.h:682-835, on top of the buffers of LstModel.
   Simplification: elements and search keys are of one type (KeyType<T>::Type = T). *)
From Verif Require Import Base LstModel.
Open Scope Z_scope.

Section Sorted.
  Variable A : Type.
  (* operator<=> ; None is std::partial_ordering::unordered *)
  Variable cmp : A -> A -> option comparison.

  (* IndexOfInternal : List.h:698-727.  Result: (returned value, reference parameter).
     s, e, index are the variables start, end, index. *)
  Fixpoint search (x : lst A) (key : A) (s e index : Z) (fuel : nat) : res (Z * Z) :=
    match fuel with
    | O => NoFuel
    | S fuel' =>
        if s <=? e then
          let index := s + Z.quot (e - s) 2 in
          do y <- read A (buf x) index;
          match cmp y key with
          | None => Err                                     (* CHECK_ERROR, 708-711 *)
          | Some Lt => search x key (index + 1) e index fuel'
          | Some Gt => search x key s (index - 1) index fuel'
          | Some Eq => Ok (index, index)
          end
        else Ok (-1, index)
    end.
  Definition index_of_internal (x : lst A) (key : A) : res (Z * Z) :=
    search x key 0 (count x - 1) (-1) (Z.to_nat (count x + 1)).

  (* Insert : List.h:729-743 (no range check) *)
  Definition s_insert (x : lst A) (i : Z) (a : A) : res (lst A) :=
    do x <- insert_uninitialized A x i 1;
    do m <- copy_ctors A (buf x) i [a];
    Ok (mkLst m (count x) (cap x) (moves x)).

  (* AddInternal : List.h:745-774; the result is the index *)
  Definition s_add (x : lst A) (a : A) : res (lst A * Z) :=
    if count x =? 0 then do y <- s_insert x 0 a; Ok (y, 0)
    else
      do (_, oi) <- index_of_internal x a;
      if (oi >=? 0) && (oi <? count x) then
        do b <- read A (buf x) oi;
        let oi := match cmp b a with Some Lt => oi + 1 | _ => oi end in
        do y <- s_insert x oi a; Ok (y, oi)
      else Err.

  (* IndexOf : List.h:797-801 *)
  Definition s_index_of (x : lst A) (a : A) : res Z := do (r, _) <- index_of_internal x a; Ok r.
  (* Remove : List.h:822-834 *)
  Definition s_remove (x : lst A) (a : A) : res (lst A * bool) :=
    do i <- s_index_of x a;
    if (i >=? 0) && (i <? count x) then do y <- remove_at A x i; Ok (y, true) else Ok (x, false).
  (* SortedList(const SortedList&) : List.h:781-784.  Result: (the new list, the source) *)
  Definition s_copy (x : lst A) : lst A * lst A := (x, empty_lst).

  Inductive sop :=
  | SAdd (a : A)
  | SRemove (a : A)
  | SRemoveAt (i : Z)
  | SRemoveRange (i n : Z)
  | SClear
  | SGet (i : Z)
  | SCount
  | SIndexOf (a : A)
  | SContains (a : A).

  Definition s_step_raw (x : lst A) (o : sop) : res (lst A * out A) :=
    match o with
    | SAdd a => do (y, i) <- s_add x a; Ok (y, RInt i)
    | SRemove a => do (y, b) <- s_remove x a; Ok (y, RBool b)
    | SRemoveAt i => do y <- remove_at A x i; Ok (y, RBool true)
    | SRemoveRange i n => do y <- remove_range A x i n; Ok (y, RBool true)
    | SClear => do y <- clear A x; Ok (y, RBool true)
    | SGet i => do a <- get A x i; Ok (x, RVal a)
    | SCount => Ok (x, RInt (count x))
    | SIndexOf a => do i <- s_index_of x a; Ok (x, RInt i)
    | SContains a => do i <- s_index_of x a; Ok (x, RBool (negb (i =? -1)))   (* List.h:789-792 *)
    end.
  Definition s_step (x : lst A) (o : sop) : res (lst A * out A) :=
    match s_step_raw x o with Err => Ok (x, RError) | r => r end.
  Fixpoint s_run (x : lst A) (os : list sop) : res (lst A * list (out A)) :=
    match os with
    | [] => Ok (x, [])
    | o :: os' => do (y, r) <- s_step x o; do (z, rs) <- s_run y os'; Ok (z, r :: rs)
    end.
End Sorted.
Arguments SAdd {A}. Arguments SRemove {A}. Arguments SRemoveAt {A}. Arguments SRemoveRange {A}.
Arguments SClear {A}. Arguments SGet {A}. Arguments SCount {A}. Arguments SIndexOf {A}.
Arguments SContains {A}.
