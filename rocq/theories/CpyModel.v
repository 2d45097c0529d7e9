(* CopyFrom: Source/Collections/OperationCopyFrom.h, OperationString.h, with RandomAccess
   (Interfaces.h:186-224) spelled out.  Containers are those of LstModel and SrtModel, lazy
   sources those of LzyModel.  The source is passed by const reference and is only read. *)
From Verif Require Import Base LzyModel LstModel SrtModel.
Open Scope Z_scope.

Section Copy.
  Variable A : Type.
  Variable dflt : option A.                        (* T() : see LstModel *)
  Variable cmp : A -> A -> option comparison.      (* for SortedList *)

  (* Sources with CanRead: Array, List and SortedList (List.h:965-987), and a pointer with a
     count (Slice, OperationCopyFrom.h:105-136) *)
  Inductive src := RArr (x : arr A) | RLst (x : lst A) | RSlice (l : list A) (n : Z).
  Definition src_count (s : src) : Z := match s with RArr x => acount x | RLst x => count x | RSlice _ n => n end.
  (* items[index] of a Slice is not checked *)
  Definition src_get (s : src) (i : Z) : res A :=
    match s with
    | RArr x => a_get A x i
    | RLst x => get A x i
    | RSlice l _ => match znth l i with Some v => Ok v | None => UB end
    end.

  (* CopyFromAlgorithm<Ds, Ss, true, true> : OperationCopyFrom.h:29-43 *)
  Fixpoint set_loop (y : arr A) (s : src) (index i : Z) (n : nat) : res (arr A) :=
    match n with
    | O => Ok y
    | S n' => do v <- src_get s i; do y <- a_set A y (index + i) v; set_loop y s index (i + 1) n'
    end.
  Definition copy_arr_ra (x : arr A) (s : src) (append : bool) : res (arr A) :=
    let n := src_count s in
    let index := if append then acount x else 0 in
    do y <- a_resize A dflt x (index + n);
    set_loop y s index 0 (Z.to_nat n).

  (* Add of List and of SortedList *)
  Inductive kind := KList | KSorted.
  Definition add (k : kind) (y : lst A) (v : A) : res (lst A) :=
    match k with KList => insert A y (count y) v | KSorted => do (y, _) <- s_add A cmp y v; Ok y end.

  (* CopyFromAlgorithm<Ds, Ss, false, true> : OperationCopyFrom.h:45-60 *)
  Fixpoint add_loop (k : kind) (y : lst A) (s : src) (i : Z) (n : nat) : res (lst A) :=
    match n with
    | O => Ok y
    | S n' => do v <- src_get s i; do y <- add k y v; add_loop k y s (i + 1) n'
    end.
  Definition copy_lst_ra (k : kind) (x : lst A) (s : src) (append : bool) : res (lst A) :=
    do y <- (if append then Ok x else clear A x);
    add_loop k y s 0 (Z.to_nat (src_count s)).

  (* CopyFromAlgorithm<Ds, Ss, true, false> : OperationCopyFrom.h:62-86; the source is a lazy
     list and is enumerated twice *)
  Fixpoint set_enum (fuel : nat) (y : arr A) (index : Z) (e : enum A) : res (arr A) :=
    match fuel with
    | O => NoFuel
    | S f =>
        do (b, e) <- next f e;
        if b then do v <- current e; do y <- a_set A y index v; set_enum f y (index + 1) e else Ok y
    end.
  Definition copy_arr_en (fuel : nat) (x : arr A) (p : pipe A) (append : bool) : res (arr A) :=
    do e <- build fuel p;
    do n <- count_loop fuel 0 e;
    let index := if append then acount x else 0 in
    do y <- a_resize A dflt x (index + n);
    do e <- build fuel p;
    set_enum fuel y index e.

  (* CopyFromAlgorithm<Ds, Ss, false, false> : OperationCopyFrom.h:88-103 *)
  Fixpoint add_enum (fuel : nat) (k : kind) (y : lst A) (e : enum A) : res (lst A) :=
    match fuel with
    | O => NoFuel
    | S f =>
        do (b, e) <- next f e;
        if b then do v <- current e; do y <- add k y v; add_enum f k y e else Ok y
    end.
  Definition copy_lst_en (fuel : nat) (k : kind) (x : lst A) (p : pipe A) (append : bool) : res (lst A) :=
    do y <- (if append then Ok x else clear A x);
    do e <- build fuel p;
    add_enum fuel k y e.

  (* CopyFrom(ObjectString&, const Ss&, bool) : OperationString.h:37-50; the string is its
     content.  The content of the array is read by ObjectString::CopyFrom. *)
  Fixpoint read_loop (x : arr A) (i : Z) (n : nat) : res (list A) :=
    match n with
    | O => Ok []
    | S n' => do v <- a_get A x i; do r <- read_loop x (i + 1) n'; Ok (v :: r)
    end.
  Definition copy_string (ds : list A) (s : src) (append : bool) : res (list A) :=
    do da <- a_from A ds (zlen ds);
    do da <- copy_arr_ra da s append;
    if acount da =? 0 then Ok [] else read_loop da 0 (Z.to_nat (acount da)).

  (* CopyFrom(a, a, append) with a List: the loops run on the list being changed *)
  Fixpoint add_own_loop (y : lst A) (i : Z) (n : nat) : res (lst A) :=
    match n with
    | O => Ok y
    | S n' => do y <- insert_own A y (count y) i; add_own_loop y (i + 1) n'
    end.
  Definition copy_self (x : lst A) (append : bool) : res (lst A) :=
    do y <- (if append then Ok x else clear A x);
    add_own_loop y 0 (Z.to_nat (count y)).
End Copy.
Arguments RArr {A}. Arguments RLst {A}. Arguments RSlice {A}.
