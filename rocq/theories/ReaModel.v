(* Lists of Ptr whose objects add to the list when they are destroyed: an operation that takes the
   last reference to an object runs its destructor in its middle, and the destructor calls Add of
   the same list.
   Source/Collections/List.h:71-179 (memory_management), 467-543 (ListBase), 584-662 (List);
   Source/Primitives/Pointer.h:97-112 (Dec), 241-270 (operator=).
   Simplifications: which pointers the release of an element adds is a function of the object the
   element refers to (nothing if the object has other owners or its destructor leaves the list
   alone; a Ptr whose object has other owners is not emptied by Dec, but it is overwritten or
   destroyed at once); an index is a natural number (negative ones raise the same error, C15); capacities are
   natural numbers; a Ptr constructed where another one is being destroyed is the one on which the
   rest of that destructor works. *)
From Verif Require Import Base.

Section Rea.
Variables (V : Type) (adds : V -> list (option V)).

(* A place for a Ptr in a buffer: no Ptr there, a Ptr (null or referring to an object), or a Ptr
   that is just deleting its object. Source/Primitives/Pointer.h:97-112 *)
Inductive cell := Raw | Full (o : option V) | Dying.

(* buffer, count and capacity, and which buffer it is: a new one gets the next number.
   Source/Collections/List.h:265-266, 462. lost: pointers that were in a buffer when it was freed *)
Record lst := mkL { gen : nat; cells : list cell; count : nat; cap : nat; lost : list (option V) }.

Definition put (x : lst) (i : nat) (c : cell) : lst := mkL (gen x) (upd (cells x) i c) (count x) (cap x) (lost x).

(* the Ptrs that are still there when a buffer is freed; DeallocateBuffer, List.h:116-121 *)
Definition remains (cs : list cell) : list (option V) := flat_map (fun c => match c with Full o => [o] | _ => [] end) cs.

(* CallMoveCtors into a new buffer and CallDtors of what is left; moving from a place without a Ptr
   is undefined. Source/Collections/List.h:55-69, 97-107 *)
Fixpoint contents (cs : list cell) (n : nat) : res (list (option V)) :=
  match n, cs with
  | O, _ => Ok []
  | S n', Full o :: r => do l <- contents r n'; Ok (o :: l)
  | S n', _ => UB
  end.
Definition to_buffer (x : lst) (n newcap newcount : nat) : res lst :=
  do l <- contents (cells x) n;
  Ok (mkL (S (gen x)) (map Full l ++ repeat Raw (newcap - n)) newcount newcap (lost x ++ remains (skipn n (cells x)))).

(* Add: InsertUninitializedItems at the end and the construction of the new element;
   Source/Collections/List.h:149-179, 584-625 *)
Definition add (x : lst) (o : option V) : res lst :=
  let n := count x in
  do y <- (if (cap x <? n + 1)%nat then to_buffer x n ((n + 1) * 5 / 4 + 1) (n + 1)
           else Ok (mkL (gen x) (cells x) (n + 1) (cap x) (lost x)));
  match nth_error (cells y) n with
  | Some (Full u) => Ok (mkL (gen y) (upd (cells y) n (Full o)) (count y) (cap y) (lost y ++ [u]))   (* a Ptr nobody destroyed is overwritten *)
  | Some _ => Ok (put y n (Full o))
  | None => UB
  end.
Fixpoint add_all (x : lst) (os : list (option V)) : res lst :=
  match os with [] => Ok x | o :: r => do y <- add x o; add_all y r end.

(* Ptr::Dec on place i of buffer g: the destructor of the object runs, then the Ptr is emptied,
   which is undefined when its buffer is gone. Source/Primitives/Pointer.h:97-112 *)
Definition dec (x : lst) (g i : nat) : res lst :=
  if (gen x =? g)%nat then
    match nth_error (cells x) i with
    | Some (Full None) => Ok x
    | Some (Full (Some v)) =>
        do y <- add_all (put x i Dying) (adds v);
        if (gen y =? g)%nat then Ok (put y i (Full None)) else UB
    | _ => UB
    end
  else UB.

(* Ptr::operator=(Ptr&& ) within the buffer; Source/Primitives/Pointer.h:257-270 *)
Definition move_assign (x : lst) (g dst src : nat) : res lst :=
  do y <- dec x g dst;
  match nth_error (cells y) src with
  | Some (Full o) => Ok (put (put y dst (Full o)) src (Full None))
  | _ => UB
  end.

(* CallMoveAssignmentsOverlapped with items < source; Source/Collections/List.h:71-95 *)
Fixpoint move_down (x : lst) (g dst src n : nat) : res lst :=
  match n with
  | O => Ok x
  | S n' => do y <- move_assign x g dst src; move_down y g (S dst) (S src) n'
  end.

(* ~Ptr: Dec; a Ptr that was constructed in its place meanwhile is emptied without a Dec.
   Source/Primitives/Pointer.h:198-201, 97-112 *)
Definition destroy (x : lst) (g i : nat) : res lst :=
  if (gen x =? g)%nat then
    match nth_error (cells x) i with
    | Some (Full None) => Ok (put x i Raw)
    | Some (Full (Some v)) =>
        do y <- add_all (put x i Dying) (adds v);
        if (gen y =? g)%nat then
          match nth_error (cells y) i with
          | Some (Full u) => Ok (mkL (gen y) (upd (cells y) i (Full None)) (count y) (cap y) (lost y ++ [u]))
          | _ => Ok (put y i Raw)
          end
        else UB
    | _ => UB
    end
  else UB.

(* CallDtors; Source/Collections/List.h:97-107 *)
Fixpoint dtors (x : lst) (g i n : nat) : res lst :=
  match n with
  | O => Ok x
  | S n' => do y <- destroy x g i; dtors y g (S i) n'
  end.

(* ReleaseUnnecessaryBuffer: newCount is passed by value, buffer and capacity by reference;
   Source/Collections/List.h:123-146 *)
Definition release_buffer (x : lst) (old_count new_count : nat) : res lst :=
  match cells x with
  | [] => Ok x
  | _ =>
      do y <- (if (new_count <? old_count)%nat then dtors x (gen x) new_count (old_count - new_count) else Ok x);
      if (new_count <=? cap y / 2)%nat && (new_count <=? 8)%nat && (new_count <? cap y * 5 / 8)%nat
      then to_buffer y new_count (cap y * 5 / 8) (count y)
      else Ok y
  end.

(* ListBase::RemoveAt; Source/Collections/List.h:507-515 *)
Definition remove_at (x : lst) (i : nat) : res lst :=
  check (i <? count x)%nat
    (do y <- move_down x (gen x) i (i + 1) (count x - i - 1);
     let z := mkL (gen y) (cells y) (count y - 1) (cap y) (lost y) in
     release_buffer z (count x) (count z)).

(* List::Set; the new Ptr is an object outside of the list. Source/Collections/List.h:646-662;
   Source/Primitives/Pointer.h:241-270 *)
Definition set (x : lst) (i : nat) (o : option V) : res lst :=
  check (i <? count x)%nat
    (do y <- dec x (gen x) i; Ok (put y i (Full o))).

(* ListBase::Clear; Source/Collections/List.h:534-543 *)
Definition clear (x : lst) : res lst :=
  do y <- dtors (mkL (gen x) (cells x) 0 0 (lost x)) (gen x) 0 (count x);
  Ok (mkL (S (gen y)) [] (count y) (cap y) (lost y ++ remains (cells y))).

(* ListBase::~ListBase and the first half of operator=(ListBase&& ): gives the Ptrs that were in a
   freed buffer; Source/Collections/List.h:467-474, 488-494 *)
Definition finish (x : lst) : res (list (option V)) :=
  match cells x with
  | [] => Ok (lost x)
  | _ => do y <- dtors x (gen x) 0 (count x); Ok (lost y ++ remains (cells y))
  end.

(* ArrayBase::Get; Source/Collections/List.h:286-290 *)
Definition get (x : lst) (i : nat) : res (option V) :=
  check (i <? count x)%nat
    match nth_error (cells x) i with
    | Some (Full o) => Ok o
    | _ => UB
    end.

Inductive op := Add (o : option V) | SetAt (i : nat) (o : option V) | RemoveAt (i : nat) | Clear | Get (i : nat) | Count.
Inductive out := Nothing | Value (o : option V) | Number (n : nat) | Error.
Definition step_raw (x : lst) (o : op) : res (lst * out) :=
  match o with
  | Add a => do y <- add x a; Ok (y, Number (count x))
  | SetAt i a => do y <- set x i a; Ok (y, Nothing)
  | RemoveAt i => do y <- remove_at x i; Ok (y, Nothing)
  | Clear => do y <- clear x; Ok (y, Nothing)
  | Get i => do a <- get x i; Ok (x, Value a)
  | Count => Ok (x, Number (count x))
  end.
Definition step (x : lst) (o : op) : res (lst * out) :=
  match step_raw x o with Err => Ok (x, Error) | r => r end.
Definition start : lst := mkL 0 [] 0 0 [].
Fixpoint run (x : lst) (os : list op) : res (lst * list out) :=
  match os with
  | [] => Ok (x, [])
  | o :: r => do (y, a) <- step x o; do (z, l) <- run y r; Ok (z, a :: l)
  end.
End Rea.
Arguments Raw {V}. Arguments Full {V} o. Arguments Dying {V}.
Arguments mkL {V}. Arguments gen {V}. Arguments cells {V}. Arguments count {V}. Arguments cap {V}. Arguments lost {V}.
Arguments Add {V}. Arguments SetAt {V}. Arguments RemoveAt {V}. Arguments Clear {V}. Arguments Get {V}. Arguments Count {V}.
Arguments Nothing {V}. Arguments Value {V}. Arguments Number {V}. Arguments Error {V}.
