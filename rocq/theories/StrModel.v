(* Model of ObjectString<T>: Source/Strings/String.h.

   The heap is a list of blocks.  A C++ string owns a buffer and a reference counter;
   both are allocated together and deleted together at every site (String.h:97-98,
   122-126, 186-189, 202-205, 230-234, 292-298), so the model keeps them in one
   block.  The [managed] flag of a string says whether its counter pointer is
   non-null; using the counter of a string whose block has none is UB.

   Characters are values of Z.  Simplifications: one thread (the counter is atomic in
   C++), allocation never fails. *)
From Verif Require Import Base.
Open Scope Z_scope.

(* A cell is None until written. *)
Inductive block :=
| Static (cs : list (option Z))            (* not owned by any string *)
| Counted (cs : list (option Z)) (n : Z)   (* owned, with its counter *)
| Freed.
Definition heap := list block.

(* String.h:27-31, fields buffer, counter, start, length, realLength *)
Record str := mkStr { buf : nat; managed : bool; start : Z; len : Z; real : Z }.

(* Block 0 is the static member [zero] (String.h:25): one zero character.
   The default constructor: String.h:145 with the initialisers of 27-31. *)
Definition empty : str := mkStr 0 false 0 0 0.
Definition init_heap : heap := [Static [Some 0]].

(* ---- memory ---------------------------------------------------------- *)

Definition cells_of (h : heap) (b : nat) : res (list (option Z)) :=
  match nth_error h b with
  | Some (Static cs) => Ok cs
  | Some (Counted cs _) => Ok cs
  | Some Freed => UB
  | None => UB
  end.

(* one initialised character *)
Definition rdcell (cs : list (option Z)) (i : Z) : res Z :=
  do c <- aget cs i; match c with Some x => Ok x | None => UB end.

Fixpoint rdcells (cs : list (option Z)) (i : Z) (n : nat) : res (list Z) :=
  match n with
  | O => Ok []
  | S n' => do x <- rdcell cs i; do l <- rdcells cs (i + 1) n'; Ok (x :: l)
  end.

(* source side of memcpy(dst, src + off, n): a negative n is a huge size_t *)
Definition mem_read (cs : list (option Z)) (off n : Z) : res (list Z) :=
  if n <? 0 then UB else rdcells cs off (Z.to_nat n).

Fixpoint mem_write (cs : list (option Z)) (off : Z) (l : list Z) : res (list (option Z)) :=
  match l with
  | [] => Ok cs
  | x :: l' => do cs' <- aset cs off (Some x); mem_write cs' (off + 1) l'
  end.

(* new T[n] *)
Definition new_array (n : Z) : res (list (option Z)) :=
  if n <? 0 then UB else Ok (repeat None (Z.to_nat n)).

(* ---- reference counting ---------------------------------------------- *)

(* Inc : String.h:84-90 *)
Definition inc (h : heap) (s : str) : res heap :=
  if managed s then
    match nth_error h (buf s) with
    | Some (Counted cs n) => Ok (upd h (buf s) (Counted cs (n + 1)))
    | _ => UB
    end
  else Ok h.

(* Dec : String.h:92-102 *)
Definition dec (h : heap) (s : str) : res heap :=
  if managed s then
    match nth_error h (buf s) with
    | Some (Counted cs n) =>
        Ok (upd h (buf s) (if n - 1 =? 0 then Freed else Counted cs (n - 1)))
    | _ => UB
    end
  else Ok h.

(* a fresh owned block with counter 1 *)
Definition own (h : heap) (cs : list (option Z)) : heap * nat := (h ++ [Counted cs 1], length h).

(* ---- constructors ----------------------------------------------------- *)

(* CalculateLength : String.h:33-38; running off the block is UB *)
Fixpoint calc_length (cs : list Z) : res Z :=
  match cs with
  | [] => UB
  | c :: cs' => if c =? 0 then Ok 0 else do n <- calc_length cs'; Ok (n + 1)
  end.

(* ObjectString(const T* ) : String.h:183-192.  [None] is nullptr. *)
Definition of_literal (h : heap) (p : option (list Z)) : res (heap * str) :=
  match p with
  | None => Err
  | Some mem =>
      do n <- calc_length mem;
      do b <- new_array (n + 1);
      do src <- mem_read (map Some mem) 0 (n + 1);
      do b <- mem_write b 0 src;
      let '(h', id) := own h b in
      Ok (h', mkStr id true 0 n n)
  end.

(* TakeOver : String.h:198-208; the block becomes the string's property *)
Definition take_over (h : heap) (mem : list Z) (n : Z) : res (heap * str) :=
  if n <? 0 then Err else
  do z <- aget mem n;
  if negb (z =? 0) then Err else
  let '(h', id) := own h (map Some mem) in
  Ok (h', mkStr id true 0 n n).

(* FromChar : String.h:213-219 *)
Definition from_char (h : heap) (c : Z) : res (heap * str) := of_literal h (Some [c; 0]).

(* CopyFrom : String.h:225-241 *)
Definition copy_from (h : heap) (mem : list Z) (n : Z) : res (heap * str) :=
  if n <? 0 then Err else
  if n >? 0 then
    do b <- new_array (n + 1);
    do src <- mem_read (map Some mem) 0 n;
    do b <- mem_write b 0 src;
    do b <- mem_write b n [0];
    let '(h', id) := own h b in
    Ok (h', mkStr id true 0 n n)
  else Ok (h, empty).

(* Unmanaged : String.h:250-258; the block belongs to the caller, who keeps it alive *)
Definition unmanaged (h : heap) (p : option (list Z)) : res (heap * str) :=
  match p with
  | None => Err
  | Some mem =>
      do n <- calc_length mem;
      Ok (h ++ [Static (map Some mem)], mkStr (length h) false 0 n n)
  end.

(* copy constructor : String.h:149-157 *)
Definition copy (h : heap) (s : str) : res (heap * str) := do h <- inc h s; Ok (h, s).

(* ---- slices and concatenation ----------------------------------------- *)

(* SubUnsafe : String.h:104-115 *)
Definition sub_unsafe (h : heap) (s : str) (st n : Z) : res (heap * str) :=
  if n <=? 0 then Ok (h, empty) else
  do h <- inc h s;
  Ok (h, mkStr (buf s) (managed s) (start s + st) n (real s)).

(* ReplaceUnsafe : String.h:117-133 *)
Definition replace_unsafe (h : heap) (s source : str) (index count : Z) : res (heap * str) :=
  if (len source =? 0) && (count =? 0) then copy h s else
  if (index =? 0) && (count =? len s) then copy h source else
  let n := len s - count + len source in
  do b <- new_array (n + 1);
  do cs <- cells_of h (buf s);
  do ss <- cells_of h (buf source);
  do p1 <- mem_read cs (start s) index;
  do b <- mem_write b 0 p1;
  do p2 <- mem_read ss (start source) (len source);
  do b <- mem_write b index p2;
  do p3 <- mem_read cs (start s + index + count) (len s - index - count);
  do b <- mem_write b (index + len source) p3;
  do b <- mem_write b n [0];
  let '(h', id) := own h b in
  Ok (h', mkStr id true 0 n n).

(* ReplaceUnsafe(const T* ) : String.h:135-140.  The Unmanaged temporary only lives
   during the call; its block is appended to the heap and stays there. *)
Definition replace_unsafe_lit (h : heap) (s : str) (p : option (list Z)) (index count : Z)
  : res (heap * str) :=
  do nothing <- match p with
                | None => Ok true
                | Some mem => do c <- aget mem 0; Ok (c =? 0)
                end;
  if nothing && (count =? 0) then copy h s else
  if (index =? 0) && (count =? len s) then of_literal h p else
  do (h, t) <- unmanaged h p;
  do (h, r) <- replace_unsafe h s t index count;
  do h <- dec h t;
  Ok (h, r).

(* signed 64-bit addition in the range checks: overflow is UB *)
Definition vadd (a b : Z) : res Z :=
  if (- 2 ^ 63 <=? a + b) && (a + b <? 2 ^ 63) then Ok (a + b) else UB.

(* Left : String.h:429-433 *)
Definition left (h : heap) (s : str) (n : Z) : res (heap * str) :=
  if (n >=? 0) && (n <=? len s) then sub_unsafe h s 0 n else Err.
(* Right : String.h:445-449 *)
Definition right (h : heap) (s : str) (n : Z) : res (heap * str) :=
  if (n >=? 0) && (n <=? len s) then sub_unsafe h s (len s - n) n else Err.
(* Sub : String.h:462-467 *)
Definition sub (h : heap) (s : str) (i n : Z) : res (heap * str) :=
  if (i >=? 0) && (i <=? len s) then
    do e <- vadd i n;
    if (e >=? 0) && (e <=? len s) then sub_unsafe h s i n else Err
  else Err.
(* Remove : String.h:480-485 *)
Definition remove (h : heap) (s : str) (i n : Z) : res (heap * str) :=
  if (i >=? 0) && (i <? len s) then
    do e <- vadd i n;
    if (e >=? 0) && (e <=? len s) then replace_unsafe h s empty i n else Err
  else Err.
(* Insert : String.h:498-502 *)
Definition insert (h : heap) (s : str) (i : Z) (t : str) : res (heap * str) :=
  if (i >=? 0) && (i <=? len s) then replace_unsafe h s t i 0 else Err.
(* operator+ : String.h:364-367, 372-375 *)
Definition concat (h : heap) (s t : str) : res (heap * str) := replace_unsafe h s t (len s) 0.
Definition concat_lit (h : heap) (s : str) (p : option (list Z)) : res (heap * str) :=
  replace_unsafe_lit h s p (len s) 0.
(* operator+(const T*, const ObjectString&) : String.h:377-388 *)
Definition lit_concat (h : heap) (p : option (list Z)) (s : str) : res (heap * str) :=
  if len s =? 0 then of_literal h p else
  do (h, t) <- unmanaged h p;
  do (h, r) <- concat h t s;
  do h <- dec h t;
  Ok (h, r).

(* ---- observers --------------------------------------------------------- *)

(* operator[] : String.h:392-396 *)
Definition at_ (h : heap) (s : str) (i : Z) : res Z :=
  if (i >=? 0) && (i <? len s) then do cs <- cells_of h (buf s); rdcell cs (start s + i) else Err.

(* IndexOf : String.h:408-417 *)
Fixpoint index_loop (cs : list (option Z)) (base : Z) (c i : Z) (n : nat) : res Z :=
  match n with
  | O => Ok (-1)
  | S n' => do x <- rdcell cs (base + i); if x =? c then Ok i else index_loop cs base c (i + 1) n'
  end.
Definition index_of (h : heap) (s : str) (c : Z) : res Z :=
  do cs <- cells_of h (buf s); index_loop cs (start s) c 0 (Z.to_nat (len s)).

(* operator<=> : String.h:41-55 *)
Fixpoint cmp_loop (ca cb : list (option Z)) (i j : Z) (n : nat) (la lb : Z) : res comparison :=
  match n with
  | O => Ok (la ?= lb)
  | S n' =>
      do x <- rdcell ca i; do y <- rdcell cb j;
      match x ?= y with Eq => cmp_loop ca cb (i + 1) (j + 1) n' la lb | d => Ok d end
  end.
Definition compare (h : heap) (a b : str) : res comparison :=
  if Nat.eqb (buf a) (buf b) && (start a =? start b) then Ok (len a ?= len b) else
  do ca <- cells_of h (buf a);
  do cb <- cells_of h (buf b);
  let minlen := if len a <? len b then len a else len b in
  cmp_loop ca cb (start a) (start b) (Z.to_nat minlen) (len a) (len b).

(* Buffer() : String.h:288-302.  Returns the new heap, the string (its fields are
   mutable) and what the returned pointer points at up to the end of its block. *)
Definition buffer (h : heap) (s : str) : res (heap * str * list (option Z)) :=
  do (h, s) <-
    (if negb (start s + len s =? real s) then
       do b <- new_array (len s + 1);
       do cs <- cells_of h (buf s);
       do p <- mem_read cs (start s) (len s);
       do b <- mem_write b 0 p;
       do b <- mem_write b (len s) [0];
       do h <- dec h s;
       let '(h', id) := own h b in
       Ok (h', mkStr id true 0 (len s) (len s))
     else Ok (h, s));
  do cs <- cells_of h (buf s);
  Ok (h, s, skipn (Z.to_nat (start s)) cs).

(* ---- programs over string variables ----------------------------------- *)

(* An expression of type ObjectString; numbers name variables. *)
Inductive expr :=
| EEmpty
| ELit (p : option (list Z))
| ETakeOver (mem : list Z) (n : Z)
| EChar (c : Z)
| ECopyFrom (mem : list Z) (n : Z)
| EUnmanaged (p : option (list Z))
| ECopy (w : nat)
| EMove (w : nat)
| ELeft (w : nat) (n : Z)
| ERight (w : nat) (n : Z)
| ESub (w : nat) (i n : Z)
| ERemove (w : nat) (i n : Z)
| EInsert (w : nat) (i : Z) (x : nat)
| EConcat (w x : nat)
| EConcatLit (w : nat) (p : option (list Z))
| ELitConcat (p : option (list Z)) (w : nat).

Inductive op :=
| OInit (v : nat) (e : expr)      (* ObjectString v = e; *)
| OSet (v : nat) (e : expr)       (* v = e;  (move assignment from a temporary) *)
| OAssign (v w : nat)             (* v = w;  (copy assignment) *)
| OMoveAssign (v w : nat)         (* v = std::move(w); *)
| ODestroy (v : nat)
| OBuffer (v : nat)
| OAt (v : nat) (i : Z)
| OLength (v : nat)
| OIndexOf (v : nat) (c : Z)
| OCompare (v w : nat).

Inductive out :=
| RNone
| RError                          (* an Error was thrown *)
| RInt (z : Z)
| RCmp (c : comparison)
| RMem (l : list (option Z)).

(* Variables are storage locations; None = no live object there. *)
Record state := mkState { hp : heap; vars : list (option str) }.
Definition init (n : nat) : state := mkState init_heap (repeat None n).

Definition var (s : state) (v : nat) : res str :=
  match nth_error (vars s) v with Some (Some x) => Ok x | _ => UB end.
Definition setvar (s : state) (h : heap) (v : nat) (x : option str) : state :=
  mkState h (upd (vars s) v x).

(* Evaluating an expression: the variables change only for a move
   (String.h:159-174). *)
Definition eval (s : state) (e : expr) : res (state * str) :=
  let h := hp s in
  let keep (r : res (heap * str)) := do (h', x) <- r; Ok (mkState h' (vars s), x) in
  match e with
  | EEmpty => keep (Ok (h, empty))
  | ELit p => keep (of_literal h p)
  | ETakeOver mem n => keep (take_over h mem n)
  | EChar c => keep (from_char h c)
  | ECopyFrom mem n => keep (copy_from h mem n)
  | EUnmanaged p => keep (unmanaged h p)
  | ECopy w => do x <- var s w; keep (copy h x)
  | EMove w => do x <- var s w; Ok (setvar s h w (Some empty), x)
  | ELeft w n => do x <- var s w; keep (left h x n)
  | ERight w n => do x <- var s w; keep (right h x n)
  | ESub w i n => do x <- var s w; keep (sub h x i n)
  | ERemove w i n => do x <- var s w; keep (remove h x i n)
  | EInsert w i y => do x <- var s w; do t <- var s y; keep (insert h x i t)
  | EConcat w y => do x <- var s w; do t <- var s y; keep (concat h x t)
  | EConcatLit w p => do x <- var s w; keep (concat_lit h x p)
  | ELitConcat p w => do x <- var s w; keep (lit_concat h p x)
  end.

(* move assignment, String.h:325-343, of the value x taken from elsewhere *)
Definition move_into (s : state) (v : nat) (x : str) : res state :=
  do old <- var s v;
  do h <- dec (hp s) old;
  Ok (setvar s h v (Some x)).

Definition step_raw (s : state) (o : op) : res (state * out) :=
  match o with
  | OInit v e =>
      match nth_error (vars s) v with
      | Some None => do (s', x) <- eval s e; Ok (setvar s' (hp s') v (Some x), RNone)
      | _ => UB
      end
  | OSet v e =>
      do _ <- var s v;
      do (s', x) <- eval s e;
      do s'' <- move_into s' v x;         (* the temporary becomes empty *)
      do h <- dec (hp s'') empty;         (* and is destroyed *)
      Ok (mkState h (vars s''), RNone)
  | OAssign v w =>                         (* String.h:307-322 *)
      do x <- var s v; do y <- var s w;
      if Nat.eqb v w then Ok (s, RNone) else
      do h <- dec (hp s) x;
      do h <- inc h y;
      Ok (setvar s h v (Some y), RNone)
  | OMoveAssign v w =>                     (* String.h:325-343 *)
      do x <- var s v; do y <- var s w;
      if Nat.eqb v w then Ok (s, RNone) else
      do s' <- move_into s v y;
      Ok (setvar s' (hp s') w (Some empty), RNone)
  | ODestroy v =>                          (* String.h:176-179 *)
      do x <- var s v; do h <- dec (hp s) x; Ok (setvar s h v None, RNone)
  | OBuffer v =>
      do x <- var s v;
      do (h, x', l) <- buffer (hp s) x;
      Ok (setvar s h v (Some x'), RMem l)
  | OAt v i => do x <- var s v; do c <- at_ (hp s) x i; Ok (s, RInt c)
  | OLength v => do x <- var s v; Ok (s, RInt (len x))
  | OIndexOf v c => do x <- var s v; do i <- index_of (hp s) x c; Ok (s, RInt i)
  | OCompare v w =>
      do x <- var s v; do y <- var s w; do c <- compare (hp s) x y; Ok (s, RCmp c)
  end.

(* An Error leaves the state as it was: every CHECK_ERROR above precedes the first
   change of the heap or of a variable. *)
Definition step (s : state) (o : op) : res (state * out) :=
  match step_raw s o with Err => Ok (s, RError) | r => r end.

Fixpoint run (s : state) (os : list op) : res (state * list out) :=
  match os with
  | [] => Ok (s, [])
  | o :: os' => do (s', r) <- step s o; do (s'', rs) <- run s' os'; Ok (s'', r :: rs)
  end.
