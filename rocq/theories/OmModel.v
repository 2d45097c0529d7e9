(* Strings when memory runs out: ObjectString<T> of Source/Strings/String.h with buffers
   and counters as separate objects on the heap, in the order in which the code allocates
   and deletes them.  StrModel keeps a buffer and its counter in one block and never fails
   to allocate; here every statement comes with the number of the allocation that fails.

   operator new reports failure by an exception (std::bad_alloc), so local strings are
   destroyed on the way out of a function, and a constructor that is left by an exception
   does not run the destructor of its object.

   Functions on characters (mem_read, calc_length, ...) and the syntax of programs are those
   of StrModel.  Other simplifications: those of StrModel. *)
From Verif Require Import Base StrModel.
Open Scope Z_scope.

(* static memory; memory from new T[n]; deleted memory *)
Inductive mblock := BStatic (cs : list (option Z)) | BNew (cs : list (option Z)) | BGone.
(* String.h:27-31, fields buffer, counter, start, length, realLength *)
Record ostr := mkOs { obuf : nat; octr : option nat; ostart : Z; olen : Z; oreal : Z }.
(* buffers, counters (None: deleted), variables (None: no object) *)
Record ostate := mkO { bufs : list mblock; cnts : list (option Z); ovars : list (option ostr) }.

(* buffer 0 is the static member zero, String.h:25; default constructor : 145 *)
Definition oempty : ostr := mkOs 0 None 0 0 0.
Definition oinit (n : nat) : ostate := mkO [BStatic [Some 0]] [] (repeat None n).

(* result of code that may be left by std::bad_alloc *)
Inductive outcome (A : Type) := Done (a : A) | Fail.
Arguments Done {A}. Arguments Fail {A}.

(* Some n: allocation number n (from 0) of the statement fails *)
Definition oracle := option nat.
Definition fails (f : oracle) : bool := match f with Some O => true | _ => false end.
Definition next (f : oracle) : oracle := match f with Some (S n) => Some n | _ => None end.

(* ---- memory ---------------------------------------------------------------------- *)
Definition ocells (s : ostate) (b : nat) : res (list (option Z)) :=
  match nth_error (bufs s) b with
  | Some (BStatic cs) | Some (BNew cs) => Ok cs
  | _ => UB
  end.
(* new atomic_vint(1) *)
Definition new_counter (s : ostate) : ostate * nat := (mkO (bufs s) (cnts s ++ [Some 1]) (ovars s), length (cnts s)).
(* new T[n], with what is written to it *)
Definition new_buffer (s : ostate) (b : mblock) : ostate * nat := (mkO (bufs s ++ [b]) (cnts s) (ovars s), length (bufs s)).
(* delete[] buffer: deleting static memory, or twice, is UB *)
Definition delete_buffer (s : ostate) (b : nat) : res ostate :=
  match nth_error (bufs s) b with
  | Some (BNew _) => Ok (mkO (upd (bufs s) b BGone) (cnts s) (ovars s))
  | _ => UB
  end.
Definition set_counter (s : ostate) (c : nat) (x : option Z) : ostate := mkO (bufs s) (upd (cnts s) c x) (ovars s).

(* Inc : String.h:84-90 *)
Definition oinc (s : ostate) (x : ostr) : res ostate :=
  match octr x with
  | None => Ok s
  | Some c =>
      match nth_error (cnts s) c with
      | Some (Some n) => Ok (set_counter s c (Some (n + 1)))
      | _ => UB
      end
  end.
(* Dec : String.h:92-102 *)
Definition odec (s : ostate) (x : ostr) : res ostate :=
  match octr x with
  | None => Ok s
  | Some c =>
      match nth_error (cnts s) c with
      | Some (Some n) =>
          if n - 1 =? 0 then do s <- delete_buffer s (obuf x); Ok (set_counter s c None)
          else Ok (set_counter s c (Some (n - 1)))
      | _ => UB
      end
  end.

(* ---- constructors ------------------------------------------------------------------ *)
(* ObjectString(const T* ) : String.h:183-192; the counter comes first.  When the buffer
   cannot be allocated the counter is lost. *)
Definition o_literal (f : oracle) (s : ostate) (p : option (list Z)) : res (ostate * outcome ostr) :=
  match p with
  | None => Err
  | Some mem =>
      if fails f then Ok (s, Fail) else
      let (s, c) := new_counter s in
      let f := next f in
      do n <- calc_length mem;
      if fails f then Ok (s, Fail) else
      do b <- new_array (n + 1);
      do src <- mem_read (map Some mem) 0 (n + 1);
      do b <- mem_write b 0 src;
      let (s, id) := new_buffer s (BNew b) in
      Ok (s, Done (mkOs id (Some c) 0 n n))
  end.
(* TakeOver : String.h:198-208; the caller's block becomes the string's when the counter
   was allocated, and stays the caller's otherwise (not shown here) *)
Definition o_take_over (f : oracle) (s : ostate) (mem : list Z) (n : Z) : res (ostate * outcome ostr) :=
  if n <? 0 then Err else
  do z <- aget mem n;
  if negb (z =? 0) then Err else
  if fails f then Ok (s, Fail) else
  let (s, c) := new_counter s in
  let (s, id) := new_buffer s (BNew (map Some mem)) in
  Ok (s, Done (mkOs id (Some c) 0 n n)).
(* FromChar : String.h:213-219 *)
Definition o_from_char (f : oracle) (s : ostate) (c : Z) : res (ostate * outcome ostr) := o_literal f s (Some [c; 0]).
(* CopyFrom : String.h:225-241; the buffer comes first.  When the counter cannot be
   allocated the local string has a buffer and no counter: its destructor does nothing. *)
Definition o_copy_from (f : oracle) (s : ostate) (mem : list Z) (n : Z) : res (ostate * outcome ostr) :=
  if n <? 0 then Err else
  if n >? 0 then
    if fails f then Ok (s, Fail) else
    do b <- new_array (n + 1);
    do src <- mem_read (map Some mem) 0 n;
    do b <- mem_write b 0 src;
    do b <- mem_write b n [0];
    let (s, id) := new_buffer s (BNew b) in
    let f := next f in
    if fails f then do s <- odec s (mkOs id None 0 0 0); Ok (s, Fail) else
    let (s, c) := new_counter s in
    Ok (s, Done (mkOs id (Some c) 0 n n))
  else Ok (s, Done oempty).
(* Unmanaged : String.h:250-258 *)
Definition o_unmanaged (s : ostate) (p : option (list Z)) : res (ostate * ostr) :=
  match p with
  | None => Err
  | Some mem =>
      do n <- calc_length mem;
      let (s, id) := new_buffer s (BStatic (map Some mem)) in
      Ok (s, mkOs id None 0 n n)
  end.
(* copy constructor : String.h:149-157 *)
Definition o_copy (s : ostate) (x : ostr) : res (ostate * outcome ostr) := do s <- oinc s x; Ok (s, Done x).

(* ---- slices and concatenation ------------------------------------------------------ *)
(* SubUnsafe : String.h:104-115 *)
Definition o_sub_unsafe (s : ostate) (x : ostr) (st n : Z) : res (ostate * outcome ostr) :=
  if n <=? 0 then Ok (s, Done oempty) else
  do s <- oinc s x;
  Ok (s, Done (mkOs (obuf x) (octr x) (ostart x + st) n (oreal x))).
(* ReplaceUnsafe : String.h:117-133.  When the buffer cannot be allocated, the local string
   has a counter and still points at the static member zero: its destructor deletes that. *)
Definition o_replace (f : oracle) (s : ostate) (x source : ostr) (index count : Z) : res (ostate * outcome ostr) :=
  if (olen source =? 0) && (count =? 0) then o_copy s x else
  if (index =? 0) && (count =? olen x) then o_copy s source else
  if fails f then Ok (s, Fail) else
  let (s, c) := new_counter s in
  let f := next f in
  let n := olen x - count + olen source in
  if fails f then do s <- odec s (mkOs 0 (Some c) 0 n n); Ok (s, Fail) else
  do b <- new_array (n + 1);
  do cs <- ocells s (obuf x);
  do ss <- ocells s (obuf source);
  do p1 <- mem_read cs (ostart x) index;
  do b <- mem_write b 0 p1;
  do p2 <- mem_read ss (ostart source) (olen source);
  do b <- mem_write b index p2;
  do p3 <- mem_read cs (ostart x + index + count) (olen x - index - count);
  do b <- mem_write b (index + olen source) p3;
  do b <- mem_write b n [0];
  let (s, id) := new_buffer s (BNew b) in
  Ok (s, Done (mkOs id (Some c) 0 n n)).
(* ReplaceUnsafe(const T* ) : String.h:135-140 *)
Definition o_replace_lit (f : oracle) (s : ostate) (x : ostr) (p : option (list Z)) (index count : Z) : res (ostate * outcome ostr) :=
  do nothing <- match p with
                | None => Ok true
                | Some mem => do c <- aget mem 0; Ok (c =? 0)
                end;
  if nothing && (count =? 0) then o_copy s x else
  if (index =? 0) && (count =? olen x) then o_literal f s p else
  do (s, t) <- o_unmanaged s p;
  do (s, r) <- o_replace f s x t index count;
  do s <- odec s t;                     (* the temporary is destroyed in both cases *)
  Ok (s, r).

(* Left, Right, Sub, Remove, Insert : String.h:429-502 *)
Definition o_left (s : ostate) (x : ostr) (n : Z) : res (ostate * outcome ostr) :=
  if (n >=? 0) && (n <=? olen x) then o_sub_unsafe s x 0 n else Err.
Definition o_right (s : ostate) (x : ostr) (n : Z) : res (ostate * outcome ostr) :=
  if (n >=? 0) && (n <=? olen x) then o_sub_unsafe s x (olen x - n) n else Err.
Definition o_sub (s : ostate) (x : ostr) (i n : Z) : res (ostate * outcome ostr) :=
  if (i >=? 0) && (i <=? olen x) then
    do e <- vadd i n;
    if (e >=? 0) && (e <=? olen x) then o_sub_unsafe s x i n else Err
  else Err.
Definition o_remove (f : oracle) (s : ostate) (x : ostr) (i n : Z) : res (ostate * outcome ostr) :=
  if (i >=? 0) && (i <? olen x) then
    do e <- vadd i n;
    if (e >=? 0) && (e <=? olen x) then o_replace f s x oempty i n else Err
  else Err.
Definition o_insert (f : oracle) (s : ostate) (x : ostr) (i : Z) (t : ostr) : res (ostate * outcome ostr) :=
  if (i >=? 0) && (i <=? olen x) then o_replace f s x t i 0 else Err.
(* operator+ : String.h:364-388 *)
Definition o_concat (f : oracle) (s : ostate) (x t : ostr) : res (ostate * outcome ostr) := o_replace f s x t (olen x) 0.
Definition o_concat_lit (f : oracle) (s : ostate) (x : ostr) (p : option (list Z)) : res (ostate * outcome ostr) :=
  o_replace_lit f s x p (olen x) 0.
Definition o_lit_concat (f : oracle) (s : ostate) (p : option (list Z)) (x : ostr) : res (ostate * outcome ostr) :=
  if olen x =? 0 then o_literal f s p else
  do (s, t) <- o_unmanaged s p;
  do (s, r) <- o_concat f s t x;
  do s <- odec s t;
  Ok (s, r).

(* ---- observers : String.h:392-417, 41-55 ----------------------------------------------- *)
Definition o_at (s : ostate) (x : ostr) (i : Z) : res Z :=
  if (i >=? 0) && (i <? olen x) then do cs <- ocells s (obuf x); rdcell cs (ostart x + i) else Err.
Definition o_index_of (s : ostate) (x : ostr) (c : Z) : res Z :=
  do cs <- ocells s (obuf x); index_loop cs (ostart x) c 0 (Z.to_nat (olen x)).
Definition o_compare (s : ostate) (a b : ostr) : res comparison :=
  if Nat.eqb (obuf a) (obuf b) && (ostart a =? ostart b) then Ok (olen a ?= olen b) else
  do ca <- ocells s (obuf a);
  do cb <- ocells s (obuf b);
  let minlen := if olen a <? olen b then olen a else olen b in
  cmp_loop ca cb (ostart a) (ostart b) (Z.to_nat minlen) (olen a) (olen b).

(* ---- programs ---------------------------------------------------------------------------- *)
Definition ovar (s : ostate) (v : nat) : res ostr :=
  match nth_error (ovars s) v with Some (Some x) => Ok x | _ => UB end.
Definition osetvar (s : ostate) (v : nat) (x : option ostr) : ostate := mkO (bufs s) (cnts s) (upd (ovars s) v x).

(* Buffer() : String.h:288-302, on variable v.  The fields are changed one after the other;
   when the counter cannot be allocated the string keeps the old counter, start and
   realLength with the new buffer. *)
Definition o_buffer (f : oracle) (s : ostate) (v : nat) : res (ostate * outcome (list (option Z))) :=
  do x <- ovar s v;
  do (s, r) <-
    (if negb (ostart x + olen x =? oreal x) then
       if fails f then Ok (s, Fail) else
       do b <- new_array (olen x + 1);
       do cs <- ocells s (obuf x);
       do p <- mem_read cs (ostart x) (olen x);
       do b <- mem_write b 0 p;
       do b <- mem_write b (olen x) [0];
       let (s, id) := new_buffer s (BNew b) in
       do s <- odec s x;
       let f := next f in
       if fails f then Ok (osetvar s v (Some (mkOs id (octr x) (ostart x) (olen x) (oreal x))), Fail) else
       let (s, c) := new_counter s in
       let y := mkOs id (Some c) 0 (olen x) (olen x) in
       Ok (osetvar s v (Some y), Done y)
     else Ok (s, Done x));
  match r with
  | Done y => do cs <- ocells s (obuf y); Ok (s, Done (skipn (Z.to_nat (ostart y)) cs))
  | Fail => Ok (s, Fail)
  end.

Definition oeval (f : oracle) (s : ostate) (e : expr) : res (ostate * outcome ostr) :=
  match e with
  | EEmpty => Ok (s, Done oempty)
  | ELit p => o_literal f s p
  | ETakeOver mem n => o_take_over f s mem n
  | EChar c => o_from_char f s c
  | ECopyFrom mem n => o_copy_from f s mem n
  | EUnmanaged p => do (s, x) <- o_unmanaged s p; Ok (s, Done x)
  | ECopy w => do x <- ovar s w; o_copy s x
  | EMove w => do x <- ovar s w; Ok (osetvar s w (Some oempty), Done x)     (* 159-174 *)
  | ELeft w n => do x <- ovar s w; o_left s x n
  | ERight w n => do x <- ovar s w; o_right s x n
  | ESub w i n => do x <- ovar s w; o_sub s x i n
  | ERemove w i n => do x <- ovar s w; o_remove f s x i n
  | EInsert w i y => do x <- ovar s w; do t <- ovar s y; o_insert f s x i t
  | EConcat w y => do x <- ovar s w; do t <- ovar s y; o_concat f s x t
  | EConcatLit w p => do x <- ovar s w; o_concat_lit f s x p
  | ELitConcat p w => do x <- ovar s w; o_lit_concat f s p x
  end.

(* what a statement reports: a result, or std::bad_alloc *)
Inductive oout := ROut (r : out) | RNoMemory.

(* move assignment, String.h:325-343; a temporary is empty afterwards, and its destructor
   then does nothing *)
Definition omove_into (s : ostate) (v : nat) (x : ostr) : res ostate :=
  do old <- ovar s v; do s <- odec s old; Ok (osetvar s v (Some x)).

Definition ostep_raw (s : ostate) (o : op) (f : oracle) : res (ostate * oout) :=
  match o with
  | OInit v e =>
      match nth_error (ovars s) v with
      | Some None =>
          do (s, r) <- oeval f s e;
          match r with
          | Done x => Ok (osetvar s v (Some x), ROut RNone)
          | Fail => Ok (s, RNoMemory)
          end
      | _ => UB
      end
  | OSet v e =>
      do _ <- ovar s v;
      do (s, r) <- oeval f s e;
      match r with
      | Done x => do s <- omove_into s v x; Ok (s, ROut RNone)
      | Fail => Ok (s, RNoMemory)
      end
  | OAssign v w =>                         (* String.h:307-322 *)
      do x <- ovar s v; do y <- ovar s w;
      if Nat.eqb v w then Ok (s, ROut RNone) else
      do s <- odec s x; do s <- oinc s y; Ok (osetvar s v (Some y), ROut RNone)
  | OMoveAssign v w =>
      do x <- ovar s v; do y <- ovar s w;
      if Nat.eqb v w then Ok (s, ROut RNone) else
      do s <- omove_into s v y; Ok (osetvar s w (Some oempty), ROut RNone)
  | ODestroy v => do x <- ovar s v; do s <- odec s x; Ok (osetvar s v None, ROut RNone)
  | OBuffer v =>
      do (s, r) <- o_buffer f s v;
      match r with Done l => Ok (s, ROut (RMem l)) | Fail => Ok (s, RNoMemory) end
  | OAt v i => do x <- ovar s v; do c <- o_at s x i; Ok (s, ROut (RInt c))
  | OLength v => do x <- ovar s v; Ok (s, ROut (RInt (olen x)))
  | OIndexOf v c => do x <- ovar s v; do i <- o_index_of s x c; Ok (s, ROut (RInt i))
  | OCompare v w => do x <- ovar s v; do y <- ovar s w; do c <- o_compare s x y; Ok (s, ROut (RCmp c))
  end.
Definition ostep (s : ostate) (o : op) (f : oracle) : res (ostate * oout) :=
  match ostep_raw s o f with Err => Ok (s, ROut RError) | r => r end.
Fixpoint orun (s : ostate) (p : list (op * oracle)) : res (ostate * list oout) :=
  match p with
  | [] => Ok (s, [])
  | (o, f) :: p' => do (s', r) <- ostep s o f; do (s'', rs) <- orun s' p'; Ok (s'', r :: rs)
  end.
