(* Model of the named conversion functions on string objects: Source/Strings/Conversion.cpp:325-368, in both
   configurations of wchar_t.  Strings are those of StrModel.v, readers those of UtfModel.v.

   Simplifications: one heap holds the blocks of all four string types, and the static zero of each type is the same
   block 0 (nothing compares addresses of blocks of different types). *)
From Verif Require Import Base UtfModel StrModel.
Open Scope Z_scope.

(* WString, U8String, U16String, U32String : Source/Strings/String.h:519-525 *)
Inductive ty := TW | T8 | T16 | T32.

(* Which encoding the units of a string type are read with.  [utf16] = VCZH_WCHAR_UTF16 is defined, otherwise
   VCZH_WCHAR_UTF32 (Source/Basic.h:35-39).  UtfConversion<wchar_t> : Conversion.cpp:26-45 passes on to
   UtfConversion<char16_t> resp. copies 32 bits. *)
Definition enc (utf16 : bool) (t : ty) : utf :=
  match t with TW => if utf16 then U16 else W | T8 => U8 | T16 => U16 | T32 => U32 end.

(* Which functions are UnsafeCastFrom and which ConvertStringDirect: Conversion.cpp:339-345 and 359-365 *)
Definition is_cast (utf16 : bool) (from to : ty) : bool :=
  match from, to with
  | TW, T16 | T16, TW => utf16
  | TW, T32 | T32, TW => negb utf16
  | _, _ => false
  end.

(* UnsafeCastFrom : String.h:266-279 *)
Definition cast (h : heap) (s : str) : res (heap * str) :=
  if len s =? 0 then Ok (h, empty) else
  let x := mkStr (buf s) (managed s) (start s) (len s) (real s) in
  do h <- inc h x; Ok (h, x).

(* source.Buffer() on the string in variable w.  The converter reads initialised characters only: reading on after the
   last of them is reading outside [known]. *)
Fixpoint known (l : list (option Z)) : list Z :=
  match l with Some x :: l' => x :: known l' | _ => [] end.
Definition call_buffer (s : state) (w : nat) : res (state * list Z) :=
  do x <- var s w;
  do (h, x', l) <- buffer (hp s) x;
  Ok (setvar s h w (Some x'), known l).

(* the number of characters a reader can produce from a block, with room: fuel for the loops *)
Definition enough (mem : list Z) : nat := (6 * length mem + 7)%nat.

(* ConvertStringDirect : Conversion.cpp:328-338 *)
Definition convert_direct (s : state) (from to : utf) (w : nat) : res (state * str) :=
  do (s, mem) <- call_buffer s w;
  do n <- size_loop (enough mem) (mk_reader from to (CStr mem 0)) 0;
  if n <? 1 then Ok (s, empty) else
  do (s, mem) <- call_buffer s w;
  do (d, _) <- write_loop (enough mem) (mk_reader from to (CStr mem 0)) (repeat 0 (Z.to_nat n)) 0 n 0;
  do (h, x) <- take_over (hp s) d (n - 1);
  Ok (mkState h (vars s), x).

(* the function from type [from] to type [to], applied to variable w *)
Definition conv (utf16 : bool) (from to : ty) (s : state) (w : nat) : res (state * str) :=
  if is_cast utf16 from to then
    do x <- var s w; do (h, y) <- cast (hp s) x; Ok (mkState h (vars s), y)
  else convert_direct s (enc utf16 from) (enc utf16 to) w.

(* Programs: string statements and conversions.  The types of the variables pick the function. *)
Inductive uop :=
| UStr (o : op)
| UInit (d w : nat)               (* To d = fromto(w); *)
| USet (d w : nat).               (* d = fromto(w); *)

Definition ty_of (tys : list ty) (v : nat) : res ty :=
  match nth_error tys v with Some t => Ok t | None => UB end.

Definition ustep (utf16 : bool) (tys : list ty) (s : state) (o : uop) : res (state * out) :=
  match o with
  | UStr o => step s o
  | UInit d w =>
      do to <- ty_of tys d; do from <- ty_of tys w;
      match nth_error (vars s) d with
      | Some None => do (s, x) <- conv utf16 from to s w; Ok (setvar s (hp s) d (Some x), RNone)
      | _ => UB
      end
  | USet d w =>
      do to <- ty_of tys d; do from <- ty_of tys w;
      do _ <- var s d;
      do (s, x) <- conv utf16 from to s w;
      do s <- move_into s d x;
      do h <- dec (hp s) empty;
      Ok (mkState h (vars s), RNone)
  end.

Fixpoint urun (utf16 : bool) (tys : list ty) (s : state) (os : list uop) : res (state * list out) :=
  match os with
  | [] => Ok (s, [])
  | o :: os => do (s, r) <- ustep utf16 tys s o; do (s, rs) <- urun utf16 tys s os; Ok (s, r :: rs)
  end.
