(* What conversions between string types mean, on plain lists of units *)
From Verif Require Import Base UtfModel UtfSpec StrModel StrSpec UcModel.
Open Scope Z_scope.

(* The encoding of each string type *)
Definition encoding (utf16 : bool) (t : ty) : utf :=
  match t, utf16 with TW, true => U16 | TW, false => U32 | T8, _ => U8 | T16, _ => U16 | T32, _ => U32 end.

Definition same_encoding (a b : utf) : bool :=
  match a, b with W, W | U8, U8 | U16, U16 | U16BE, U16BE | U32, U32 => true | _, _ => false end.

Definition before_zero (l : list Z) : list Z := take_while (fun c => negb (c =? 0)) l.

(* Between types of the same encoding the text is kept as it is.  Otherwise the code points before the first zero are
   encoded again, up to the first one the target cannot carry. *)
Definition converted (utf16 : bool) (from to : ty) (l : list Z) : list Z :=
  let a := encoding utf16 from in let b := encoding utf16 to in
  if same_encoding a b then l
  else flat_map (units b) (take_while (usable b) (code_points a (before_zero l))).

(* ---- which programs compile ------------------------------------------- *)

Definition ty_eqb (a b : ty) : bool :=
  match a, b with TW, TW | T8, T8 | T16, T16 | T32, T32 => true | _, _ => false end.
Definition has (tys : list ty) (t : ty) (v : nat) : bool :=
  match nth_error tys v with Some t' => ty_eqb t t' | None => false end.
(* values a variable of the character type can hold *)
Definition char_ok (utf16 : bool) (t : ty) (c : Z) : bool := (0 <=? c) && (c <? unit_bound (encoding utf16 t)).
Definition chars_ok (utf16 : bool) (t : ty) (mem : list Z) : bool := forallb (char_ok utf16 t) mem.
Definition ptr_ok (utf16 : bool) (t : ty) (p : option (list Z)) : bool :=
  match p with Some mem => chars_ok utf16 t mem | None => true end.

Definition expr_typed (utf16 : bool) (tys : list ty) (t : ty) (e : expr) : bool :=
  match e with
  | EEmpty => true
  | ELit p | EUnmanaged p => ptr_ok utf16 t p
  | ETakeOver mem _ | ECopyFrom mem _ => chars_ok utf16 t mem
  | EChar c => char_ok utf16 t c
  | ECopy w | EMove w | ELeft w _ | ERight w _ | ESub w _ _ | ERemove w _ _ => has tys t w
  | EInsert w _ x | EConcat w x => has tys t w && has tys t x
  | EConcatLit w p | ELitConcat p w => has tys t w && ptr_ok utf16 t p
  end.
Definition op_typed (utf16 : bool) (tys : list ty) (o : op) : bool :=
  match o with
  | OInit v e | OSet v e => match nth_error tys v with Some t => expr_typed utf16 tys t e | None => false end
  | OAssign v w | OMoveAssign v w | OCompare v w => match nth_error tys v with Some t => has tys t w | None => false end
  | ODestroy v | OBuffer v | OAt v _ | OLength v => match nth_error tys v with Some _ => true | None => false end
  | OIndexOf v c => match nth_error tys v with Some t => char_ok utf16 t c | None => false end
  end.
(* there is a function between any two different types *)
Definition uop_typed (utf16 : bool) (tys : list ty) (o : uop) : bool :=
  match o with
  | UStr o => op_typed utf16 tys o
  | UInit d w | USet d w =>
      match nth_error tys d, nth_error tys w with Some a, Some b => negb (ty_eqb a b) | _, _ => false end
  end.

(* ---- meaning of programs ---------------------------------------------- *)

Definition sustep (utf16 : bool) (tys : list ty) (vs : values) (o : uop) : res (values * sout) :=
  match o with
  | UStr o => sstep vs o
  | UInit d w =>
      do to <- ty_of tys d; do from <- ty_of tys w;
      match nth_error vs d with
      | Some None => do l <- sread vs w; Ok (upd vs d (Some (converted utf16 from to l)), SNone)
      | _ => UB
      end
  | USet d w =>
      do to <- ty_of tys d; do from <- ty_of tys w;
      do _ <- sread vs d; do l <- sread vs w; Ok (upd vs d (Some (converted utf16 from to l)), SNone)
  end.
Fixpoint surun (utf16 : bool) (tys : list ty) (vs : values) (os : list uop) : res (values * list sout) :=
  match os with
  | [] => Ok (vs, [])
  | o :: os => do (vs, r) <- sustep utf16 tys vs o; do (vs, rs) <- surun utf16 tys vs os; Ok (vs, r :: rs)
  end.

(* every string holds characters of its type *)
Definition in_type (utf16 : bool) (tys : list ty) (vs : values) : Prop :=
  Forall2 (fun t v => match v with Some l => chars_ok utf16 t l = true | None => True end) tys vs.

(* text of code points [cps] as a string of type t *)
Definition text (utf16 : bool) (t : ty) (cps : list Z) : list Z := flat_map (units (encoding utf16 t)) cps.

(* converting through a list of types, one after the other *)
Fixpoint through (utf16 : bool) (from : ty) (path : list ty) (l : list Z) : list Z :=
  match path with [] => l | t :: path => through utf16 t path (converted utf16 from t l) end.
