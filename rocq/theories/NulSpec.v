(* Nullable as an optional value. *)
From Verif Require Import Base TupModel TupSpec NulModel.

Section spec.
  Context {V : Type} (copy_assignable : bool) (cmpv : V -> V -> ord) (eqv : V -> V -> bool).
  (* null below every value, values by their comparison *)
  Definition ocmp (a b : option V) : ord :=
    match a, b with
    | Some u, Some v => cmpv u v
    | Some _, None => Greater
    | None, Some _ => Less
    | None, None => Equal
    end.
  Definition oeq (a b : option V) : bool :=
    match a, b with Some u, Some v => eqv u v | None, None => true | _, _ => false end.
  (* the variables: not existing, or an optional value *)
  Definition env := list (option (option V)).
  Definition nspec (s : env) (o : nop V) : env * nout V :=
    let val x := match nth_error s x with Some (Some a) => a | _ => None end in
    let set x a := upd s x (Some a) in
    match o with
    | NNew x => (set x None, NUnit)
    | NValue x v => (set x (Some v), NUnit)
    | NCopy x y => (set x (val y), NUnit)
    | NMove x y => (upd (set x (val y)) y (Some None), NUnit)
    | NDrop x => (upd s x None, NUnit)
    | NReset x => (set x None, NUnit)
    | NSet x v | NSetMove x v => (set x (Some v), NUnit)
    | NSetFrom x y => match val y with Some v => (set x (Some v), NUnit) | None => (s, NRaised) end
    | NAssign x y => (set x (val y), NUnit)
    | NMoveAssign x y => ((if Nat.eqb x y then s else upd (set x (val y)) y (Some None)), NUnit)
    | NBool x => (s, NB (match val x with Some _ => true | None => false end))
    | NGet x => (s, match val x with Some v => NV v | None => NRaised end)
    | NCompare x y => (s, NO (ocmp (val x) (val y)))
    | NEqual x y => (s, NB (oeq (val x) (val y)))
    end.
  Fixpoint nspecs (s : env) (ops : list (nop V)) : env * list (nout V) :=
    match ops with
    | [] => (s, [])
    | o :: ops => let (s, x) := nspec s o in let (s, xs) := nspecs s ops in (s, x :: xs)
    end.
  (* constructors make variables that do not exist, everything else uses variables that do.
     x = x.Value() is excluded when T cannot be copy assigned. *)
  Definition here (s : env) (x : nat) : Prop := exists a, nth_error s x = Some (Some a).
  Definition gone (s : env) (x : nat) : Prop := nth_error s x = Some None.
  Definition nlegal (s : env) (o : nop V) : Prop :=
    match o with
    | NNew x | NValue x _ => gone s x
    | NCopy x y | NMove x y => gone s x /\ here s y
    | NDrop x | NReset x | NSet x _ | NSetMove x _ | NBool x | NGet x => here s x
    | NSetFrom x y => here s x /\ here s y /\ (copy_assignable = true \/ x <> y)
    | NAssign x y | NMoveAssign x y | NCompare x y | NEqual x y => here s x /\ here s y
    end.
  Fixpoint nlegals (s : env) (ops : list (nop V)) : Prop :=
    match ops with [] => True | o :: ops => nlegal s o /\ nlegals (fst (nspec s o)) ops end.
  (* whether x holds a value *)
  Definition alive (s : env) (x : nat) : bool := match nth_error s x with Some (Some (Some _)) => true | _ => false end.
End spec.
(* construction and destruction of the object inside of x alternate, starting with construction (the log is
   latest first); [alive] is whether the latest one was a construction *)
Fixpoint alternates (x : nat) (l : list life) (alive : bool) : Prop :=
  match l with
  | [] => alive = false
  | Construct y :: l => if Nat.eqb x y then alive = true /\ alternates x l false else alternates x l alive
  | Destroy y :: l => if Nat.eqb x y then alive = false /\ alternates x l true else alternates x l alive
  end.
