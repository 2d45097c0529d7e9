(* Nullable as an optional value, with exceptions of T: a failed assignment leaves what the assignment of T left, a
   failed construction leaves null. *)
From Verif Require Import Base TupModel TupSpec NulModel NulSpec ExnModel.

Section spec.
  Context {V : Type} (copy_assignable move_assignable : bool) (cmpv : V -> V -> ord) (eqv : V -> V -> bool).
  Definition failed (mv : bool) (a : option V) (v : V) : option V :=
    match a with Some _ => if (if mv then move_assignable else copy_assignable) then Some v else None | None => None end.
  Definition xnspec (s : @env V) (o : xnop V) : @env V * xnout V :=
    let val x := match nth_error s x with Some (Some a) => a | _ => None end in
    match o with
    | NPlain o => (fst (nspec cmpv eqv s o), NRet (snd (nspec cmpv eqv s o)))
    | NNewThrows x => (s, NThrown)
    | NSetThrows mv x v => (upd s x (Some (failed mv (val x) v)), NThrown)
    | NAssignThrows mv x y v =>
        match val y with
        | None => (upd s x (Some None), NRet NUnit)
        | Some _ => if Nat.eqb x y then (s, NRet NUnit) else (upd s x (Some (failed mv (val x) v)), NThrown)
        end
    end.
  Fixpoint xnspecs (s : @env V) (ops : list (xnop V)) : @env V * list (xnout V) :=
    match ops with
    | [] => (s, [])
    | o :: ops => let (s, x) := xnspec s o in let (s, xs) := xnspecs s ops in (s, x :: xs)
    end.
  Definition xnlegal (s : @env V) (o : xnop V) : Prop :=
    match o with
    | NPlain o => nlegal copy_assignable s o
    | NNewThrows x => gone s x
    | NSetThrows _ x _ => here s x
    | NAssignThrows _ x y _ => here s x /\ here s y
    end.
  Fixpoint xnlegals (s : @env V) (ops : list (xnop V)) : Prop :=
    match ops with [] => True | o :: ops => xnlegal s o /\ xnlegals (fst (xnspec s o)) ops end.
End spec.
