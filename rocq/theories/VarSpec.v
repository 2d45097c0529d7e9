(* Variant as a tagged value. *)
From Verif Require Import Base VarModel.

Section spec.
  Context {V : Type} (alts : list alt) (moved : nat -> V -> V).
  Definition env := list (option (nat * V)).
  Definition able (f : alt -> bool) (i : nat) : bool := match nth_error alts i with Some a => f a | None => false end.
  Definition vspec (s : env) (o : vop V) : env * vout V :=
    let val x := match nth_error s x with Some (Some a) => Some a | _ => None end in
    match o with
    | VNew x i v => (upd s x (Some (i, v)), VUnit)
    | VCopy x y => match val y with
                   | Some (i, v) => if able copyable i then (upd s x (Some (i, v)), VUnit) else (s, VRaised)
                   | None => (s, VUnit)
                   end
    | VMove x y => match val y with
                   | Some (i, v) => if able movable i then (upd (upd s x (Some (i, v))) y (Some (i, moved i v)), VUnit) else (s, VRaised)
                   | None => (s, VUnit)
                   end
    | VDrop x => (upd s x None, VUnit)
    | VAssign x y => match val x, val y with
                     | Some (j, _), Some (i, v) =>
                         if Nat.eqb x y then (s, VUnit)
                         else if Nat.eqb i j && negb (able assignable i) then (s, VRaised)
                         else (upd s x (Some (i, v)), VUnit)
                     | _, _ => (s, VUnit)
                     end
    | VMoveAssign x y => match val x, val y with
                     | Some (j, _), Some (i, v) =>
                         if Nat.eqb x y then (s, VUnit)
                         else if Nat.eqb i j && negb (able movable i) then (s, VRaised)
                         else (upd (upd s x (Some (i, v))) y (Some (i, moved i v)), VUnit)
                     | _, _ => (s, VUnit)
                     end
    | VSet x i v | VSetPart x i v => (upd s x (Some (i, v)), VUnit)
    | VSetFrom x y i => match val y with
                        | Some (j, v) => if Nat.eqb i j then (upd s x (Some (i, v)), VUnit) else (s, VRaised)
                        | None => (s, VUnit)
                        end
    | VIndex x => (s, match val x with Some (i, _) => VNat i | None => VUnit end)
    | VGet x i => (s, match val x with Some (j, v) => if Nat.eqb i j then VVal (Some v) else VRaised | None => VUnit end)
    | VTryGet x i => (s, match val x with Some (j, v) => if Nat.eqb i j then VVal (Some v) else VVal None | None => VUnit end)
    | VApply x => (s, match val x with Some (i, v) => VCalls [(i, v)] true | None => VUnit end)
    | VTryApply x p => (s, match val x with
                           | Some (i, v) => if p i then VCalls [(i, v)] true else VCalls [] false
                           | None => VUnit
                           end)
    end.
  Fixpoint vspecs (s : env) (ops : list (vop V)) : env * list (vout V) :=
    match ops with
    | [] => (s, [])
    | o :: ops => let (s, x) := vspec s o in let (s, xs) := vspecs s ops in (s, x :: xs)
    end.
  Definition here (s : env) (x : nat) : Prop := exists a, nth_error s x = Some (Some a).
  Definition gone (s : env) (x : nat) : Prop := nth_error s x = Some None.
  Definition holds (s : env) (x i : nat) : Prop := exists v, nth_error s x = Some (Some (i, v)).
  (* constructors make variables that do not exist, everything else uses variables that do; alternatives exist.
     Assigning a variant with another alternative requires that this alternative can be copied (moved);
     x = r where r is a part of the object in x requires that x keeps its alternative. *)
  Definition vlegal (s : env) (o : vop V) : Prop :=
    match o with
    | VNew x i _ => gone s x /\ i < length alts
    | VCopy x y | VMove x y => gone s x /\ here s y
    | VDrop x | VIndex x | VApply x | VTryApply x _ | VGet x _ | VTryGet x _ => here s x
    | VSet x i _ => here s x /\ i < length alts
    | VSetFrom x y i => here s x /\ here s y /\ i < length alts
    | VSetPart x i _ => holds s x i
    | VAssign x y => here s x /\ here s y /\ forall i j, holds s x i -> holds s y j -> i <> j -> able copyable j = true
    | VMoveAssign x y => here s x /\ here s y /\ forall i j, holds s x i -> holds s y j -> i <> j -> able movable j = true
    end.
  Fixpoint vlegals (s : env) (ops : list (vop V)) : Prop :=
    match ops with [] => True | o :: ops => vlegal s o /\ vlegals (fst (vspec s o)) ops end.
  (* the alternative of x *)
  Definition alternative (s : env) (x : nat) : option nat := match nth_error s x with Some (Some (i, _)) => Some i | _ => None end.
End spec.
(* every object constructed inside of x was destroyed, as what it was, before the next one; cur is the object that
   was not destroyed yet *)
Fixpoint alternates (x : nat) (l : list life) (cur : option nat) : Prop :=
  match l with
  | [] => cur = None
  | Construct y i :: l => if Nat.eqb x y then cur = Some i /\ alternates x l None else alternates x l cur
  | Destroy y i :: l => if Nat.eqb x y then cur = None /\ alternates x l (Some i) else alternates x l cur
  end.
