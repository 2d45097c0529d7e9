(* What a program with running functions has to respect, and what it means not to touch a variable *)
From Verif Require Import Base RcModel RcSpec FrModel.

(* some Func or Ptr refers to the object i *)
Definition owned (s : fst) (i : nat) : Prop := exists u, refers (world_of (base s)) u i.
Definition flegal (s : fst) (o : fop) : Prop :=
  match o with
  | Do o => legal (world_of (base s)) o            (* the rule of C38 *)
  | Call u => exists i, refers (world_of (base s)) u i   (* not an empty Func *)
  | Use => match frames s with i :: _ => owned s i | [] => False end
  | Return => frames s <> []
  end.
Fixpoint flegal_run (s : fst) (os : list fop) : Prop :=
  match os with
  | [] => True
  | o :: os => flegal s o /\ forall s', fstep s o = Ok s' -> flegal_run s' os
  end.
Definition keeps_all (os : list fop) : Prop := Forall (fun o => match o with Do (PDetach _) => False | _ => True end) os.

(* the statement may change or destroy the variable g *)
Definition touches (g : nat) (o : fop) : Prop :=
  match o with
  | Do (PDestroy v) | Do (PSetNull v) | Do (PDetach v) | Do (PAssign v _) => v = g
  | Do (PMoveAssign v u) => v = g \/ u = g
  | Do (PMove _ u) | Do (PConvMove _ u) => u = g
  | _ => False
  end.
(* a local variable that refers to the object i *)
Definition local_copy (s : fst) (g i : nat) : Prop :=
  wh (world_of (base s)) g = None /\ refers (world_of (base s)) g i.
(* f is the only Func that refers to the object i *)
Definition sole (s : fst) (f i : nat) : Prop := forall u, refers (world_of (base s)) u i <-> u = f.
(* the variable m was captured by the object i *)
Definition captured (s : fst) (m i : nat) : Prop := wh (world_of (base s)) m = Some i /\ exists_var (world_of (base s)) m.

(* f (variable 0) captured next (variable 1) as variable 3; 2 is a local copy of f.  The function runs
   through the copy, assigns next to f, uses what it captured, and returns. *)
Definition setup : list fop := map Do [PRaw 1; PWrap 0 0; PRaw 0; PWrap 1 1; PAssign 3 1].
Definition through_copy : list fop := setup ++ [Do (PCopy 2 0)] ++ [Call 2; Do (PAssign 0 3); Use; Call 0; Use; Return; Return].
