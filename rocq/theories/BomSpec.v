From Verif Require Import Base BomModel.
Open Scope Z_scope.

(* maps as total functions from bytes *)
Definition maps := nat -> Z -> option nat.
Definition bspec1 (f : maps) (o : bop) : maps * option word :=
  match o with
  | BSet m i v => (fun m' i' => if (Nat.eqb m m' && (i =? i'))%bool then v else f m' i', None)
  | BGet m i => (f, Some (val (f m i)))
  | BCreate => (f, None)
  end.
Fixpoint bspec (f : maps) (ops : list bop) : list (option word) :=
  match ops with [] => [] | o :: ops => let (f, x) := bspec1 f o in x :: bspec f ops end.
Definition empty_maps : maps := fun _ _ => None.
(* a map that exists, a byte *)
Definition legal (n : nat) (o : bop) : Prop :=
  match o with BSet m i _ | BGet m i => (m < n)%nat /\ 0 <= i < 256 | BCreate => True end.
