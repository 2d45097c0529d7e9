From Coq Require Export Permutation.
From Verif Require Import Base QstModel QstSpec.
Open Scope Z_scope.

(* what is left of l when an exception ends the call: the same elements, or one element x replaced by what a failed
   assignment between x and another element y leaves *)
Definition wreck {T : Type} (torn : T -> T -> T) (l l' : list T) : Prop :=
  Permutation l l' \/
  exists x y rest z, Permutation l (x :: y :: rest) /\ Permutation l' (z :: y :: rest) /\ (z = torn x y \/ z = torn y x).

(* something the call may do with the elements of l throws *)
Definition trouble {T St : Type} (orderer : St -> T -> T -> St * answer) (construct : St -> T -> St * bool)
  (assign : St -> T -> T -> St * bool) (l : list T) : Prop :=
  no_answer orderer l \/ (exists s x, In x l /\ snd (construct s x) = true) \/
  (exists s x y, In x l /\ In y l /\ snd (assign s x y) = true).

(* [calm] holds as long as nothing has thrown *)
Definition copies_calm {T St : Type} (construct : St -> T -> St * bool) (assign : St -> T -> T -> St * bool) (calm : St -> Prop) : Prop :=
  (forall s x, calm s -> snd (construct s x) = false -> calm (fst (construct s x))) /\
  (forall s x y, calm s -> snd (assign s x y) = false -> calm (fst (assign s x y))).

(* copies that never throw and have no effect *)
Definition plain_construct {T St : Type} (s : St) (_ : T) : St * bool := (s, false).
Definition plain_assign {T St : Type} (s : St) (_ _ : T) : St * bool := (s, false).

(* a comparison that is a function, and the n-th copy (from 0) throws *)
Definition by_comparison {T : Type} (c : T -> T -> comparison) (s : nat) (x y : T) : nat * answer := (s, Is (c x y)).
Definition nth_construct {T : Type} (n s : nat) (_ : T) : nat * bool := (S s, Nat.eqb s n).
Definition nth_assign {T : Type} (n s : nat) (_ _ : T) : nat * bool := (S s, Nat.eqb s n).
