(* How a comparison is measured, and when it is an ordinary function. *)
From Coq Require Export Permutation Sorted.
From Verif Require Import Base QstModel.
Open Scope Z_scope.

(* a comparison that counts how often it is called *)
Definition counting {T : Type} (f : T -> T -> answer) (n : Z) (x y : T) : Z * answer := (n + 1, f x y).
Definition as_answer (o : option comparison) : answer := match o with Some c => Is c | None => Unordered end.
(* a comparison without state, given by a function; None is "unordered" *)
Definition stateless {T : Type} (cmp : T -> T -> option comparison) (_ : unit) (x y : T) : unit * answer :=
  (tt, as_answer (cmp x y)).

(* [calls_bound measure]: the measure of the state grows by at most one per call *)
Definition calls_bound {T St : Type} (orderer : St -> T -> T -> St * answer) (measure : St -> Z) : Prop :=
  forall s x y, measure (fst (orderer s x y)) <= measure s + 1.

(* [calm] holds as long as no call has thrown: a comparison that does not throw keeps it *)
Definition stays_calm {T St : Type} (orderer : St -> T -> T -> St * answer) (calm : St -> Prop) : Prop :=
  forall s x y, calm s -> snd (orderer s x y) <> Raises -> calm (fst (orderer s x y)).

(* some call on two elements of l does not answer with an ordering *)
Definition no_answer {T St : Type} (orderer : St -> T -> T -> St * answer) (l : list T) : Prop :=
  exists s x y, In x l /\ In y l /\ forall c, snd (orderer s x y) <> Is c.

Definition strictly_ascending {T : Type} (c : T -> T -> comparison) (l : list T) : Prop :=
  StronglySorted (fun a b => c a b = Lt) l.

(* a sort is stable if elements that compare equal keep their order *)
Definition keeps_order {T : Type} (c : T -> T -> comparison) (l l' : list T) : Prop :=
  forall x, filter (fun y => match c x y with Eq => true | _ => false end) l =
            filter (fun y => match c x y with Eq => true | _ => false end) l'.

(* for an example: inconsistent answers, and an exception at the fifth call *)
Definition moody (n : Z) (x y : Z) : Z * answer :=
  (n + 1, if n =? 4 then Raises else Is (if n mod 2 =? 0 then Lt else Gt)).
