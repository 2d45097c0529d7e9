(* What a sorted list promises.  The position among equal elements is left open, so the
   specification is a relation. *)
From Coq Require Export Sorted.
From Verif Require Import Base LstModel LstSpec SrtModel.
Open Scope Z_scope.

(* a total preorder *)
Record total_order {A : Type} (c : A -> A -> comparison) : Prop := {
  to_opp : forall a b, c b a = CompOpp (c a b);
  to_trans : forall a b d, c a b <> Gt -> c b d <> Gt -> c a d <> Gt }.

Section Spec.
  Variable A : Type.
  Variable c : A -> A -> comparison.
  Definition le (a b : A) : Prop := c a b <> Gt.
  Definition ascending (l : list A) : Prop := StronglySorted le l.
  Definition same (a b : A) : Prop := c a b = Eq.

  Inductive ok_step : list A -> sop A -> list A -> out A -> Prop :=
  | ok_add : forall l1 l2 a, ok_step (l1 ++ l2) (SAdd a) (l1 ++ a :: l2) (RInt (zlen l1))
  | ok_remove : forall l1 b l2 a, same b a -> ok_step (l1 ++ b :: l2) (SRemove a) (l1 ++ l2) (RBool true)
  | ok_remove_none : forall l a, (forall b, In b l -> ~ same b a) -> ok_step l (SRemove a) l (RBool false)
  | ok_remove_at : forall l1 b l2, ok_step (l1 ++ b :: l2) (SRemoveAt (zlen l1)) (l1 ++ l2) (RBool true)
  | ok_remove_at_err : forall l i, ~ 0 <= i < zlen l -> ok_step l (SRemoveAt i) l RError
  | ok_remove_range : forall l1 l2 l3, ok_step (l1 ++ l2 ++ l3) (SRemoveRange (zlen l1) (zlen l2)) (l1 ++ l3) (RBool true)
  | ok_remove_range_err : forall l i n, ~ (0 <= i /\ i + n <= zlen l) -> ok_step l (SRemoveRange i n) l RError
  | ok_clear : forall l, ok_step l SClear [] (RBool true)
  | ok_get : forall l1 b l2, ok_step (l1 ++ b :: l2) (SGet (zlen l1)) (l1 ++ b :: l2) (RVal b)
  | ok_get_err : forall l i, ~ 0 <= i < zlen l -> ok_step l (SGet i) l RError
  | ok_count : forall l, ok_step l SCount l (RInt (zlen l))
  | ok_index : forall l1 b l2 a, same b a -> ok_step (l1 ++ b :: l2) (SIndexOf a) (l1 ++ b :: l2) (RInt (zlen l1))
  | ok_index_none : forall l a, (forall b, In b l -> ~ same b a) -> ok_step l (SIndexOf a) l (RInt (-1))
  | ok_contains : forall l b a, In b l -> same b a -> ok_step l (SContains a) l (RBool true)
  | ok_contains_none : forall l a, (forall b, In b l -> ~ same b a) -> ok_step l (SContains a) l (RBool false).

  (* RemoveRange with a negative length, or one whose end is not representable: see C18 *)
  Definition client_ok (o : sop A) : Prop :=
    match o with SRemoveRange i n => 0 <= n /\ i + n < 2 ^ 63 | _ => True end.

  (* a history: every step is as above and leaves the list ascending *)
  Inductive ok_run : list A -> list (sop A) -> list A -> list (out A) -> Prop :=
  | ok_nil : forall l, ok_run l [] l []
  | ok_cons : forall l o l' r os l'' rs,
      ok_step l o l' r -> ascending l' -> ok_run l' os l'' rs -> ok_run l (o :: os) l'' (r :: rs).
End Spec.
