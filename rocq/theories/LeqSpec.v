(* Searching a sequence with an equality whose answers may change and may be missing. *)
From Verif Require Import Base LstModel LeqModel.
Open Scope Z_scope.

Section Spec.
  Context (A K St : Type) (eqv : St -> A -> K -> St * option bool).
  (* the elements of l, front to back, are each compared once with a and found different *)
  Inductive denied (a : K) : St -> list A -> St -> Prop :=
  | dn_nil : forall st, denied a st [] st
  | dn_cons : forall st b st1 l st2, eqv st b a = (st1, Some false) -> denied a st1 l st2 -> denied a st (b :: l) st2.
  (* what a search finds: the element between l1 and l2, nothing, or it is left by an exception.  The state says which comparisons were made. *)
  Inductive finding := At (l1 : list A) (b : A) (l2 : list A) | Nowhere | Thrown.
  Inductive searched (l : list A) (a : K) (st : St) : finding -> St -> Prop :=
  | sd_at : forall l1 b l2 st1 st2, l = l1 ++ b :: l2 -> denied a st l1 st1 -> eqv st1 b a = (st2, Some true) -> searched l a st (At l1 b l2) st2
  | sd_nowhere : forall st1, denied a st l st1 -> searched l a st Nowhere st1
  | sd_thrown : forall l1 b l2 st1 st2, l = l1 ++ b :: l2 -> denied a st l1 st1 -> eqv st1 b a = (st2, None) -> searched l a st Thrown st2.
  Definition position (f : finding) : option Z := match f with At l1 _ _ => Some (zlen l1) | Nowhere => Some (-1) | Thrown => None end.

  Inductive eq_step : list A -> St -> eop A K -> list A -> St -> out A -> Prop :=
  | eq_add : forall l st a, eq_step l st (EAdd a) (l ++ [a]) st (RInt (zlen l))
  | eq_insert : forall l1 l2 st a, eq_step (l1 ++ l2) st (EInsert (zlen l1) a) (l1 ++ a :: l2) st (RInt (zlen l1))
  | eq_insert_err : forall l st i a, ~ 0 <= i <= zlen l -> eq_step l st (EInsert i a) l st RError
  | eq_set : forall l1 b l2 st a, eq_step (l1 ++ b :: l2) st (ESet (zlen l1) a) (l1 ++ a :: l2) st (RBool true)
  | eq_set_err : forall l st i a, ~ 0 <= i < zlen l -> eq_step l st (ESet i a) l st RError
  | eq_remove_at : forall l1 b l2 st, eq_step (l1 ++ b :: l2) st (ERemoveAt (zlen l1)) (l1 ++ l2) st (RBool true)
  | eq_remove_at_err : forall l st i, ~ 0 <= i < zlen l -> eq_step l st (ERemoveAt i) l st RError
  | eq_clear : forall l st, eq_step l st EClear [] st (RBool true)
  | eq_get : forall l1 b l2 st, eq_step (l1 ++ b :: l2) st (EGet (zlen l1)) (l1 ++ b :: l2) st (RVal b)
  | eq_get_err : forall l st i, ~ 0 <= i < zlen l -> eq_step l st (EGet i) l st RError
  | eq_count : forall l st, eq_step l st ECount l st (RInt (zlen l))
  | eq_index : forall l a st st' l1 b l2, searched l a st (At l1 b l2) st' -> eq_step l st (EIndexOf a) l st' (RInt (zlen l1))
  | eq_index_none : forall l a st st', searched l a st Nowhere st' -> eq_step l st (EIndexOf a) l st' (RInt (-1))
  | eq_index_err : forall l a st st', searched l a st Thrown st' -> eq_step l st (EIndexOf a) l st' RError
  | eq_contains : forall l a st st' l1 b l2, searched l a st (At l1 b l2) st' -> eq_step l st (EContains a) l st' (RBool true)
  | eq_contains_none : forall l a st st', searched l a st Nowhere st' -> eq_step l st (EContains a) l st' (RBool false)
  | eq_contains_err : forall l a st st', searched l a st Thrown st' -> eq_step l st (EContains a) l st' RError
  | eq_remove : forall l a st st' l1 b l2, searched l a st (At l1 b l2) st' -> eq_step l st (ERemove a) (l1 ++ l2) st' (RBool true)
  | eq_remove_none : forall l a st st', searched l a st Nowhere st' -> eq_step l st (ERemove a) l st' (RBool false)
  | eq_remove_err : forall l a st st', searched l a st Thrown st' -> eq_step l st (ERemove a) l st' RError.
  Inductive eq_run : list A -> St -> list (eop A K) -> list A -> St -> list (out A) -> Prop :=
  | eq_nil : forall l st, eq_run l st [] l st []
  | eq_cons : forall l st o l1 st1 r os l2 st2 rs, eq_step l st o l1 st1 r -> eq_run l1 st1 os l2 st2 rs -> eq_run l st (o :: os) l2 st2 (r :: rs).
End Spec.
Arguments At {A}. Arguments Nowhere {A}. Arguments Thrown {A}.
