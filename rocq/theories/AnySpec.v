(* What is left of a sorted list and of a dictionary whose comparison is arbitrary: its answers may
   change, contradict each other or be missing. *)
From Verif Require Import Base LstModel SrtModel DctModel.
Open Scope Z_scope.

Section Spec.
  Context (A V St : Type) (cmp : St -> A -> A -> St * option comparison) (less : St -> A -> A -> St * option bool).
  (* the comparison can say that b equals a; comparing b with a can fail *)
  Definition called_equal (b a : A) : Prop := exists st st', cmp st b a = (st', Some Eq).
  Definition can_fail (b a : A) : Prop := exists st st', cmp st b a = (st', None) \/ less st b a = (st', None).

  (* sorted lists *)
  Inductive any_step : list A -> sop A -> list A -> out A -> Prop :=
  | an_add : forall l1 l2 a, any_step (l1 ++ l2) (SAdd a) (l1 ++ a :: l2) (RInt (zlen l1))
  | an_add_err : forall l b a, In b l -> can_fail b a -> any_step l (SAdd a) l RError
  | an_remove : forall l1 b l2 a, called_equal b a -> any_step (l1 ++ b :: l2) (SRemove a) (l1 ++ l2) (RBool true)
  | an_remove_none : forall l a, any_step l (SRemove a) l (RBool false)
  | an_remove_err : forall l b a, In b l -> can_fail b a -> any_step l (SRemove a) l RError
  | an_index : forall l1 b l2 a, called_equal b a -> any_step (l1 ++ b :: l2) (SIndexOf a) (l1 ++ b :: l2) (RInt (zlen l1))
  | an_index_none : forall l a, any_step l (SIndexOf a) l (RInt (-1))
  | an_index_err : forall l b a, In b l -> can_fail b a -> any_step l (SIndexOf a) l RError
  | an_contains : forall l b a, In b l -> called_equal b a -> any_step l (SContains a) l (RBool true)
  | an_contains_none : forall l a, any_step l (SContains a) l (RBool false)
  | an_contains_err : forall l b a, In b l -> can_fail b a -> any_step l (SContains a) l RError
  | an_remove_at : forall l1 b l2, any_step (l1 ++ b :: l2) (SRemoveAt (zlen l1)) (l1 ++ l2) (RBool true)
  | an_remove_at_err : forall l i, ~ 0 <= i < zlen l -> any_step l (SRemoveAt i) l RError
  | an_remove_range : forall l1 l2 l3, any_step (l1 ++ l2 ++ l3) (SRemoveRange (zlen l1) (zlen l2)) (l1 ++ l3) (RBool true)
  | an_remove_range_err : forall l i n, ~ (0 <= i /\ i + n <= zlen l) -> any_step l (SRemoveRange i n) l RError
  | an_clear : forall l, any_step l SClear [] (RBool true)
  | an_get : forall l1 b l2, any_step (l1 ++ b :: l2) (SGet (zlen l1)) (l1 ++ b :: l2) (RVal b)
  | an_get_err : forall l i, ~ 0 <= i < zlen l -> any_step l (SGet i) l RError
  | an_count : forall l, any_step l SCount l (RInt (zlen l)).
  Inductive any_run : list A -> list (sop A) -> list A -> list (out A) -> Prop :=
  | an_nil : forall l, any_run l [] l []
  | an_cons : forall l o l' r os l'' rs, any_step l o l' r -> any_run l' os l'' rs -> any_run l (o :: os) l'' (r :: rs).

  (* dictionaries: a list of pairs *)
  Definition about (o : dop A V) : option A :=
    match o with DAdd k _ | DSet k _ | DRemove k | DGet k | DContains k => Some k | _ => None end.
  Inductive pair_step : list (A * V) -> dop A V -> list (A * V) -> dout A V -> Prop :=
  | ps_fail : forall m o k b w, about o = Some k -> In (b, w) m -> can_fail b k -> pair_step m o m OError
  | ps_add : forall m1 m2 k v, pair_step (m1 ++ m2) (DAdd k v) (m1 ++ (k, v) :: m2) (OBool true)
  | ps_add_dup : forall m b w k v, In (b, w) m -> called_equal b k -> pair_step m (DAdd k v) m OError
  | ps_set_new : forall m1 m2 k v, pair_step (m1 ++ m2) (DSet k v) (m1 ++ (k, v) :: m2) (OBool true)
  | ps_set_old : forall m1 b w m2 k v, called_equal b k -> pair_step (m1 ++ (b, w) :: m2) (DSet k v) (m1 ++ (b, v) :: m2) (OBool true)
  | ps_remove : forall m1 b w m2 k, called_equal b k -> pair_step (m1 ++ (b, w) :: m2) (DRemove k) (m1 ++ m2) (OBool true)
  | ps_remove_none : forall m k, pair_step m (DRemove k) m (OBool false)
  | ps_clear : forall m, pair_step m DClear [] (OBool true)
  | ps_get : forall m b w k, In (b, w) m -> called_equal b k -> pair_step m (DGet k) m (OVal w)
  | ps_get_none : forall m k, pair_step m (DGet k) m OError
  | ps_contains : forall m b w k, In (b, w) m -> called_equal b k -> pair_step m (DContains k) m (OBool true)
  | ps_contains_none : forall m k, pair_step m (DContains k) m (OBool false)
  | ps_count : forall m, pair_step m DCount m (OInt (zlen m))
  | ps_key : forall m1 b w m2, pair_step (m1 ++ (b, w) :: m2) (DKeyAt (zlen m1)) (m1 ++ (b, w) :: m2) (OKey b)
  | ps_key_err : forall m i, ~ 0 <= i < zlen m -> pair_step m (DKeyAt i) m OError
  | ps_value : forall m1 b w m2, pair_step (m1 ++ (b, w) :: m2) (DValueAt (zlen m1)) (m1 ++ (b, w) :: m2) (OVal w)
  | ps_value_err : forall m i, ~ 0 <= i < zlen m -> pair_step m (DValueAt i) m OError.
  Inductive pair_run : list (A * V) -> list (dop A V) -> list (A * V) -> list (dout A V) -> Prop :=
  | ps_nil : forall m, pair_run m [] m []
  | ps_cons : forall m o m' r os m'' rs, pair_step m o m' r -> pair_run m' os m'' rs -> pair_run m (o :: os) m'' (r :: rs).
End Spec.

(* comparisons for examples: the state counts the comparisons; the one with number 2 throws *)
Definition count_cmp (st : nat) (a b : Z) : nat * option comparison := (S st, if Nat.eqb st 2 then None else Some (a ?= b)).
Definition count_less (st : nat) (a b : Z) : nat * option bool := (S st, if Nat.eqb st 2 then None else Some (a <? b)).
(* answers Lt and Eq in turn, whatever it is asked *)
Definition odd_cmp (st : bool) (a b : Z) : bool * option comparison := (negb st, Some (if st then Eq else Lt)).
Definition odd_less (st : bool) (a b : Z) : bool * option bool := (negb st, Some st).

(* calm stands for "comparing has not failed yet": comparisons that answer keep it *)
Definition keeps_calm {A St} (cmp : St -> A -> A -> St * option comparison) (less : St -> A -> A -> St * option bool) (calm : St -> Prop) : Prop :=
  (forall st a b st' c, calm st -> cmp st a b = (st', Some c) -> calm st') /\
  (forall st a b st' c, calm st -> less st a b = (st', Some c) -> calm st').
