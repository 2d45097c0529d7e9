(* What an allocator promises: an append-only list of objects with distinct addresses. *)
From Verif Require Import Base PoaModel.

Section spec.
  Context {V : Type} (d : V).
  (* the objects created so far, in order: address and contents *)
  Definition objs := list (ptr * V).
  Inductive aspec : objs -> pop V -> pout V -> objs -> Prop :=
  | as_create : forall s p, ~ In p (map fst s) -> aspec s PCreate (PPtr (Some p)) (s ++ [(p, d)])
  | as_get : forall s i p v, nth_error s i = Some (p, v) -> aspec s (PGet (Z.of_nat i)) (PPtr (Some p)) s
  | as_get_none : forall s i, (length s <= i)%nat -> aspec s (PGet (Z.of_nat i)) (PPtr None) s
  | as_write : forall s k p v' v, nth_error s k = Some (p, v') -> aspec s (PWrite k v) PUnit (upd s k (p, v))
  | as_read : forall s k p v, nth_error s k = Some (p, v) -> aspec s (PRead k) (PVal v) s
  | as_other : forall s n, aspec s (POther n) PUnit s.
  Inductive aspecs : objs -> list (pop V) -> list (pout V) -> objs -> Prop :=
  | ass_nil : forall s, aspecs s [] [] s
  | ass_cons : forall s o x s1 ops xs s2, aspec s o x s1 -> aspecs s1 ops xs s2 -> aspecs s (o :: ops) (x :: xs) s2.
  (* n objects were created before: the client asks for a nonnegative index and uses pointers it was given *)
  Definition ok1 (n : nat) (o : pop V) : Prop :=
    match o with PGet i => (0 <= i)%Z | PWrite k _ | PRead k => (k < n)%nat | _ => True end.
  Fixpoint oks (n : nat) (ops : list (pop V)) : Prop :=
    match ops with
    | [] => True
    | o :: ops => ok1 n o /\ oks (match o with PCreate => S n | _ => n end) ops
    end.
End spec.
