(* LazyList::OrderBy, OrderByKey, OrderBySelf on lazy lists: Source/Collections/Operation.h.
   The new List that CopyFrom fills is the list of its elements (C37); SortLambda works on
   its buffer (QsModel). *)
From Verif Require Import Base LzyModel QsModel.
Open Scope Z_scope.

(* OrderBy(f) : Operation.h:396-408 *)
Definition order_by_lazy (fuel : nat) {A : Type} (cmp : A -> A -> option comparison) (p : pipe A) : res (pipe A) :=
  do sorted <- elements fuel p;
  do sorted <- order_by A cmp sorted;
  Ok (PList sorted).
(* OrderByKey(f) : Operation.h:424-436 *)
Definition order_by_key_lazy (fuel : nat) {A K : Type} (f : A -> K) (cmp : K -> K -> option comparison) (p : pipe A) : res (pipe A) :=
  order_by_lazy fuel (fun a b => cmp (f a) (f b)) p.
(* OrderBySelf() : Operation.h:448-460; cmp is <=> of the element type *)
Definition order_by_self_lazy (fuel : nat) {A : Type} (cmp : A -> A -> option comparison) (p : pipe A) : res (pipe A) :=
  order_by_lazy fuel cmp p.
