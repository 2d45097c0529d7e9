(* What a program with events may observe: a trace, and the table of handlers it leads to. *)
From Verif Require Import Base LstModel EvtModel EvtSpec EvrModel.
Open Scope Z_scope.

Section spec.
  Context (V : Type) (moved : V).
  (* code that runs in the table s: operations and raises, in any order *)
  Inductive frame : list srec -> list (tev V) -> list srec -> Prop :=
  | fr_nil s : frame s [] s
  | fr_op s o r s1 t s2 : ok_step V moved s (Do o) s1 r -> frame s1 t s2 -> frame s (TOp o r :: t) s2
  | fr_raise s e v rv cs t1 s1 t2 s2 : raised e 0 v rv s cs t1 s1 -> frame s1 t2 s2 -> frame s (t1 ++ t2) s2
  (* raising e, from its i-th handler on: cs are the handlers called.  The i-th call goes to the handler that is
     then the i-th by address among those attached to e; it ends when e has at most i handlers. *)
  with raised : nat -> nat -> V -> bool -> list srec -> list nat -> list (tev V) -> list srec -> Prop :=
  | rs_end e i v (rv : bool) s l : attached_in_order s e l -> (length l <= i)%nat -> raised e i v rv s [] [TEnd e] s
  | rs_call e i v (rv : bool) s l h r t1 s1 cs t2 s2 :
      attached_in_order s e l -> nth_error l i = Some h -> nth_error s h = Some r ->
      frame s t1 s1 -> raised e (S i) (if rv then moved else v) rv s1 cs t2 s2 ->
      raised e i v rv s (h :: cs) (TCall e h (sfn r) v :: t1 ++ t2) s2.
End spec.
(* code that drops no handler *)
Inductive no_drop {V U : Type} : code V U -> Prop :=
| nd_ret : no_drop Ret
| nd_act o k : (forall h, o <> EDrop h) -> (forall r, no_drop (k r)) -> no_drop (Act o k)
| nd_raise e v rv k : no_drop k -> no_drop (Raise e v rv k)
| nd_get k : (forall u, no_drop (k u)) -> no_drop (Get k)
| nd_put u k : no_drop k -> no_drop (Put u k).
(* code that raises nothing and adds no handler *)
Inductive calm {V U : Type} : code V U -> Prop :=
| cm_ret : calm Ret
| cm_act o k : (forall e f a, o <> EAdd e f a) -> (forall r, calm (k r)) -> calm (Act o k)
| cm_get k : (forall u, calm (k u)) -> calm (Get k)
| cm_put u k : calm k -> calm (Put u k).
Definition spared {V : Type} (e : nat) (t : tev V) : Prop := match t with TOp o _ => spares e o | _ => True end.
