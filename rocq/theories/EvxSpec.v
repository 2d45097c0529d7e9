(* What a program with events and exceptions may observe: a trace, the exception it ends with, and the table of handlers. *)
From Verif Require Import Base LstModel EvtModel EvtSpec EvxModel.
Open Scope Z_scope.

Section spec.
  Context (V : Type) (moved : V) (X : Type).
  Notation xev := (xev V X).
  (* code that runs in the table s: operations, raises, throws and catches, in any order.  The option is the exception by
     which the code is left. *)
  Inductive xframe : list srec -> list xev -> option X -> list srec -> Prop :=
  | xf_nil s : xframe s [] None s
  | xf_throw s x : xframe s [XThrown x] (Some x) s
  | xf_op s o r s1 t x s2 : ok_step V moved s (Do o) s1 r -> xframe s1 t x s2 -> xframe s (XOp o r :: t) x s2
  | xf_raise s e v rv cs t x s1 : xraised e 0 v rv s cs t x s1 -> xframe s t x s1
  | xf_seq s t1 s1 t2 x s2 : xframe s t1 None s1 -> xframe s1 t2 x s2 -> xframe s (t1 ++ t2) x s2
  | xf_catch s t1 x s1 t2 y s2 : xframe s t1 (Some x) s1 -> xframe s1 t2 y s2 -> xframe s (t1 ++ XCatch x :: t2) y s2
  (* raising e, from its i-th handler on: cs are the handlers called.  A callback that is left by an exception is the last;
     the exception leaves the raise too. *)
  with xraised : nat -> nat -> V -> bool -> list srec -> list nat -> list xev -> option X -> list srec -> Prop :=
  | xr_end e i v (rv : bool) s l : attached_in_order s e l -> (length l <= i)%nat -> xraised e i v rv s [] [XEnd e] None s
  | xr_call e i v (rv : bool) s l h r t1 s1 cs t2 x s2 :
      attached_in_order s e l -> nth_error l i = Some h -> nth_error s h = Some r ->
      xframe s t1 None s1 -> xraised e (S i) (if rv then moved else v) rv s1 cs t2 x s2 ->
      xraised e i v rv s (h :: cs) (XCall e h (sfn r) v :: t1 ++ t2) x s2
  | xr_throw e i v (rv : bool) s l h r t1 x s1 :
      attached_in_order s e l -> nth_error l i = Some h -> nth_error s h = Some r ->
      xframe s t1 (Some x) s1 -> xraised e i v rv s [h] (XCall e h (sfn r) v :: t1 ++ [XLeft e x]) (Some x) s1.
  Definition xspared (e : nat) (t : xev) : Prop := match t with XOp o _ => spares e o | _ => True end.
  Definition throws (t : list xev) : list xev := filter (fun y => match y with XThrown _ => true | _ => false end) t.
  Definition catches (t : list xev) : list xev := filter (fun y => match y with XCatch _ => true | _ => false end) t.
End spec.
(* code that drops no handler *)
Inductive xno_drop {V U X : Type} : xcode V U X -> Prop :=
| xn_ret : xno_drop XRet
| xn_act o k : (forall h, o <> EDrop h) -> (forall r, xno_drop (k r)) -> xno_drop (XAct o k)
| xn_raise e v rv k : xno_drop k -> xno_drop (XRaise e v rv k)
| xn_throw x : xno_drop (XThrow x)
| xn_try b h k : xno_drop b -> (forall x, xno_drop (h x)) -> xno_drop k -> xno_drop (XTry b h k)
| xn_get k : (forall u, xno_drop (k u)) -> xno_drop (XGet k)
| xn_put u k : xno_drop k -> xno_drop (XPut u k).
(* code that raises nothing and adds no handler *)
Inductive xcalm {V U X : Type} : xcode V U X -> Prop :=
| xc_ret : xcalm XRet
| xc_act o k : (forall e f a, o <> EAdd e f a) -> (forall r, xcalm (k r)) -> xcalm (XAct o k)
| xc_throw x : xcalm (XThrow x)
| xc_try b h k : xcalm b -> (forall x, xcalm (h x)) -> xcalm k -> xcalm (XTry b h k)
| xc_get k : (forall u, xcalm (k u)) -> xcalm (XGet k)
| xc_put u k : xcalm k -> xcalm (XPut u k).
