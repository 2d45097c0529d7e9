From Verif Require Import Base RcModel RcSpec ComModel ComSpec PmModel.

(* ---- Ptr ---- *)
(* the same history without the failures *)
Definition pkept (es : list pop) : list op := flat_map (fun e => match e with POp o => [o] | PFail _ _ => [] end) es.
Definition pfails (es : list pop) : list bool := map (fun e => match e with POp _ => false | PFail _ _ => true end) es.
Definition plegal (w : world) (e : pop) : Prop := match e with POp o => legal w o | PFail v o => legal w (PWrap v o) end.
Fixpoint plegal_run (s : st) (es : list pop) : Prop :=
  match es with
  | [] => True
  | e :: es => plegal (world_of s) e /\ forall s' r x, pstep s e = Ok (s', r, x) -> plegal_run s' es
  end.

(* ---- ComPtr: ownership without counters ---- *)
(* a failed construction does nothing; a failed assignment leaves the variable empty *)
Definition mspec (w : own) (e : mop) : own :=
  match e with MOp o => ospec w o | MFailWrap _ _ => w | MFailSet v _ => put w v (Some None) end.
(* no other variable holds what v holds *)
Definition alone (w : own) (v : nat) : Prop :=
  forall t u, look w v = Some (Some t) -> look w u = Some (Some t) -> u = v.
Definition mlegal (w : own) (e : mop) : Prop :=
  match e with
  | MOp o => olegal w o
  | MFailWrap v o => olegal w (CWrap v o)
  | MFailSet v o => olegal w (CSetRaw v o) /\ alone w v
  end.
Fixpoint mlegal_run (w : own) (es : list mop) : Prop :=
  match es with [] => True | e :: es => mlegal w e /\ mlegal_run (mspec w e) es end.
Definition mspec_run (w : own) (es : list mop) : own := fold_left mspec es w.
Definition mfails (es : list mop) : list bool := map (fun e => match e with MOp _ => false | _ => true end) es.
(* how often o was handed to a ComPtr, and how often that failed *)
Definition offered (o : nat) (es : list mop) : nat :=
  list_sum (map (fun e => match e with
                          | MOp (CWrap _ o') | MOp (CSetRaw _ o') | MFailWrap _ o' | MFailSet _ o' => if Nat.eqb o' o then 1%nat else 0%nat
                          | _ => 0%nat end) es).
Definition lost (o : nat) (es : list mop) : nat :=
  list_sum (map (fun e => match e with MFailWrap _ o' | MFailSet _ o' => if Nat.eqb o' o then 1%nat else 0%nat | MOp _ => 0%nat end) es).
