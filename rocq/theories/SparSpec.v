(* Strings are values: the specification of C60. *)
From Verif Require Import Base MbSpec SparModel.
Open Scope Z_scope.

Definition ztake (i : Z) (l : list Z) := firstn (Z.to_nat i) l.
Definition zdrop (i : Z) (l : list Z) := skipn (Z.to_nat i) l.
Fixpoint lexi (a b : list Z) : comparison :=
  match a, b with
  | [], [] => Eq | [], _ => Lt | _, [] => Gt
  | x :: a, y :: b => match x ?= y with Eq => lexi a b | c => c end
  end.
Definition value (vs sh : list (list Z)) (x : src) : option (list Z) :=
  match x with Own w => nth_error vs w | Sh s => nth_error sh s end.
(* what an operation does to the values of the variables of its thread *)
Definition seval (sh vs : list (list Z)) (o : op) : list (list Z) * out :=
  let bad := (vs, Nothing) in
  let fail := (vs, Failed) in
  let set v (l : list Z) := (upd vs v l, Done) in
  let at_ x (f : list Z -> list (list Z) * out) := match value vs sh x with Some l => f l | None => bad end in
  let on v (r : list (list Z) * out) := match nth_error vs v with Some _ => r | None => bad end in
  match o with
  | OText v l => on v (set v (before_zero l))
  | OClear v => on v (set v [])
  | OCopy v x => on v (at_ x (set v))
  | OMove v w => on v (at_ (Own w) (fun l => if Nat.eqb v w then (vs, Done) else (upd (upd vs v l) w [], Done)))
  | OSub v x i n => on v (at_ x (fun l => if (0 <=? i) && (i <=? zlen l) && (0 <=? i + n) && (i + n <=? zlen l) then set v (ztake n (zdrop i l)) else fail))
  | OInsert v x i y => on v (at_ x (fun l => at_ y (fun m => if (0 <=? i) && (i <=? zlen l) then set v (ztake i l ++ m ++ zdrop i l) else fail)))
  | ORemove v x i n => on v (at_ x (fun l => if (0 <=? i) && (i <? zlen l) && (0 <=? i + n) && (i + n <=? zlen l) then set v (ztake i l ++ zdrop (i + n) l) else fail))
  | OAt x i => at_ x (fun l => match znth l i with Some z => (vs, Char z) | None => fail end)
  | OCompare x y => at_ x (fun l => at_ y (fun m => (vs, Ordering (lexi l m))))
  | OBuffer x => at_ x (fun l => (vs, Text (before_zero l)))
  | OSend _ _ | OReceive _ => bad
  end.
(* a thread: the values of its variables, the values sent to it, its program *)
Record sthread := mkST { svars : list (list Z); sinbox : list (list Z); stodo : list op }.
(* thread i executes its next operation as a whole, with result r *)
Inductive sstep (sh : list (list Z)) : list sthread -> nat * out -> list sthread -> Prop :=
| ss_send ts i t v j os x u : nth_error ts i = Some t -> stodo t = OSend v j :: os -> nth_error (svars t) v = Some x ->
    nth_error (upd ts i (mkST (upd (svars t) v []) (sinbox t) os)) j = Some u ->
    sstep sh ts (i, Done) (upd (upd ts i (mkST (upd (svars t) v []) (sinbox t) os)) j (mkST (svars u) (sinbox u ++ [x]) (stodo u)))
| ss_send_bad ts i t v j os : nth_error ts i = Some t -> stodo t = OSend v j :: os -> nth_error (svars t) v = None \/ nth_error ts j = None ->
    sstep sh ts (i, Nothing) (upd ts i (mkST (svars t) (sinbox t) os))
| ss_receive ts i t v os x q l : nth_error ts i = Some t -> stodo t = OReceive v :: os -> nth_error (svars t) v = Some l -> sinbox t = x :: q ->
    sstep sh ts (i, Done) (upd ts i (mkST (upd (svars t) v x) q os))
| ss_receive_bad ts i t v os : nth_error ts i = Some t -> stodo t = OReceive v :: os -> nth_error (svars t) v = None ->
    sstep sh ts (i, Nothing) (upd ts i (mkST (svars t) (sinbox t) os))
| ss_op ts i t o os vs r : nth_error ts i = Some t -> stodo t = o :: os ->
    match o with OSend _ _ | OReceive _ => False | _ => True end -> seval sh (svars t) o = (vs, r) ->
    sstep sh ts (i, r) (upd ts i (mkST vs (sinbox t) os)).
Inductive srun (sh : list (list Z)) : list sthread -> list (nat * out) -> list sthread -> Prop :=
| sr_nil ts : srun sh ts [] ts
| sr_snoc ts l ts1 x ts2 : srun sh ts l ts1 -> sstep sh ts1 x ts2 -> srun sh ts (l ++ [x]) ts2.
Definition sinit (ts : list (nat * list op)) : list sthread := map (fun t => mkST (repeat [] (fst t)) [] (snd t)) ts.
Definition seen (t : list Z * Z * Z) : list Z := let '(l, i, n) := t in ztake n (zdrop i l).

(* the variables that every thread can see are slices of their text *)
Definition slices (texts : list (list Z * Z * Z)) : Prop := Forall (fun t => let '(l, i, n) := t in 0 <= i /\ 0 <= n /\ i + n <= zlen l) texts.
(* the programs use such variables that exist; Buffer is only called on those that end where their text ends *)
Definition src_ok (texts : list (list Z * Z * Z)) (x : src) : Prop :=
  match x with Own _ => True | Sh s => (s < length texts)%nat end.
Definition op_ok (texts : list (list Z * Z * Z)) (o : op) : Prop :=
  match o with
  | OCopy _ x | OSub _ x _ _ | ORemove _ x _ _ | OAt x _ => src_ok texts x
  | OInsert _ x _ y | OCompare x y => src_ok texts x /\ src_ok texts y
  | OBuffer (Sh s) => match nth_error texts s with Some (l, i, n) => i + n = zlen l | None => False end
  | _ => True
  end.
Definition progs_ok (texts : list (list Z * Z * Z)) (ts : list (nat * list op)) : Prop := Forall (fun t => Forall (op_ok texts) (snd t)) ts.
(* a thread has finished and its strings are empty *)
Definition finished (t : thread) : Prop := cur t = None /\ inbox t = [] /\ Forall (fun v => scnt v = None) (vars t).
