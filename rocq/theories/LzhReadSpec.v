(* Which trees of LzhSpec stand for which pipelines of LzyModel. *)
From Verif Require Import Base LzyModel LzySpec LzhModel LzhSpec.
Open Scope Z_scope.

Definition both (f : Z -> Z -> Z) (x : Z * Z) : Z := f (fst x) (snd x).
Definition pure {A B : Type} (f : A -> option B) (g : A -> B) : Prop := forall x, f x = Some (g x).

(* the test of Intersect (keep) and Except (not keep), which then remove duplicates *)
Definition kept (q : pipe Z) (keep : bool) (x : Z) : bool := Bool.eqb (contains Z.compare (denote q) x) keep.

(* the tree that a lazy list holds after it was built in this way; Reverse, Intersect, Except
   and Evaluate have read a list when they were built *)
Inductive shape : tree -> pipe Z -> Prop :=
| sh_empty : shape (Tree KEmpty Nil Nil) PEmpty
| sh_list : forall l, shape (Tree (KCont l (-1)) Nil Nil) (PList l)
| sh_once : forall l, shape (Tree (KOnce l (-1)) Nil Nil) (POnce l)
| sh_range : forall s n, shape (Tree (KRange s n (s - 1)) Nil Nil) (PRange s n)
| sh_select : forall f g t p, pure f g -> shape t p -> shape (Tree (KSelect f None) t Nil) (PSelect p g)
| sh_where : forall f g t p, pure f g -> shape t p -> shape (Tree (KWhere f (-1)) t Nil) (PWhere p g)
| sh_take : forall n t p, shape t p -> shape (Tree (KTake n) t Nil) (PTake p n)
| sh_skip : forall n t p, shape t p -> shape (Tree (KSkip n false) t Nil) (PSkip p n)
| sh_repeat : forall n t p, shape t p -> shape (Tree (KRepeat n (-1) 0) t Nil) (PRepeat p n)
| sh_distinct : forall t p, shape t p -> shape (Tree (KDistinct [] None) t Nil) (PDistinct Z.compare p)
| sh_reverse : forall l p, denote p = l -> shape (Tree (KReverse l (-1)) Nil Nil) (PReverse p)
| sh_evaluate : forall l p b, denote p = l -> shape (Tree (KCont l (-1)) Nil Nil) (PEvaluate p b)
| sh_keep : forall t p, shape t p -> shape t (PEvaluate p false)
| sh_none : forall p b, denote p = [] -> shape (Tree KEmpty Nil Nil) (PEvaluate p b)
| sh_set : forall r q t p keep, denote q = r -> shape t p ->
    shape (Tree (KIntExc r keep (-1)) t Nil) (PWhere p (kept q keep))
| sh_concat : forall t p u q, shape t p -> shape u q -> shape (Tree (KConcat (-1) false) t u) (PConcat p q)
| sh_pair : forall f t p u q, shape t p -> shape u q -> shape (Tree (KPair f None) t u) (PSelect (PPairwise p q) (both f)).

(* ---- programs that build lazy lists -------------------------------------------------------- *)
(* which pipeline every variable stands for (None: no variable), before and after a statement;
   selectors and predicates do not throw; what a statement reads at once must be tame *)
Notation plan := (list (option (pipe Z))) (only parsing).
Definition source_pipe (x : source) : pipe Z :=
  match x with SList l => PList l | SOnce l => POnce l | SRange s n => PRange s n end.
Inductive builds (P : plan) : op -> plan -> Prop :=
| b_empty : forall i, free P i = true -> builds P (LEmpty i) (upd P i (Some PEmpty))
| b_source : forall i x, free P i = true -> builds P (LSource i x) (upd P i (Some (source_pipe x)))
| b_copy : forall i j p, free P i = true -> look P j = Some p -> builds P (LCopy i j) (upd P i (Some p))
| b_move : forall i j p, free P i = true -> look P j = Some p -> builds P (LMove i j) (upd (upd P i (Some p)) j (Some PEmpty))
| b_assign : forall i j q p, look P i = Some q -> look P j = Some p -> builds P (LAssign i j) (upd P i (Some p))
| b_move_assign : forall i j q p, look P i = Some q -> look P j = Some p ->
    builds P (LMoveAssign i j) (upd (upd P i (Some p)) j (Some PEmpty))
| b_drop : forall i q, look P i = Some q -> builds P (LDrop i) (upd P i None)
| b_select : forall i j p f g, free P i = true -> look P j = Some p -> pure f g -> builds P (LUnary i (USelect f) j) (upd P i (Some (PSelect p g)))
| b_where : forall i j p f g, free P i = true -> look P j = Some p -> pure f g -> builds P (LUnary i (UWhere f) j) (upd P i (Some (PWhere p g)))
| b_take : forall i j p n, free P i = true -> look P j = Some p -> builds P (LUnary i (UTake n) j) (upd P i (Some (PTake p n)))
| b_skip : forall i j p n, free P i = true -> look P j = Some p -> builds P (LUnary i (USkip n) j) (upd P i (Some (PSkip p n)))
| b_repeat : forall i j p n, free P i = true -> look P j = Some p -> builds P (LUnary i (URepeat n) j) (upd P i (Some (PRepeat p n)))
| b_distinct : forall i j p, free P i = true -> look P j = Some p -> builds P (LUnary i UDistinct j) (upd P i (Some (PDistinct Z.compare p)))
| b_concat : forall i j k p q, free P i = true -> look P j = Some p -> look P k = Some q ->
    builds P (LBinary i BConcat j k) (upd P i (Some (PConcat p q)))
| b_pair : forall i j k p q f, free P i = true -> look P j = Some p -> look P k = Some q ->
    builds P (LBinary i (BPairwise f) j k) (upd P i (Some (PSelect (PPairwise p q) (both f))))
| b_set : forall i j k p q keep, free P i = true -> look P j = Some p -> look P k = Some q -> tame q ->
    builds P (LSetOp i keep j k) (upd P i (Some (PWhere p (kept q keep))))
| b_reverse : forall i j p, free P i = true -> look P j = Some p -> tame p -> builds P (LReverse i j) (upd P i (Some (PReverse p)))
| b_evaluate : forall i j p b, free P i = true -> look P j = Some p -> tame p -> builds P (LEvaluate i j b) (upd P i (Some (PEvaluate p b))).
Inductive program : plan -> list op -> plan -> Prop :=
| pr_nil : forall P, program P [] P
| pr_cons : forall P o Q ops R, builds P o Q -> program Q ops R -> program P (o :: ops) R.

(* auto e = i.CreateEnumerator(); while (e->Next()) e->Current(); delete e; and what it answers *)
Definition reading_ops (i n : nat) : list op :=
  ECreate 0 i :: concat (repeat [ECall 0 Next; ECall 0 Current] n) ++ [ECall 0 Next; EDelete 0].
Definition answers (l : list Z) : list out :=
  ODone :: flat_map (fun x => [OAnswer yes; OAnswer x]) l ++ [OAnswer no; ODone].
