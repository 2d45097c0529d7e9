(* What a client sees of Func: each non-empty Func has an identity and a target; a target that is a functor object is a copy
   of the client's object with its own number of calls. *)
From Verif Require Import Base FunModel.

Inductive place := PNull | PStatic (f : Z) | PMember (sender method : Z) | PFunctor (name : Z) (copy : nat).
(* next: number of identities given so far; calls: calls made on each copy of a functor object *)
Record spec := Spec { next : nat; calls : nat -> N; funcs : list (option (nat * place)) }.
Definition sinit := Spec 0 (fun _ => 0%N) [].
Definition new (s : spec) (p : place) : spec := Spec (S (next s)) (calls s) (funcs s ++ [Some (next s, p)]).
Definition set_calls (f : nat -> N) (c : nat) (k : N) : nat -> N := fun d => if (d =? c)%nat then k else f d.
Definition sstep (s : spec) (o : op) : spec * out :=
  let with_func y f := match nth_error (funcs s) y with Some v => f v | None => (s, NoSuchVariable) end in
  match o with
  | MkEmpty => (Spec (next s) (calls s) (funcs s ++ [None]), Unit)
  | MkStatic f => (new s (match f with Some f => PStatic f | None => PNull end), Unit)
  | MkMember a m => (new s (PMember a m), Unit)
  | MkFunctor n k => (Spec (S (next s)) (set_calls (calls s) (next s) k) (funcs s ++ [Some (next s, PFunctor n (next s))]), Unit)
  (* a copy has the identity and the target of the original *)
  | MkCopy y => with_func y (fun v => (Spec (next s) (calls s) (funcs s ++ [v]), Unit))
  | MkMove y => with_func y (fun v => (Spec (next s) (calls s) (upd (funcs s) y None ++ [v]), Unit))
  (* a conversion keeps the target (the same copy of a functor object), not the identity *)
  | MkConvert y => with_func y (fun v =>
      match v with
      | None => (Spec (next s) (calls s) (funcs s ++ [None]), Unit)
      | Some (_, p) => (new s p, Unit)
      end)
  | MkConvertMove y => with_func y (fun v =>
      match v with
      | None => (Spec (next s) (calls s) (funcs s ++ [None]), Unit)
      | Some (_, p) => (Spec (S (next s)) (calls s) (upd (funcs s) y None ++ [Some (next s, p)]), Unit)
      end)
  | Assign x y | MoveAssign x y => with_func x (fun _ => with_func y (fun v => (Spec (next s) (calls s) (upd (funcs s) x v), Unit)))
  | Equal x y => with_func x (fun a => with_func y (fun b =>
      (s, Truth match a, b with Some (a, _), Some (b, _) => (a =? b)%nat | None, None => true | _, _ => false end)))
  | Bool x => with_func x (fun a => (s, Truth match a with Some _ => true | None => false end))
  | Call x => with_func x (fun a =>
      match a with
      | None | Some (_, PNull) => (s, Undefined)
      | Some (_, PStatic f) => (s, Called (TStatic f) 0)
      | Some (_, PMember a m) => (s, Called (TMember a m) 0)
      | Some (_, PFunctor n c) => (Spec (next s) (set_calls (calls s) c (calls s c + 1)) (funcs s), Called (TFunctor n) (calls s c))
      end)
  end.
Fixpoint srun (s : spec) (os : list op) : spec * list out :=
  match os with
  | [] => (s, [])
  | o :: os => let '(s, r) := sstep s o in let '(s, rs) := srun s os in (s, r :: rs)
  end.
(* the answer to one more operation after a history *)
Definition ask (os : list op) (o : op) : out := snd (step (fst (run init os)) o).
(* number of Funcs made by a history *)
Definition count (os : list op) : nat := length (vars (fst (run init os))).
