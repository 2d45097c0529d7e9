(* What a lazy list with effects means: a process that hands out values one after the other and
   runs code of the user in between, exactly when the value after it is wanted.  The processes
   are made by the usual functions on lists; nothing here knows about enumerators. *)
From Verif Require Import Base SrtSpec LzyModel LzySpec LzeModel.
Open Scope Z_scope.

(* Stop: there is no value any more; Emit v p: the next value is v, then p;
   Do c k: run c, which may throw, then go on with its result *)
Inductive proc (V St : Type) : Type :=
| Stop
| Emit (v : V) (p : proc V St)
| Do (X : Type) (c : St -> St * option X) (k : X -> proc V St).
Arguments Stop {V St}. Arguments Emit {V St}. Arguments Do {V St X}.

Section Meaning.
Context {V St : Type}.
Notation process := (proc V St).

Fixpoint of_list (l : list V) : process := match l with [] => Stop | v :: l => Emit v (of_list l) end.
(* f is called when its result is wanted *)
Fixpoint selecting (f : selector V St) (p : process) : process :=
  match p with
  | Stop => Stop
  | Emit v p => Do (f v) (fun y => Emit y (selecting f p))
  | Do c k => Do c (fun x => selecting f (k x))
  end.
Fixpoint those (q : predicate V St) (p : process) : process :=
  match p with
  | Stop => Stop
  | Emit v p => Do (q v) (fun b => if b : bool then Emit v (those q p) else those q p)
  | Do c k => Do c (fun x => those q (k x))
  end.
Fixpoint and_then (p r : process) : process :=
  match p with
  | Stop => r
  | Emit v p => Emit v (and_then p r)
  | Do c k => Do c (fun x => and_then (k x) r)
  end.
(* after the n-th value nothing is run any more *)
Fixpoint taking (n : nat) (p : process) {struct p} : process :=
  match n with
  | O => Stop
  | S m =>
      match p with
      | Stop => Stop
      | Emit v p => Emit v (taking m p)
      | Do c k => Do c (fun x => taking n (k x))
      end
  end.
(* the values are thrown away; the code that makes them is run *)
Fixpoint skipping (n : nat) (p : process) {struct p} : process :=
  match n with
  | O => p
  | S m =>
      match p with
      | Stop => Stop
      | Emit v p => skipping m p
      | Do c k => Do c (fun x => skipping n (k x))
      end
  end.
Fixpoint again (n : nat) (p : process) : process := match n with O => Stop | S m => and_then p (again m p) end.
Fixpoint filtering (g : V -> bool) (p : process) : process :=
  match p with
  | Stop => Stop
  | Emit v p => if g v then Emit v (filtering g p) else filtering g p
  | Do c k => Do c (fun x => filtering g (k x))
  end.
(* without the values that equal an earlier one *)
Fixpoint fresh (c : V -> V -> comparison) (seen : list V) (p : process) : process :=
  match p with
  | Stop => Stop
  | Emit v p => if contains c seen v then fresh c seen p else Emit v (fresh c (v :: seen) p)
  | Do a k => Do a (fun x => fresh c seen (k x))
  end.
(* first a value of p, then a value of r, then the pair *)
Fixpoint pairing (j : V -> V -> V) (p r : process) : process :=
  match p with
  | Stop => Stop
  | Emit v p =>
      (fix go (r : process) : process :=
         match r with
         | Stop => Stop
         | Emit w r => Emit (j v w) (pairing j p r)
         | Do c k => Do c (fun x => go (k x))
         end) r
  | Do c k => Do c (fun x => pairing j (k x) r)
  end.

(* all values at once; None: the code threw *)
Fixpoint collect (p : process) (s : St) : St * option (list V) :=
  match p with
  | Stop => (s, Some [])
  | Emit v p => match collect p s with (s, Some l) => (s, Some (v :: l)) | (s, None) => (s, None) end
  | Do c k => match c s with (s, Some x) => collect (k x) s | (s, None) => (s, None) end
  end.

(* a computation with state and exceptions *)
Definition bindm {X Y : Type} (r : St * option X) (k : X -> St -> St * option Y) : St * option Y :=
  match r with (s, Some x) => k x s | (s, None) => (s, None) end.
Definition result {X : Type} (r : St * option X) : option X * St := (snd r, fst r).
Definition ret {X : Type} (x : X) (s : St) : St * option X := (s, Some x).

(* f is called for every value, one after the other, and each time it makes a lazy list *)
Fixpoint parts (f : V -> St -> St * option process) (p : process) (s : St) : St * option (list process) :=
  match p with
  | Stop => ret [] s
  | Emit v p => bindm (f v s) (fun a s => bindm (parts f p s) (fun l => ret (a :: l)))
  | Do c k => bindm (c s) (fun x => parts f (k x))
  end.
(* one after the other *)
Definition in_turn (l : list process) : process := fold_left and_then l Stop.

(* what building the lazy list does, and the process it is then *)
Fixpoint meaning (p : pipe V St) (s : St) : St * option process :=
  match p with
  | PEmpty => ret Stop s
  | PList l => ret (of_list l) s
  | POnce l => ret (of_list l) s
  | PSelect p f => bindm (meaning p s) (fun a => ret (selecting f a))
  | PWhere p q => bindm (meaning p s) (fun a => ret (those q a))
  | PConcat p q => bindm (meaning p s) (fun a s => bindm (meaning q s) (fun b => ret (and_then a b)))
  | PTake p n => bindm (meaning p s) (fun a => ret (taking (Z.to_nat n) a))
  | PSkip p n => bindm (meaning p s) (fun a => ret (skipping (Z.to_nat n) a))
  | PRepeat p n => bindm (meaning p s) (fun a => ret (again (Z.to_nat n) a))
  | PDistinct c p => bindm (meaning p s) (fun a => ret (fresh c [] a))
  | PReverse p => bindm (meaning p s) (fun a s => bindm (collect a s) (fun l => ret (of_list (rev l))))
  | PPairwise j p q => bindm (meaning p s) (fun a s => bindm (meaning q s) (fun b => ret (pairing j a b)))
  | PIntersect c p q =>
      bindm (meaning p s) (fun a s => bindm (meaning q s) (fun b s => bindm (collect b s) (fun l =>
        ret (fresh c [] (filtering (fun v => contains c l v) a)))))
  | PExcept c p q =>
      bindm (meaning p s) (fun a s => bindm (meaning q s) (fun b s => bindm (collect b s) (fun l =>
        ret (fresh c [] (filtering (fun v => negb (contains c l v)) a)))))
  | PUnion c p q => bindm (meaning p s) (fun a s => bindm (meaning q s) (fun b => ret (fresh c [] (and_then a b))))
  | PEvaluate p force =>
      bindm (meaning p s) (fun a s => bindm (collect a s) (fun l => ret (of_list l)))
  | PMany p f =>
      bindm (meaning p s) (fun a s =>
        bindm (parts (fun v s => match f v s with (s, Some q) => meaning q s | (s, None) => (s, None) end) a s) (fun l => ret (in_turn l)))
  end.

(* a loop over a process: the code that makes a value, then the body, then the code that makes
   the next value *)
Fixpoint run (body : code V St) (p : process) (s : St) : verdict * St :=
  match p with
  | Stop => (Finished, s)
  | Emit v p =>
      match body v s with
      | (s, Some true) => run body p s
      | (s, Some false) => (Broke, s)
      | (s, None) => (Escaped, s)
      end
  | Do c k => match c s with (s, Some x) => run body (k x) s | (s, None) => (Escaped, s) end
  end.
Definition looping (p : pipe V St) (body : code V St) (s : St) : verdict * St :=
  match meaning p s with (s, Some a) => run body a s | (s, None) => (Escaped, s) end.

(* the first value *)
Fixpoint head (p : process) (s : St) : St * option (option V) :=
  match p with
  | Stop => (s, Some None)
  | Emit v _ => (s, Some (Some v))
  | Do c k => match c s with (s, Some x) => head (k x) s | (s, None) => (s, None) end
  end.
(* ask every value *)
Fixpoint answers (q : predicate V St) (p : process) (s : St) : St * option (list bool) :=
  match p with
  | Stop => (s, Some [])
  | Emit v p => bindm (q v s) (fun b s => bindm (answers q p s) (fun l => ret (b :: l)))
  | Do c k => match c s with (s, Some x) => answers q (k x) s | (s, None) => (s, None) end
  end.

(* Index() is -1 before the first Next; Reset() works; pipelines that mean what they say: as in
   LzySpec.v *)
Fixpoint plain (p : pipe V St) : bool :=
  match p with
  | PSelect p _ => plain p
  | PTake p _ => plain p
  | PSkip p n => (n <=? 0) && plain p
  | PPairwise _ p _ => plain p
  | PEvaluate p _ => plain p
  | _ => true
  end.
Fixpoint rewinds (p : pipe V St) : Prop :=
  match p with
  | POnce _ => False
  | PSelect p _ => rewinds p
  | PWhere p _ => rewinds p
  | PConcat p q => rewinds p /\ rewinds q
  | PTake p _ => rewinds p
  | PSkip p _ => rewinds p
  | PRepeat p _ => rewinds p
  | PDistinct _ p => rewinds p
  | PPairwise _ p q => rewinds p /\ rewinds q
  | PIntersect _ p _ => rewinds p
  | PExcept _ p _ => rewinds p
  | PUnion _ p q => rewinds p /\ rewinds q
  | PEvaluate p force => force = true \/ rewinds p
  | PMany _ f => forall v s, match f v s with (_, Some q) => rewinds q | (_, None) => True end
  | _ => True
  end.
Fixpoint sound (p : pipe V St) : Prop :=
  match p with
  | PEmpty => True
  | PList _ => True
  | POnce _ => True
  | PSelect p _ => sound p
  | PWhere p _ => sound p
  | PConcat p q => sound p /\ sound q
  | PTake p n => sound p /\ (1 <= n \/ plain p = true)
  | PSkip p n => sound p /\ 0 <= n
  | PRepeat p n => sound p /\ (n <= 0 \/ rewinds p)
  | PDistinct c p => sound p /\ total_order c
  | PReverse p => sound p
  | PPairwise _ p q => sound p /\ sound q
  | PIntersect c p q => sound p /\ sound q /\ total_order c
  | PExcept c p q => sound p /\ sound q /\ total_order c
  | PUnion c p q => sound p /\ sound q /\ total_order c
  | PEvaluate p _ => sound p
  | PMany p f => sound p /\ forall v s, match f v s with (_, Some q) => sound q | (_, None) => True end
  end.

(* the function has effects, but its result is that of g and it never throws *)
Definition computes {X : Type} (f : V -> St -> St * option X) (g : V -> X) : Prop := forall v s, snd (f v s) = Some (g v).
(* the same pipeline with functions without effects *)
Inductive acts_as : pipe V St -> LzyModel.pipe V -> Prop :=
| A_empty : acts_as PEmpty LzyModel.PEmpty
| A_list l : acts_as (PList l) (LzyModel.PList l)
| A_once l : acts_as (POnce l) (LzyModel.POnce l)
| A_select p p' f g : acts_as p p' -> computes f g -> acts_as (PSelect p f) (LzyModel.PSelect p' g)
| A_where p p' f g : acts_as p p' -> computes f g -> acts_as (PWhere p f) (LzyModel.PWhere p' g)
| A_concat p p' q q' : acts_as p p' -> acts_as q q' -> acts_as (PConcat p q) (LzyModel.PConcat p' q')
| A_take p p' n : acts_as p p' -> acts_as (PTake p n) (LzyModel.PTake p' n)
| A_skip p p' n : acts_as p p' -> acts_as (PSkip p n) (LzyModel.PSkip p' n)
| A_repeat p p' n : acts_as p p' -> acts_as (PRepeat p n) (LzyModel.PRepeat p' n)
| A_distinct c p p' : acts_as p p' -> acts_as (PDistinct c p) (LzyModel.PDistinct c p')
| A_reverse p p' : acts_as p p' -> acts_as (PReverse p) (LzyModel.PReverse p')
| A_pairwise j p p' q q' : acts_as p p' -> acts_as q q' ->
    acts_as (PPairwise j p q) (LzyModel.PSelect (LzyModel.PPairwise p' q') (fun vw => j (fst vw) (snd vw)))
| A_intersect c p p' q q' : acts_as p p' -> acts_as q q' -> acts_as (PIntersect c p q) (LzyModel.PIntersect c p' q')
| A_except c p p' q q' : acts_as p p' -> acts_as q q' -> acts_as (PExcept c p q) (LzyModel.PExcept c p' q')
| A_union c p p' q q' : acts_as p p' -> acts_as q q' -> acts_as (PUnion c p q) (LzyModel.PUnion c p' q')
| A_evaluate p p' b : acts_as p p' -> acts_as (PEvaluate p b) (LzyModel.PEvaluate p' b).
(* the state after a function was called for every value of l, in order *)
Definition called {X : Type} (f : V -> St -> St * option X) (l : list V) (s : St) : St := fold_left (fun s v => fst (f v s)) l s.
End Meaning.

(* functions that write a log, for the examples *)
Definition logged {X : Type} (id : Z) (g : Z -> X) (v : Z) (s : list (Z * Z)) : list (Z * Z) * option X := (s ++ [(id, v)], Some (g v)).
Definition thrower (id : Z) (at_ : Z) (v : Z) (s : list (Z * Z)) : list (Z * Z) * option Z := (s ++ [(id, v)], if v =? at_ then None else Some v).
Definition case : pipe Z (list (Z * Z)) :=
  PTake (PConcat (PReverse (PSelect (PList [1; 2]) (logged 1 (fun v => v + 10))))
                 (PSelect (PWhere (PSkip (PRepeat (PList [3; 4; 5]) 2) 1) (logged 2 Z.even)) (logged 3 (fun v => v * v)))) 4.
