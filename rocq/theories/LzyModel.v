(* Enumerators and LazyList: Source/Collections/Operation.h, OperationEnumerable.h,
   OperationSequence.h, OperationSelect.h, OperationWhere.h, OperationConcat.h,
   OperationPair.h, OperationSet.h.

   An object of a C++ enumerator class is a term of [enum].  Selectors, predicates and
   comparisons are pure total functions.  Indices are unbounded integers, except in
   RangeEnumerator where the element type is vint.  SortedList members are used through
   their specification (C19): a collection of values with Contains by comparison.
   Clone copies every field of every class below, so it is the identity here. *)
From Verif Require Import Base.
Open Scope Z_scope.

Definition fits (x : Z) : bool := (- 2 ^ 63 <=? x) && (x <? 2 ^ 63).
Definition same {A : Type} (c : A -> A -> comparison) (a b : A) : bool :=
  match c a b with Eq => true | _ => false end.
(* SortedList<T>::Contains : C19 *)
Definition contains {A : Type} (c : A -> A -> comparison) (l : list A) (a : A) : bool :=
  existsb (fun b => same c b a) l.

Inductive enum : Type -> Type :=
(* EmptyEnumerator : OperationEnumerable.h:21-51 *)
| EEmpty : forall A : Type, enum A
(* ContainerEnumerator : OperationEnumerable.h:123-166, the enumerators of ListBase and
   Array, and FromIteratorEnumerable::Enumerator : OperationSequence.h:342-387 *)
| ECont : forall A : Type, list A -> Z -> enum A
(* the enumerators of Dictionary and Group, whose Reset raises (C24, C25) *)
| EOnce : forall A : Type, list A -> Z -> enum A
(* RangeEnumerator : OperationEnumerable.h:58-116; start, count, current *)
| ERange : Z -> Z -> Z -> enum Z
(* SelectEnumerator : OperationSelect.h:21-73 *)
| ESelect : forall A B : Type, enum A -> (A -> B) -> option B -> enum B
(* WhereEnumerator : OperationWhere.h:19-73 *)
| EWhere : forall A : Type, enum A -> (A -> bool) -> Z -> enum A
(* ConcatEnumerator : OperationConcat.h:20-98; index, turned *)
| EConcat : forall A : Type, enum A -> enum A -> Z -> bool -> enum A
(* TakeEnumerator : OperationSequence.h:22-69 *)
| ETake : forall A : Type, enum A -> Z -> enum A
(* SkipEnumerator : OperationSequence.h:76-136; count, skipped *)
| ESkip : forall A : Type, enum A -> Z -> bool -> enum A
(* RepeatEnumerator : OperationSequence.h:143-205; count, index, repeatedCount *)
| ERepeat : forall A : Type, enum A -> Z -> Z -> Z -> enum A
(* DistinctEnumerator : OperationSequence.h:212-272; distinct, lastValue *)
| EDistinct : forall A : Type, enum A -> (A -> A -> comparison) -> list A -> option A -> enum A
(* ReverseEnumerator : OperationSequence.h:279-331 *)
| EReverse : forall A : Type, list A -> Z -> enum A
(* PairwiseEnumerator : OperationPair.h:20-79 *)
| EPair : forall A B : Type, enum A -> enum B -> option (A * B) -> enum (A * B)
(* IntersectExceptEnumerator : OperationSet.h:22-82; reference, Intersect, index *)
| EIntExc : forall A : Type, enum A -> (A -> A -> comparison) -> list A -> bool -> Z -> enum A.
Arguments EEmpty {A}. Arguments ECont {A}. Arguments EOnce {A}. Arguments ESelect {A B}.
Arguments EWhere {A}. Arguments EConcat {A}. Arguments ETake {A}. Arguments ESkip {A}.
Arguments ERepeat {A}. Arguments EDistinct {A}. Arguments EReverse {A}. Arguments EPair {A B}.
Arguments EIntExc {A}.

(* container->Get(index) raises outside the bounds *)
Definition cget {A : Type} (l : list A) (i : Z) : res A :=
  match znth l i with Some x => Ok x | None => Err end.
(* Nullable::Value raises when null *)
Definition value {A : Type} (o : option A) : res A := match o with Some x => Ok x | None => Err end.

(* Current() *)
Fixpoint current {A : Type} (e : enum A) : res A :=
  match e with
  | EEmpty => Err
  | ECont l i => cget l i
  | EOnce l i => cget l i
  | ERange s n i => Ok i
  | ESelect e f o => value o
  | EWhere e p i => current e
  | EConcat e1 e2 i t => if t then current e2 else current e1
  | ETake e n => current e
  | ESkip e n s => current e
  | ERepeat e n i r => current e
  | EDistinct e c d o => value o
  | EReverse l i => cget l (zlen l - 1 - i)
  | EPair e1 e2 o => value o
  | EIntExc e c r x i => current e
  end.

(* Index() *)
Fixpoint index {A : Type} (e : enum A) : Z :=
  match e with
  | EEmpty => -1
  | ECont l i => i
  | EOnce l i => i
  | ERange s n i => i - s
  | ESelect e f o => index e
  | EWhere e p i => i
  | EConcat e1 e2 i t => i
  | ETake e n => index e
  | ESkip e n s => index e - n
  | ERepeat e n i r => i
  | EDistinct e c d o => zlen d - 1
  | EReverse l i => i
  | EPair e1 e2 o => index e1
  | EIntExc e c r x i => i
  end.

(* Reset() *)
Fixpoint reset {A : Type} (e : enum A) : res (enum A) :=
  match e with
  | EEmpty => Ok EEmpty
  | ECont l i => Ok (ECont l (-1))
  | EOnce l i => Err
  | ERange s n i => if fits (s - 1) then Ok (ERange s n (s - 1)) else UB
  | ESelect e f o => do e <- reset e; Ok (ESelect e f o)
  | EWhere e p i => do e <- reset e; Ok (EWhere e p (-1))
  | EConcat e1 e2 i t => do e1 <- reset e1; do e2 <- reset e2; Ok (EConcat e1 e2 (-1) false)
  | ETake e n => do e <- reset e; Ok (ETake e n)
  | ESkip e n s => do e <- reset e; Ok (ESkip e n false)
  | ERepeat e n i r => do e <- reset e; Ok (ERepeat e n (-1) 0)
  | EDistinct e c d o => do e <- reset e; Ok (EDistinct e c [] o)
  | EReverse l i => Ok (EReverse l (-1))
  | EPair e1 e2 o => do e1 <- reset e1; do e2 <- reset e2; Ok (EPair e1 e2 o)
  | EIntExc e c r x i => do e <- reset e; Ok (EIntExc e c r x (-1))
  end.

(* SkipEnumerator::Next, the loop over count : OperationSequence.h:116-122 *)
Fixpoint skip_loop {A : Type} (nxt : enum A -> res (bool * enum A)) (n : nat) (e : enum A) : res (bool * enum A) :=
  match n with
  | O => Ok (true, e)
  | S n' => do (b, e) <- nxt e; if b then skip_loop nxt n' e else Ok (false, e)
  end.

(* Next(); a while loop goes round by calling itself with less fuel *)
Fixpoint next (fuel : nat) {A : Type} (e : enum A) {struct fuel} : res (bool * enum A) :=
  match fuel with
  | O => NoFuel
  | S f =>
      match e in enum A return res (bool * enum A) with
      | EEmpty => Ok (false, EEmpty)
      | ECont l i => Ok ((i + 1 >=? 0) && (i + 1 <? zlen l), ECont l (i + 1))
      | EOnce l i => Ok ((i + 1 >=? 0) && (i + 1 <? zlen l), EOnce l (i + 1))
      | ERange s n i =>
          if fits (s - 1) && fits (s + n) && fits (s + n - 1) then
            if (s - 1 <=? i) && (i <? s + n - 1) then Ok (true, ERange s n (i + 1)) else Ok (false, ERange s n i)
          else UB
      | ESelect e g o =>
          do (b, e) <- next f e;
          if b then do x <- current e; Ok (true, ESelect e g (Some (g x))) else Ok (false, ESelect e g o)
      | EWhere e p i =>
          do (b, e) <- next f e;
          if b then do x <- current e; if p x then Ok (true, EWhere e p (i + 1)) else next f (EWhere e p i)
          else Ok (false, EWhere e p i)
      | EConcat e1 e2 i t =>
          if t : bool then do (b, e2) <- next f e2; Ok (b, EConcat e1 e2 (i + 1) true)
          else
            do (b, e1) <- next f e1;
            if b then Ok (true, EConcat e1 e2 (i + 1) false)
            else do (b, e2) <- next f e2; Ok (b, EConcat e1 e2 (i + 1) true)
      | ETake e n =>
          if index e >=? n - 1 then Ok (false, ETake e n)
          else do (b, e) <- next f e; Ok (b, ETake e n)
      | ESkip e n s =>
          if s : bool then do (b, e) <- next f e; Ok (b, ESkip e n true)
          else
            do (b, e) <- skip_loop (next f) (Z.to_nat n) e;
            if b then do (b, e) <- next f e; Ok (b, ESkip e n true) else Ok (false, ESkip e n true)
      | ERepeat e n i r =>
          if r <? n then
            do (b, e) <- next f e;
            if b then Ok (true, ERepeat e n (i + 1) r)
            else do e <- reset e; next f (ERepeat e n i (r + 1))
          else Ok (false, ERepeat e n i r)
      | EDistinct e c d o =>
          do (b, e) <- next f e;
          if b then
            do x <- current e;
            if contains c d x then next f (EDistinct e c d o) else Ok (true, EDistinct e c (x :: d) (Some x))
          else Ok (false, EDistinct e c d o)
      | EReverse l i => Ok (i + 1 <? zlen l, EReverse l (i + 1))
      | EPair e1 e2 o =>
          do (b1, e1) <- next f e1;
          if b1 then
            do (b2, e2) <- next f e2;
            if b2 then do x <- current e1; do y <- current e2; Ok (true, EPair e1 e2 (Some (x, y)))
            else Ok (false, EPair e1 e2 o)
          else Ok (false, EPair e1 e2 o)
      | EIntExc e c r x i =>
          do (b, e) <- next f e;
          if b then
            do a <- current e;
            if Bool.eqb (contains c r a) x then Ok (true, EIntExc e c r x (i + 1)) else next f (EIntExc e c r x i)
          else Ok (false, EIntExc e c r x i)
      end
  end.

(* while(enumerator->Next()) collecting enumerator->Current(); also a range-based for loop,
   OperationForEach.h:24-75 *)
Fixpoint drain (fuel : nat) {A : Type} (e : enum A) : res (list A) :=
  match fuel with
  | O => NoFuel
  | S f => do (b, e) <- next f e; if b then do x <- current e; do r <- drain f e; Ok (x :: r) else Ok []
  end.

(* ---- LazyList pipelines : Operation.h:224-877 ------------------------------------- *)
Inductive pipe : Type -> Type :=
| PEmpty : forall A : Type, pipe A                              (* LazyList() 291-293 *)
| PList : forall A : Type, list A -> pipe A                     (* From(container) 961-1008 *)
| POnce : forall A : Type, list A -> pipe A                     (* From(dictionary or group) *)
| PRange : Z -> Z -> pipe Z                                     (* Range 951-955 *)
| PSelect : forall A B : Type, pipe A -> (A -> B) -> pipe B
| PWhere : forall A : Type, pipe A -> (A -> bool) -> pipe A
| PConcat : forall A : Type, pipe A -> pipe A -> pipe A
| PTake : forall A : Type, pipe A -> Z -> pipe A
| PSkip : forall A : Type, pipe A -> Z -> pipe A
| PRepeat : forall A : Type, pipe A -> Z -> pipe A
| PDistinct : forall A : Type, (A -> A -> comparison) -> pipe A -> pipe A
| PReverse : forall A : Type, pipe A -> pipe A
| PPairwise : forall A B : Type, pipe A -> pipe B -> pipe (A * B)
| PIntersect : forall A : Type, (A -> A -> comparison) -> pipe A -> pipe A -> pipe A
| PExcept : forall A : Type, (A -> A -> comparison) -> pipe A -> pipe A -> pipe A
| PUnion : forall A : Type, (A -> A -> comparison) -> pipe A -> pipe A -> pipe A
| PEvaluate : forall A : Type, pipe A -> bool -> pipe A.         (* forceCopy *)
Arguments PEmpty {A}. Arguments PList {A}. Arguments POnce {A}. Arguments PSelect {A B}.
Arguments PWhere {A}. Arguments PConcat {A}. Arguments PTake {A}. Arguments PSkip {A}.
Arguments PRepeat {A}. Arguments PDistinct {A}. Arguments PReverse {A}. Arguments PPairwise {A B}.
Arguments PIntersect {A}. Arguments PExcept {A}. Arguments PUnion {A}. Arguments PEvaluate {A}.

(* Evaluated() : overridden as below, false by default (Interfaces.h:65) *)
Fixpoint evaluated {A : Type} (e : enum A) : bool :=
  match e with
  | EEmpty => true
  | ECont _ _ => true
  | EOnce _ _ => true
  | ERange _ _ _ => true
  | ESelect _ _ _ => false
  | EWhere _ _ _ => false
  | EConcat e1 e2 _ _ => evaluated e1 && evaluated e2
  | ETake e _ => evaluated e
  | ESkip e _ _ => evaluated e
  | ERepeat e _ _ _ => evaluated e
  | EDistinct _ _ _ _ => false
  | EReverse _ _ => true
  | EPair e1 e2 _ => evaluated e1 && evaluated e2
  | EIntExc _ _ _ _ _ => false
  end.

(* the enumerator that the lazy list holds.  Reverse, Intersect, Except and Evaluate read
   their argument (CopyFrom into a List or SortedList) when they are built. *)
Fixpoint build (fuel : nat) {A : Type} (p : pipe A) : res (enum A) :=
  match p in pipe A return res (enum A) with
  | PEmpty => Ok EEmpty
  | PList l => Ok (ECont l (-1))
  | POnce l => Ok (EOnce l (-1))
  | PRange s n => if fits (s - 1) then Ok (ERange s n (s - 1)) else UB
  | PSelect p f => do e <- build fuel p; Ok (ESelect e f None)
  | PWhere p f => do e <- build fuel p; Ok (EWhere e f (-1))
  | PConcat p q => do e <- build fuel p; do e2 <- build fuel q; Ok (EConcat e e2 (-1) false)
  | PTake p n => do e <- build fuel p; Ok (ETake e n)
  | PSkip p n => do e <- build fuel p; Ok (ESkip e n false)
  | PRepeat p n => do e <- build fuel p; Ok (ERepeat e n (-1) 0)
  | PDistinct c p => do e <- build fuel p; Ok (EDistinct e c [] None)
  | PReverse p => do e <- build fuel p; do l <- drain fuel e; Ok (EReverse l (-1))
  | PPairwise p q => do e <- build fuel p; do e2 <- build fuel q; Ok (EPair e e2 None)
  | PIntersect c p q =>
      do e <- build fuel p; do e2 <- build fuel q; do r <- drain fuel e2;
      Ok (EDistinct (EIntExc e c r true (-1)) c [] None)
  | PExcept c p q =>
      do e <- build fuel p; do e2 <- build fuel q; do r <- drain fuel e2;
      Ok (EDistinct (EIntExc e c r false (-1)) c [] None)
  | PUnion c p q =>
      do e <- build fuel p; do e2 <- build fuel q; Ok (EDistinct (EConcat e e2 (-1) false) c [] None)
  | PEvaluate p force =>
      do e <- build fuel p;
      if negb force && evaluated e then Ok e else do l <- drain fuel e; Ok (ECont l (-1))
  end.
(* enumerating a lazy list *)
Definition elements (fuel : nat) {A : Type} (p : pipe A) : res (list A) := do e <- build fuel p; drain fuel e.

(* ---- aggregations : Operation.h:482-672 -------------------------------------------- *)
(* for (auto& t : *this) init = f(init, t) *)
Fixpoint fold_loop (fuel : nat) {A I : Type} (f : I -> A -> I) (acc : I) (e : enum A) : res I :=
  match fuel with
  | O => NoFuel
  | S k => do (b, e) <- next k e; if b then do x <- current e; fold_loop k f (f acc x) e else Ok acc
  end.
Definition aggregate_init (fuel : nat) {A I : Type} (f : I -> A -> I) (init : I) (e : enum A) : res I :=
  fold_loop fuel f init e.
Definition aggregate (fuel : nat) {A : Type} (f : A -> A -> A) (e : enum A) : res A :=
  do (b, e) <- next fuel e;
  if b then do x <- current e; fold_loop fuel f x e else Err.
Definition all (fuel : nat) {A : Type} (p : A -> bool) (e : enum A) : res bool :=
  aggregate_init fuel andb true (ESelect e p None).
Definition any (fuel : nat) {A : Type} (p : A -> bool) (e : enum A) : res bool :=
  aggregate_init fuel orb false (ESelect e p None).
Definition max (fuel : nat) {A : Type} (c : A -> A -> comparison) (e : enum A) : res A :=
  aggregate fuel (fun a b => match c a b with Gt => a | _ => b end) e.
Definition min (fuel : nat) {A : Type} (c : A -> A -> comparison) (e : enum A) : res A :=
  aggregate fuel (fun a b => match c a b with Lt => a | _ => b end) e.
Definition first (fuel : nat) {A : Type} (e : enum A) : res A :=
  do (b, e) <- next fuel e; if b then current e else Err.
Definition first_or (fuel : nat) {A : Type} (d : A) (e : enum A) : res A :=
  do (b, e) <- next fuel e; if b then current e else Ok d.
Definition last (fuel : nat) {A : Type} (e : enum A) : res A :=
  do (b, e) <- next fuel e;
  if b then do x <- current e; fold_loop fuel (fun _ y => y) x e else Err.
Definition last_or (fuel : nat) {A : Type} (d : A) (e : enum A) : res A := fold_loop fuel (fun _ y => y) d e.
(* the loop of Count calls Next only *)
Fixpoint count_loop (fuel : nat) {A : Type} (n : Z) (e : enum A) : res Z :=
  match fuel with
  | O => NoFuel
  | S k => do (b, e) <- next k e; if b then count_loop k (n + 1) e else Ok n
  end.
Definition count (fuel : nat) {A : Type} (e : enum A) : res Z := count_loop fuel 0 e.
Definition is_empty (fuel : nat) {A : Type} (e : enum A) : res bool := do (b, e) <- next fuel e; Ok (negb b).

(* ---- SelectMany, GroupBy : Operation.h:899-943 --------------------------------------
   The stage Select(f) in front of Aggregate, and the last Select of GroupBy, have lazy lists
   as elements; they are inlined here. *)
Definition select_many (fuel : nat) {A B : Type} (f : A -> enum B) (e : enum A) : res (enum B) :=
  fold_loop fuel (fun a t => EConcat a (f t) (-1) false) EEmpty e.
Definition group_keys {A K : Type} (c : K -> K -> comparison) (f : A -> K) (e : enum A) : enum K :=
  EDistinct (ESelect e f None) c [] None.
Definition group_of {A K : Type} (keq : K -> K -> bool) (f : A -> K) (e : enum A) (k : K) : enum A :=
  EWhere e (fun t => keq k (f t)) (-1).
Definition group_by (fuel : nat) {A K : Type} (c : K -> K -> comparison) (keq : K -> K -> bool) (f : A -> K) (e : enum A)
  : res (list (K * enum A)) :=
  do ks <- drain fuel (group_keys c f e); Ok (map (fun k => (k, group_of keq f e k)) ks).

(* ---- CompareEnumerable : OperationEnumerable.h:190-208 -----------------------------
   None: an unordered result of the element comparison, which is returned as it is *)
Fixpoint compare (fuel : nat) {A B : Type} (c : A -> B -> option comparison) (a : enum A) (b : enum B) : res (option comparison) :=
  match fuel with
  | O => NoFuel
  | S k =>
      do (x, a) <- next k a;
      do (y, b) <- next k b;
      if x && negb y then Ok (Some Gt)
      else if negb x && y then Ok (Some Lt)
      else if negb x && negb y then Ok (Some Eq)
      else
        do ac <- current a; do bc <- current b;
        match c ac bc with Some Eq => compare k c a b | o => Ok o end
  end.
