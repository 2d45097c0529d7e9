(* What a pipeline means: ordinary list functions. *)
From Verif Require Import Base SrtSpec LzyModel.
Open Scope Z_scope.

(* keep the first of every class of equal values *)
Fixpoint distinct {A : Type} (c : A -> A -> comparison) (l : list A) : list A :=
  match l with [] => [] | x :: l' => x :: filter (fun y => negb (same c x y)) (distinct c l') end.
Definition zrange (s n : Z) : list Z := map (fun i => s + Z.of_nat i) (seq 0 (Z.to_nat n)).
Definition times {A : Type} (n : Z) (l : list A) : list A := concat (repeat l (Z.to_nat n)).

Fixpoint denote {A : Type} (p : pipe A) : list A :=
  match p in pipe A return list A with
  | PEmpty => []
  | PList l => l
  | POnce l => l
  | PRange s n => zrange s n
  | PSelect p f => map f (denote p)
  | PWhere p f => filter f (denote p)
  | PConcat p q => denote p ++ denote q
  | PTake p n => firstn (Z.to_nat n) (denote p)
  | PSkip p n => skipn (Z.to_nat n) (denote p)
  | PRepeat p n => times n (denote p)
  | PDistinct c p => distinct c (denote p)
  | PReverse p => rev (denote p)
  | PPairwise p q => combine (denote p) (denote q)
  | PIntersect c p q => distinct c (filter (fun x => contains c (denote q) x) (denote p))
  | PExcept c p q => distinct c (filter (fun x => negb (contains c (denote q) x)) (denote p))
  | PUnion c p q => distinct c (denote p ++ denote q)
  | PEvaluate p _ => denote p
  end.

(* Index() of the enumerator is -1 before the first Next *)
Fixpoint starts_plain {A : Type} (p : pipe A) : bool :=
  match p with
  | PSelect p _ => starts_plain p
  | PTake p _ => starts_plain p
  | PSkip p n => (n <=? 0) && starts_plain p
  | PPairwise p _ => starts_plain p
  | PEvaluate p _ => starts_plain p
  | _ => true
  end.
(* Reset() works for sure *)
Fixpoint resets {A : Type} (p : pipe A) : bool :=
  match p with
  | PEmpty => true
  | PList _ => true
  | POnce _ => false
  | PRange _ _ => true
  | PSelect p _ => resets p
  | PWhere p _ => resets p
  | PConcat p q => resets p && resets q
  | PTake p _ => resets p
  | PSkip p _ => resets p
  | PRepeat p _ => resets p
  | PDistinct _ p => resets p
  | PReverse _ => true
  | PPairwise p q => resets p && resets q
  | PIntersect _ p _ => resets p
  | PExcept _ p _ => resets p
  | PUnion _ p q => resets p && resets q
  | PEvaluate p force => force || resets p
  end.
(* the pipelines that mean what they say: numbers are representable, comparisons are total,
   Skip counts are not negative, Take(0) is not used on a lazy list that begins with a Skip,
   Repeat is not used on a dictionary or group *)
Fixpoint tame {A : Type} (p : pipe A) : Prop :=
  match p with
  | PEmpty => True
  | PList _ => True
  | POnce _ => True
  | PRange s n => - 2 ^ 63 < s < 2 ^ 63 /\ - 2 ^ 63 < s + n < 2 ^ 63
  | PSelect p _ => tame p
  | PWhere p _ => tame p
  | PConcat p q => tame p /\ tame q
  | PTake p n => tame p /\ (1 <= n \/ starts_plain p = true)
  | PSkip p n => tame p /\ 0 <= n
  | PRepeat p n => tame p /\ (n <= 0 \/ resets p = true)
  | PDistinct c p => tame p /\ total_order c
  | PReverse p => tame p
  | PPairwise p q => tame p /\ tame q
  | PIntersect c p q => tame p /\ tame q /\ total_order c
  | PExcept c p q => tame p /\ tame q /\ total_order c
  | PUnion c p q => tame p /\ tame q /\ total_order c
  | PEvaluate p _ => tame p
  end.

(* ---- exactly what every pipeline yields --------------------------------------------------
   Take(n) looks at Index() of what it is applied to: it stops when the index has reached
   n - 1.  Skip(n) reports an index that is n less, also before the first Next and also for
   a negative n, which skips nothing. *)
(* Evaluated() *)
Fixpoint ready {A : Type} (p : pipe A) : bool :=
  match p with
  | PSelect _ _ => false
  | PWhere _ _ => false
  | PConcat p q => ready p && ready q
  | PTake p _ => ready p
  | PSkip p _ => ready p
  | PRepeat p _ => ready p
  | PDistinct _ _ => false
  | PPairwise p q => ready p && ready q
  | PIntersect _ _ _ => false
  | PExcept _ _ _ => false
  | PUnion _ _ _ => false
  | _ => true
  end.
(* Reset() works: it raises exactly if a dictionary or group is read, unless it was evaluated *)
Fixpoint restarts {A : Type} (p : pipe A) : bool :=
  match p with
  | PEmpty => true
  | PList _ => true
  | POnce _ => false
  | PRange _ _ => true
  | PSelect p _ => restarts p
  | PWhere p _ => restarts p
  | PConcat p q => restarts p && restarts q
  | PTake p _ => restarts p
  | PSkip p _ => restarts p
  | PRepeat p _ => restarts p
  | PDistinct _ p => restarts p
  | PReverse _ => true
  | PPairwise p q => restarts p && restarts q
  | PIntersect _ p _ => restarts p
  | PExcept _ p _ => restarts p
  | PUnion _ p q => restarts p && restarts q
  | PEvaluate p force => force || negb (ready p) || restarts p
  end.
(* Index() before the first Next *)
Fixpoint first_index {A : Type} (p : pipe A) : Z :=
  match p with
  | PSelect p _ => first_index p
  | PTake p _ => first_index p
  | PSkip p n => first_index p - n
  | PPairwise p _ => first_index p
  | PEvaluate p force => if negb force && ready p then first_index p else -1
  | _ => -1
  end.
(* Index() of the value at position k is k + offset *)
Fixpoint offset {A : Type} (p : pipe A) : Z :=
  match p with
  | PSelect p _ => offset p
  | PTake p _ => offset p
  | PSkip p n => offset p + Z.max 0 (- n)
  | PPairwise p _ => offset p
  | PEvaluate p force => if negb force && ready p then offset p else 0
  | _ => 0
  end.
(* how many values Take(n) lets through *)
Definition taken (first off n : Z) : nat :=
  if first >=? n - 1 then 0%nat else Z.to_nat (Z.max 1 (n - off)).
Fixpoint means {A : Type} (p : pipe A) : list A :=
  match p in pipe A return list A with
  | PEmpty => []
  | PList l => l
  | POnce l => l
  | PRange s n => zrange s n
  | PSelect p f => map f (means p)
  | PWhere p f => filter f (means p)
  | PConcat p q => means p ++ means q
  | PTake p n => firstn (taken (first_index p) (offset p) n) (means p)
  | PSkip p n => skipn (Z.to_nat n) (means p)
  | PRepeat p n => times n (means p)
  | PDistinct c p => distinct c (means p)
  | PReverse p => rev (means p)
  | PPairwise p q => combine (means p) (means q)
  | PIntersect c p q => distinct c (filter (fun x => contains c (means q) x) (means p))
  | PExcept c p q => distinct c (filter (fun x => negb (contains c (means q) x)) (means p))
  | PUnion c p q => distinct c (means p ++ means q)
  | PEvaluate p _ => means p
  end.
(* as [tame], with any numbers for Skip and Take *)
Fixpoint sane {A : Type} (p : pipe A) : Prop :=
  match p with
  | PEmpty => True
  | PList _ => True
  | POnce _ => True
  | PRange s n => - 2 ^ 63 < s < 2 ^ 63 /\ - 2 ^ 63 < s + n < 2 ^ 63
  | PSelect p _ => sane p
  | PWhere p _ => sane p
  | PConcat p q => sane p /\ sane q
  | PTake p _ => sane p
  | PSkip p _ => sane p
  | PRepeat p n => sane p /\ (n <= 0 \/ restarts p = true)
  | PDistinct c p => sane p /\ total_order c
  | PReverse p => sane p
  | PPairwise p q => sane p /\ sane q
  | PIntersect c p q => sane p /\ sane q /\ total_order c
  | PExcept c p q => sane p /\ sane q /\ total_order c
  | PUnion c p q => sane p /\ sane q /\ total_order c
  | PEvaluate p _ => sane p
  end.

(* with enough fuel the result is r, and stays r with more *)
Definition yields {X : Type} (F : nat -> res X) (r : X) : Prop := exists N, forall f, (N <= f)%nat -> F f = Ok r.
Definition raises {X : Type} (F : nat -> res X) : Prop := exists N, forall f, (N <= f)%nat -> F f = Err.

(* m calls of Next, whatever they answer *)
Fixpoint nexts (m : nat) (fuel : nat) {A : Type} (e : enum A) : res (enum A) :=
  match m with O => Ok e | S m' => do (_, e) <- next fuel e; nexts m' fuel e end.

(* lexicographic comparison, a proper prefix is smaller *)
Fixpoint lex {A B : Type} (c : A -> B -> option comparison) (l : list A) (m : list B) : option comparison :=
  match l, m with
  | [], [] => Some Eq
  | [], _ => Some Lt
  | _, [] => Some Gt
  | x :: l', y :: m' => match c x y with Some Eq => lex c l' m' | o => o end
  end.

(* the elements that have no equal element before them *)
Definition firsts {A : Type} (c : A -> A -> comparison) (l : list A) : list A :=
  flat_map (fun i => match nth_error l i with
                     | Some x => if contains c (firstn i l) x then [] else [x]
                     | None => [] end) (seq 0 (length l)).
(* no two are equal *)
Definition all_different {A : Type} (c : A -> A -> comparison) (l : list A) : Prop :=
  ForallOrdPairs (fun a b => c a b <> Eq) l.
(* x is equal to one of l *)
Definition has {A : Type} (c : A -> A -> comparison) (l : list A) (x : A) : Prop := exists y, In y l /\ c y x = Eq.
(* what is left of l after dropping some elements *)
Inductive part_of {A : Type} : list A -> list A -> Prop :=
| part_nil : forall l, part_of [] l
| part_keep : forall x l m, part_of l m -> part_of (x :: l) (x :: m)
| part_drop : forall x l m, part_of l m -> part_of l (x :: m).

(* calling g on the enumerator of a lazy list *)
Definition on {A X : Type} (p : pipe A) (g : nat -> enum A -> res X) : nat -> res X := fun f => do e <- build f p; g f e.

(* laws of an element comparison that may be unordered *)
Definition leo {A : Type} (c : A -> A -> option comparison) (a b : A) : Prop := c a b = Some Lt \/ c a b = Some Eq.
Definition opp (o : option comparison) : option comparison := match o with Some r => Some (CompOpp r) | None => None end.
Record partial_order {A : Type} (c : A -> A -> option comparison) : Prop := {
  po_opp : forall a b, c b a = opp (c a b);
  po_trans : forall a b d, leo c a b -> leo c b d -> leo c a d }.
