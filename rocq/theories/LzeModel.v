(* Lazy lists whose functions have effects: selectors and predicates that read and write a
   state and that throw.  The classes are those of LzyModel.v (Source/Collections/Operation.h,
   OperationEnumerable.h, OperationSequence.h, OperationSelect.h, OperationWhere.h,
   OperationConcat.h, OperationPair.h, OperationSet.h), written again with the state passed
   through every Next in the order in which the code calls the functions, and with the fields
   that an enumerator is left with when a function throws.

   Simplified: all elements are of one type [V] (a sum of the types that occur); Pairwise makes
   an element of the two by a pure function; comparisons are pure; Range is left out, it calls
   no function (C30). *)
From Verif Require Import Base.
From Verif Require LzyModel.
Open Scope Z_scope.

Section Lze.
Variables V St : Type.

(* what a call of Func<V(V)> or Func<bool(V)> does: None, it throws *)
Definition selector : Type := V -> St -> St * option V.
Definition predicate : Type := V -> St -> St * option bool.

Inductive enum : Type :=
| EEmpty                                                              (* OperationEnumerable.h:21-51 *)
| ECont (l : list V) (i : Z)                                          (* OperationEnumerable.h:123-166 *)
| EOnce (l : list V) (i : Z)                                          (* the enumerators of Dictionary and Group *)
| ESelect (e : enum) (f : selector) (o : option V)                    (* OperationSelect.h:21-73 *)
| EWhere (e : enum) (q : predicate) (i : Z)                           (* OperationWhere.h:19-73 *)
| EConcat (e1 e2 : enum) (i : Z) (t : bool)                           (* OperationConcat.h:20-98 *)
| ETake (e : enum) (n : Z)                                            (* OperationSequence.h:22-69 *)
| ESkip (e : enum) (n : Z) (b : bool)                                 (* OperationSequence.h:76-136 *)
| ERepeat (e : enum) (n i r : Z)                                      (* OperationSequence.h:143-205 *)
| EDistinct (e : enum) (c : V -> V -> comparison) (d : list V) (o : option V)   (* OperationSequence.h:212-272 *)
| EReverse (l : list V) (i : Z)                                       (* OperationSequence.h:279-331 *)
| EPair (e1 e2 : enum) (j : V -> V -> V) (o : option V)               (* OperationPair.h:20-79 *)
| EIntExc (e : enum) (c : V -> V -> comparison) (r : list V) (x : bool) (i : Z).   (* OperationSet.h:22-82 *)

(* Current() of each class *)
Fixpoint current (e : enum) : res V :=
  match e with
  | EEmpty => Err
  | ECont l i => LzyModel.cget l i
  | EOnce l i => LzyModel.cget l i
  | ESelect e f o => LzyModel.value o
  | EWhere e q i => current e
  | EConcat e1 e2 i t => if t then current e2 else current e1
  | ETake e n => current e
  | ESkip e n b => current e
  | ERepeat e n i r => current e
  | EDistinct e c d o => LzyModel.value o
  | EReverse l i => LzyModel.cget l (zlen l - 1 - i)
  | EPair e1 e2 j o => LzyModel.value o
  | EIntExc e c r x i => current e
  end.

(* Index() *)
Fixpoint index (e : enum) : Z :=
  match e with
  | EEmpty => -1
  | ECont l i => i
  | EOnce l i => i
  | ESelect e f o => index e
  | EWhere e q i => i
  | EConcat e1 e2 i t => i
  | ETake e n => index e
  | ESkip e n b => index e - n
  | ERepeat e n i r => i
  | EDistinct e c d o => zlen d - 1
  | EReverse l i => i
  | EPair e1 e2 j o => index e1
  | EIntExc e c r x i => i
  end.

(* Reset() *)
Fixpoint reset (e : enum) : res enum :=
  match e with
  | EEmpty => Ok EEmpty
  | ECont l i => Ok (ECont l (-1))
  | EOnce l i => Err
  | ESelect e f o => do e <- reset e; Ok (ESelect e f o)
  | EWhere e q i => do e <- reset e; Ok (EWhere e q (-1))
  | EConcat e1 e2 i t => do e1 <- reset e1; do e2 <- reset e2; Ok (EConcat e1 e2 (-1) false)
  | ETake e n => do e <- reset e; Ok (ETake e n)
  | ESkip e n b => do e <- reset e; Ok (ESkip e n false)
  | ERepeat e n i r => do e <- reset e; Ok (ERepeat e n (-1) 0)
  | EDistinct e c d o => do e <- reset e; Ok (EDistinct e c [] o)
  | EReverse l i => Ok (EReverse l (-1))
  | EPair e1 e2 j o => do e1 <- reset e1; do e2 <- reset e2; Ok (EPair e1 e2 j o)
  | EIntExc e c r x i => do e <- reset e; Ok (EIntExc e c r x (-1))
  end.

(* how a call of Next() ends: true, false, or an exception of a function passes through it *)
Inductive pulled : Type := Yes | No | Threw.
Definition outcome : Type := res (pulled * enum * St).
Definition on_next (r : outcome) (yes no threw : enum -> St -> outcome) : outcome :=
  do (be, s) <- r;
  let (b, e) := (be : pulled * enum) in
  match b with Yes => yes e s | No => no e s | Threw => threw e s end.
Definition give (b : pulled) (w : enum -> enum) (e : enum) (s : St) : outcome := Ok (b, w e, s).

(* SkipEnumerator::Next, the loop over count : OperationSequence.h:116-122 *)
Fixpoint skip_loop (nxt : enum -> St -> outcome) (n : nat) (e : enum) (s : St) : outcome :=
  match n with
  | O => Ok (Yes, e, s)
  | S n' => on_next (nxt e s) (skip_loop nxt n') (give No id) (give Threw id)
  end.

(* Next(); a while loop goes round by calling itself with less fuel.  SkipEnumerator marks
   itself as skipped before it skips; ConcatEnumerator counts before it moves. *)
Fixpoint next (fuel : nat) (e : enum) (s : St) {struct fuel} : outcome :=
  match fuel with
  | O => NoFuel
  | S f =>
      match e with
      | EEmpty => Ok (No, EEmpty, s)
      | ECont l i => Ok (if (i + 1 >=? 0) && (i + 1 <? zlen l) then Yes else No, ECont l (i + 1), s)
      | EOnce l i => Ok (if (i + 1 >=? 0) && (i + 1 <? zlen l) then Yes else No, EOnce l (i + 1), s)
      | ESelect e g o =>
          on_next (next f e s)
            (fun e s => do x <- current e;
                        match g x s with
                        | (s, Some y) => Ok (Yes, ESelect e g (Some y), s)
                        | (s, None) => Ok (Threw, ESelect e g o, s)
                        end)
            (give No (fun e => ESelect e g o)) (give Threw (fun e => ESelect e g o))
      | EWhere e q i =>
          on_next (next f e s)
            (fun e s => do x <- current e;
                        match q x s with
                        | (s, Some true) => Ok (Yes, EWhere e q (i + 1), s)
                        | (s, Some false) => next f (EWhere e q i) s
                        | (s, None) => Ok (Threw, EWhere e q i, s)
                        end)
            (give No (fun e => EWhere e q i)) (give Threw (fun e => EWhere e q i))
      | EConcat e1 e2 i t =>
          if t then
            let w := fun e2 => EConcat e1 e2 (i + 1) true in
            on_next (next f e2 s) (give Yes w) (give No w) (give Threw w)
          else
            let w1 := fun e1 => EConcat e1 e2 (i + 1) false in
            on_next (next f e1 s) (give Yes w1)
              (fun e1 s =>
                 let w := fun e2 => EConcat e1 e2 (i + 1) true in
                 on_next (next f e2 s) (give Yes w) (give No w) (give Threw w))
              (give Threw w1)
      | ETake e n =>
          if index e >=? n - 1 then Ok (No, ETake e n, s)
          else let w := fun e => ETake e n in on_next (next f e s) (give Yes w) (give No w) (give Threw w)
      | ESkip e n b =>
          let w := fun e => ESkip e n true in
          if b then on_next (next f e s) (give Yes w) (give No w) (give Threw w)
          else
            on_next (skip_loop (next f) (Z.to_nat n) e s)
              (fun e s => on_next (next f e s) (give Yes w) (give No w) (give Threw w))
              (give No w) (give Threw w)
      | ERepeat e n i r =>
          if r <? n then
            on_next (next f e s) (give Yes (fun e => ERepeat e n (i + 1) r))
              (fun e s => do e <- reset e; next f (ERepeat e n i (r + 1)) s)
              (give Threw (fun e => ERepeat e n i r))
          else Ok (No, ERepeat e n i r, s)
      | EDistinct e c d o =>
          on_next (next f e s)
            (fun e s => do x <- current e;
                        if LzyModel.contains c d x then next f (EDistinct e c d o) s
                        else Ok (Yes, EDistinct e c (x :: d) (Some x), s))
            (give No (fun e => EDistinct e c d o)) (give Threw (fun e => EDistinct e c d o))
      | EReverse l i => Ok (if i + 1 <? zlen l then Yes else No, EReverse l (i + 1), s)
      | EPair e1 e2 j o =>
          on_next (next f e1 s)
            (fun e1 s =>
               on_next (next f e2 s)
                 (fun e2 s => do x <- current e1; do y <- current e2; Ok (Yes, EPair e1 e2 j (Some (j x y)), s))
                 (give No (fun e2 => EPair e1 e2 j o)) (give Threw (fun e2 => EPair e1 e2 j o)))
            (give No (fun e1 => EPair e1 e2 j o)) (give Threw (fun e1 => EPair e1 e2 j o))
      | EIntExc e c r x i =>
          on_next (next f e s)
            (fun e s => do a <- current e;
                        if Bool.eqb (LzyModel.contains c r a) x then Ok (Yes, EIntExc e c r x (i + 1), s)
                        else next f (EIntExc e c r x i) s)
            (give No (fun e => EIntExc e c r x i)) (give Threw (fun e => EIntExc e c r x i))
      end
  end.

(* while(enumerator->Next()) collecting enumerator->Current() : CopyFrom of a lazy list,
   OperationCopyFrom.h:87-104.  None: an exception left the loop *)
Fixpoint drain (fuel : nat) (e : enum) (s : St) : res (option (list V) * St) :=
  match fuel with
  | O => NoFuel
  | S f =>
      do (be, s) <- next f e s;
      let (b, e) := (be : pulled * enum) in
      match b with
      | Yes => do x <- current e; do (o, s) <- drain f e s; Ok (match o with Some l => Some (x :: l) | None => None end, s)
      | No => Ok (Some [], s)
      | Threw => Ok (None, s)
      end
  end.

(* ---- LazyList pipelines : Operation.h:224-877 ------------------------------------- *)
Inductive pipe : Type :=
| PEmpty
| PList (l : list V)
| POnce (l : list V)
| PSelect (p : pipe) (f : selector)
| PWhere (p : pipe) (q : predicate)
| PConcat (p q : pipe)
| PTake (p : pipe) (n : Z)
| PSkip (p : pipe) (n : Z)
| PRepeat (p : pipe) (n : Z)
| PDistinct (c : V -> V -> comparison) (p : pipe)
| PReverse (p : pipe)
| PPairwise (j : V -> V -> V) (p q : pipe)
| PIntersect (c : V -> V -> comparison) (p q : pipe)
| PExcept (c : V -> V -> comparison) (p q : pipe)
| PUnion (c : V -> V -> comparison) (p q : pipe)
| PEvaluate (p : pipe) (force : bool)
| PMany (p : pipe) (f : V -> St -> St * option pipe).   (* f runs some code and then makes a lazy list *)

(* Evaluated() *)
Fixpoint evaluated (e : enum) : bool :=
  match e with
  | EEmpty => true
  | ECont _ _ => true
  | EOnce _ _ => true
  | ESelect _ _ _ => false
  | EWhere _ _ _ => false
  | EConcat e1 e2 _ _ => evaluated e1 && evaluated e2
  | ETake e _ => evaluated e
  | ESkip e _ _ => evaluated e
  | ERepeat e _ _ _ => evaluated e
  | EDistinct _ _ _ _ => false
  | EReverse _ _ => true
  | EPair e1 e2 _ _ => evaluated e1 && evaluated e2
  | EIntExc _ _ _ _ _ => false
  end.

(* the enumerator that the lazy list holds; None: an exception passes through the member
   function that builds it.  Reverse, Intersect, Except, Evaluate
   and SelectMany read their argument. *)
Definition built : Type := res (option enum * St).
Definition on_built (r : built) (k : enum -> St -> built) : built :=
  do (o, s) <- r; match o with Some e => k e s | None => Ok (None, s) end.
Definition on_list (r : res (option (list V) * St)) (k : list V -> St -> built) : built :=
  do (o, s) <- r; match o with Some l => k l s | None => Ok (None, s) end.
Definition made (e : enum) (s : St) : built := Ok (Some e, s).
(* SelectMany : Operation.h:899-904, Select(f).Aggregate(LazyList<U>(), Concat), 517-525: a loop
   that calls f for every element and puts each lazy list behind those before it.  As for All and
   Any below, the loop of Select and the loop of Aggregate are written as one. *)
Fixpoint gather (fuel : nat) (f : V -> St -> built) (acc e : enum) (s : St) : built :=
  match fuel with
  | O => NoFuel
  | S n =>
      do (be, s) <- next n e s;
      let (b, e) := (be : pulled * enum) in
      match b with
      | Yes => do x <- current e; on_built (f x s) (fun e2 s => gather n f (EConcat acc e2 (-1) false) e s)
      | No => made acc s
      | Threw => Ok (None, s)
      end
  end.
Fixpoint build (fuel : nat) (p : pipe) (s : St) : built :=
  match p with
  | PEmpty => made EEmpty s
  | PList l => made (ECont l (-1)) s
  | POnce l => made (EOnce l (-1)) s
  | PSelect p f => on_built (build fuel p s) (fun e => made (ESelect e f None))
  | PWhere p q => on_built (build fuel p s) (fun e => made (EWhere e q (-1)))
  | PConcat p q => on_built (build fuel p s) (fun e1 s => on_built (build fuel q s) (fun e2 => made (EConcat e1 e2 (-1) false)))
  | PTake p n => on_built (build fuel p s) (fun e => made (ETake e n))
  | PSkip p n => on_built (build fuel p s) (fun e => made (ESkip e n false))
  | PRepeat p n => on_built (build fuel p s) (fun e => made (ERepeat e n (-1) 0))
  | PDistinct c p => on_built (build fuel p s) (fun e => made (EDistinct e c [] None))
  | PReverse p => on_built (build fuel p s) (fun e s => on_list (drain fuel e s) (fun l => made (EReverse l (-1))))
  | PPairwise j p q => on_built (build fuel p s) (fun e1 s => on_built (build fuel q s) (fun e2 => made (EPair e1 e2 j None)))
  | PIntersect c p q =>
      on_built (build fuel p s) (fun e1 s => on_built (build fuel q s) (fun e2 s => on_list (drain fuel e2 s) (fun r =>
        made (EDistinct (EIntExc e1 c r true (-1)) c [] None))))
  | PExcept c p q =>
      on_built (build fuel p s) (fun e1 s => on_built (build fuel q s) (fun e2 s => on_list (drain fuel e2 s) (fun r =>
        made (EDistinct (EIntExc e1 c r false (-1)) c [] None))))
  | PUnion c p q =>
      on_built (build fuel p s) (fun e1 s => on_built (build fuel q s) (fun e2 =>
        made (EDistinct (EConcat e1 e2 (-1) false) c [] None)))
  | PEvaluate p force =>
      on_built (build fuel p s) (fun e s =>
        if negb force && evaluated e then made e s else on_list (drain fuel e s) (fun l => made (ECont l (-1))))
  | PMany p f =>
      on_built (build fuel p s) (fun e s =>
        gather fuel (fun x s => match f x s with (s, Some q) => build fuel q s | (s, None) => Ok (None, s) end) EEmpty e s)
  end.

(* ---- loops over a lazy list ----------------------------------------------------------
   for (auto x : list) body : OperationForEach.h:24-75.  The body has effects too; it goes on
   (Some true), leaves the loop (Some false) or throws (None). *)
Definition code : Type := V -> St -> St * option bool.
Inductive verdict : Type := Finished | Broke | Escaped.
Fixpoint loop (fuel : nat) (body : code) (e : enum) (s : St) : res (verdict * St) :=
  match fuel with
  | O => NoFuel
  | S f =>
      do (be, s) <- next f e s;
      let (b, e) := (be : pulled * enum) in
      match b with
      | Yes => do x <- current e;
               match body x s with
               | (s, Some true) => loop f body e s
               | (s, Some false) => Ok (Broke, s)
               | (s, None) => Ok (Escaped, s)
               end
      | No => Ok (Finished, s)
      | Threw => Ok (Escaped, s)
      end
  end.
Definition on_pipe {R : Type} (escaped : R) (k : enum -> St -> res (R * St)) (r : built) : res (R * St) :=
  do (o, s) <- r; match o with Some e => k e s | None => Ok (escaped, s) end.
Definition for_each (fuel : nat) (p : pipe) (body : code) (s : St) : res (verdict * St) :=
  on_pipe Escaped (loop fuel body) (build fuel p s).

(* the values of a lazy list: CopyFrom(list, lazy list), List.h and OperationCopyFrom.h:87-104 *)
Definition elements (fuel : nat) (p : pipe) (s : St) : res (option (list V) * St) := on_pipe None (drain fuel) (build fuel p s).
(* First() : Operation.h:595-603.  Some None: the list is empty, Error; None: an exception *)
Definition first (fuel : nat) (p : pipe) (s : St) : res (option (option V) * St) :=
  on_pipe None (fun e s =>
    do (be, s) <- next fuel e s;
    let (b, e) := (be : pulled * enum) in
    match b with Yes => do x <- current e; Ok (Some (Some x), s) | No => Ok (Some None, s) | Threw => Ok (None, s) end)
    (build fuel p s).
(* IsEmpty() : Operation.h:666-670 *)
Definition is_empty (fuel : nat) (p : pipe) (s : St) : res (option bool * St) :=
  on_pipe None (fun e s =>
    do (be, s) <- next fuel e s;
    let (b, e) := (be : pulled * enum) in
    match b with Yes => Ok (Some false, s) | No => Ok (Some true, s) | Threw => Ok (None, s) end)
    (build fuel p s).
(* Count() : Operation.h:653-662; the loop calls Next only *)
Fixpoint count_loop (fuel : nat) (n : Z) (e : enum) (s : St) : res (option Z * St) :=
  match fuel with
  | O => NoFuel
  | S f =>
      do (be, s) <- next f e s;
      let (b, e) := (be : pulled * enum) in
      match b with Yes => count_loop f (n + 1) e s | No => Ok (Some n, s) | Threw => Ok (None, s) end
  end.
Definition count (fuel : nat) (p : pipe) (s : St) : res (option Z * St) := on_pipe None (count_loop fuel 0) (build fuel p s).

(* Select(f).Aggregate(init, op) for All and Any : Operation.h:517-525, 539-543, 557-561.  The Select
   enumerator calls f after each Next of the list below it and Aggregate combines the answer
   with what it has; the two loops are written as one. *)
Fixpoint ask (fuel : nat) (op : bool -> bool -> bool) (q : predicate) (acc : bool) (e : enum) (s : St) : res (option bool * St) :=
  match fuel with
  | O => NoFuel
  | S f =>
      do (be, s) <- next f e s;
      let (b, e) := (be : pulled * enum) in
      match b with
      | Yes => do x <- current e;
               match q x s with
               | (s, Some a) => ask f op q (op acc a) e s
               | (s, None) => Ok (None, s)
               end
      | No => Ok (Some acc, s)
      | Threw => Ok (None, s)
      end
  end.
Definition all (fuel : nat) (q : predicate) (p : pipe) (s : St) : res (option bool * St) :=
  on_pipe None (ask fuel andb q true) (build fuel p s).
Definition any (fuel : nat) (q : predicate) (p : pipe) (s : St) : res (option bool * St) :=
  on_pipe None (ask fuel orb q false) (build fuel p s).

(* CopyFrom(array, lazy list) : OperationCopyFrom.h:60-85, List.h:431-449.  The array cannot be
   appended to: one enumerator counts, the array is resized, a second enumerator is read.
   The result says whether the end was reached (false: a function threw) and what the array
   holds; Array::Set raises outside the bounds. *)
Definition resize (d : V) (a : list V) (n : nat) : list V := firstn n a ++ repeat d (n - length a).
Fixpoint fill (fuel : nat) (a : list V) (i : Z) (e : enum) (s : St) : res (bool * list V * St) :=
  match fuel with
  | O => NoFuel
  | S f =>
      do (be, s) <- next f e s;
      let (b, e) := (be : pulled * enum) in
      match b with
      | Yes => do x <- current e;
               if (0 <=? i) && (i <? zlen a) then fill f (upd a (Z.to_nat i) x) (i + 1) e s else Err
      | No => Ok (true, a, s)
      | Threw => Ok (false, a, s)
      end
  end.
Definition copy_to_array (fuel : nat) (d : V) (a : list V) (p : pipe) (s : St) : res (bool * list V * St) :=
  on_pipe (false, a) (fun e s =>
    do (o, s) <- count_loop fuel 0 e s;
    match o with Some n => fill fuel (resize d a (Z.to_nat n)) 0 e s | None => Ok (false, a, s) end)
    (build fuel p s).
End Lze.

Arguments EEmpty {V St}. Arguments ECont {V St}. Arguments EOnce {V St}. Arguments ESelect {V St}.
Arguments EWhere {V St}. Arguments EConcat {V St}. Arguments ETake {V St}. Arguments ESkip {V St}.
Arguments ERepeat {V St}. Arguments EDistinct {V St}. Arguments EReverse {V St}. Arguments EPair {V St}.
Arguments EIntExc {V St}.
Arguments PEmpty {V St}. Arguments PList {V St}. Arguments POnce {V St}. Arguments PSelect {V St}.
Arguments PWhere {V St}. Arguments PConcat {V St}. Arguments PTake {V St}. Arguments PSkip {V St}.
Arguments PRepeat {V St}. Arguments PDistinct {V St}. Arguments PReverse {V St}. Arguments PPairwise {V St}.
Arguments PIntersect {V St}. Arguments PExcept {V St}. Arguments PUnion {V St}. Arguments PEvaluate {V St}. Arguments PMany {V St}.
Arguments current {V St}. Arguments index {V St}. Arguments reset {V St}. Arguments on_next {V St}.
Arguments give {V St}. Arguments skip_loop {V St}. Arguments next {V St}. Arguments drain {V St}.
Arguments evaluated {V St}. Arguments on_built {V St}. Arguments on_list {V St}. Arguments made {V St}. Arguments gather {V St}.
Arguments build {V St}. Arguments loop {V St}. Arguments on_pipe {V St R}. Arguments for_each {V St}.
Arguments elements {V St}. Arguments first {V St}. Arguments is_empty {V St}. Arguments count_loop {V St}. Arguments count {V St}.
Arguments ask {V St}. Arguments all {V St}. Arguments any {V St}. Arguments resize {V}. Arguments fill {V St}.
Arguments copy_to_array {V St}.
