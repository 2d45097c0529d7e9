(* Comparison of Tuple and Pair, and OrderingOf.
   Source/Primitives/Tuple.h:98-116 (TupleElementComparison), 177-194 (AreEqual, Compare);
   Source/Collections/Pair.h:95-110; Source/Basic.h:247-280. *)
From Verif Require Import Base.

(* std::strong_ordering, std::weak_ordering, std::partial_ordering *)
Inductive category := Strong | Weak | Partial.
(* their values; conversions from a stronger to a weaker category keep the value *)
Inductive ord := Less | Equal | Greater | Unordered.
Definition nonzero (o : ord) : bool := match o with Equal => false | _ => true end.   (* order != 0 *)

(* an element type of a tuple: its <=> with its category, and its == *)
Record elem := mkElem { car : Type; cat : category; cmp : car -> car -> ord; eqe : car -> car -> bool }.
(* Tuple<TArgs...>.  Comparison with a tuple of other element types is not modelled. *)
Fixpoint tuple (es : list elem) : Type :=
  match es with [] => unit | e :: es => (car e * tuple es)%type end.

(* Tuple.h:110-115 operator*(order, element comparison) *)
Definition mul (order : ord) (o : ord) : ord := if nonzero order then order else o.
(* Tuple.h:185-194: the left fold (std::strong_ordering::equal * ... * comparison of the elements) *)
Fixpoint compare_from (order : ord) (es : list elem) : tuple es -> tuple es -> ord :=
  match es with
  | [] => fun _ _ => order
  | e :: es => fun a b => compare_from (mul order (cmp e (fst a) (fst b))) es (snd a) (snd b)
  end.
Definition compare (es : list elem) (a b : tuple es) : ord := compare_from Equal es a b.
(* Tuple.h:177-183: the left fold (true && ... && equality of the elements) *)
Fixpoint equal_from (r : bool) (es : list elem) : tuple es -> tuple es -> bool :=
  match es with
  | [] => fun _ _ => r
  | e :: es => fun a b => equal_from (r && eqe e (fst a) (fst b)) es (snd a) (snd b)
  end.
Definition equal (es : list elem) (a b : tuple es) : bool := equal_from true es a b.

(* Pair.h:95-103 *)
Definition pair_compare (k v : elem) (a b : car k * car v) : ord :=
  let result := cmp k (fst a) (fst b) in
  if nonzero result then result
  else
    let result := cmp v (snd a) (snd b) in
    if nonzero result then result else Equal.
(* Pair.h:105-110 *)
Definition pair_equal (k v : elem) (a b : car k * car v) : bool :=
  eqe k (fst a) (fst b) && eqe v (snd a) (snd b).

(* Basic.h:249-265 OrderingSelection: the primary template and its two specialisations *)
Definition selection (PO WO SO : bool) : category :=
  match PO, WO with
  | true, _ => Partial
  | false, true => Weak
  | false, false => Partial
  end.
Definition is_cat (c d : category) : bool :=
  match c, d with Strong, Strong | Weak, Weak | Partial, Partial => true | _, _ => false end.
(* Basic.h:267-280 OrderingDecision; the categories of the arguments *)
Definition number (c : category) (l : list category) : nat := length (filter (is_cat c) l).
Definition ordering_of (l : list category) : category :=
  selection (Nat.ltb 0 (number Partial l)) (Nat.ltb 0 (number Weak l)) (Nat.ltb 0 (number Strong l)).
