(* The types of the library as keys of SortedList, Dictionary, Group and as elements of Sort, and floating point keys.
   The element types of TupModel, built from each other. *)
From Verif Require Import Base TupModel DateModel.
Open Scope Z_scope.

Inductive key :=
| KInt                        (* vint, wchar_t, enumerations ... *)
| KText                       (* ObjectString<T> : Strings/String.h *)
| KDate                       (* DateTime : Primitives/DateTime.h *)
| KPtr                        (* Ptr<T>, ComPtr<T> : Primitives/Pointer.h; the address, 0 for null *)
| KNullable (k : key)         (* Nullable<T> : Primitives/Nullable.h *)
| KPair (k v : key)           (* Pair<K, V> : Collections/Pair.h *)
| KTuple (ks : list key).     (* Tuple<TArgs...> : Primitives/Tuple.h *)

(* a <=> b of numbers *)
Definition zord (a b : Z) : ord := match a ?= b with Lt => Less | Eq => Equal | Gt => Greater end.

(* String.h:47-52: the loop over the common length *)
Fixpoint units (a b : list Z) (minLength : nat) : ord :=
  match minLength, a, b with
  | S n, x :: a', y :: b' => let diff := zord x y in if nonzero diff then diff else units a' b' n
  | _, _, _ => Equal
  end.
(* String.h:41-55.  A string is given by its code units; two strings that share the buffer skip the loop (StrModel.compare
   has the buffers; KeyProofs.text_strings: the results are the same). *)
Definition text_compare (a b : list Z) : ord :=
  let minLength := if zlen a <? zlen b then zlen a else zlen b in
  let diff := units a b (Z.to_nat minLength) in
  if nonzero diff then diff else zord (zlen a) (zlen b).
(* String.h:67-70 *)
Definition text_equal (a b : list Z) : bool := negb (nonzero (text_compare a b)).

(* Nullable.h:197-205; None is a null value *)
Definition nullable_compare (e : elem) (a b : option (car e)) : ord :=
  match a, b with
  | Some x, Some y => cmp e x y
  | Some _, None => Greater
  | None, Some _ => Less
  | None, None => Equal
  end.
(* Nullable.h:207-212 *)
Definition nullable_equal (e : elem) (a b : option (car e)) : bool :=
  match a, b with
  | Some x, Some y => eqe e x y
  | None, None => true
  | _, _ => false
  end.

(* Values, <=> with its category, and ==.  Pointer.h:272-290 and 449-467 compare addresses; DateTime.h:93-101; Pair.h:95-110;
   Tuple.h:177-194, 258-263. *)
Fixpoint elem_of (k : key) : elem :=
  match k with
  | KInt => mkElem Z Strong zord Z.eqb
  | KText => mkElem (list Z) Strong text_compare text_equal
  | KDate => mkElem datetime Strong dcompare dequal
  | KPtr => mkElem Z Strong zord Z.eqb
  | KNullable k => mkElem (option (car (elem_of k))) (cat (elem_of k)) (nullable_compare (elem_of k)) (nullable_equal (elem_of k))
  | KPair k v =>
      mkElem (car (elem_of k) * car (elem_of v)) (ordering_of [cat (elem_of k); cat (elem_of v)])
             (pair_compare (elem_of k) (elem_of v)) (pair_equal (elem_of k) (elem_of v))
  | KTuple ks =>
      mkElem (tuple (map elem_of ks)) (ordering_of (map cat (map elem_of ks))) (compare (map elem_of ks)) (equal (map elem_of ks))
  end.
Definition value (k : key) : Type := car (elem_of k).

(* How the collections read the result: ordering < 0, ordering > 0, neither; unordered raises an error.
   List.h:707-725, Operation.h:86-207 *)
Definition read_ord (o : ord) : option comparison :=
  match o with Less => Some Lt | Equal => Some Eq | Greater => Some Gt | Unordered => None end.
Definition key_cmp (k : key) (a b : value k) : option comparison := read_ord (cmp (elem_of k) a b).

(* Floating point numbers: the numbers are A with the order c (+0 and -0 are equal), None is NaN, <=> with a NaN is unordered *)
Definition float_ord {A : Type} (c : A -> A -> comparison) (a b : option A) : ord :=
  match a, b with
  | Some x, Some y => match c x y with Lt => Less | Eq => Equal | Gt => Greater end
  | _, _ => Unordered
  end.
Definition fcmp {A : Type} (c : A -> A -> comparison) (a b : option A) : option comparison := read_ord (float_ord c a b).
