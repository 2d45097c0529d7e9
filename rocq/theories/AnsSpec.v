(* What Distinct, Union, Intersect and Except promise for any comparison, and for a consistent one. *)
From Verif Require Import Base AnySpec AnsModel.
Open Scope Z_scope.

Section Spec.
  Context (A St : Type) (cmp : St -> A -> A -> St * option comparison) (less : St -> A -> A -> St * option bool).
  Definition equal_in (l : list A) (a : A) : Prop := exists b, In b l /\ called_equal A St cmp b a.
  Definition fail_in (l : list A) (a : A) : Prop := exists b, In b l /\ can_fail A St cmp less b a.
  (* Yielding from xs: skip a says why the source may pass over a, take a why it may give a; over holds every element a may be compared with
     before it is reached (the second sequence of Intersect and Except); seen is what has been yielded. *)
  Inductive yields (take skip : A -> Prop) (over : list A) : list A -> list A -> list A -> bool -> Prop :=
  | yl_end : forall seen, yields take skip over seen [] [] true
  | yl_take : forall seen a xs ys ok, take a -> yields take skip over (a :: seen) xs ys ok -> yields take skip over seen (a :: xs) (a :: ys) ok
  | yl_skip : forall seen a xs ys ok, skip a -> yields take skip over seen xs ys ok -> yields take skip over seen (a :: xs) ys ok
  | yl_dup : forall seen a xs ys ok, take a -> equal_in seen a -> yields take skip over seen xs ys ok -> yields take skip over seen (a :: xs) ys ok
  | yl_throw : forall seen a xs, fail_in (seen ++ over) a -> yields take skip over seen (a :: xs) [] false.
  Inductive may_yield : setop A -> list A -> list A -> bool -> Prop :=
  | my_distinct : forall xs zs ok, yields (fun _ => True) (fun _ => False) [] [] xs zs ok -> may_yield ODistinct xs zs ok
  | my_union : forall xs ys zs ok, yields (fun _ => True) (fun _ => False) [] [] (xs ++ ys) zs ok -> may_yield (OUnion ys) xs zs ok
  | my_intersect : forall xs ys zs ok, yields (equal_in ys) (fun _ => True) ys [] xs zs ok -> may_yield (OIntersect ys) xs zs ok
  | my_except : forall xs ys zs ok, yields (fun _ => True) (equal_in ys) ys [] xs zs ok -> may_yield (OExcept ys) xs zs ok
  (* reading the second sequence *)
  | my_throw : forall o ys xs b a, (o = OIntersect ys \/ o = OExcept ys) -> In a ys -> In b ys -> can_fail A St cmp less b a -> may_yield o xs [] false.
End Spec.

(* for a comparison that is a total preorder *)
Section Exact.
  Context (A : Type) (c : A -> A -> comparison).
  Definition isin (l : list A) (a : A) : bool := existsb (fun b => match c b a with Eq => true | _ => false end) l.
  (* without the elements equal to one in seen or to an earlier one *)
  Fixpoint firsts (seen xs : list A) : list A :=
    match xs with
    | [] => []
    | a :: xs => if isin seen a then firsts seen xs else a :: firsts (a :: seen) xs
    end.
  Definition exact_op (o : setop A) (xs : list A) : list A :=
    match o with
    | ODistinct => firsts [] xs
    | OUnion ys => firsts [] (xs ++ ys)
    | OIntersect ys => firsts [] (filter (isin ys) xs)
    | OExcept ys => firsts [] (filter (fun a => negb (isin ys a)) xs)
    end.
End Exact.
