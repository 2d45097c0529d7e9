(* What an enumerator of Distinct, Union, Intersect or Except promises for any comparison. *)
From Verif Require Import Base LstModel LstSpec AnySpec AnsModel AnsSpec DxnModel.
Open Scope Z_scope.

Section Spec.
  Context (A St : Type) (cmp : St -> A -> A -> St * option comparison) (less : St -> A -> A -> St * option bool).
  Notation eqi := (equal_in A St cmp). Notation fli := (fail_in A St cmp less).
  (* what the operation keeps in memory of its second sequence: a list of the same elements, in some order *)
  Definition same_elements (l ys : list A) : Prop := forall b, In b l <-> In b ys.
  Definition ref_of (o : setop A) (ref : option (bool * lst A)) : Prop :=
    match o, ref with
    | ODistinct, None | OUnion _, None => True
    | OIntersect ys, Some (true, x) | OExcept ys, Some (false, x) => exists l, lst_shows A x l /\ same_elements l ys
    | _, _ => False
    end.
  Definition second (o : setop A) : list A := match o with OIntersect ys | OExcept ys => ys | _ => [] end.
  (* why an element may be yielded, and why it may be passed over although nothing equal was yielded *)
  Definition may_take (o : setop A) (a : A) : Prop := match o with OIntersect ys => eqi ys a | _ => True end.
  Definition may_skip (o : setop A) (a : A) : Prop := match o with OIntersect _ => True | OExcept ys => eqi ys a | _ => False end.
  Definition all_of (o : setop A) (xs : list A) : list A := match o with OUnion ys => xs ++ ys | _ => xs end.

  (* op is the operation, xs the source; still is what the source has to give, seen what was yielded (in some order), last the value Current shows *)
  Context (op : setop A) (xs : list A).
  Definition passed (seen : list A) (a : A) : Prop := may_skip op a \/ eqi seen a.
  Inductive dx_step : list A -> list A -> option A -> xop -> list A -> list A -> option A -> xout A -> Prop :=
  (* the next element that is not passed over is yielded and remembered *)
  | dx_yes : forall dups a still seen1 seen2 last, Forall (passed (seen1 ++ seen2)) dups -> may_take op a ->
      dx_step (dups ++ a :: still) (seen1 ++ seen2) last XNext still (seen1 ++ a :: seen2) (Some a) (XEnd Yes)
  | dx_no : forall dups seen last, Forall (passed seen) dups -> dx_step dups seen last XNext [] seen last (XEnd No)
  (* an exception: the element that was being examined will not come again *)
  | dx_threw : forall dups a still seen last last', Forall (passed seen) dups -> fli (seen ++ second op) a -> (last' = last \/ last' = Some a) ->
      dx_step (dups ++ a :: still) seen last XNext still seen last' (XEnd Threw)
  | dx_current : forall still seen a, dx_step still seen (Some a) XCurrent still seen (Some a) (XVal a)
  | dx_current_none : forall still seen, dx_step still seen None XCurrent still seen None XError
  | dx_index : forall still seen last, dx_step still seen last XIndex still seen last (XInt (zlen seen - 1))
  | dx_reset : forall still seen last, dx_step still seen last XReset (all_of op xs) [] last XNone.
  Inductive dx_run : list A -> list A -> option A -> list xop -> list A -> list A -> option A -> list (xout A) -> Prop :=
  | dx_nil : forall still seen last, dx_run still seen last [] still seen last []
  | dx_cons : forall t s l o t1 s1 l1 r os t2 s2 l2 rs, dx_step t s l o t1 s1 l1 r -> dx_run t1 s1 l1 os t2 s2 l2 rs -> dx_run t s l (o :: os) t2 s2 l2 (r :: rs).
End Spec.

(* An enumerator that gives the elements of ys and nothing else: n were given, o is what Current shows. *)
Section Plain.
  Context (A : Type) (ys : list A).
  Definition plain_step (n : nat) (o : option A) (p : xop) : nat * option A * xout A :=
    match p with
    | XNext => match nth_error ys n with Some a => (S n, Some a, XEnd Yes) | None => (n, o, XEnd No) end
    | XCurrent => (n, o, match o with Some a => XVal a | None => XError end)
    | XIndex => (n, o, XInt (Z.of_nat n - 1))
    | XReset => (0%nat, o, XNone)
    end.
  Fixpoint plain_run (n : nat) (o : option A) (ps : list xop) : list (xout A) :=
    match ps with
    | [] => []
    | p :: ps => let '(n, o, r) := plain_step n o p in r :: plain_run n o ps
    end.
End Plain.
