(* SortLambda / Sort : Source/Collections/Operation.h:86-207.
   The array is a list; items[i] is position base + i of it, and an access outside the
   whole array is UB.  cmp is the comparator: None is std::partial_ordering::unordered.
   The comparator is taken to be a function (the same answer for the same two values). *)
From Verif Require Import Base.
Open Scope Z_scope.

Section Qs.
  Variable T : Type.
  Variable cmp : T -> T -> option comparison.

  (* T temp = items[i]; items[i] = items[j]; items[j] = temp; *)
  Definition swap (a : list T) (i j : Z) : res (list T) :=
    do x <- aget a i;
    do y <- aget a j;
    do a <- aset a i y;
    aset a j x.

  (* first loop : 97-123 *)
  Fixpoint phase1 (a : list T) (base len : Z) (pivot left right : Z) (flag : bool) (fuel : nat)
    : res (list T * Z * Z * Z) :=
    match fuel with
    | O => NoFuel
    | S fuel' =>
        if left + right + 1 =? len then Ok (a, pivot, left, right) else
        let candidate := if flag then left else len - right - 1 in
        do x <- aget a (base + pivot);
        do y <- aget a (base + candidate);
        match cmp x y with
        | None => Err
        | Some o =>
            if (negb flag && negb (match o with Gt => true | _ => false end))
               || (flag && negb (match o with Lt => true | _ => false end))
            then (* mine++ *)
              phase1 a base len pivot (if flag then left + 1 else left) (if flag then right else right + 1) flag fuel'
            else (* theirs++, swap *)
              do a <- swap a (base + pivot) (base + candidate);
              phase1 a base len candidate (if flag then left else left + 1) (if flag then right + 1 else right) (negb flag) fuel'
        end
    end.

  (* second loop : 125-151; reading counts down to -1 *)
  Fixpoint phase2 (a : list T) (base pivot : Z) (reading writing : Z) (n : nat) : res (list T * Z) :=
    match n with
    | O => Ok (a, writing + 1)
    | S n' =>
        do x <- aget a (base + pivot);
        do y <- aget a (base + reading);
        match cmp x y with
        | None => Err
        | Some Eq =>
            do a <- (if negb (reading =? writing) then swap a (base + reading) (base + writing) else Ok a);
            phase2 a base pivot (reading - 1) (writing - 1) n'
        | Some _ => phase2 a base pivot (reading - 1) writing n'
        end
    end.

  (* third loop : 153-171; an unordered answer counts as different *)
  Fixpoint phase3 (a : list T) (base len pivot : Z) (reading writing : Z) (n : nat) : res (list T * Z) :=
    match n with
    | O => Ok (a, len - writing)
    | S n' =>
        do x <- aget a (base + pivot);
        do y <- aget a (base + reading);
        match cmp x y with
        | Some Eq =>
            do a <- (if negb (reading =? writing) then swap a (base + reading) (base + writing) else Ok a);
            phase3 a base len pivot (reading + 1) (writing + 1) n'
        | _ => phase3 a base len pivot (reading + 1) writing n'
        end
    end.

  Definition partition (a : list T) (base len : Z) : res (list T * Z * Z) :=
    do (s, rgt) <- phase1 a base len 0 0 0 false (Z.to_nat len);
    let '(a, pivot, lft) := s in
    do (a, lft) <- phase2 a base pivot (lft - 1) (lft - 1) (Z.to_nat lft);
    do (a, rgt) <- phase3 a base len pivot (len - rgt) (len - rgt) (Z.to_nat rgt);
    Ok (a, lft, rgt).

  (* the outer loop with its recursive call; the second component is the depth of the
     recursion below this call.  fuel bounds calls and iterations. *)
  Fixpoint qsort (a : list T) (base len : Z) (fuel : nat) : res (list T * nat) :=
    match fuel with
    | O => NoFuel
    | S fuel' =>
        if len =? 0 then Ok (a, O) else
        do (s, rgt) <- partition a base len;
        let '(a, lft) := s in
        if lft <? rgt then
          do (a, d1) <- qsort a base lft fuel';
          do (a, d2) <- qsort a (base + (len - rgt)) rgt fuel';
          Ok (a, Nat.max (S d1) d2)
        else
          do (a, d1) <- qsort a (base + (len - rgt)) rgt fuel';
          do (a, d2) <- qsort a base lft fuel';
          Ok (a, Nat.max (S d1) d2)
    end.
  Definition sort_array (a : list T) (base len : Z) : res (list T * nat) :=
    qsort a base len (Z.to_nat len + 1).

  (* LazyList::OrderBy, OrderByKey, OrderBySelf : Operation.h:396-460; the source is copied
     into a new list, which is sorted in place *)
  Definition order_by (source : list T) : res (list T) :=
    let copy := source in
    if 0 <? zlen copy then do (s, _) <- sort_array copy 0 (zlen copy); Ok s else Ok copy.
End Qs.
