(* SortLambda (Source/Collections/Operation.h:86-184) with elements whose copies may throw.  As in QstModel the comparison is
   user code with a state; copying an element is user code as well and shares that state.  A copy assignment that throws
   leaves its target with some value, torn old new; a copy constructor that throws makes no object.
   The temporary of a swap is destroyed by the exception; destructors do not throw. *)
From Verif Require Import Base QsModel QstModel.
Open Scope Z_scope.

Section Qc.
  Variable T St : Type.
  Variable orderer : St -> T -> T -> St * answer.
  Variable construct : St -> T -> St * bool.               (* T temp = x;  true: it throws *)
  Variable assign : St -> T -> T -> St * bool.             (* old = new;   true: it throws *)
  Variable torn : T -> T -> T.

  (* T temp = items[i]; items[i] = items[j]; items[j] = temp; : Operation.h:118-120, 142-144, 162-164 *)
  Definition cswap (a : list T) (s : St) (i j : Z) : run T St unit :=
    do x <- aget a i;
    do y <- aget a j;
    match construct s x with
    | (s, true) => Ok (a, s, None)
    | (s, false) =>
        match assign s x y with
        | (s, true) => do a <- aset a i (torn x y); Ok (a, s, None)
        | (s, false) =>
            do a <- aset a i y;
            match assign s y x with
            | (s, true) => do a <- aset a j (torn y x); Ok (a, s, None)
            | (s, false) => do a <- aset a j x; Ok (a, s, Some tt)
            end
        end
    end.

  (* first loop : Operation.h:97-123 *)
  Fixpoint cphase1 (a : list T) (s : St) (base len : Z) (pivot left right : Z) (flag : bool) (fuel : nat)
    : run T St (Z * Z * Z) :=
    match fuel with
    | O => NoFuel
    | S fuel' =>
        if left + right + 1 =? len then Ok (a, s, Some (pivot, left, right)) else
        let candidate := if flag then left else len - right - 1 in
        do x <- aget a (base + pivot);
        do y <- aget a (base + candidate);
        match orderer s x y with
        | (s, Is o) =>
            if (negb flag && negb (match o with Gt => true | _ => false end))
               || (flag && negb (match o with Lt => true | _ => false end))
            then cphase1 a s base len pivot (if flag then left + 1 else left) (if flag then right else right + 1) flag fuel'
            else
              andthen (cswap a s (base + pivot) (base + candidate)) (fun a s _ =>
              cphase1 a s base len candidate (if flag then left else left + 1) (if flag then right + 1 else right) (negb flag) fuel')
        | (s, _) => Ok (a, s, None)
        end
    end.

  (* second loop : 125-151 *)
  Fixpoint cphase2 (a : list T) (s : St) (base pivot : Z) (reading writing : Z) (n : nat) : run T St Z :=
    match n with
    | O => Ok (a, s, Some (writing + 1))
    | S n' =>
        do x <- aget a (base + pivot);
        do y <- aget a (base + reading);
        match orderer s x y with
        | (s, Is Eq) =>
            andthen (if negb (reading =? writing) then cswap a s (base + reading) (base + writing) else Ok (a, s, Some tt)) (fun a s _ =>
            cphase2 a s base pivot (reading - 1) (writing - 1) n')
        | (s, Is _) => cphase2 a s base pivot (reading - 1) writing n'
        | (s, _) => Ok (a, s, None)
        end
    end.

  (* third loop : 153-171 *)
  Fixpoint cphase3 (a : list T) (s : St) (base len pivot : Z) (reading writing : Z) (n : nat) : run T St Z :=
    match n with
    | O => Ok (a, s, Some (len - writing))
    | S n' =>
        do x <- aget a (base + pivot);
        do y <- aget a (base + reading);
        match orderer s x y with
        | (s, Is Eq) =>
            andthen (if negb (reading =? writing) then cswap a s (base + reading) (base + writing) else Ok (a, s, Some tt)) (fun a s _ =>
            cphase3 a s base len pivot (reading + 1) (writing + 1) n')
        | (s, Raises) => Ok (a, s, None)
        | (s, _) => cphase3 a s base len pivot (reading + 1) writing n'
        end
    end.

  (* one turn of the outer loop : 90-171 *)
  Definition cpartition (a : list T) (s : St) (base len : Z) : run T St (Z * Z) :=
    andthen (cphase1 a s base len 0 0 0 false (Z.to_nat len)) (fun a s '(pivot, lft, rgt) =>
    andthen (cphase2 a s base pivot (lft - 1) (lft - 1) (Z.to_nat lft)) (fun a s lft =>
    andthen (cphase3 a s base len pivot (len - rgt) (len - rgt) (Z.to_nat rgt)) (fun a s rgt =>
    Ok (a, s, Some (lft, rgt))))).

  (* the outer loop with its recursive call : 88-184 *)
  Fixpoint csort (a : list T) (s : St) (base len : Z) (fuel : nat) : run T St nat :=
    match fuel with
    | O => NoFuel
    | S fuel' =>
        if len =? 0 then Ok (a, s, Some O) else
        andthen (cpartition a s base len) (fun a s '(lft, rgt) =>
        if lft <? rgt then
          andthen (csort a s base lft fuel') (fun a s d1 =>
          andthen (csort a s (base + (len - rgt)) rgt fuel') (fun a s d2 =>
          Ok (a, s, Some (Nat.max (S d1) d2))))
        else
          andthen (csort a s (base + (len - rgt)) rgt fuel') (fun a s d1 =>
          andthen (csort a s base lft fuel') (fun a s d2 =>
          Ok (a, s, Some (Nat.max (S d1) d2)))))
    end.
  Definition csort_array (a : list T) (s : St) (base len : Z) : run T St nat :=
    csort a s base len (Z.to_nat len + 1).
End Qc.
