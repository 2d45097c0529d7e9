(* SortLambda (Source/Collections/Operation.h:86-184) and the binary search of SortedList
   (Source/Collections/List.h:698-774) with a comparison that is a piece of user code: it
   has a state of its own (a counter, a random generator, a log), it may answer differently
   for the same two values, and it may throw.  The array is what the caller sees after the
   call, also when an exception leaves it.
   Not modelled: a comparison that changes the elements or the container it is given, and
   exceptions thrown by copying elements (see QcModel). *)
From Verif Require Import Base LstModel SrtModel QsModel.
Open Scope Z_scope.

(* what one comparison does: an ordering, std::partial_ordering::unordered, or an exception *)
Inductive answer := Is (c : comparison) | Unordered | Raises.

Section Qst.
  Variable T St : Type.
  Variable orderer : St -> T -> T -> St * answer.

  (* the array, the state of the comparison, and the result; None: an exception was thrown *)
  Definition run (X : Type) : Type := res (list T * St * option X).
  Definition andthen {X Y : Type} (m : run X) (f : list T -> St -> X -> run Y) : run Y :=
    match m with
    | Ok (a, s, Some x) => f a s x
    | Ok (a, s, None) => Ok (a, s, None)
    | Err => Err | UB => UB | NoFuel => NoFuel
    end.

  (* first loop : Operation.h:97-123 *)
  Fixpoint tphase1 (a : list T) (s : St) (base len : Z) (pivot left right : Z) (flag : bool) (fuel : nat)
    : run (Z * Z * Z) :=
    match fuel with
    | O => NoFuel
    | S fuel' =>
        if left + right + 1 =? len then Ok (a, s, Some (pivot, left, right)) else
        let candidate := if flag then left else len - right - 1 in
        do x <- aget a (base + pivot);
        do y <- aget a (base + candidate);
        match orderer s x y with
        | (s, Is o) =>
            if (negb flag && negb (match o with Gt => true | _ => false end))
               || (flag && negb (match o with Lt => true | _ => false end))
            then tphase1 a s base len pivot (if flag then left + 1 else left) (if flag then right else right + 1) flag fuel'
            else
              do a <- swap T a (base + pivot) (base + candidate);
              tphase1 a s base len candidate (if flag then left else left + 1) (if flag then right + 1 else right) (negb flag) fuel'
        | (s, _) => Ok (a, s, None)       (* CHECK_ERROR 106-109, or the comparison throws *)
        end
    end.

  (* second loop : 125-151 *)
  Fixpoint tphase2 (a : list T) (s : St) (base pivot : Z) (reading writing : Z) (n : nat) : run Z :=
    match n with
    | O => Ok (a, s, Some (writing + 1))
    | S n' =>
        do x <- aget a (base + pivot);
        do y <- aget a (base + reading);
        match orderer s x y with
        | (s, Is Eq) =>
            do a <- (if negb (reading =? writing) then swap T a (base + reading) (base + writing) else Ok a);
            tphase2 a s base pivot (reading - 1) (writing - 1) n'
        | (s, Is _) => tphase2 a s base pivot (reading - 1) writing n'
        | (s, _) => Ok (a, s, None)
        end
    end.

  (* third loop : 153-171; unordered is not checked here and counts as different *)
  Fixpoint tphase3 (a : list T) (s : St) (base len pivot : Z) (reading writing : Z) (n : nat) : run Z :=
    match n with
    | O => Ok (a, s, Some (len - writing))
    | S n' =>
        do x <- aget a (base + pivot);
        do y <- aget a (base + reading);
        match orderer s x y with
        | (s, Is Eq) =>
            do a <- (if negb (reading =? writing) then swap T a (base + reading) (base + writing) else Ok a);
            tphase3 a s base len pivot (reading + 1) (writing + 1) n'
        | (s, Raises) => Ok (a, s, None)
        | (s, _) => tphase3 a s base len pivot (reading + 1) writing n'
        end
    end.

  (* one turn of the outer loop : 90-171 *)
  Definition tpartition (a : list T) (s : St) (base len : Z) : run (Z * Z) :=
    andthen (tphase1 a s base len 0 0 0 false (Z.to_nat len)) (fun a s '(pivot, lft, rgt) =>
    andthen (tphase2 a s base pivot (lft - 1) (lft - 1) (Z.to_nat lft)) (fun a s lft =>
    andthen (tphase3 a s base len pivot (len - rgt) (len - rgt) (Z.to_nat rgt)) (fun a s rgt =>
    Ok (a, s, Some (lft, rgt))))).

  (* the outer loop with its recursive call : 88-184; the result is the depth of the
     recursion below this call *)
  Fixpoint tsort (a : list T) (s : St) (base len : Z) (fuel : nat) : run nat :=
    match fuel with
    | O => NoFuel
    | S fuel' =>
        if len =? 0 then Ok (a, s, Some O) else
        andthen (tpartition a s base len) (fun a s '(lft, rgt) =>
        if lft <? rgt then
          andthen (tsort a s base lft fuel') (fun a s d1 =>
          andthen (tsort a s (base + (len - rgt)) rgt fuel') (fun a s d2 =>
          Ok (a, s, Some (Nat.max (S d1) d2))))
        else
          andthen (tsort a s (base + (len - rgt)) rgt fuel') (fun a s d1 =>
          andthen (tsort a s base lft fuel') (fun a s d2 =>
          Ok (a, s, Some (Nat.max (S d1) d2)))))
    end.
  Definition tsort_array (a : list T) (s : St) (base len : Z) : run nat :=
    tsort a s base len (Z.to_nat len + 1).

  (* IndexOfInternal : List.h:698-727; the answer is (returned value, reference parameter) *)
  Fixpoint tsearch (x : lst T) (key : T) (st : St) (s e index : Z) (fuel : nat) : res (St * option (Z * Z)) :=
    match fuel with
    | O => NoFuel
    | S fuel' =>
        if s <=? e then
          let index := s + Z.quot (e - s) 2 in
          do y <- read T (buf x) index;
          match orderer st y key with
          | (st, Is Lt) => tsearch x key st (index + 1) e index fuel'
          | (st, Is Gt) => tsearch x key st s (index - 1) index fuel'
          | (st, Is Eq) => Ok (st, Some (index, index))
          | (st, _) => Ok (st, None)
          end
        else Ok (st, Some (-1, index))
    end.
  Definition tindex (x : lst T) (key : T) (st : St) : res (St * option (Z * Z)) :=
    tsearch x key st 0 (count x - 1) (-1) (Z.to_nat (count x + 1)).

  (* AddInternal : List.h:745-774; operator< is derived from operator<=> , unordered is "not
     less".  Result: the list after the call, and the index unless something was thrown *)
  Definition tadd (x : lst T) (a : T) (st : St) : res (lst T * St * option Z) :=
    if count x =? 0 then do y <- s_insert T x 0 a; Ok (y, st, Some 0)
    else
      do (st, r) <- tindex x a st;
      match r with
      | None => Ok (x, st, None)
      | Some (_, oi) =>
          if (oi >=? 0) && (oi <? count x) then
            do b <- read T (buf x) oi;
            match orderer st b a with
            | (st, Raises) => Ok (x, st, None)
            | (st, o) =>
                let oi := match o with Is Lt => oi + 1 | _ => oi end in
                do y <- s_insert T x oi a; Ok (y, st, Some oi)
            end
          else Ok (x, st, None)
      end.
End Qst.
Arguments andthen {T St X Y}.

(* Dictionary::Add and Set (Source/Collections/Dictionary.h:87-119) as far as the keys are
   concerned: the key is looked up, and if it is new it is added to the keys *)
Definition tdict_key (T St : Type) (orderer : St -> T -> T -> St * answer) (keys : lst T) (key : T) (st : St)
  : res (lst T * St * option Z) :=
  do (st, r) <- tindex T St orderer keys key st;
  match r with
  | None => Ok (keys, st, None)
  | Some (i, _) => if i =? -1 then tadd T St orderer keys key st else Ok (keys, st, Some i)
  end.
