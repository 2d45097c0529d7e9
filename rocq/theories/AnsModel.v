(* Distinct, Union, Intersect and Except with any comparison: Source/Collections/OperationSequence.h:212-273,
   Source/Collections/OperationSet.h:22-82, Source/Collections/Operation.h:749-841.  Sorted lists with their buffers and comparisons as in AnyModel.
   Simplification: a whole loop over the lazy list is one function; an exception ends it.  The sources are plain sequences;
   the comparisons made when an enumerator is cloned and its sorted list is built again (OperationSet.h:38-43) are left out. *)
From Verif Require Import Base LstModel SrtModel AnyModel.
Open Scope Z_scope.

Section Ans.
  Context (A St : Type).
  Context (cmp : St -> A -> A -> St * option comparison) (less : St -> A -> A -> St * option bool).

  (* SortedListOperations<T>::Contains; None: an exception *)
  Definition has (x : lst A) (a : A) (st : St) : res (St * option bool) :=
    do (st, r) <- ainternal A St cmp x a st;
    Ok (st, match r with Some (i, _) => Some (negb (i =? -1)) | None => None end).
  (* CopyFrom(reference, _reference) : OperationSet.h:34, OperationCopyFrom.h:88-104 *)
  Fixpoint gather (x : lst A) (ys : list A) (st : St) : res (St * option (lst A)) :=
    match ys with
    | [] => Ok (st, Some x)
    | y :: ys =>
        do (st, r) <- aadd A St cmp less x y st;
        match r with Some (x, _) => gather x ys st | None => Ok (st, None) end
    end.
  (* IntersectExceptEnumerator::Next, the test : OperationSet.h:66 *)
  Definition wanted (ref : option (bool * lst A)) (a : A) (st : St) : res (St * option bool) :=
    match ref with
    | None => Ok (st, Some true)
    | Some (keep, x) => do (st, r) <- has x a st; Ok (st, match r with Some b => Some (Bool.eqb b keep) | None => None end)
    end.
  (* DistinctEnumerator::Next, again and again : OperationSequence.h:253-266.  Result: what was yielded, and whether it ended without exception *)
  Fixpoint drive (ref : option (bool * lst A)) (seen : lst A) (xs : list A) (st : St) : res (St * list A * bool) :=
    match xs with
    | [] => Ok (st, [], true)
    | a :: xs =>
        do (st, w) <- wanted ref a st;
        match w with
        | None => Ok (st, [], false)
        | Some false => drive ref seen xs st
        | Some true =>
            do (st, h) <- has seen a st;
            match h with
            | None => Ok (st, [], false)
            | Some true => drive ref seen xs st
            | Some false =>
                do (st, r) <- aadd A St cmp less seen a st;
                match r with
                | None => Ok (st, [], false)
                | Some (seen, _) => do (st, ys, ok) <- drive ref seen xs st; Ok (st, a :: ys, ok)
                end
            end
        end
    end.
  Inductive setop := ODistinct | OUnion (ys : list A) | OIntersect (ys : list A) | OExcept (ys : list A).
  (* Operation.h:749-752, 805-808, 822-825, 839-842 *)
  Definition set_op (o : setop) (xs : list A) (st : St) : res (St * list A * bool) :=
    let filtered keep ys :=
      do (st, r) <- gather empty_lst ys st;
      match r with Some x => drive (Some (keep, x)) empty_lst xs st | None => Ok (st, [], false) end in
    match o with
    | ODistinct => drive None empty_lst xs st
    | OUnion ys => drive None empty_lst (xs ++ ys) st
    | OIntersect ys => filtered true ys
    | OExcept ys => filtered false ys
    end.
End Ans.
Arguments ODistinct {A}. Arguments OUnion {A}. Arguments OIntersect {A}. Arguments OExcept {A}.
