(* One enumerator of Distinct, Union, Intersect or Except, step by step, with any comparison: Source/Collections/OperationSequence.h:212-273,
   Source/Collections/OperationSet.h:22-82.  Comparisons and the sorted lists as in AnyModel.  Simplification: the sources are plain sequences. *)
From Verif Require Import Base LstModel SrtModel AnyModel AnsModel.
Open Scope Z_scope.

(* how Next ends *)
Inductive ending := Yes | No | Threw.
Section Dxn.
  Context (A St : Type).
  Context (cmp : St -> A -> A -> St * option comparison) (less : St -> A -> A -> St * option bool).
  (* what enumerator still has to give, distinct, lastValue : 216-218 *)
  Record den := mkDen { rest : list A; seen : lst A; last : option A }.
  (* Next : 253-266; the source has moved and lastValue is assigned before the calls that may throw.
     The source of Intersect and Except gives only the wanted elements : OperationSet.h:62-73 *)
  Fixpoint walk (ref : option (bool * lst A)) (s : lst A) (o : option A) (xs : list A) (st : St) : res (St * den * ending) :=
    match xs with
    | [] => Ok (st, mkDen [] s o, No)
    | a :: xs =>
        do (st, w) <- wanted A St cmp ref a st;
        match w with
        | None => Ok (st, mkDen xs s o, Threw)
        | Some false => walk ref s o xs st
        | Some true =>
            do (st, h) <- has A St cmp s a st;
            match h with
            | None => Ok (st, mkDen xs s o, Threw)
            | Some true => walk ref s o xs st
            | Some false =>
                let o := Some a in
                do (st, r) <- aadd A St cmp less s a st;
                Ok (match r with Some (s, _) => (st, mkDen xs s o, Yes) | None => (st, mkDen xs s o, Threw) end)
            end
        end
    end.
  Definition next (ref : option (bool * lst A)) (d : den) (st : St) : res (St * den * ending) := walk ref (seen d) (last d) (rest d) st.

  Inductive xop := XNext | XCurrent | XIndex | XReset.
  Inductive xout := XEnd (e : ending) | XVal (a : A) | XInt (z : Z) | XNone | XError.
  Definition xstep (ref : option (bool * lst A)) (xs : list A) (d : den) (st : St) (o : xop) : res (den * St * xout) :=
    match o with
    | XNext => do (st, d, e) <- next ref d st; Ok (d, st, XEnd e)
    | XCurrent => Ok (d, st, match last d with Some a => XVal a | None => XError end)        (* 243-246 *)
    | XIndex => Ok (d, st, XInt (count (seen d) - 1))                                        (* 248-251 *)
    | XReset => do s <- clear A (seen d); Ok (mkDen xs s (last d), st, XNone)                (* 268-272 *)
    end.
  Fixpoint xrun (ref : option (bool * lst A)) (xs : list A) (d : den) (st : St) (os : list xop) : res (den * St * list xout) :=
    match os with
    | [] => Ok (d, st, [])
    | o :: os => do (d, st, r) <- xstep ref xs d st o; do (d, st, rs) <- xrun ref xs d st os; Ok (d, st, r :: rs)
    end.
  Definition fresh (xs : list A) : den := mkDen xs empty_lst None.
  (* what the enumerator is made with : Operation.h:749-752, 805-808, 822-825, 839-842; None: an exception while the second sequence is read *)
  Definition opened (o : setop A) (st : St) : res (St * option (option (bool * lst A))) :=
    let reading keep ys := do (st, r) <- gather A St cmp less empty_lst ys st; Ok (st, match r with Some x => Some (Some (keep, x)) | None => None end) in
    match o with
    | ODistinct | OUnion _ => Ok (st, Some None)
    | OIntersect ys => reading true ys
    | OExcept ys => reading false ys
    end.
  (* what it reads : Operation.h:841 *)
  Definition reads (o : setop A) (xs : list A) : list A := match o with OUnion ys => xs ++ ys | _ => xs end.
  (* CopyFrom of a sorted list into a new sorted list : OperationCopyFrom.h:45-59 *)
  Fixpoint refill (n : nat) (i : Z) (x y : lst A) (st : St) : res (St * option (lst A)) :=
    match n with
    | O => Ok (st, Some y)
    | S n =>
        do a <- get A x i;
        do (st, r) <- aadd A St cmp less y a st;
        match r with Some (y, _) => refill n (i + 1) x y st | None => Ok (st, None) end
    end.
  Definition copy (x : lst A) (st : St) : res (St * option (lst A)) := refill (Z.to_nat (count x)) 0 x empty_lst st.
  (* Clone : OperationSet.h:38-43, OperationSequence.h:226-231; None: left by an exception *)
  Definition clone (ref : option (bool * lst A)) (d : den) (st : St) : res (St * option (option (bool * lst A) * den)) :=
    do (st, ref) <- match ref with
                    | None => Ok (st, Some None)
                    | Some (keep, x) => do (st, r) <- copy x st; Ok (st, match r with Some x => Some (Some (keep, x)) | None => None end)
                    end;
    match ref with
    | None => Ok (st, None)
    | Some ref =>
        do (st, r) <- copy (seen d) st;
        Ok (st, match r with Some s => Some (ref, mkDen (rest d) s (last d)) | None => None end)
    end.
  (* while (e.Next()) use(e.Current()) *)
  Fixpoint loop (ref : option (bool * lst A)) (fuel : nat) (d : den) (st : St) : res (St * list A * bool) :=
    match fuel with
    | O => NoFuel
    | S fuel =>
        do (st, d, e) <- next ref d st;
        match e with
        | No => Ok (st, [], true)
        | Threw => Ok (st, [], false)
        | Yes =>
            match last d with
            | Some a => do (st, ys, ok) <- loop ref fuel d st; Ok (st, a :: ys, ok)
            | None => Err
            end
        end
    end.
End Dxn.
Arguments mkDen {A}. Arguments rest {A}. Arguments seen {A}. Arguments last {A}. Arguments fresh {A}.
Arguments XEnd {A}. Arguments XVal {A}. Arguments XInt {A}. Arguments XNone {A}. Arguments XError {A}.
