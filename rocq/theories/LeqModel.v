(* Searching lists and arrays with any equality: Source/Collections/List.h:375-393, 565-583, 628-640.
   Comparing may read and write a state St, answer inconsistently and throw; elements and searched items may have different types
   (KeyType<T>::Type).  Buffers and the operations that do not compare are those of LstModel. *)
From Verif Require Import Base LstModel.
Open Scope Z_scope.

Section Leq.
  Context (A K St : Type).
  (* element == item; None: it throws *)
  Context (eqv : St -> A -> K -> St * option bool).

  (* IndexOf : List.h:383-393, 573-583; None: an exception *)
  Fixpoint eloop (m : list (slot A)) (a : K) (i : Z) (n : nat) (st : St) : res (St * option Z) :=
    match n with
    | O => Ok (st, Some (-1))
    | S n' =>
        do y <- read A m i;
        let (st, c) := eqv st y a in
        match c with
        | None => Ok (st, None)
        | Some true => Ok (st, Some i)
        | Some false => eloop m a (i + 1) n' st
        end
    end.
  Definition eindex (x : lst A) (a : K) (st : St) : res (St * option Z) := eloop (buf x) a 0 (Z.to_nat (count x)) st.
  (* Array::IndexOf : List.h:383-393 *)
  Definition earray (x : arr A) (a : K) (st : St) : res (St * option Z) := eloop (abuf x) a 0 (Z.to_nat (acount x)) st.

  Inductive eop :=
  | EAdd (a : A) | EInsert (i : Z) (a : A) | ESet (i : Z) (a : A) | ERemoveAt (i : Z) | EClear | EGet (i : Z) | ECount
  | EIndexOf (a : K) | EContains (a : K) | ERemove (a : K).
  (* RError: the operation was left by an exception; the operations that do not compare check before the first change *)
  Definition eplain (x : lst A) (st : St) (r : res (lst A * out A)) : res (lst A * St * out A) :=
    match r with Ok (y, o) => Ok (y, st, o) | Err => Ok (x, st, RError) | UB => UB | NoFuel => NoFuel end.
  Definition estep (x : lst A) (st : St) (o : eop) : res (lst A * St * out A) :=
    match o with
    | EAdd a => eplain x st (do y <- insert A x (count x) a; Ok (y, RInt (count x)))
    | EInsert i a => eplain x st (do y <- insert A x i a; Ok (y, RInt i))
    | ESet i a => eplain x st (do y <- set A x i a; Ok (y, RBool true))
    | ERemoveAt i => eplain x st (do y <- remove_at A x i; Ok (y, RBool true))
    | EClear => eplain x st (do y <- clear A x; Ok (y, RBool true))
    | EGet i => eplain x st (do a <- get A x i; Ok (x, RVal a))
    | ECount => Ok (x, st, RInt (count x))
    | EIndexOf a => do (st, r) <- eindex x a st; Ok (x, st, match r with Some i => RInt i | None => RError end)
    | EContains a =>                                                      (* List.h:565-568 *)
        do (st, r) <- eindex x a st; Ok (x, st, match r with Some i => RBool (negb (i =? -1)) | None => RError end)
    | ERemove a =>                                                        (* List.h:628-640 *)
        do (st, r) <- eindex x a st;
        match r with
        | None => Ok (x, st, RError)
        | Some i =>
            if (i >=? 0) && (i <? count x) then eplain x st (do y <- remove_at A x i; Ok (y, RBool true))
            else Ok (x, st, RBool false)
        end
    end.
  Fixpoint erun (x : lst A) (st : St) (os : list eop) : res (lst A * St * list (out A)) :=
    match os with
    | [] => Ok (x, st, [])
    | o :: os => do (x, st, r) <- estep x st o; do (x, st, rs) <- erun x st os; Ok (x, st, r :: rs)
    end.
End Leq.
Arguments EAdd {A K}. Arguments EInsert {A K}. Arguments ESet {A K}. Arguments ERemoveAt {A K}. Arguments EClear {A K}.
Arguments EGet {A K}. Arguments ECount {A K}. Arguments EIndexOf {A K}. Arguments EContains {A K}. Arguments ERemove {A K}.

(* an equality that is a function *)
Definition fixed_eq {A : Type} (e : A -> A -> bool) (st : unit) (a b : A) : unit * option bool := (tt, Some (e a b)).
(* counts the comparisons; the fourth one throws *)
Definition count_eq (st : nat) (a b : Z) : nat * option bool := (S st, if Nat.eqb st 3 then None else Some (a =? b)).
