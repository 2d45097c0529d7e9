(* SortedList and Dictionary with any comparison: Source/Collections/List.h:682-835, Source/Collections/Dictionary.h:20-266.
   Comparing may read and write a state St, answer inconsistently and throw.  Buffers are those of LstModel.
   Simplification: elements and search keys are of one type, as in SrtModel. *)
From Verif Require Import Base LstModel SrtModel DctModel.
Open Scope Z_scope.

Section Any.
  Context (A V St : Type).
  (* operator<=> and operator< ; None: it throws, or it gives "unordered" and CHECK_ERROR throws *)
  Context (cmp : St -> A -> A -> St * option comparison) (less : St -> A -> A -> St * option bool).

  (* IndexOfInternal : List.h:698-727, as in SrtModel.search; None: an exception *)
  Fixpoint asearch (x : lst A) (key : A) (s e index : Z) (fuel : nat) (st : St) : res (St * option (Z * Z)) :=
    match fuel with
    | O => NoFuel
    | S fuel' =>
        if s <=? e then
          let index := s + Z.quot (e - s) 2 in
          do y <- read A (buf x) index;
          let (st, c) := cmp st y key in
          match c with
          | None => Ok (st, None)
          | Some Lt => asearch x key (index + 1) e index fuel' st
          | Some Gt => asearch x key s (index - 1) index fuel' st
          | Some Eq => Ok (st, Some (index, index))
          end
        else Ok (st, Some (-1, index))
    end.
  Definition ainternal (x : lst A) (key : A) (st : St) : res (St * option (Z * Z)) :=
    asearch x key 0 (count x - 1) (-1) (Z.to_nat (count x + 1)) st.
  (* AddInternal : List.h:745-774 *)
  Definition aadd (x : lst A) (a : A) (st : St) : res (St * option (lst A * Z)) :=
    if count x =? 0 then do y <- s_insert A x 0 a; Ok (st, Some (y, 0))
    else
      do (st, r) <- ainternal x a st;
      match r with
      | None => Ok (st, None)
      | Some (_, oi) =>
          if (oi >=? 0) && (oi <? count x) then
            do b <- read A (buf x) oi;
            let (st, c) := less st b a in
            match c with
            | None => Ok (st, None)
            | Some c => let oi := if c then oi + 1 else oi in do y <- s_insert A x oi a; Ok (st, Some (y, oi))
            end
          else Err
      end.
  (* the operations of SrtModel; RError: the operation was left by an exception *)
  Definition catch {X} (x : X) (st : St) (r : res (X * out A)) : res (X * St * out A) :=
    match r with Ok (y, o) => Ok (y, st, o) | Err => Ok (x, st, RError) | UB => UB | NoFuel => NoFuel end.
  Definition astep (x : lst A) (st : St) (o : sop A) : res (lst A * St * out A) :=
    match o with
    | SAdd a =>
        do (st, r) <- aadd x a st;
        Ok (match r with Some (y, i) => (y, st, RInt i) | None => (x, st, RError) end)
    | SRemove a =>                                                        (* List.h:822-834 *)
        do (st, r) <- ainternal x a st;
        match r with
        | Some (i, _) => if (i >=? 0) && (i <? count x) then do y <- remove_at A x i; Ok (y, st, RBool true) else Ok (x, st, RBool false)
        | None => Ok (x, st, RError)
        end
    | SIndexOf a => do (st, r) <- ainternal x a st; Ok (x, st, match r with Some (i, _) => RInt i | None => RError end)
    | SContains a => do (st, r) <- ainternal x a st; Ok (x, st, match r with Some (i, _) => RBool (negb (i =? -1)) | None => RError end)
    | SRemoveAt i => catch x st (do y <- remove_at A x i; Ok (y, RBool true))
    | SRemoveRange i n => catch x st (do y <- remove_range A x i n; Ok (y, RBool true))
    | SClear => catch x st (do y <- clear A x; Ok (y, RBool true))
    | SGet i => catch x st (do a <- get A x i; Ok (x, RVal a))
    | SCount => Ok (x, st, RInt (count x))
    end.
  Fixpoint arun (x : lst A) (st : St) (os : list (sop A)) : res (lst A * St * list (out A)) :=
    match os with
    | [] => Ok (x, st, [])
    | o :: os => do (x, st, r) <- astep x st o; do (x, st, rs) <- arun x st os; Ok (x, st, r :: rs)
    end.

  Notation dict := (dict A V).
  (* keys.Add and values.Insert : Dictionary.h:95-96, 115-116 *)
  Definition adinsert (d : dict) (k : A) (v : V) (st : St) : res (dict * St * dout A V) :=
    do (st, r) <- aadd (keys d) k st;
    match r with
    | None => Ok (d, st, OError)
    | Some (ks, j) => do vs <- late (insert V (vals d) j v); Ok (mkDict ks vs, st, OBool true)
    end.
  Definition adstep (d : dict) (st : St) (o : dop A V) : res (dict * St * dout A V) :=
    let find k (found : St -> Z -> res (dict * St * dout A V)) :=
      do (st, r) <- ainternal (keys d) k st;
      match r with Some (i, _) => found st i | None => Ok (d, st, OError) end in
    match o with
    | DAdd k v =>                                                     (* AddInternal : 107-119 *)
        find k (fun st i => if negb (i =? -1) then Ok (d, st, OError) else adinsert d k v st)
    | DSet k v =>                                                     (* SetInternal : 87-105 *)
        find k (fun st i =>
          if i =? -1 then adinsert d k v st
          else do vs <- late (set V (vals d) i v); Ok (mkDict (keys d) vs, st, OBool true))
    | DRemove k =>                                                    (* Remove : 243-257 *)
        find k (fun st i =>
          if negb (i =? -1) then
            do ks <- late (remove_at A (keys d) i); do vs <- late (remove_at V (vals d) i);
            Ok (mkDict ks vs, st, OBool true)
          else Ok (d, st, OBool false))
    | DClear => do ks <- clear A (keys d); do vs <- late (clear V (vals d)); Ok (mkDict ks vs, st, OBool true)
    | DGet k =>                                                       (* Get : 169-180 *)
        find k (fun st i => match get V (vals d) i with Ok v => Ok (d, st, OVal v) | Err => Ok (d, st, OError) | UB => UB | NoFuel => NoFuel end)
    | DContains k => find k (fun st i => Ok (d, st, OBool (negb (i =? -1))))
    | DCount => Ok (d, st, OInt (count (keys d)))
    | DKeyAt i => match get A (keys d) i with Ok k => Ok (d, st, OKey k) | Err => Ok (d, st, OError) | UB => UB | NoFuel => NoFuel end
    | DValueAt i => match get V (vals d) i with Ok v => Ok (d, st, OVal v) | Err => Ok (d, st, OError) | UB => UB | NoFuel => NoFuel end
    end.
  Fixpoint adrun (d : dict) (st : St) (os : list (dop A V)) : res (dict * St * list (dout A V)) :=
    match os with
    | [] => Ok (d, st, [])
    | o :: os => do (d, st, r) <- adstep d st o; do (d, st, rs) <- adrun d st os; Ok (d, st, r :: rs)
    end.
End Any.
(* a comparison that is a function *)
Definition fixed_cmp {A} (c : A -> A -> option comparison) : unit -> A -> A -> unit * option comparison := fun st a b => (st, c a b).
Definition fixed_less {A} (c : A -> A -> option comparison) : unit -> A -> A -> unit * option bool :=
  fun st a b => (st, Some (match c a b with Some Lt => true | _ => false end)).
