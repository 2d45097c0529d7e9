(* Ptr and the class hierarchy: Source/Primitives/Pointer.h:31-312.  RcModel, which counts
   references, does not tell the base classes of an object apart.  Here a pointer is an
   object and one of its sub-objects, every Ptr variable has the class of its template
   argument, conversions and dynamic_cast change the sub-object, and `delete` through a
   pointer to a class is undefined unless C++ allows it.
   The hierarchy is a parameter; that user-defined destructors do not use Ptr variables is
   assumed, as in RcModel. *)
From Verif Require Import Base.
Open Scope Z_scope.

Section Typed.
  (* cls D k: the class of sub-object k of an object of class D (0: the whole object) *)
  Variable cls : nat -> nat -> option nat.
  (* up D k B: the sub-object that a pointer to sub-object k becomes when converted to B* *)
  Variable up : nat -> nat -> nat -> option nat.
  (* dyn D k C: the sub-object that dynamic_cast<C*> finds; None: it returns nullptr *)
  Variable dyn : nat -> nat -> nat -> option nat.
  (* the class has a virtual destructor *)
  Variable vdtor : nat -> bool.

  (* counter, reference, originalReference, originalDestructor: Pointer.h:76-79.  A pointer is
     (object, sub-object); originalDestructor is &ReferenceCounterOperator<C>::DeleteReference
     and is given by the class C *)
  Record tptr := mkT { tc : option nat; tr : option (nat * nat); to : option (nat * nat); td : option nat }.
  (* SetEmptyNoIncDec : 81-87 *)
  Definition tnull := mkT None None None None.

  (* calls of `new atomic_vint(0)` with the pointer and class they are made for, and of
     originalDestructor *)
  Inductive event := EWrap (c o k C : nat) | EDelete (c o k C : nat).

  (* counters; objects: existing or not, and their class; variables: the Ptr, the object it
     is a member of, and its class; what happened so far, last first *)
  Record tst := mkTst { tcn : list (option Z); tob : list (bool * nat);
                        tvs : list (option tptr * option nat * nat); tlog : list event }.

  Definition tget (s : tst) (v : nat) : res tptr :=
    match nth_error (tvs s) v with Some (Some p, _, _) => Ok p | _ => UB end.
  Definition tclass (s : tst) (v : nat) : res nat :=
    match nth_error (tvs s) v with Some (_, _, C) => Ok C | None => UB end.
  Definition tset (s : tst) (v : nat) (p : tptr) : res tst :=
    match nth_error (tvs s) v with
    | Some (Some _, h, C) => Ok (mkTst (tcn s) (tob s) (upd (tvs s) v (Some p, h, C)) (tlog s))
    | _ => UB
    end.
  Definition tkill (s : tst) (v : nat) : res tst :=
    match nth_error (tvs s) v with
    | Some (Some _, h, C) => Ok (mkTst (tcn s) (tob s) (upd (tvs s) v (None, h, C)) (tlog s))
    | _ => UB
    end.
  Definition tinit (s : tst) (v : nat) (p : tptr) : res tst :=
    match nth_error (tvs s) v with
    | Some (None, h, C) => Ok (mkTst (tcn s) (tob s) (upd (tvs s) v (Some p, h, C)) (tlog s))
    | _ => UB
    end.
  Definition tcget (s : tst) (c : nat) : res Z :=
    match nth_error (tcn s) c with Some (Some n) => Ok n | _ => UB end.
  Definition tcset (s : tst) (c : nat) (o : option Z) : tst := mkTst (upd (tcn s) c o) (tob s) (tvs s) (tlog s).
  Definition talive (s : tst) (o : nat) : bool := match nth_error (tob s) o with Some (b, _) => b | None => false end.
  Definition dclass (s : tst) (o : nat) : res nat := match nth_error (tob s) o with Some (_, D) => Ok D | None => UB end.

  (* Inc : 89-95 *)
  Definition tinc (s : tst) (p : tptr) : res tst :=
    match tc p with
    | None => Ok s
    | Some c => do n <- tcget s c; Ok (tcset s c (Some (n + 1)))
    end.
  Definition tmembers (s : tst) (o : nat) : list nat :=
    rev (filter (fun u => match nth_error (tvs s) u with
                          | Some (_, Some h, _) => Nat.eqb h o
                          | _ => false end) (seq 0 (length (tvs s)))).
  (* deleting p as a pointer to C, where p points to sub-object k of an object of class D: p must be a
     pointer to a C, and either that is the whole object or C has a virtual destructor *)
  Definition can_delete (D k C : nat) : bool :=
    match cls D k with
    | Some B => Nat.eqb B C && (Nat.eqb C D && Nat.eqb k 0 || vdtor C)
    | None => false
    end.
  (* Dec : 97-110; DeleteReference : 45-49 *)
  Fixpoint tdec (fuel : nat) (del : bool) (v : nat) (s : tst) {struct fuel} : res tst :=
    match fuel with
    | O => NoFuel
    | S f =>
        do p <- tget s v;
        match tc p with
        | None => Ok s
        | Some c =>
            do n <- tcget s c;
            let s := tcset s c (Some (n - 1)) in
            if n - 1 =? 0 then
              do s <-
                (if del then
                   match td p with
                   | Some C =>
                       let s := tcset s c None in
                       match to p with
                       | None => Ok s
                       | Some (o, k) =>
                           do D <- dclass s o;
                           if talive s o && can_delete D k C then
                             let s := mkTst (tcn s) (upd (tob s) o (false, D)) (tvs s) (EDelete c o k C :: tlog s) in
                             (fix each (ws : list nat) (s : tst) : res tst :=
                                match ws with
                                | [] => Ok s
                                | w :: ws => do s <- tdec f true w s; do s <- tkill s w; each ws s
                                end) (tmembers s o) s
                           else UB
                       end
                   | None => UB
                   end
                 else Ok s);
              tset s v tnull
            else Ok s
        end
    end.
  Definition tfuel (s : tst) : nat := S (S (length (tob s))).

  Inductive top :=
  | TNew (v : nat)                     (* Ptr<C> v; *)
  | TRaw (D : nat) (ms : list nat)     (* new D, where D has a Ptr member of each class in ms *)
  | TWrap (v o k : nat)                (* Ptr<C> v(p); p points to sub-object k of o *)
  | TCopy (v w : nat)                  (* Ptr<C> v(w); of the same class *)
  | TConv (v w : nat)                  (* Ptr<B> v(w); *)
  | TMove (v w : nat)                  (* Ptr<C> v(std::move(w)); *)
  | TConvMove (v w : nat)              (* Ptr<B> v(std::move(w)); *)
  | TCast (v w : nat)                  (* Ptr<C> v = w.Cast<C>(); *)
  | TDestroy (v : nat)
  | TSetNull (v : nat)
  | TAssign (v w : nat)                (* v = w; of the same class *)
  | TMoveAssign (v w : nat)
  | TDetach (v : nat).

  Definition tstep (s : tst) (o : top) : res (tst * option (nat * nat)) :=
    match o with
    | TNew v => do s <- tinit s v tnull; Ok (s, None)                                    (* 128-131 *)
    | TRaw D ms =>
        let n := length (tob s) in
        Ok (mkTst (tcn s) (tob s ++ [(true, D)]) (tvs s ++ map (fun C => (Some tnull, Some n, C)) ms) (tlog s), Some (n, 0%nat))
    | TWrap v o k =>                                                                     (* 135-145 *)
        do C <- tclass s v;
        let c := length (tcn s) in
        let s := mkTst (tcn s ++ [Some 0]) (tob s) (tvs s) (EWrap c o k C :: tlog s) in
        let p := mkT (Some c) (Some (o, k)) (Some (o, k)) (Some C) in
        do s <- tinit s v p; do s <- tinc s p; Ok (s, None)
    | TCopy v w => do p <- tget s w; do s <- tinit s v p; do s <- tinc s p; Ok (s, None)   (* 149-156 *)
    | TMove v w => do p <- tget s w; do s <- tinit s v p; do s <- tset s w tnull; Ok (s, None)  (* 160-167 *)
    | TConv v w =>                                                                       (* 173-183 *)
        do p <- tget s w; do B <- tclass s v;
        match tr p with
        | None => do s <- tinit s v tnull; Ok (s, None)
        | Some (o, k) =>
            do D <- dclass s o;
            match up D k B with
            | Some k' =>
                let q := mkT (tc p) (Some (o, k')) (to p) (td p) in
                do s <- tinit s v q; do s <- tinc s q; Ok (s, None)
            | None => UB
            end
        end
    | TConvMove v w =>                                                                   (* 189-199 *)
        do p <- tget s w; do B <- tclass s v;
        match tr p with
        | None => do s <- tinit s v tnull; Ok (s, None)
        | Some (o, k) =>
            do D <- dclass s o;
            match up D k B with
            | Some k' =>
                let q := mkT (tc p) (Some (o, k')) (to p) (td p) in
                do s <- tinit s v q; do s <- tset s w tnull; Ok (s, None)
            | None => UB
            end
        end
    | TCast v w =>                                                                       (* 222-226, 117-124 *)
        do p <- tget s w; do C <- tclass s v;
        do conv <- (match tr p with
                    | None => Ok None
                    | Some (o, k) => do D <- dclass s o;
                                     Ok (match dyn D k C with Some k' => Some (o, k') | None => None end)
                    end);
        let q := mkT (match conv with Some _ => tc p | None => None end) conv (to p) (td p) in
        do s <- tinit s v q; do s <- tinc s q; Ok (s, None)
    | TDestroy v => do s <- tdec (tfuel s) true v s; do s <- tkill s v; Ok (s, None)       (* 201-204 *)
    | TSetNull v => do s <- tdec (tfuel s) true v s; do s <- tset s v tnull; Ok (s, None)  (* 231-236 *)
    | TAssign v w =>                                                                     (* 241-253 *)
        if Nat.eqb v w then do _ <- tget s v; Ok (s, None) else
        do s <- tdec (tfuel s) true v s;
        do p <- tget s w; do s <- tset s v p; do s <- tinc s p; Ok (s, None)
    | TMoveAssign v w =>                                                                 (* 258-270 *)
        if Nat.eqb v w then do _ <- tget s v; Ok (s, None) else
        do s <- tdec (tfuel s) true v s;
        do p <- tget s w; do s <- tset s v p; do s <- tset s w tnull; Ok (s, None)
    | TDetach v =>                                                                       (* 211-216 *)
        do p <- tget s v; do s <- tdec (tfuel s) false v s; Ok (s, tr p)
    end.
  Fixpoint trun (s : tst) (os : list top) : res (tst * list (option (nat * nat))) :=
    match os with
    | [] => Ok (s, [])
    | o :: os => do (s, r) <- tstep s o; do (s, rs) <- trun s os; Ok (s, r :: rs)
    end.
  (* variables on the stack of the given classes, not constructed yet *)
  Definition tstart (cs : list nat) : tst := mkTst [] [] (map (fun C => (None, None, C)) cs) [].

  (* operator==, operator<=> : 276-310.  Both operands are pointers to one class, and two
     sub-objects of one class have different addresses *)
  Definition tequal (s : tst) (v w : nat) : res bool :=
    do p <- tget s v; do q <- tget s w;
    Ok (match tr p, tr q with
        | None, None => true
        | Some (o, k), Some (o', k') => Nat.eqb o o' && Nat.eqb k k'
        | _, _ => false
        end).
End Typed.
