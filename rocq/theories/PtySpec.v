(* What C++ says about class hierarchies, which programs are well typed, and how a typed
   program is read as a program of RcModel. *)
From Verif Require Import Base PtyModel RcModel RcSpec.
Open Scope nat_scope.

(* base B C: a C* converts to a B* (B is C, or an unambiguous accessible base class of C) *)
Record hierarchy (cls : nat -> nat -> option nat) (up dyn : nat -> nat -> nat -> option nat)
                 (base : nat -> nat -> bool) : Prop := {
  h_whole : forall D, cls D 0 = Some D;
  h_only : forall D k, cls D k = Some D -> k = 0;             (* no class contains itself *)
  h_base : forall D k C B, base B C = true -> cls D k = Some C -> exists k', up D k B = Some k' /\ cls D k' = Some B;
  h_self : forall D k C, cls D k = Some C -> up D k C = Some k;
  h_path : forall D k C B A k', base B C = true -> base A B = true -> base A C = true -> cls D k = Some C ->
             up D k B = Some k' -> up D k' A = up D k A;
  h_dyn : forall D k C k', dyn D k C = Some k' -> cls D k' = Some C;
  h_dyn_up : forall D k C B, base B C = true -> cls D k = Some C -> dyn D k B = up D k B;
  h_dyn_whole : forall D k C, cls D k = Some C -> dyn D k D = Some 0;
  (* if a sub-object is the base B of only one C, then dynamic_cast finds that C *)
  h_dyn_back : forall D k C B k', base B C = true -> cls D k = Some C -> up D k B = Some k' ->
             (forall j, cls D j = Some C -> up D j B = Some k' -> j = k) -> dyn D k' C = Some k }.

(* the program with classes and sub-objects forgotten *)
Definition er_ptr (p : tptr) : ptr :=
  mkPtr (tc p) (option_map fst (tr p)) (option_map fst (to p)) (match td p with Some _ => true | None => false end).
Definition er_var (x : option tptr * option nat * nat) : option ptr * option nat :=
  match x with (p, h, _) => (option_map er_ptr p, h) end.
Definition erase (s : tst) : st := mkSt (tcn s) (map fst (tob s)) (map er_var (tvs s)).

Section Legal.
  Variable cls : nat -> nat -> option nat.
  Variable up dyn : nat -> nat -> nat -> option nat.
  Variable vdtor : nat -> bool.
  Variable base : nat -> nat -> bool.

  (* whether the dynamic_cast of a Cast succeeds *)
  Definition cast_ok (s : tst) (v w : nat) : bool :=
    match tget s w, tclass s v with
    | Ok p, Ok C =>
        match tr p with
        | Some (o, k) => match dclass s o with
                         | Ok D => match dyn D k C with Some _ => true | None => false end
                         | _ => false end
        | None => false
        end
    | _, _ => false
    end.
  Definition er_op (s : tst) (o : top) : op :=
    match o with
    | TNew v => PNew v | TRaw _ ms => PRaw (length ms) | TWrap v o _ => PWrap v o
    | TCopy v w => PCopy v w | TConv v w => PConv v w | TMove v w => PMove v w | TConvMove v w => PConvMove v w
    | TCast v w => PCast v w (cast_ok s v w)
    | TDestroy v => PDestroy v | TSetNull v => PSetNull v | TAssign v w => PAssign v w
    | TMoveAssign v w => PMoveAssign v w | TDetach v => PDetach v
    end.
  Definition same_class (s : tst) (v w : nat) : Prop := tclass s v = tclass s w.
  (* what the compiler checks; and a pointer given to Ptr<C> points to a C, which `delete` can
     delete: it is the whole object, or C has a virtual destructor *)
  Definition typed (s : tst) (o : top) : Prop :=
    match o with
    | TCopy v w | TMove v w | TAssign v w | TMoveAssign v w => same_class s v w
    | TConv v w | TConvMove v w => exists B C, tclass s v = Ok B /\ tclass s w = Ok C /\ base B C = true
    | TWrap v o k => exists C D, tclass s v = Ok C /\ dclass s o = Ok D /\ cls D k = Some C /\ (k = 0 \/ vdtor C = true)
    | _ => True
    end.
  (* the rules of C38 and the types *)
  Fixpoint tlegal_run (s : tst) (os : list top) : Prop :=
    match os with
    | [] => True
    | o :: os => legal (world_of (erase s)) (er_op s o) /\ typed s o /\
        forall s' r, tstep cls up dyn vdtor s o = Ok (s', r) -> tlegal_run s' os
    end.
  (* the program as RcModel sees it *)
  Fixpoint er_run (s : tst) (os : list top) : list op :=
    match os with
    | [] => []
    | o :: os => er_op s o :: match tstep cls up dyn vdtor s o with Ok (s', _) => er_run s' os | _ => [] end
    end.
End Legal.

(* the objects that have been deleted *)
Fixpoint deleted (l : list event) : list nat :=
  match l with
  | [] => []
  | EDelete _ o _ _ :: l => o :: deleted l
  | EWrap _ _ _ _ :: l => deleted l
  end.

(* a class C (2) with two bases A (0) and B (1), all with virtual destructors, and a class
   F (4) derived from E (3) without *)
Definition ex_cls (D k : nat) : option nat :=
  match D, k with
  | _, 0 => Some D | 2, 1 => Some 0 | 2, 2 => Some 1 | 4, 1 => Some 3 | _, _ => None
  end.
Definition ex_base (B C : nat) : bool :=
  Nat.eqb B C || match B, C with 0, 2 => true | 1, 2 => true | 3, 4 => true | _, _ => false end.
Definition ex_up (D k B : nat) : option nat :=
  match ex_cls D k with
  | None => None
  | Some C => if Nat.eqb B C then Some k else
              match D, k, B with 2, 0, 0 => Some 1 | 2, 0, 1 => Some 2 | 4, 0, 3 => Some 1 | _, _, _ => None end
  end.
Definition ex_dyn (D k C : nat) : option nat :=
  if Nat.eqb C D then Some 0 else
  match D, C with
  | 2, 0 => Some 1 | 2, 1 => Some 2 | 4, 3 => Some 1 | _, _ => None
  end.
Definition ex_vdtor (C : nat) : bool := Nat.leb C 2.

(* Ptr<C> v0(new C); Ptr<A> v1(v0); Ptr<B> v2(v0); ~v0; Ptr<C> v3 = v2.Cast<C>(); ~v1; ~v2; ~v3 *)
Definition ex_vars : list nat := [2; 0; 1; 2].
Definition ex_share : list top :=
  [TRaw 2 [0]; TWrap 0 0 0; TConv 1 0; TConv 2 0; TDestroy 0; TCast 3 2; TDestroy 1; TDestroy 2; TDestroy 3].
(* Ptr<F> v0(new F); Ptr<E> v1(v0); ~v0; ~v1, where E has no virtual destructor *)
Definition ex_plain : list top := [TRaw 4 []; TWrap 0 0 0; TConv 1 0; TDestroy 0; TDestroy 1].
(* Ptr<E> v1(new F); ~v1 *)
Definition ex_bad : list top := [TRaw 4 []; TWrap 1 0 1; TDestroy 1].
