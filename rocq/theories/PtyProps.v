(* C63: Ptr and class hierarchies. *)
From Verif Require Import Base RcModel RcSpec PtyModel PtySpec PtyProofs.
Open Scope nat_scope.

(* C63: a well typed program that follows the rules of C38 runs without undefined behaviour,
   so that no object is deleted through a class that may not delete it; and it does to
   objects and variables what the program without classes does, so that C38 and C39 hold *)
Theorem C63_history (cls : nat -> nat -> option nat) (up dyn : nat -> nat -> nat -> option nat) (vdtor : nat -> bool)
    (base : nat -> nat -> bool) (cs : list nat) (os : list top) :
  hierarchy cls up dyn base -> tlegal_run cls up dyn vdtor base (tstart cs) os ->
  legal_run (init (length cs)) (er_run cls up dyn vdtor (tstart cs) os) /\
  exists t rs, trun cls up dyn vdtor (tstart cs) os = Ok (t, rs) /\
    run (init (length cs)) (er_run cls up dyn vdtor (tstart cs) os) = Ok (erase t, map (option_map fst) rs).
Proof. intros H. exact (PtyProofs.history cls up dyn vdtor base H cs os). Qed.
Print Assumptions C63_history.

Example C63_history_example : hierarchy ex_cls ex_up ex_dyn ex_base /\
  tlegal_run ex_cls ex_up ex_dyn ex_vdtor ex_base (tstart ex_vars) ex_share /\
  exists t rs, trun ex_cls ex_up ex_dyn ex_vdtor (tstart ex_vars) ex_share = Ok (t, rs) /\
    tlog t = [EDelete 0 0 0 2; EWrap 0 0 0 2] /\ talive t 0 = false.
Proof. exact (conj ex_hierarchy (conj ex_share_legal ex_share_runs)). Qed.

(* C63: a Ptr<C> that is not empty points to a C inside an existing object *)
Theorem C63_types (cls : nat -> nat -> option nat) (up dyn : nat -> nat -> nat -> option nat) (vdtor : nat -> bool)
    (base : nat -> nat -> bool) (cs : list nat) (os : list top) (t : tst) (rs : list (option (nat * nat)))
    (u : nat) (p : tptr) (h : option nat) (C o k : nat) :
  hierarchy cls up dyn base -> tlegal_run cls up dyn vdtor base (tstart cs) os ->
  trun cls up dyn vdtor (tstart cs) os = Ok (t, rs) ->
  nth_error (tvs t) u = Some (Some p, h, C) -> tr p = Some (o, k) ->
  talive t o = true /\ exists D, dclass t o = Ok D /\ cls D k = Some C.
Proof. intros H. exact (types cls up dyn vdtor base H cs os t rs u p h C o k). Qed.
Print Assumptions C63_types.

Example C63_types_example : exists t rs, trun ex_cls ex_up ex_dyn ex_vdtor (tstart ex_vars) (firstn 6 ex_share) = Ok (t, rs) /\
  nth_error (tvs t) 2 = Some (Some (mkT (Some 0) (Some (0, 2)) (Some (0, 0)) (Some 2)), None, 1) /\ ex_cls 2 2 = Some 1.
Proof. eexists _, _. split; [vm_compute; reflexivity|]. split; reflexivity. Qed.

(* C63: whatever conversions and casts happened in between, an object is deleted with the
   pointer and the class with which it was given to a Ptr, and at most once; and an object
   ends only by being deleted *)
Theorem C63_deletes (cls : nat -> nat -> option nat) (up dyn : nat -> nat -> nat -> option nat) (vdtor : nat -> bool)
    (base : nat -> nat -> bool) (cs : list nat) (os : list top) (t : tst) (rs : list (option (nat * nat))) :
  hierarchy cls up dyn base -> tlegal_run cls up dyn vdtor base (tstart cs) os ->
  trun cls up dyn vdtor (tstart cs) os = Ok (t, rs) ->
  (forall l1 c o k C l2, tlog t = l1 ++ EDelete c o k C :: l2 -> In (EWrap c o k C) l2) /\
  NoDup (deleted (tlog t)) /\
  (forall c o k C, In (EWrap c o k C) (tlog t) -> exists v, In (TWrap v o k) os /\ tclass t v = Ok C) /\
  (forall o, o < length (tob t) -> (talive t o = false <-> In o (deleted (tlog t)))).
Proof. intros H. exact (deletes cls up dyn vdtor base H cs os t rs). Qed.
Print Assumptions C63_deletes.

Example C63_deletes_example : tlegal_run ex_cls ex_up ex_dyn ex_vdtor ex_base (tstart [4; 3]) ex_plain /\
  exists t rs, trun ex_cls ex_up ex_dyn ex_vdtor (tstart [4; 3]) ex_plain = Ok (t, rs) /\ tlog t = [EDelete 0 0 0 4; EWrap 0 0 0 4].
Proof. exact (conj ex_plain_legal ex_plain_runs). Qed.

(* C63: an object given to a Ptr exists exactly while some Ptr, of whatever class, refers to it *)
Theorem C63_alive (cls : nat -> nat -> option nat) (up dyn : nat -> nat -> nat -> option nat) (vdtor : nat -> bool)
    (base : nat -> nat -> bool) (cs : list nat) (os : list top) (t : tst) (rs : list (option (nat * nat))) (v o k : nat) :
  hierarchy cls up dyn base -> tlegal_run cls up dyn vdtor base (tstart cs) os ->
  trun cls up dyn vdtor (tstart cs) os = Ok (t, rs) ->
  Forall (fun o => match o with TDetach _ => False | _ => True end) os -> In (TWrap v o k) os ->
  (talive t o = true <-> exists u p h C j, nth_error (tvs t) u = Some (Some p, h, C) /\ tr p = Some (o, j)).
Proof. intros H. exact (lives cls up dyn vdtor base H cs os t rs v o k). Qed.
Print Assumptions C63_alive.

Example C63_alive_example : In (TWrap 0 0 0) ex_share /\ Forall (fun o => match o with TDetach _ => False | _ => True end) ex_share /\
  exists t rs, trun ex_cls ex_up ex_dyn ex_vdtor (tstart ex_vars) (firstn 8 ex_share) = Ok (t, rs) /\ talive t 0 = true.
Proof.
  split; [right; left; reflexivity|]. split; [unfold ex_share; repeat constructor|]. eexists _, _.
  split; [vm_compute; reflexivity|]. reflexivity.
Qed.

(* C63: casting the result of a conversion back gives an equal Ptr that shares the object, if
   the base class sub-object belongs to only one C *)
Theorem C63_cast_back (cls : nat -> nat -> option nat) (up dyn : nat -> nat -> nat -> option nat) (vdtor : nat -> bool)
    (base : nat -> nat -> bool) (cs : list nat) (os : list top) (s : tst) (rs : list (option (nat * nat)))
    (v b d B C : nat) (s1 s2 : tst) (r1 r2 : option (nat * nat)) :
  hierarchy cls up dyn base -> tlegal_run cls up dyn vdtor base (tstart cs) os ->
  trun cls up dyn vdtor (tstart cs) os = Ok (s, rs) ->
  tclass s v = Ok C -> tclass s d = Ok C -> tclass s b = Ok B -> base B C = true ->
  (forall p o k D k', tget s v = Ok p -> tr p = Some (o, k) -> dclass s o = Ok D -> up D k B = Some k' ->
     forall j, cls D j = Some C -> up D j B = Some k' -> j = k) ->
  tstep cls up dyn vdtor s (TConv b v) = Ok (s1, r1) -> tstep cls up dyn vdtor s1 (TCast d b) = Ok (s2, r2) ->
  tequal s2 v d = Ok true /\ (forall p, tget s2 v = Ok p -> tr p <> None -> tget s2 d = Ok p).
Proof. intros H. exact (cast_back cls up dyn vdtor base H cs os s rs v b d B C s1 s2 r1 r2). Qed.
Print Assumptions C63_cast_back.

Example C63_cast_back_example : exists s rs, trun ex_cls ex_up ex_dyn ex_vdtor (tstart ex_vars) (firstn 2 ex_share) = Ok (s, rs) /\
  tclass s 0 = Ok 2 /\ tclass s 3 = Ok 2 /\ tclass s 2 = Ok 1 /\ ex_base 1 2 = true /\
  (forall j, ex_cls 2 j = Some 2 -> ex_up 2 j 1 = Some 2 -> j = 0) /\
  exists s1 r1 s2 r2, tstep ex_cls ex_up ex_dyn ex_vdtor s (TConv 2 0) = Ok (s1, r1) /\
    tstep ex_cls ex_up ex_dyn ex_vdtor s1 (TCast 3 2) = Ok (s2, r2) /\ tequal s2 0 3 = Ok true.
Proof.
  eexists _, _. split; [vm_compute; reflexivity|]. do 4 (split; [reflexivity|]).
  split; [intros [|[|[|j]]] E; [reflexivity|discriminate E..]|]. do 4 eexists.
  split; [vm_compute; reflexivity|]. split; [vm_compute; reflexivity|]. reflexivity.
Qed.

(* C63: converting in two steps, in one step, or with Cast gives equal Ptrs *)
Theorem C63_paths (cls : nat -> nat -> option nat) (up dyn : nat -> nat -> nat -> option nat) (vdtor : nat -> bool)
    (base : nat -> nat -> bool) (cs : list nat) (os : list top) (s : tst) (rs : list (option (nat * nat)))
    (v b a1 a2 A B C : nat) (s1 s2 s3 : tst) (r1 r2 r3 : option (nat * nat)) :
  hierarchy cls up dyn base -> tlegal_run cls up dyn vdtor base (tstart cs) os ->
  trun cls up dyn vdtor (tstart cs) os = Ok (s, rs) ->
  tclass s v = Ok C -> tclass s b = Ok B -> tclass s a1 = Ok A -> tclass s a2 = Ok A ->
  base B C = true -> base A B = true -> base A C = true ->
  tstep cls up dyn vdtor s (TConv b v) = Ok (s1, r1) -> tstep cls up dyn vdtor s1 (TConv a1 b) = Ok (s2, r2) ->
  (tstep cls up dyn vdtor s2 (TConv a2 v) = Ok (s3, r3) \/ tstep cls up dyn vdtor s2 (TCast a2 v) = Ok (s3, r3)) ->
  tequal s3 a1 a2 = Ok true.
Proof. intros H. exact (conv_path cls up dyn vdtor base H cs os s rs v b a1 a2 A B C s1 s2 s3 r1 r2 r3). Qed.
Print Assumptions C63_paths.

Example C63_paths_example : exists s rs, trun ex_cls ex_up ex_dyn ex_vdtor (tstart [2; 0; 0; 0]) (firstn 2 ex_share) = Ok (s, rs) /\
  ex_base 0 2 = true /\ ex_base 0 0 = true /\
  exists s1 r1 s2 r2 s3 r3, tstep ex_cls ex_up ex_dyn ex_vdtor s (TConv 1 0) = Ok (s1, r1) /\
    tstep ex_cls ex_up ex_dyn ex_vdtor s1 (TConv 2 1) = Ok (s2, r2) /\ tstep ex_cls ex_up ex_dyn ex_vdtor s2 (TCast 3 0) = Ok (s3, r3) /\
    tequal s3 2 3 = Ok true.
Proof.
  eexists _, _. split; [vm_compute; reflexivity|]. do 2 (split; [reflexivity|]). do 6 eexists.
  split; [vm_compute; reflexivity|]. split; [vm_compute; reflexivity|]. split; [vm_compute; reflexivity|]. reflexivity.
Qed.

(* C63 needs the rule about virtual destructors: without one, Ptr<Derived> may be converted
   to Ptr<Base> and released there, but Ptr<Base>(new Derived) is undefined when released *)
Theorem C63_no_virtual_destructor_refuted : exists cls up dyn vdtor base, hierarchy cls up dyn base /\
  (exists t rs, trun cls up dyn vdtor (tstart [4; 3]) ex_plain = Ok (t, rs) /\ tlog t = [EDelete 0 0 0 4; EWrap 0 0 0 4]) /\
  trun cls up dyn vdtor (tstart [4; 3]) ex_bad = UB /\ base 3 4 = true /\ up 4 0 3 = Some 1.
Proof. exact bad_refuted. Qed.
Print Assumptions C63_no_virtual_destructor_refuted.
