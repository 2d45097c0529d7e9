(* Property C82. *)
From Verif Require Import Base PgrModel PgrSpec PgrProofs PgrProofs2 PgrProofs3 PgrProofs4 PgrProofs5 PgrProofs6 PgrProofs7.
Open Scope nat_scope.

(* C82: any number of threads with any programs over shared objects, under every schedule of the single steps: as
   long as no two operations on one and the same member overlap with one of them changing it, nothing is undefined,
   whatever a Ptr refers to exists, and no object is deleted twice.  Otherwise the run stops at such an overlap. *)
Theorem C82_safe : forall g l sched, wf g l -> Forall (fun t => no_self (snd t)) l ->
  (exists w, prun (start g l) sched = Ok w /\ intact w) \/
  (prun (start g l) sched = Err /\ exists a i b w, sched = a ++ i :: b /\ prun (start g l) a = Ok w /\ race w i).
Proof. exact pgr_safe. Qed.
Print Assumptions C82_safe.
(* C82: objects whose members are not changed after construction need no lock at all *)
Theorem C82_frozen : forall g l sched, wf g l -> Forall (fun t => no_self (snd t)) l -> Forall (fun t => frozen (snd t)) l ->
  exists w, prun (start g l) sched = Ok w /\ intact w.
Proof. exact pgr_frozen. Qed.
Print Assumptions C82_frozen.
(* C82: and neither does a single thread *)
Theorem C82_single : forall g t sched, wf g [t] -> no_self (snd t) -> exists w, prun (start g [t]) sched = Ok w /\ intact w.
Proof. exact pgr_single. Qed.
Print Assumptions C82_single.
(* C82: the destructor of an object is entered only when no Ptr refers to the object *)
Theorem C82_last : forall g l sched i w w' o, wf g l -> Forall (fun t => no_self (snd t)) l -> prun (start g l) sched = Ok w ->
  tstep w i = Ok w' -> exists_now w o -> ~ exists_now w' o -> pointers w o = 0.
Proof. exact pgr_last. Qed.
Print Assumptions C82_last.
(* C82: between statements every object either exists, its counter is the number of Ptrs to it and that is not zero,
   or it has been deleted and no Ptr refers to it *)
Theorem C82_quiet : forall g l sched w o, wf g l -> Forall (fun t => no_self (snd t)) l -> prun (start g l) sched = Ok w ->
  quiet w -> o < length (heap w) ->
  (exists_now w o /\ counter_is w o (pointers w o) /\ 1 <= pointers w o) \/ (In o (log w) /\ pointers w o = 0).
Proof. exact pgr_quiet. Qed.
Print Assumptions C82_quiet.
(* C82: each statement does what it does in a single thread, however many steps of other threads and of deletions
   happen between its own steps: a pointer that was read is the one the member had when the statement began, a new
   object has the members that were asked for, a stored pointer is in the member when the statement ends *)
Theorem C82_effect : forall g l sched w i t s p w1 w2, wf g l -> Forall (fun t => no_self (snd t)) l -> prun (start g l) sched = Ok w ->
  nth_error (ths w) i = Some t -> between t = true -> prog t = s :: p -> tstep w i = Ok w1 -> meanwhile i w1 w2 ->
  exists t2, nth_error (ths w2) i = Some t2 /\ prog t2 = p /\ effect w (vars t) s w2 (vars t2).
Proof. exact pgr_effect. Qed.
Print Assumptions C82_effect.
(* C82: what the variables lead to exists, at every moment *)
Theorem C82_reach : forall g l sched w o, wf g l -> Forall (fun t => no_self (snd t)) l -> prun (start g l) sched = Ok w ->
  reach w o -> exists_now w o.
Proof. exact pgr_reach. Qed.
Print Assumptions C82_reach.
(* C82: when members refer to objects made earlier and are not changed, nothing else is kept between statements *)
Theorem C82_nothing_lost : forall g l sched w o, wf g l -> Forall (fun t => no_self (snd t)) l -> Forall (fun t => frozen (snd t)) l ->
  descending g -> prun (start g l) sched = Ok w -> quiet w -> (exists_now w o <-> reach w o).
Proof. exact pgr_nothing_lost. Qed.
Print Assumptions C82_nothing_lost.
(* C82: and when all variables are empty in the end, every object has been deleted exactly once *)
Theorem C82_all_deleted : forall g l sched w, wf g l -> Forall (fun t => no_self (snd t)) l -> Forall (fun t => frozen (snd t)) l ->
  descending g -> prun (start g l) sched = Ok w -> quiet w -> (forall t o, In t (ths w) -> ~ In (Some o) (vars t)) ->
  NoDup (log w) /\ forall o, In o (log w) <-> o < length (heap w).
Proof. exact pgr_all_deleted. Qed.
Print Assumptions C82_all_deleted.
(* C82: no thread ever waits or repeats a step: the steps of all threads together are bounded, whatever the schedule *)
Theorem C82_bounded : forall g l, exists B, forall sched, busy (start g l) sched <= B.
Proof. exact pgr_bounded. Qed.
Print Assumptions C82_bounded.
(* C82: and from every state that is reached all programs can be completed *)
Theorem C82_complete : forall g l sched w, wf g l -> Forall (fun t => no_self (snd t)) l -> Forall (fun t => frozen (snd t)) l ->
  prun (start g l) sched = Ok w -> exists more w', prun w more = Ok w' /\ quiet w' /\ finished w'.
Proof. exact pgr_complete. Qed.
Print Assumptions C82_complete.
(* C82 is false of p = p->f with p the only pointer to its object *)
Theorem C82_self_load_refuted : wf [[]; [Some 0]] self_load /\ prun (start [[]; [Some 0]] self_load) [0; 0; 0; 0] = UB.
Proof. exact self_load_ub. Qed.
Print Assumptions C82_self_load_refuted.
(* C82: objects that refer to each other are never deleted *)
Theorem C82_ring_refuted : wf ring drop_ring /\ exists w, prun (start ring drop_ring) [0; 1; 0; 1] = Ok w /\ quiet w /\ finished w /\
  (forall o, ~ reach w o) /\ exists_now w 0 /\ exists_now w 1.
Proof. exact ring_kept. Qed.
Print Assumptions C82_ring_refuted.

Example C82_case1 : wf two walkers /\ descending two /\ Forall (fun t => no_self (snd t)) walkers /\ Forall (fun t => frozen (snd t)) walkers.
Proof. exact walkers_wf. Qed.
Example C82_case2 : deleted (prun (start two walkers) (concat (repeat [0; 1] 40))) = Some [3; 0; 2; 1].
Proof. reflexivity. Qed.
Example C82_case3 : deleted (prun (start two walkers) (repeat 1 40 ++ repeat 0 40)) = Some [3; 0; 1; 2].
Proof. reflexivity. Qed.
Example C82_case4 : prun (start two replace) [0; 1] = Err.
Proof. reflexivity. Qed.
Example C82_case5 : deleted (prun (start two replace) (repeat 0 12 ++ repeat 1 20)) = Some [0; 1].
Proof. reflexivity. Qed.
Example C82_case6 : exists w1 w2, tstep (start two walkers) 0 = Ok w1 /\ meanwhile 0 w1 w2 /\
  effect (start two walkers) [Some 1; None] (Load 1 0 1) w2 [Some 1; Some 0].
Proof. exact effect_case. Qed.
