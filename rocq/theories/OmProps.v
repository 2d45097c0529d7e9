(* Properties of strings when memory runs out: C74. *)
From Verif Require Import Base StrModel StrSpec OmModel OmSpec OmProofs2.
Open Scope Z_scope.

(* A program is a list of statements, each with the number of its allocation that fails
   (None: all succeed).  tolerated (OmSpec.v) excludes one kind of failure: the second
   allocation of a statement that joins strings or calls Buffer(); see the refutations. *)
Definition demo : list (op * oracle) :=
  [ (OInit 0 (ELit (Some abc)), None); (OInit 1 (ESub 0 1 1), Some 0%nat);
    (OInit 2 (EConcat 0 1), Some 0%nat); (OInit 2 (ELit (Some abc)), Some 1%nat);
    (OInit 2 (ECopyFrom abc 2), Some 1%nat); (OInit 2 (EConcat 0 1), None); (OBuffer 1, Some 0%nat);
    (OBuffer 1, None); (OSet 0 (EInsert 2 1 1), Some 0%nat); (OCompare 0 2, None);
    (ODestroy 0, None); (ODestroy 1, None); (ODestroy 2, None) ].
Definition demo_result : option (list oout) :=
  match orun (oinit 3) demo with Ok (_, xs) => Some xs | _ => None end.
Example demo_runs :
  demo_result = Some [ROut RNone; ROut RNone; RNoMemory; RNoMemory; RNoMemory; ROut RNone; RNoMemory;
                      ROut (RMem [Some 98; Some 0]); RNoMemory; ROut (RCmp Lt); ROut RNone; ROut RNone; ROut RNone].
Proof. vm_compute. reflexivity. Qed.
Example demo_tolerated : Forall (fun q => tolerated (fst q) (snd q) = true) demo.
Proof. repeat constructor. Qed.
Example demo_after :
  match orun (oinit 3) (firstn 10 demo) with
  | Ok (_, xs) => after (repeat None 3) (history (firstn 10 demo) xs)
  | _ => UB
  end = Ok [Some [97; 98; 99]; Some [98]; Some [97; 98; 99; 98]].
Proof. vm_compute. reflexivity. Qed.

(* C74: whichever tolerated allocations failed before, every variable shows the value it has
   when the statements that reported std::bad_alloc are left out, and the next statement runs
   without undefined behaviour: either it does what it does with enough memory, or it reports
   std::bad_alloc - only if the oracle said so - and no variable has changed. *)
Theorem C74_failed_statements_change_nothing_partial : forall n p s xs vs,
  Forall (fun q => tolerated (fst q) (snd q) = true) p ->
  orun (oinit n) p = Ok (s, xs) -> after (repeat None n) (history p xs) = Ok vs ->
  oshows s vs /\
  forall o f vs' y, sstep vs o = Ok (vs', y) -> tolerated o f = true ->
    exists s' x, ostep s o f = Ok (s', x) /\
      match x with
      | RNoMemory => (f = Some 0%nat \/ f = Some 1%nat) /\ oshows s' vs
      | ROut r => out_ok r y /\ oshows s' vs'
      end.
Proof. exact survives. Qed.
Print Assumptions C74_failed_statements_change_nothing_partial.

(* C74: counters stay exact: apart from the lost ones, as many as second allocations of
   constructors failed, every counter is the number of variables that share it. *)
Theorem C74_counters_partial : forall n p s xs vs,
  Forall (fun q => tolerated (fst q) (snd q) = true) p ->
  orun (oinit n) p = Ok (s, xs) -> after (repeat None n) (history p xs) = Ok vs ->
  exists LC, NoDup LC /\ length LC = lost_counters p xs /\
  forall c k, nth_error (cnts s) c = Some (Some k) ->
    (In c LC /\ users c (ovars s) = 0%nat /\ k = 1) \/
    (~ In c LC /\ k = Z.of_nat (users c (ovars s)) /\ 0 < k).
Proof. exact counter_values. Qed.
Print Assumptions C74_counters_partial.

(* C74: after every variable was destroyed exactly the memory of the second failures is left:
   one buffer for every CopyFrom, one counter for every other constructor. *)
Theorem C74_leaks : forall n p s xs vs,
  Forall (fun q => tolerated (fst q) (snd q) = true) p ->
  orun (oinit n) p = Ok (s, xs) -> after (repeat None n) (history p xs) = Ok vs ->
  Forall (fun x => x = None) (ovars s) ->
  live_buffers s = lost_buffers p xs /\ live_counters s = lost_counters p xs.
Proof. exact leaks. Qed.
Print Assumptions C74_leaks.
Example demo_leaks :
  match orun (oinit 3) demo with
  | Ok (s, xs) => (live_buffers s, live_counters s, lost_buffers demo xs, lost_counters demo xs, ovars s)
  | _ => (0, 0, 0, 0, [])%nat
  end = (1, 1, 1, 1, [None; None; None])%nat.
Proof. vm_compute. reflexivity. Qed.

(* C74: when only first allocations fail nothing leaks. *)
Theorem C74_first_failure_no_leak : forall n p s xs vs,
  Forall (fun q => snd q <> Some 1%nat) p ->
  orun (oinit n) p = Ok (s, xs) -> after (repeat None n) (history p xs) = Ok vs ->
  Forall (fun x => x = None) (ovars s) ->
  live_buffers s = 0%nat /\ live_counters s = 0%nat.
Proof. exact first_no_leak. Qed.
Print Assumptions C74_first_failure_no_leak.

(* C74 (and the model of C08 - C13): with enough memory the separate buffers and counters give
   what the blocks of StrModel give. *)
Theorem C74_enough_memory : forall n os vs ys, srun (repeat None n) os = Ok (vs, ys) ->
  exists s t xs, orun (oinit n) (map (fun o => (o, None)) os) = Ok (s, map ROut xs) /\
    run (init n) os = Ok (t, xs) /\ oshows s vs /\ shows t vs /\ Forall2 out_ok xs ys.
Proof. exact no_failure. Qed.
Print Assumptions C74_enough_memory.
Example enough_memory_demo :
  srun (repeat None 2) [OInit 0 (ELit (Some abc)); OInit 1 (EConcat 0 0); OBuffer 1] =
  Ok ([Some [97; 98; 99]; Some [97; 98; 99; 97; 98; 99]], [SNone; SNone; SChars [97; 98; 99; 97; 98; 99]]).
Proof. vm_compute. reflexivity. Qed.

(* C74, refuted for joins: whenever two strings that are not empty are joined and the second
   allocation fails, the static terminator is deleted. *)
Theorem C74_join_refuted : forall n p s xs vs v w x l m,
  Forall (fun q => tolerated (fst q) (snd q) = true) p ->
  orun (oinit n) p = Ok (s, xs) -> after (repeat None n) (history p xs) = Ok vs ->
  nth_error vs v = Some None -> nth_error vs w = Some (Some l) -> nth_error vs x = Some (Some m) ->
  l <> [] -> m <> [] ->
  ostep s (OInit v (EConcat w x)) (Some 1%nat) = UB.
Proof. exact join_second_ub. Qed.
Print Assumptions C74_join_refuted.
Example join_demo : after (repeat None 2) [(OInit 0 (ELit (Some abc)), false)] = Ok [Some [97; 98; 99]; None].
Proof. reflexivity. Qed.

(* C74, refuted for Buffer(): when the second allocation fails the string shows other
   characters, and destroying both strings is undefined behaviour. *)
Theorem C74_buffer_refuted :
  (exists s xs x, orun (oinit 2) torn = Ok (s, xs) /\ failed (last xs (ROut RNone)) = true /\
     after (repeat None 2) (history torn xs) = Ok [Some [97; 98; 99]; Some [98]] /\
     nth_error (ovars s) 1 = Some (Some x) /\ ocontent s x = Ok [0]) /\
  orun (oinit 2) (torn ++ [(ODestroy 1, None); (ODestroy 0, None)]) = UB /\
  orun (oinit 2) (torn ++ [(ODestroy 0, None); (ODestroy 1, None)]) = UB.
Proof. exact torn_buffer. Qed.
Print Assumptions C74_buffer_refuted.

(* C74, refuted: failed statements lose memory. *)
Theorem C74_no_leak_refuted :
  (exists s, orun (oinit 1) [(OInit 0 (ELit (Some abc)), Some 1%nat)] = Ok (s, [RNoMemory]) /\ live_counters s = 1%nat /\
     Forall (fun x => x = None) (ovars s)) /\
  (exists s, orun (oinit 1) [(OInit 0 (ECopyFrom abc 2), Some 1%nat)] = Ok (s, [RNoMemory]) /\ live_buffers s = 1%nat /\
     Forall (fun x => x = None) (ovars s)).
Proof. exact loses_memory. Qed.
Print Assumptions C74_no_leak_refuted.
