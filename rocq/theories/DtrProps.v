(* C69: Ptr with destructors that use Ptr variables themselves. *)
From Verif Require Import Base RcModel RcSpec DtrModel DtrSpec DtrProofs DtrProofs2 DtrProofs3.
Open Scope nat_scope.

(* C69: whatever the destructors do, as long as the rule has been followed an allowed step is defined: no counter and
   no object is used after it was deleted, and nothing is deleted twice *)
Theorem C69_safe (code : nat -> nat -> st -> option op) (n : nat) (prog : list op) (es : list event) (s : st) (t : task) (rest : list task) :
  runs code (start n prog) es (s, t :: rest) -> allowed s rest t -> exists c, dtr_step code s t rest = Ok c.
Proof. exact (safe_ok code n prog es s t rest). Qed.
Print Assumptions C69_safe.

Example C69_safe_example : exists es s, runs saving (start 3 saving_prog) es (s, []) /\
  no_detach_in es /\ wrapped_in es 0 /\ wrapped_in es 1 /\ dtors es = [0; 1] /\ ob s = [false; false] /\ cn s = [None; None].
Proof. exact saving_runs. Qed.

(* C69: what every allowed step does to the variables and the objects, and what comes next *)
Theorem C69_effect (code : nat -> nat -> st -> option op) (n : nat) (prog : list op) (es : list event) (s : st) (t : task)
    (rest : list task) (s' : st) (ts' : list task) :
  runs code (start n prog) es (s, t :: rest) -> allowed s rest t -> dtr_step code s t rest = Ok (s', ts') ->
  effect code s t rest s' ts'.
Proof. exact (effect_ok code n prog es s t rest s' ts'). Qed.
Print Assumptions C69_effect.

(* C69: at every moment, also in the middle of a destructor, an object handed to a Ptr exists exactly while it has an owner *)
Theorem C69_alive (code : nat -> nat -> st -> option op) (n : nat) (prog : list op) (es : list event) (s : st) (ts : list task) (o : nat) :
  runs code (start n prog) es (s, ts) -> no_detach_in es -> wrapped_in es o ->
  (alive s o = true <-> exists u, owner s ts u o).
Proof. exact (alive_now code n prog es s ts o). Qed.
Print Assumptions C69_alive.

Example C69_alive_example : exists es s ts, runs saving (start 3 saving_prog) es (s, ts) /\ no_detach_in es /\ wrapped_in es 1 /\
  busy ts = [0; 0] /\ alive s 0 = false /\ owner s ts 2 1 /\ owners_now s ts 1 = 2 /\ exists k b, ts = TBody 0 k :: b.
Proof. exact saving_middle. Qed.

(* C69: what an owner refers to exists, also when Detach is used *)
Theorem C69_owner_alive (code : nat -> nat -> st -> option op) (n : nat) (prog : list op) (es : list event) (s : st) (ts : list task) (u o : nat) :
  runs code (start n prog) es (s, ts) -> owner s ts u o -> alive s o = true.
Proof. exact (owner_alive code n prog es s ts u o). Qed.
Print Assumptions C69_owner_alive.

(* C69: at every moment the counter of an object with an owner is the number of its owners *)
Theorem C69_counter (code : nat -> nat -> st -> option op) (n : nat) (prog : list op) (es : list event) (s : st) (ts : list task) (u o : nat) :
  runs code (start n prog) es (s, ts) -> owner s ts u o ->
  exists p h c, nth_error (vs s) u = Some (Some p, h) /\ pc p = Some c /\
    nth_error (cn s) c = Some (Some (Z.of_nat (owners_now s ts o))).
Proof. exact (counter_now code n prog es s ts u o). Qed.
Print Assumptions C69_counter.

(* C69: a counter that has not been deleted is in use *)
Theorem C69_counter_released (code : nat -> nat -> st -> option op) (n : nat) (prog : list op) (es : list event) (s : st) (ts : list task) (c : nat) (k : Z) :
  runs code (start n prog) es (s, ts) -> no_detach_in es -> nth_error (cn s) c = Some (Some k) ->
  exists u p h, nth_error (vs s) u = Some (Some p, h) /\ pc p = Some c /\ ~ In u (busy ts).
Proof. exact (released_now code n prog es s ts c k). Qed.
Print Assumptions C69_counter_released.

(* C69: a destructor begins at most once per object, only for objects that are gone, and when everything is done it has
   run for all of them *)
Theorem C69_once (code : nat -> nat -> st -> option op) (n : nat) (prog : list op) (es : list event) (s : st) (ts : list task) :
  runs code (start n prog) es (s, ts) ->
  NoDup (dtors es) /\ (forall o, In o (dtors es) -> o < length (ob s) /\ alive s o = false) /\
  (ts = [] -> forall o, o < length (ob s) -> alive s o = false -> In o (dtors es)).
Proof. exact (once_ok code n prog es s ts). Qed.
Print Assumptions C69_once.

(* C69: while the destructor of an object runs, or has still to run, all members of the object exist *)
Theorem C69_members_exist (code : nat -> nat -> st -> option op) (n : nat) (prog : list op) (es : list event) (s : st)
    (a : list task) (o k : nat) (b : list task) (u : nat) :
  runs code (start n prog) es (s, a ++ TBody o k :: b) -> wh (world_of s) u = Some o -> exists_var (world_of s) u.
Proof. exact (members_exist code n prog es s a o k b u). Qed.
Print Assumptions C69_members_exist.

(* C69: when everything is done, the members of every deleted object have been destroyed *)
Theorem C69_members_gone (code : nat -> nat -> st -> option op) (n : nat) (prog : list op) (es : list event) (s : st) (u h : nat) :
  runs code (start n prog) es (s, []) -> wh (world_of s) u = Some h -> alive s h = false -> wv (world_of s) u = None.
Proof. exact (gone_ok code n prog es s u h). Qed.
Print Assumptions C69_members_gone.

(* C69: if destructors are finite and create no objects, no operation goes on forever, from whatever state *)
Theorem C69_terminates (code : nat -> nat -> st -> option op) (bound : nat -> nat) (c : st * list task) :
  finite_bodies code bound -> Acc (follows code) c.
Proof. exact (fun F => terminates_ok code bound F c). Qed.
Print Assumptions C69_terminates.

Example C69_terminates_example : finite_bodies saving (fun _ => 2).
Proof. exact saving_finite. Qed.

(* C69: a program that follows the rule, with such destructors, runs to its end *)
Theorem C69_completes (code : nat -> nat -> st -> option op) (bound : nat -> nat) (n : nat) (prog : list op) :
  finite_bodies code bound -> (forall es s t rest, runs code (start n prog) es (s, t :: rest) -> allowed s rest t) ->
  exists es s, runs code (start n prog) es (s, []).
Proof. exact (fun F => completes_ok code bound F n prog). Qed.
Print Assumptions C69_completes.

(* C69: with destructors that do nothing, an operation ends in the state that C38 describes *)
Theorem C69_no_bodies (s : st) (o : op) (s' : st) (r : option nat) (rest : list task) :
  step s o = Ok (s', r) -> goes no_code (s, TOp o :: rest) (s', rest).
Proof. exact (no_bodies_ok s o s' r rest). Qed.
Print Assumptions C69_no_bodies.

(* C69 fails without the rule: a destructor that copies the variable being emptied uses a deleted counter, *)
Theorem C69_reads_busy_refuted : fails (only (PCopy 1 0)) (start 2 [PRaw 0; PWrap 0 0; PSetNull 0]).
Proof. exact reads_busy. Qed.
Print Assumptions C69_reads_busy_refuted.
(* so does one that empties it, *)
Theorem C69_writes_busy_refuted : fails (only (PSetNull 0)) (start 2 [PRaw 0; PWrap 0 0; PSetNull 0]).
Proof. exact writes_busy. Qed.
Print Assumptions C69_writes_busy_refuted.
(* and in v = w the destructor of what v owned must not destroy w *)
Theorem C69_kills_source_refuted : fails (only (PDestroy 1)) (start 2 [PRaw 0; PWrap 0 0; PRaw 0; PWrap 1 1; PAssign 0 1]).
Proof. exact kills_source. Qed.
Print Assumptions C69_kills_source_refuted.
