(* Property C40. *)
From Verif Require Import Base ParModel ParSpec ParProofs.

(* C40: any number of threads, each with any number of copies and any program of copies, drops, uses and
   moves to other threads, under every schedule: nothing is undefined (no access to the deleted counter, no
   use of the deleted object, no second deletion); while any thread holds a copy the object exists, the
   counter is the number of copies and no thread is deleting; the object is deleted at most once, by the thread
   whose decrement came last; and when no copy is left and no thread is inside of a release, it is deleted. *)
Theorem C40_safe : forall l sched, 1 <= owned (ths (start l)) -> exists w, prun (start l) sched = Ok w /\
  (1 <= owned (ths w) -> obj w = true /\ cnt w = Some (Z.of_nat (owned (ths w))) /\ idle w) /\
  (obj w = true -> deleters w = []) /\
  (obj w = false -> cnt w = None /\ exists d, deleters w = [d] /\ latest w = Some d) /\
  (owned (ths w) = 0 -> idle w -> obj w = false).
Proof. exact par_safe. Qed.
Print Assumptions C40_safe.
(* C40: the step that deletes the object is taken when no copy is left, by the thread that dropped the last one *)
Theorem C40_last : forall l sched i w w', 1 <= owned (ths (start l)) -> prun (start l) sched = Ok w -> tstep w i = Ok w' ->
  obj w = true -> obj w' = false -> owned (ths w) = 0 /\ latest w = Some i.
Proof. exact par_last. Qed.
Print Assumptions C40_last.
(* C40: when every program drops all the copies it has, every complete run deletes the object exactly once *)
Theorem C40_done : forall l sched w, 1 <= owned (ths (start l)) -> Forall (fun x => after (fst x) (snd x) = Some 0) l ->
  prun (start l) sched = Ok w -> Forall (fun t => prog t = []) (ths w) -> idle w ->
  obj w = false /\ exists d, deleters w = [d].
Proof. exact par_done. Qed.
Print Assumptions C40_done.
Example C40_case1 : prun (start demo) [0; 1; 0; 0; 1; 0; 1; 1; 1] =
  Ok (mkPar None false [mkT 0 [] Outside; mkT 0 [] Outside] (Some 1) [1]).
Proof. reflexivity. Qed.
Example C40_case2 : prun (start demo) [1; 1; 1; 0; 0; 0; 0; 0; 0] =
  Ok (mkPar None false [mkT 0 [] Outside; mkT 0 [] Outside] (Some 0) [0]).
Proof. reflexivity. Qed.
Example C40_case3 : owned (ths (start demo)) = 3 /\ Forall (fun x => after (fst x) (snd x) = Some 0) demo.
Proof. repeat constructor. Qed.
