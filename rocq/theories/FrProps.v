(* Functions while they run *)
From Verif Require Import Base RcModel RcSpec FrModel FrSpec FrProofs.

(* A program whose statements respect the rule of C38, in the main program and in the bodies of running functions, that
   calls no empty Func and uses what was captured only while some Func refers to the running function: nothing is undefined. *)
Theorem C77_history_partial : forall n os, flegal_run (start n) os -> exists s, frun (start n) os = Ok s.
Proof. exact history. Qed.
Print Assumptions C77_history_partial.

(* What a running function captured exists exactly as long as some Func refers to it, in every frame. *)
Theorem C77_captures : forall n os s i, flegal_run (start n) os -> keeps_all os -> frun (start n) os = Ok s -> In i (frames s) ->
  (alive (base s) i = true <-> owned s i).
Proof. exact captures. Qed.
Print Assumptions C77_captures.

(* Using it is defined if some Func refers to the running function, and undefined otherwise. *)
Theorem C77_use_exact : forall n os s i fr, flegal_run (start n) os -> keeps_all os -> frun (start n) os = Ok s -> frames s = i :: fr ->
  (owned s i /\ fstep s Use = Ok s) \/ (~ owned s i /\ fstep s Use = UB).
Proof. exact use_exact. Qed.
Print Assumptions C77_use_exact.

(* A function called through a local copy may do anything but touch this copy: what it captured stays. *)
Theorem C77_local_copy : forall n os s g i body, flegal_run (start n) (os ++ body) -> frun (start n) os = Ok s -> local_copy s g i ->
  Forall (fun o => ~ touches g o) body ->
  exists s', frun s body = Ok s' /\ local_copy s' g i /\ alive (base s') i = true.
Proof. exact copy_keeps. Qed.
Print Assumptions C77_local_copy.

(* A running function that assigns anything else to the only Func that refers to it destroys what it captured, and its
   next use is undefined. *)
Theorem C77_replaced_refuted : forall n os s i fr f w, flegal_run (start n) os -> keeps_all os -> frun (start n) os = Ok s -> frames s = i :: fr ->
  sole s f i -> f <> w -> flegal s (Do (PAssign f w)) ->
  exists s', fstep s (Do (PAssign f w)) = Ok s' /\ frames s' = i :: fr /\ alive (base s') i = false /\ fstep s' Use = UB.
Proof. exact replaced. Qed.
Print Assumptions C77_replaced_refuted.

(* Assigning to the only Func that refers to a function a Func this function captured is undefined. *)
Theorem C77_successor_refuted : forall n os s i f m, flegal_run (start n) os -> frun (start n) os = Ok s ->
  local_copy s f i -> sole s f i -> captured s m i -> fstep s (Do (PAssign f m)) = UB.
Proof. exact successor. Qed.
Print Assumptions C77_successor_refuted.

(* the functions of the examples are in FrSpec *)
Example C77_legal_ex : flegal_run (start 3) through_copy /\ keeps_all through_copy /\
  (exists s, frun (start 3) (setup ++ [Do (PCopy 2 0)]) = Ok s /\ local_copy s 2 0) /\
  Forall (fun o => ~ touches 2 o) [Call 2; Do (PAssign 0 3); Use; Call 0; Use; Return; Return].
Proof.
  split; [exact through_copy_legal|]. split; [repeat constructor|]. split.
  - eexists. split; [vm_compute; reflexivity|]. split; reflexivity.
  - repeat constructor; cbn; intros Q; try discriminate; contradiction.
Qed.
Example C77_setup_ex : exists s, frun (start 3) (setup ++ [Call 0]) = Ok s /\ frames s = [0%nat] /\ sole s 0 0 /\ captured s 3 0 /\ local_copy s 0 0.
Proof.
  eexists. split; [vm_compute; reflexivity|]. split; [reflexivity|]. split.
  - intros u. split; [|intros ->; reflexivity]. unfold refers. cbn. destruct u as [|[|[|[|u]]]]; cbn; intros Q; try discriminate; try reflexivity.
    destruct u; discriminate.
  - split; [split; [reflexivity|discriminate]|]. split; reflexivity.
Qed.
(* the same program through the copy is defined, through f it is not *)
Example C77_runs_ex : (exists s, frun (start 3) through_copy = Ok s /\ ob (base s) = [true; true] /\ frames s = []) /\
  frun (start 3) (setup ++ [Call 0; Do (PAssign 0 3)]) = UB /\
  frun (start 3) (setup ++ [Call 0; Do (PAssign 0 1); Use]) = UB /\
  (exists s, frun (start 3) (setup ++ [Call 0; Do (PAssign 0 1); Return; Call 0; Use; Return]) = Ok s /\ ob (base s) = [false; true]).
Proof. split; [eexists; split; [vm_compute; reflexivity|split; reflexivity]|]. split; [reflexivity|]. split; [reflexivity|]. eexists; split; [vm_compute; reflexivity|reflexivity]. Qed.
(* A handler of an Event: object 0 is the handler, its member (variable 3) the Func, object 1 the function; variable 0 is in the
   event's list, variable 2 is what Add returned.  Removing the handler while it runs is fine as long as the result of
   Add is kept; dropping that as well destroys what the running function captured. *)
Definition handler : list fop := map Do [PRaw 1; PWrap 0 0; PRaw 0; PWrap 1 1; PAssign 3 1; PDestroy 1; PCopy 2 0].
Example C77_event_ex :
  (exists s, frun (start 3) (handler ++ [Call 3; Do (PSetNull 0); Use; Return]) = Ok s /\ ob (base s) = [true; true]) /\
  frun (start 3) (handler ++ [Call 3; Do (PSetNull 0); Do (PSetNull 2); Use]) = UB.
Proof. split; [eexists; split; [vm_compute; reflexivity|reflexivity]|reflexivity]. Qed.
