(* C38, C39: Ptr. *)
From Verif Require Import Base RcModel RcSpec RcProofs RcProofs2.
Open Scope nat_scope.

(* C38: every history that follows the rules of [legal] runs without undefined behaviour (so
   nothing is deleted twice, and nothing deleted is used), and every step of it does to the
   variables and the objects what [spec] says. *)
Theorem C38_history (n : nat) (os : list op) : legal_run (init n) os ->
  exists s rs, run (init n) os = Ok (s, rs) /\ history (init n) os s rs.
Proof. exact (history_ok n os). Qed.
Print Assumptions C38_history.

Example C38_history_example : legal_run (init 3) demo /\ exists s rs, run (init 3) demo = Ok (s, rs) /\
  alive s 0 = false /\ alive s 1 = false /\ cn s = [None; None] /\
  exists s' rs', run (init 3) (firstn 8 demo) = Ok (s', rs') /\ alive s' 0 = true /\ alive s' 1 = true.
Proof. exact (conj demo_legal demo_deletes). Qed.
(* a member of an object that only another member refers to *)
Example C38_history_deep_example : legal_run (init 3) deep /\ exists s rs, run (init 3) deep = Ok (s, rs) /\
  ob s = [false; false; false] /\ cn s = [None; None; None] /\
  exists s' rs', run (init 3) (firstn 9 deep) = Ok (s', rs') /\ ob s' = [true; true; false].
Proof. exact (conj deep_legal deep_runs). Qed.

(* C38: an object handed to a Ptr exists exactly while some Ptr refers to it *)
Theorem C38_alive (n : nat) (os : list op) (s : st) (rs : list (option nat)) (o : nat) :
  legal_run (init n) os -> no_detach os -> run (init n) os = Ok (s, rs) -> wrapped os o ->
  (alive s o = true <-> exists u, refers (world_of s) u o).
Proof. exact (alive_ok n os s rs o). Qed.
Print Assumptions C38_alive.

Example C38_alive_example : legal_run (init 3) demo /\ no_detach demo /\ wrapped demo 0 /\ wrapped demo 1.
Proof. split; [exact demo_legal|]. split; [repeat constructor|]. split; [exists 0|exists 1]; cbn; tauto. Qed.

(* C38: the counter is the number of variables *)
Theorem C38_counter (n : nat) (os : list op) (s : st) (rs : list (option nat)) (u : nat) (p : ptr) (h : option nat) (o : nat) :
  legal_run (init n) os -> run (init n) os = Ok (s, rs) ->
  nth_error (vs s) u = Some (Some p, h) -> pr p = Some o ->
  alive s o = true /\ exists c, pc p = Some c /\ nth_error (cn s) c = Some (Some (Z.of_nat (owners s o))).
Proof. exact (counter_ok n os s rs u p h o). Qed.
Print Assumptions C38_counter.

Example C38_counter_example : exists s rs, run (init 3) (firstn 7 demo) = Ok (s, rs) /\ owners s 0 = 2 /\
  nth_error (vs s) 2 = Some (Some (mkPtr (Some 0) (Some 0) (Some 0) true), None) /\ nth_error (cn s) 0 = Some (Some 2%Z).
Proof. eexists _, _. split; [vm_compute; reflexivity|]. repeat split. Qed.

(* C38: a counter that has not been deleted is in use by some variable *)
Theorem C38_counter_released (n : nat) (os : list op) (s : st) (rs : list (option nat)) (c : nat) (k : Z) :
  legal_run (init n) os -> no_detach os -> run (init n) os = Ok (s, rs) ->
  nth_error (cn s) c = Some (Some k) -> exists u p h, nth_error (vs s) u = Some (Some p, h) /\ pc p = Some c.
Proof. exact (counter_released n os s rs c k). Qed.
Print Assumptions C38_counter_released.

(* C38 fails for p = p->next when p is the only owner: the assignment deletes the node, and
   then reads p->next *)
Theorem C38_assign_from_member_refuted :
  run (init 2) [PRaw 1; PWrap 0 0; PRaw 0; PWrap 1 1; PAssign 2 1; PDestroy 1; PAssign 0 2] = UB.
Proof. exact assign_member. Qed.
Print Assumptions C38_assign_from_member_refuted.

(* C39, for an only owner: the Ptr is empty afterwards (by C38_history), and as long as the
   object is not handed to a Ptr again it exists and no Ptr refers to it *)
Theorem C39_detach_partial (n : nat) (os : list op) (v o : nat) (os' : list op) (s : st) (rs : list (option nat)) :
  legal_run (init n) (os ++ PDetach v :: os') -> not_wrapped os' o ->
  run (init n) (os ++ PDetach v :: os') = Ok (s, rs) -> nth_error rs (length os) = Some (Some o) ->
  alive s o = true /\ forall u, ~ refers (world_of s) u o.
Proof. exact (detach_alone n os v o os' s rs). Qed.
Print Assumptions C39_detach_partial.

Example C39_detach_example : legal_run (init 1) demo_detach /\ demo_detach = [PRaw 0; PWrap 0 0] ++ PDetach 0 :: [PDestroy 0] /\
  not_wrapped [PDestroy 0] 0.
Proof. split; [exact demo_detach_legal|]. split; [reflexivity|]. intros v [H|[]]; discriminate. Qed.

(* C39: exactly what Detach does in any reachable state: it returns the object, decrements the counter, which stays
   allocated even at zero, and empties the Ptr only if it was the only owner *)
Theorem C39_detach_exact (n : nat) (os : list op) (s : st) (rs : list (option nat)) (v : nat) (p : ptr) (h : option nat) (o : nat) :
  legal_run (init n) os -> run (init n) os = Ok (s, rs) -> nth_error (vs s) v = Some (Some p, h) -> pr p = Some o ->
  exists c, pc p = Some c /\
    step s (PDetach v) = Ok (mkSt (upd (cn s) c (Some (Z.of_nat (owners s o) - 1)%Z)) (ob s)
                                  (if Nat.eqb (owners s o) 1 then upd (vs s) v (Some null, h) else vs s), Some o).
Proof. exact (detach_exact n os s rs v p h o). Qed.
Print Assumptions C39_detach_exact.

Example C39_detach_exact_example : exists s rs, run (init 3) (firstn 7 demo) = Ok (s, rs) /\ owners s 0 = 2 /\
  exists s', step s (PDetach 2) = Ok (s', Some 0) /\ nth_error (cn s') 0 = Some (Some 1%Z) /\ nth_error (vs s') 2 = nth_error (vs s) 2.
Proof. eexists _, _. split; [vm_compute; reflexivity|]. split; [reflexivity|]. eexists. split; [vm_compute; reflexivity|]. split; reflexivity. Qed.

(* C39 fails: the counter of a detached object is never deleted *)
Theorem C39_counter_lost_refuted : legal_run (init 1) demo_detach /\
  exists s, run (init 1) demo_detach = Ok (s, [Some 0; None; Some 0; None]) /\
    (forall u, wv (world_of s) u = None) /\ nth_error (cn s) 0 = Some (Some 0%Z).
Proof. exact (conj demo_detach_legal demo_detach_leaks). Qed.
Print Assumptions C39_counter_lost_refuted.

(* C39 fails when another Ptr refers to the object: the Ptr is not empty afterwards, the other
   Ptr deletes the detached object, and destroying the detached Ptr uses the deleted counter *)
Theorem C39_shared_refuted :
  exists s1 rs1, run (init 2) [PRaw 0; PWrap 0 0; PCopy 1 0; PDetach 0] = Ok (s1, rs1) /\
  refers (world_of s1) 0 0 /\
  (exists s2 rs2, run (init 2) [PRaw 0; PWrap 0 0; PCopy 1 0; PDetach 0; PDestroy 1] = Ok (s2, rs2) /\ alive s2 0 = false) /\
  run (init 2) [PRaw 0; PWrap 0 0; PCopy 1 0; PDetach 0; PDestroy 1; PDestroy 0] = UB.
Proof. exact detach_shared. Qed.
Print Assumptions C39_shared_refuted.
