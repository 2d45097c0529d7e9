From Verif Require Import Base CrefModel CrefSpec CrefProofs.

(* C54: in every history of collections (creations, moves, associations, look-ups, destructions):
   - each operation answers as the history of its collection says: associating is accepted until a reference that is not null
     is associated, afterwards it raises; look-ups give the associated reference, which never changes;
   - the destruction of a collection calls OnDisposed exactly once on the associated reference, if there is one, and
     nothing else calls OnDisposed. *)
Theorem C54_history os : let '(s, answers, disposals) := run [] os in
  (forall k o, nth_error os k = Some o -> nth_error answers k = Some (answer (firstn k os) o)) /\
  (forall c, notices c disposals = notified c os).
Proof. exact (cref_history os). Qed.
Print Assumptions C54_history.
Example C54_history_demo : let r := Ref 4 1 in let q := Ref 5 1 in
  run [] [New; New; Set_ 0 None; Set_ 0 (Some r); Set_ 0 (Some q); AssignFrom 0 1; Get 0; TryGet 0 2; Set_ 1 (Some r); Destroy 0; Destroy 0; Destroy 1] =
  ([Destroyed; Destroyed], [Unit; Unit; Unit; Unit; Raised; Unit; Got (Some r); Raised; Unit; Unit; Bad; Unit], [(0, r); (1, r)]).
Proof. vm_compute. reflexivity. Qed.

(* C54: a second association raises and changes nothing. *)
Theorem C54_second os c r q : current c os = Some (Some r) ->
  step (state_of os) (Set_ c q) = (state_of os, Raised, []).
Proof. exact (cref_second os c r q). Qed.
Print Assumptions C54_second.
Example C54_second_demo : current 0 [New; Set_ 0 (Some (Ref 4 1)); New] = Some (Some (Ref 4 1)).
Proof. vm_compute. reflexivity. Qed.

(* C54: at most one notification per collection. *)
Theorem C54_once os c : let '(_, _, disposals) := run [] os in length (notices c disposals) <= 1.
Proof. exact (cref_once os c). Qed.
Print Assumptions C54_once.
