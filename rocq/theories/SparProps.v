(* C60: strings in several threads. *)
From Verif Require Import Base SparModel SparSpec SparProofs.
Open Scope Z_scope.

(* For every interleaving of the steps of the threads nothing goes wrong (no access to deleted or uninitialised memory, no double
   delete) and the results are those of the same operations executed one after the other, each as a whole, on plain values. *)
Theorem C60_linearizable : forall texts ts sched, slices texts -> progs_ok texts ts ->
  exists w ss, run (start texts ts) sched = Ok w /\ srun (map seen texts) (sinit ts) (log w) ss /\
    Forall2 (fun t s => cur t = None -> todo t = stodo s) (threads w) ss.
Proof. exact linearizable. Qed.
Print Assumptions C60_linearizable.

(* When all strings of the threads are gone, exactly the memory of the shared texts is left, unchanged. *)
Theorem C60_released : forall texts ts sched w, slices texts -> progs_ok texts ts ->
  run (start texts ts) sched = Ok w -> Forall finished (threads w) ->
  (exists n, bufs (memory w) = bufs (memory (start texts ts)) ++ repeat None n) /\
  (exists n, cnts (memory w) = cnts (memory (start texts ts)) ++ repeat None n).
Proof. exact released. Qed.
Print Assumptions C60_released.

Example C60_example : slices demo_texts /\ progs_ok demo_texts demo_programs.
Proof. exact demo_ok. Qed.
Example C60_example_run : match run (start demo_texts demo_programs) demo_schedule with
  | Ok w => log w = [(1%nat, Done); (0%nat, Done); (1%nat, Ordering Eq); (1%nat, Text [66; 67]); (0%nat, Done); (0%nat, Text [67]); (0%nat, Done);
                     (1%nat, Done); (0%nat, Done); (1%nat, Text [67; 120; 121; 122]); (1%nat, Failed); (0%nat, Done); (1%nat, Done); (0%nat, Done)] /\
            length (bufs (memory w)) = 5%nat /\ Forall finished (threads w)
  | _ => False end.
Proof. exact demo_log. Qed.

(* Without the restriction on Buffer (it is a const member) this is false: Buffer() of a shared substring while another thread calls
   Buffer() or reads a character of the same variable is undefined. *)
Theorem C60_shared_buffer_refuted : exists texts sched1 sched2, slices texts /\
  run (start texts [(0%nat, [OBuffer (Sh 0)]); (0%nat, [OBuffer (Sh 0)])]) sched1 = UB /\
  run (start texts [(0%nat, [OBuffer (Sh 0)]); (0%nat, [OAt (Sh 0) 0])]) sched2 = UB.
Proof. exact shared_buffer. Qed.
Print Assumptions C60_shared_buffer_refuted.
