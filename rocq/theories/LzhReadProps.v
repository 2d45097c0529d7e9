From Verif Require Import Base LzyModel LzySpec LzyProofs LzhModel LzhSpec LzhReadSpec LzhReadProofs.
Open Scope Z_scope.

(* C57: a program of declarations, copies, moves, assignments and ends of life of lazy list
   variables; at its end variable i stands for the pipeline p.  On the heap model, every statement
   succeeds and enumerating i answers the elements of the list that p denotes, one after another *)
Theorem C57_programs_build_pipelines : forall (nl : nat) (ops : list op) (P : list (option (pipe Z))) (i : nat) (p : pipe Z),
  program (repeat None nl) ops P -> look P i = Some p -> tame p ->
  yields (fun fuel => outs (run fuel (init nl 1) (ops ++ reading_ops i (length (denote p)))))
    (repeat ODone (length ops) ++ answers (denote p)).
Proof. exact end_to_end. Qed.
Print Assumptions C57_programs_build_pipelines.

(* a = From({3,1,2,3}); b = a.Where(> 1); c = b.Distinct(); a dies; d = std::move(c); e = d.Reverse();
   d enumerates 3, 2, and e enumerates 2, 3 *)
Example lzh_read_demo : exists P p, program (repeat None 5)
    [LSource 0 (SList [3; 1; 2; 3]); LUnary 1 (UWhere (fun x => Some (1 <? x))) 0; LUnary 2 UDistinct 1; LDrop 0; LMove 3 2; LReverse 4 3] P /\
  look P 4%nat = Some p /\ tame p /\ denote p = [2; 3].
Proof.
  do 2 eexists. split; [|split; [|split]].
  - eapply pr_cons; [apply b_source; reflexivity|]. eapply pr_cons; [eapply b_where; [reflexivity|reflexivity|intros x; reflexivity]|].
    eapply pr_cons; [eapply b_distinct; reflexivity|]. eapply pr_cons; [eapply b_drop; reflexivity|]. eapply pr_cons; [eapply b_move; reflexivity|].
    eapply pr_cons; [eapply b_reverse; [reflexivity|reflexivity|]|apply pr_nil]. cbn [tame source_pipe]. split; [exact I|exact LzyProofs.z_total].
  - reflexivity.
  - cbn [tame source_pipe]. split; [exact I|exact LzyProofs.z_total].
  - reflexivity.
Qed.
Example lzh_read_run : outs (run 40 (init 5 1)
    ([LSource 0 (SList [3; 1; 2; 3]); LUnary 1 (UWhere (fun x => Some (1 <? x))) 0; LUnary 2 UDistinct 1; LDrop 0; LMove 3 2; LReverse 4 3] ++ reading_ops 4 2))
  = Ok [ODone; ODone; ODone; ODone; ODone; ODone; ODone; OAnswer yes; OAnswer 2; OAnswer yes; OAnswer 3; OAnswer no; ODone].
Proof. vm_compute. reflexivity. Qed.
