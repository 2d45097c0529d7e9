From Verif Require Import Base LzhModel LzhSpec LzhProofs.
Open Scope Z_scope.

(* C57: whatever a program does with lazy lists and enumerators, it sees what it would see if
   every variable held its own value and nothing were shared *)
Theorem C57_lazy_lists_are_values : forall (fuel nl ne : nat) (ops : list op),
  outs (run fuel (init nl ne) ops) = outs (wrun fuel (start nl ne) ops).
Proof. exact refines. Qed.
Print Assumptions C57_lazy_lists_are_values.
(* no deleted or missing object is ever touched, nothing is deleted twice *)
Theorem C57_memory_safe : forall (fuel nl ne : nat) (ops : list op),
  run fuel (init nl ne) ops = NoFuel \/ exists s xs, run fuel (init nl ne) ops = Ok (s, xs).
Proof. exact never_undefined. Qed.
Print Assumptions C57_memory_safe.
(* when the last variable is gone, every object was deleted, unless an Intersect or Except was
   left by an exception *)
Theorem C57_nothing_leaks_partial : forall (fuel nl ne : nat) (ops : list op) (s : state) (xs : list out),
  run fuel (init nl ne) ops = Ok (s, xs) -> set_ops_fine ops xs -> all_deleted (lz s) -> all_deleted (en s) ->
  all_deleted (hp s) /\ all_deleted (blocks s).
Proof. exact no_leak. Qed.
Print Assumptions C57_nothing_leaks_partial.
(* Intersect(xs) with an xs that throws while it is read leaves an enumerator behind *)
Theorem C57_intersect_leak_refuted : forall fuel : nat, (5 <= fuel)%nat ->
  exists s, run fuel (init 3 0) leak_ops = Ok (s, [ODone; ODone; ORaised; ODone; ODone]) /\
  all_deleted (lz s) /\ all_deleted (en s) /\ all_deleted (blocks s) /\ exists p c, nth_error (hp s) p = Some (Some c).
Proof. exact leak_run. Qed.
Print Assumptions C57_intersect_leak_refuted.
(* x = std::move(x) leaves x empty *)
Theorem C57_self_move_refuted : forall fuel : nat, exists s,
  run fuel (init 1 1) [LSource 0 (SList [7]); LMoveAssign 0 0; ECreate 0 0] = Ok (s, [ODone; ODone; ODone]) /\ lz s = [Some None].
Proof. exact self_move. Qed.
Print Assumptions C57_self_move_refuted.

(* sharing, cloning, independent enumerators, and the end of everything *)
Example lzh_demo : outs (run 50 (init 6 3) demo_ops) = Ok demo_outs /\ set_ops_fine demo_ops demo_outs.
Proof. split; [vm_compute; reflexivity|]. cbn. repeat split; discriminate. Qed.
Example lzh_demo_end : match run 50 (init 6 3) demo_ops with
  | Ok (s, _) => forallb (fun c => match c with None => true | _ => false end) (hp s) && (6 <=? length (hp s))%nat
                 && forallb (fun v => match v with None => true | _ => false end) (lz s)
                 && forallb (fun v => match v with None => true | _ => false end) (en s)
  | _ => false end = true.
Proof. vm_compute. reflexivity. Qed.
