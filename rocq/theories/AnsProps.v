(* C95: Distinct, Union, Intersect and Except with any comparison (Source/Collections/OperationSequence.h, OperationSet.h) *)
From Verif Require Import Base LstModel SrtModel SrtSpec AnyModel AnySpec AnsModel AnsSpec AnsProofs.
Open Scope Z_scope.

(* Whatever the comparison answers, and whenever it throws: looping over the result is defined and ends, and yields what AnsSpec.may_yield
   allows: elements of the sources in their order; one is passed over only if it was called equal to one that was yielded or, as the operation
   asks, because of the second sequence; the loop is left by an exception only where a comparison can fail. *)
Theorem C95_any : forall (A St : Type) cmp less o xs st,
  exists st' zs ok, set_op A St cmp less o xs st = Ok (st', zs, ok) /\ may_yield A St cmp less o xs zs ok.
Proof. exact set_any. Qed.
Print Assumptions C95_any.
(* Exceptions of comparisons are not swallowed: if the loop is not left by an exception, comparing has not failed. *)
Theorem C95_propagates : forall (A St : Type) cmp less (calm : St -> Prop), keeps_calm cmp less calm ->
  forall o xs st st' zs, calm st -> set_op A St cmp less o xs st = Ok (st', zs, true) -> calm st'.
Proof. exact set_calm. Qed.
Print Assumptions C95_propagates.
(* For a total preorder the searches in the sorted buffers give exactly the set operations. *)
Theorem C95_exact : forall (A : Type) c, total_order c -> forall o xs,
  set_op A unit (fixed_cmp (fun a b => Some (c a b))) (fixed_less (fun a b => Some (c a b))) o xs tt = Ok (tt, exact_op A c o xs, true).
Proof. exact set_exact. Qed.
Print Assumptions C95_exact.

(* comparison number 2 throws, when 3 is about to be remembered *)
Example C95_any_case :
  set_op Z nat count_cmp count_less ODistinct [5; 3; 5; 4] 0%nat = Ok (3%nat, [5], false) /\
  set_op Z nat count_cmp count_less ODistinct [5; 3; 5; 4] 3%nat = Ok (13%nat, [5; 3; 4], true).
Proof. split; reflexivity. Qed.
(* a comparison without sense: 1 is yielded twice and 7 is passed over *)
Example C95_odd_case : set_op Z bool odd_cmp odd_less ODistinct [1; 1; 7] false = Ok (false, [1; 1], true).
Proof. reflexivity. Qed.
Example C95_propagates_case : keeps_calm count_cmp count_less (fun st => (st <= 2)%nat) /\
  set_op Z nat count_cmp count_less (OExcept [5]) [5; 3] 0%nat = Ok (2%nat, [3], true).
Proof.
  split; [split; intros st a b st' c H E; unfold count_cmp, count_less in E; destruct (Nat.eqb_spec st 2); try discriminate; injection E as <- _; lia|reflexivity].
Qed.
Example C95_exact_case : total_order Z.compare /\
  exact_op Z Z.compare (OUnion [4; 1; 2]) [2; 1; 2] = [2; 1; 4] /\
  exact_op Z Z.compare (OIntersect [4; 1; 2]) [2; 3; 1; 2] = [2; 1] /\ exact_op Z Z.compare (OExcept [4; 1]) [2; 3; 1; 2] = [2; 3].
Proof.
  split; [split; [intros a b; apply Z.compare_antisym|]|repeat split; reflexivity].
  intros a b d H1 H2 H3. apply H1. rewrite Z.compare_gt_iff in *. lia.
Qed.
