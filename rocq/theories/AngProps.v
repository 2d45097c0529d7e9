(* C93: groups with any comparison of keys and any equality of values (Source/Collections/Dictionary.h) *)
From Verif Require Import Base LstModel LstSpec SrtModel DctModel AnyModel AnySpec LeqModel AngModel AngSpec AngProofs AngProofs2 AngProofs3.
Open Scope Z_scope.

(* Whatever the comparison of keys and the equality of values answer, and whenever they throw: every history of a group is defined and every step is one of
   AngSpec.gr_step.  The value containers that exist are those of the keys and the empty ones in qs, one for each step that
   lost one; the destructor of the group leaves exactly qs. *)
Theorem C93_history : forall (A V St : Type) cmp less veq st os,
  exists g st' rs m qs h, agrun A V St cmp less veq empty_group st os = Ok (g, st', rs) /\ holds A V g m qs /\
    gr_run A V St cmp less veq [] os m rs (length qs) /\ agdestroy A V g = Ok h /\ alive V h qs.
Proof. exact any_group_ok. Qed.
Print Assumptions C93_history.
(* When comparing keys cannot fail, however inconsistent it is and whatever the equality of the values does, the group and its destructor leave nothing behind. *)
Theorem C93_released_partial : forall (A V St : Type) cmp less veq, (forall b k, ~ can_fail A St cmp less b k) -> forall st os,
  exists g st' rs h, agrun A V St cmp less veq empty_group st os = Ok (g, st', rs) /\ agdestroy A V g = Ok h /\ forall p x, nth_error h p <> Some (Some x).
Proof. exact any_group_whole. Qed.
Print Assumptions C93_released_partial.
(* Exceptions of comparisons are not swallowed: if no operation ends in an error, comparing has not failed. *)
Theorem C93_propagates : forall (A V St : Type) cmp less veq (calm : St -> Prop), keeps_calm cmp less calm ->
  (forall st a b st' c, calm st -> veq st a b = (st', Some c) -> calm st') ->
  forall os g st g' st' rs, calm st -> agrun A V St cmp less veq g st os = Ok (g', st', rs) -> ~ In OError rs -> calm st'.
Proof. exact agrun_calm. Qed.
Print Assumptions C93_propagates.
(* For comparisons and equalities that are functions these are the groups of C22. *)
Theorem C93_agrees : forall (A V : Type) c veq os,
  exists g rs, agrun A V unit (fixed_cmp c) (fixed_less c) (fixed_eq veq) empty_group tt os = Ok (g, tt, rs) /\ g_run A V c veq empty_group os = Ok (g, rs).
Proof. exact group_agrees. Qed.
Print Assumptions C93_agrees.
(* But a comparison that throws while a new key is being placed loses a value container. *)
Theorem C93_released_refuted : exists os st' rs g h x,
  agrun Z Z nat once_cmp once_less once_eq empty_group 0%nat os = Ok (g, st', rs) /\
  agdestroy Z Z g = Ok h /\ nth_error h 1 = Some (Some x).
Proof. exact group_loses. Qed.
Print Assumptions C93_released_refuted.

Example C93_history_case : exists g,
  agrun Z Z nat once_cmp once_less once_eq empty_group 0%nat [GAdd 1 10; GAdd 2 20; GAdd 2 21; GCount; GAdd 1 11; GValueAt 1 1; GRemoveValue 2 21; GRemoveValue 2 21; GCount]
  = Ok (g, 13%nat, [OBool true; OError; OBool true; OInt 2; OBool true; OVal 11; OError; OBool true; OInt 1]) /\
  holds Z Z g [(1, [10; 11])] [1%nat].
Proof. exact group_case. Qed.
Example C93_released_case : forall b k, ~ can_fail Z bool odd_cmp odd_less b k.
Proof. intros b k (st & st' & [E|E]); discriminate. Qed.
Example C93_propagates_case : keeps_calm count_cmp count_less (fun st => (st <= 2)%nat) /\
  (forall st a b st' c, (st <= 2)%nat -> full_eq st a b = (st', Some c) -> (st' <= 2)%nat) /\
  exists y, agrun Z Z nat count_cmp count_less full_eq empty_group 0%nat [GAdd 5 1; GContainsValue 5 1] = Ok (y, 2%nat, [OBool true; OBool true]).
Proof.
  split; [split; intros st a b st' c H E; unfold count_cmp, count_less in E; destruct (Nat.eqb_spec st 2); try discriminate; injection E as <- _; lia|].
  split; [intros st a b st' c H E; unfold full_eq in E; destruct (Nat.eqb_spec st 2); try discriminate; injection E as <- _; lia|].
  eexists. reflexivity.
Qed.
