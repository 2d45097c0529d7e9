From Verif Require Import Base LzyModel LzySpec ForModel ForSpec ForProofs.
Open Scope Z_scope.

(* C56: a range-based for loop shows the body the values of the pipeline in order, up to the
   first one that makes it leave or throw; one enumerator is created and it is deleted once *)
Theorem C56_for_each : forall (A : Type) (p : pipe A) (body : list A -> A -> decision) (s : list A) (h : ending),
  tame p -> walk body [] (denote p) = (s, h) ->
  yields (on p (fun f e => for_each f body e)) (Report s 1 1 h).
Proof. exact for_each_ok. Qed.
Print Assumptions C56_for_each.
(* with indexed(...), every value comes with its position *)
Theorem C56_for_indexed : forall (A : Type) (p : pipe A) (body : list (A * Z) -> A * Z -> decision) (s : list (A * Z)) (h : ending),
  tame p -> walk body [] (numbered (denote p)) = (s, h) ->
  yields (on p (fun f e => for_indexed f body e)) (Report s 1 1 h).
Proof. exact for_indexed_ok. Qed.
Print Assumptions C56_for_indexed.
(* any enumerator whatever, also one that raises errors: the enumerator is deleted exactly once
   on every way out, unless the very first Next raised *)
Theorem C56_enumerator_deleted_partial : forall (A : Type) (body : list A -> A -> decision) (f : nat) (e : enum A) (r : report A),
  for_each f body e = Ok r ->
  made r = 1 /\ (freed r = 1 \/ next f e = Err /\ freed r = 0 /\ seen r = [] /\ how r = Failed).
Proof. exact each_balance. Qed.
Print Assumptions C56_enumerator_deleted_partial.
Theorem C56_indexed_enumerator_deleted_partial : forall (A : Type) (body : list (A * Z) -> A * Z -> decision) (f : nat) (e : enum A) (r : report (A * Z)),
  for_indexed f body e = Ok r ->
  made r = 1 /\ (freed r = 1 \/ next f e = Err /\ freed r = 0 /\ seen r = [] /\ how r = Failed).
Proof. exact indexed_balance. Qed.
Print Assumptions C56_indexed_enumerator_deleted_partial.
(* when the first Next raises (an empty dictionary under Repeat) the enumerator is never deleted *)
Theorem C56_leak_refuted : exists p : pipe Z, forall body, exists r,
  yields (on p (fun f e => for_each f body e)) r /\ made r = 1 /\ freed r = 0.
Proof. exact leak_witness. Qed.
Print Assumptions C56_leak_refuted.

(* leaving at the first square above 5 *)
Example for_demo : walk (fun _ v => if 5 <? v then Leave else Continue) [] (denote (PSelect (PList [1; 2; 3; 4]) (fun x => x * x))) = ([1; 4; 9], Left)
  /\ tame (PSelect (PList [1; 2; 3; 4]) (fun x => x * x)) /\ numbered [7; 8] = [(7, 0); (8, 1)].
Proof. repeat split. Qed.
(* an error in the middle of the loop: one value seen, the enumerator deleted *)
Example for_failing : for_each 9 (fun _ _ => Continue) (ERepeat (EOnce [5] (-1)) 2 (-1) 0) = Ok (Report [5] 1 1 Failed).
Proof. vm_compute. reflexivity. Qed.
