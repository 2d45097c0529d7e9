(* C96: an enumerator of Distinct, Union, Intersect or Except when comparisons throw (Source/Collections/OperationSequence.h, OperationSet.h) *)
From Coq Require Import Permutation.
From Verif Require Import Base LstModel LstSpec SrtModel SrtSpec AnyModel AnySpec AnsModel AnsSpec DxnModel DxnSpec DxnProofs DxnProofs2.
Open Scope Z_scope.

(* Making the enumerator reads the second sequence completely, or is left by an exception of a comparison of two of its elements. *)
Theorem C96_opened : forall (A St : Type) cmp less op (st : St), exists st' r, opened A St cmp less op st = Ok (st', r) /\
  match r with Some ref => ref_of A op ref | None => exists a b, In a (second A op) /\ In b (second A op) /\ can_fail A St cmp less b a end.
Proof. exact opened_ok. Qed.
Print Assumptions C96_opened.
(* Whatever the comparison answers, and whenever it throws: every history of Next, Current, Index and Reset is defined, and every step is
   one of DxnSpec.dx_step; in particular the enumerator goes on after an exception, with the element after the one being examined. *)
Theorem C96_history : forall (A St : Type) cmp less op ref, ref_of A op ref -> forall xs (st : St) os,
  exists d st' rs l, xrun A St cmp less ref (reads A op xs) (fresh (reads A op xs)) st os = Ok (d, st', rs) /\ lst_shows A (seen d) l /\
    dx_run A St cmp less op xs (all_of A op xs) [] None os (rest d) l (last d) rs.
Proof. exact set_history. Qed.
Print Assumptions C96_history.
(* Cloning compares the elements again: it is left by an exception, or the clone is at the same place, shows the same Current and has seen the same elements. *)
Theorem C96_clone : forall (A St : Type) cmp less op ref d l (st : St), ref_of A op ref -> lst_shows A (seen d) l ->
  exists st' r, clone A St cmp less ref d st = Ok (st', r) /\
  match r with
  | None => exists a b, (In a l /\ In b l \/ In a (second A op) /\ In b (second A op)) /\ can_fail A St cmp less b a
  | Some (ref', d') => ref_of A op ref' /\ rest d' = rest d /\ last d' = last d /\ exists l', lst_shows A (seen d') l' /\ Permutation l l'
  end.
Proof. exact clone_ok. Qed.
Print Assumptions C96_clone.
(* From every such state, so for clones as well, every further history is as DxnSpec.dx_step says. *)
Theorem C96_history_from : forall (A St : Type) cmp less op ref, ref_of A op ref -> forall xs os d l (st : St), lst_shows A (seen d) l ->
  exists d' st' rs l', xrun A St cmp less ref (reads A op xs) d st os = Ok (d', st', rs) /\ lst_shows A (seen d') l' /\
    dx_run A St cmp less op xs (rest d) l (last d) os (rest d') l' (last d') rs.
Proof. exact xrun_ok. Qed.
Print Assumptions C96_history_from.
(* Exceptions of comparisons are not swallowed: if no Next ends with one, comparing has not failed. *)
Theorem C96_propagates : forall (A St : Type) cmp less (calm : St -> Prop), keeps_calm cmp less calm ->
  forall ref xs os d st d' st' rs, calm st -> xrun A St cmp less ref xs d st os = Ok (d', st', rs) -> ~ In (XEnd Threw) rs -> calm st'.
Proof. exact xrun_calm. Qed.
Print Assumptions C96_propagates.
Theorem C96_opened_propagates : forall (A St : Type) cmp less (calm : St -> Prop), keeps_calm cmp less calm ->
  forall op st st' ref, calm st -> opened A St cmp less op st = Ok (st', Some ref) -> calm st'.
Proof. exact opened_calm. Qed.
Print Assumptions C96_opened_propagates.
Theorem C96_clone_propagates : forall (A St : Type) cmp less (calm : St -> Prop), keeps_calm cmp less calm ->
  forall ref d st st' r, calm st -> clone A St cmp less ref d st = Ok (st', Some r) -> calm st'.
Proof. exact clone_calm. Qed.
Print Assumptions C96_clone_propagates.
(* Calling Next and Current until Next gives false is the loop of C95. *)
Theorem C96_loop : forall (A St : Type) cmp less op xs (st : St),
  (do (st, r) <- opened A St cmp less op st;
   match r with Some ref => loop A St cmp less ref (S (length (reads A op xs))) (fresh (reads A op xs)) st | None => Ok (st, [], false) end)
  = set_op A St cmp less op xs st.
Proof. exact loop_is_set_op. Qed.
Print Assumptions C96_loop.
(* With a consistent comparison every history is that of an enumerator of the exact result (AnsSpec.exact_op). *)
Theorem C96_exact : forall (A : Type) c, total_order c -> forall op xs os, exists ref d,
  opened A unit (fixed_cmp (fun a b => Some (c a b))) (fixed_less (fun a b => Some (c a b))) op tt = Ok (tt, Some ref) /\
  xrun A unit (fixed_cmp (fun a b => Some (c a b))) (fixed_less (fun a b => Some (c a b))) ref (reads A op xs) (fresh (reads A op xs)) tt os
  = Ok (d, tt, plain_run A (exact_op A c op xs) 0 None os).
Proof. exact set_enumerates. Qed.
Print Assumptions C96_exact.
(* But a Next that is left by an exception may have changed Current, and the element it examined is lost. *)
Theorem C96_current_refuted : exists xs d st,
  xrun Z nat count_cmp count_less None xs (fresh xs) 0%nat [XNext; XIndex; XCurrent; XNext; XIndex; XCurrent; XNext]
  = Ok (d, st, [XEnd Yes; XInt 0; XVal 5; XEnd Threw; XInt 0; XVal 3; XEnd No]).
Proof. exact current_changes. Qed.
Print Assumptions C96_current_refuted.

Example C96_history_case :
  xrun Z nat count_cmp count_less None [5; 5; 3; 4] (fresh [5; 5; 3; 4]) 0%nat [XCurrent; XNext; XNext; XCurrent; XNext; XCurrent; XIndex; XReset; XNext; XCurrent]
  = Ok (mkDen [5; 3; 4] (mkLst [Live 5; Raw] 1 2 1) (Some 5), 6%nat,
        [XError; XEnd Yes; XEnd Threw; XVal 3; XEnd Yes; XVal 4; XInt 1; XNone; XEnd Yes; XVal 5]).
Proof. reflexivity. Qed.
(* Except, with a second sequence whose reading makes no comparison that throws *)
Example C96_except_case : exists ref d, opened Z nat count_cmp count_less (OExcept [5]) 0%nat = Ok (0%nat, Some ref) /\ ref_of Z (OExcept [5]) ref /\
  xrun Z nat count_cmp count_less ref [5; 3; 4; 7] (fresh [5; 3; 4; 7]) 0%nat [XNext; XCurrent; XNext; XIndex; XNext; XCurrent; XIndex]
  = Ok (d, 7%nat, [XEnd Yes; XVal 3; XEnd Threw; XInt 0; XEnd Yes; XVal 7; XInt 1]).
Proof.
  do 2 eexists. split; [reflexivity|]. split; [|reflexivity]. exists [5]. split; [|easy].
  split; [reflexivity|]. split; [reflexivity|]. exists 1%nat. reflexivity.
Qed.
Example C96_propagates_case : keeps_calm count_cmp count_less (fun st => (st <= 2)%nat) /\ exists d,
  xrun Z nat count_cmp count_less None [5; 5] (fresh [5; 5]) 0%nat [XNext; XNext] = Ok (d, 1%nat, [XEnd Yes; XEnd No]).
Proof.
  split; [split; intros st a b st' c H E; unfold count_cmp, count_less in E; destruct (Nat.eqb_spec st 2); try discriminate; injection E as <- _; lia|].
  eexists. reflexivity.
Qed.
(* cloning after 3 and 7 were yielded; with the counter at 0 the copy succeeds, at 2 it is left by an exception *)
Example C96_clone_case : exists x st1 st2, let d := mkDen [4] (mkLst [Live 3; Live 7] 2 2 0) (Some 7) in
  lst_shows Z (seen d) [3; 7] /\
  clone Z nat count_cmp count_less None d 0%nat = Ok (st1, Some (None, mkDen [4] x (Some 7))) /\ lst_shows Z x [3; 7] /\
  clone Z nat count_cmp count_less None d 2%nat = Ok (st2, None).
Proof. do 3 eexists. cbv zeta. split; [repeat split; now exists 0%nat|]. split; [reflexivity|]. split; [repeat split; now exists 0%nat|reflexivity]. Qed.
Example C96_exact_case : total_order Z.compare /\
  plain_run Z (exact_op Z Z.compare (OIntersect [4; 1; 2]) [2; 3; 1; 2]) 0 None [XNext; XNext; XCurrent; XIndex; XNext; XCurrent; XReset; XNext; XCurrent]
  = [XEnd Yes; XEnd Yes; XVal 1; XInt 1; XEnd No; XVal 1; XNone; XEnd Yes; XVal 2].
Proof.
  split; [split; [intros a b; apply Z.compare_antisym|]|reflexivity].
  intros a b d H1 H2 H3. apply H1. rewrite Z.compare_gt_iff in *. lia.
Qed.
