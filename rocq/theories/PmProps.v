(* C79: Ptr and ComPtr when memory runs out. *)
From Verif Require Import Base RcModel RcSpec ComModel ComSpec PmModel PmSpec PmProofs PmProofs2.
Open Scope nat_scope.

(* Ptr: whichever constructions run out of memory, the history has no undefined behaviour, exactly those throw, and all
   variables and objects are those of the legal history without them, to which C38 applies *)
Theorem C79_ptr (n : nat) (es : list pop) : plegal_run (init n) es ->
  exists s rs, prun (init n) es = Ok (s, pfails es) /\ legal_run (init n) (pkept es) /\ run (init n) (pkept es) = Ok (s, rs).
Proof. exact (ptr_ok n es). Qed.
Print Assumptions C79_ptr.

(* but the object is lost: Ptr<T> v(new T) that runs out of memory does not delete it, and unless it is handed to a Ptr again,
   it exists for ever and nothing refers to it *)
Theorem C79_ptr_leak_refuted (n : nat) (es1 : list pop) (v o : nat) (es2 : list pop) (s : st) (xs : list bool) :
  plegal_run (init n) (es1 ++ PFail v o :: es2) -> not_wrapped (pkept es2) o ->
  prun (init n) (es1 ++ PFail v o :: es2) = Ok (s, xs) -> alive s o = true /\ forall u, ~ refers (world_of s) u o.
Proof. exact (ptr_leak n es1 v o es2 s xs). Qed.
Print Assumptions C79_ptr_leak_refuted.

Example C79_ptr_example : let es := [POp (PRaw 0); POp (PWrap 0 0); POp (PRaw 0)] ++ PFail 1 1 :: [POp (PCopy 1 0); POp (PDestroy 0); POp (PDestroy 1)] in
  plegal_run (init 2) es /\ exists s, prun (init 2) es = Ok (s, [false; false; false; true; false; false; false]) /\ ob s = [false; true].
Proof.
  cbv zeta. split.
  - Ltac done := repeat match goal with
    | |- _ /\ _ => split
    | |- True => exact I
    | |- (_ < _)%nat => repeat constructor
    | |- forall s' r x, pstep _ _ = Ok (s', r, x) -> _ => let s' := fresh in let r := fresh in let x := fresh in let H := fresh in
        intros s' r x H; vm_compute in H; injection H as <- <- <-
    | |- plegal _ _ => cbv [plegal legal free_slot exists_var]
    | |- plegal_run _ _ => cbn [app plegal_run]
    | |- forall u, ~ refers _ u _ => let u := fresh in intros u; destruct u as [|[|u]]; vm_compute; try discriminate; destruct u; discriminate
    | |- _ = _ => reflexivity
    | |- _ <> _ => vm_compute; discriminate
    end. done.
  - eexists. split; [vm_compute; reflexivity|reflexivity].
Qed.

(* ComPtr: if a failed assignment of a raw pointer only hits variables that share their reference with no other variable,
   there is no undefined behaviour; a failed construction does nothing and a failed assignment leaves the variable empty;
   the calls of Release and what the variables refer to are those of ownership without counters, and no counter is left over *)
Theorem C79_com_partial (n : nat) (es : list mop) : mlegal_run (oinit n) es ->
  exists s, mrun (cinit n) es = Ok (s, mfails es) /\ crel s = orel (mspec_run (oinit n) es) /\
    map (option_map cr) (cvs s) = shows (mspec_run (oinit n) es) /\
    (forall c k, nth_error (ccn s) c = Some (Some k) -> existsb (holds c) (ov (mspec_run (oinit n) es)) = true).
Proof. exact (mcom_ok n es). Qed.
Print Assumptions C79_com_partial.

(* a reference handed to a ComPtr that runs out of memory is never released: the references of o that were handed over
   have been released, are held, or were lost in a failure *)
Theorem C79_com_lost_refuted (n : nat) (es : list mop) (o : nat) : mlegal_run (oinit n) es ->
  count_occ Nat.eq_dec (orel (mspec_run (oinit n) es)) o + length (live (mspec_run (oinit n) es) o) + lost o es = offered o es.
Proof. exact (mbalance n es o). Qed.
Print Assumptions C79_com_lost_refuted.

(* a failed assignment to a variable that shares its reference: the variable keeps the object but is not counted any more.
   When the other variables go, the object is released while the variable still refers to it, and destroying the variable
   is undefined *)
Theorem C79_com_shared_refuted (n : nat) (es : list mop) (v o t : nat) (us : list nat) : mlegal_run (oinit n) es ->
  look (mspec_run (oinit n) es) v = Some (Some t) -> NoDup us -> us <> [] ->
  (forall u, In u us <-> u <> v /\ look (mspec_run (oinit n) es) u = Some (Some t)) ->
  exists s s1 s2, mrun (cinit n) es = Ok (s, mfails es) /\ mstep s (MFailSet v o) = Ok (s1, true) /\
    cvs s1 = cvs s /\ crel s1 = crel s /\ crun s1 (map CDestroy us) = Ok s2 /\
    crel s2 = nth t (oo (mspec_run (oinit n) es)) 0 :: crel s /\
    option_map (option_map cr) (nth_error (cvs s2) v) = Some (Some (Some (nth t (oo (mspec_run (oinit n) es)) 0))) /\
    cstep s2 (CDestroy v) = UB.
Proof. exact (shared_refuted n es v o t us). Qed.
Print Assumptions C79_com_shared_refuted.

Example C79_com_example :
  let es := [MOp (CWrap 0 7); MFailWrap 1 8; MFailSet 0 9; MOp (CWrap 1 5); MOp (CCopy 2 1)] in
  mlegal_run (oinit 3) es /\
  match mrun (cinit 3) es with
  | Ok (s, xs) => crel s = [7] /\ xs = [false; true; true; false; false] /\ map (option_map cr) (cvs s) = [Some None; Some (Some 5); Some (Some 5)]
  | _ => False
  end /\ lost 8 es = 1 /\ offered 8 es = 1 /\
  look (mspec_run (oinit 3) es) 1 = Some (Some 1) /\ (forall u, In u [2] <-> u <> 1 /\ look (mspec_run (oinit 3) es) u = Some (Some 1)).
Proof.
  cbv zeta. split; [|split; [vm_compute; repeat split|]].
  - cbn [mlegal_run]. repeat split; try (vm_compute; congruence).
    cbn [mlegal]. unfold alone. intros t u A B. vm_compute in A. injection A as <-. destruct u as [|[|[|[|u]]]]; vm_compute in B; congruence.
  - split; [reflexivity|]. split; [reflexivity|]. split; [reflexivity|]. intros u. cbn [In]. split.
    + intros [<-|[]]. split; [lia|reflexivity].
    + intros [N Q]. destruct u as [|[|[|[|u]]]]; vm_compute in Q; try discriminate; auto; lia.
Qed.
