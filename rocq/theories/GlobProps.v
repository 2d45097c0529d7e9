(* C49: global storages. prog gives what every initialiser and finaliser does to the storages. *)
From Verif Require Import Base GlobModel GlobSpec GlobProofs GlobProofs2.

(* whatever the initialisers and finalisers do, those of one storage run in strict alternation, the initialiser
   first, and a storage is initialised exactly when its initialiser was the last to be started *)
Theorem C49_alternation : forall prog w s, reach prog w ->
  alternate true (runs s (glog w)) /\ (initialised w s <-> last (runs s (glog w)) false = true).
Proof. exact alternation. Qed.
Print Assumptions C49_alternation.
(* FinalizeGlobalStorage runs the finaliser of every initialised storage once, in the order of registration *)
Theorem C49_finalize : forall prog, quiet_finalisers prog -> forall k w, reach prog w ->
  (forall s, In s (reg w) -> mem s (gone w) = false) ->
  exists w', exec prog (FinalizeAll :: k) w k w' /\ reg w' = reg w /\ gone w' = gone w /\ (forall s, ~ initialised w' s) /\
  glog w' = glog w ++ map EFin (filter (fun s => mem s (ini w)) (reg w)).
Proof. exact finalize_quiet. Qed.
Print Assumptions C49_finalize.
(* running it again changes nothing *)
Theorem C49_finalize_again : forall prog, quiet_finalisers prog -> forall k w, reach prog w ->
  (forall s, In s (reg w) -> mem s (gone w) = false) -> (forall s, ~ initialised w s) -> exec prog (FinalizeAll :: k) w k w.
Proof. exact finalize_twice. Qed.
Print Assumptions C49_finalize_again.
(* finalisers that use storages: afterwards none is initialised, provided they use those registered later *)
Theorem C49_finalize_later : forall prog dep, deps prog dep -> forall w w', reach prog w -> uses_later dep w ->
  exec prog [FinalizeAll] w [] w' -> forall s, ~ initialised w' s.
Proof. exact finalize_later. Qed.
Print Assumptions C49_finalize_later.
(* a finaliser that uses a storage registered before its own, or its own: that one is initialised afterwards, and
   running FinalizeGlobalStorage again has an effect *)
Theorem C49_finalize_earlier_refuted : exists w w1 w2, reach prog_back w /\ exec prog_back [FinalizeAll] w [] w1 /\ initialised w1 0 /\
  exec prog_back [FinalizeAll] w1 [] w2 /\ glog w2 = glog w1 ++ [EFin 0].
Proof. exact back_refuted. Qed.
Print Assumptions C49_finalize_earlier_refuted.
Theorem C49_finalize_own_refuted : exists w w1, reach prog_self w /\ exec prog_self [FinalizeAll] w [] w1 /\ initialised w1 0 /\
  glog w1 = glog w ++ [EFin 0; EInit 0].
Proof. exact self_refuted. Qed.
Print Assumptions C49_finalize_own_refuted.
(* without FinalizeGlobalStorage, at exit the finalisers run in the reverse order of registration *)
Theorem C49_exit : forall prog, quiet_finalisers prog -> forall w, reach prog w -> gone w = [] ->
  exists w', exec prog [AtExit] w [] w' /\ (forall s, ~ initialised w' s) /\
    glog w' = glog w ++ map EFin (filter (fun s => mem s (ini w)) (rev (reg w))).
Proof. exact at_exit_quiet. Qed.
Print Assumptions C49_exit.
(* so a finaliser that may use a later storage in FinalizeGlobalStorage finds it destroyed at exit *)
Theorem C49_exit_later_refuted : exists w k w1, reach prog_later w /\ exec prog_later [AtExit] w (Get 1 :: k) w1 /\
  gstep prog_later (Get 1) k w1 = Bad UB.
Proof. exact exit_refuted. Qed.
Print Assumptions C49_exit_later_refuted.
(* an initialiser that throws is not run again by the next access: the storage counts as initialised *)
Theorem C49_throwing_initialiser_refuted : forall prog s w, reach prog w -> mem s (gone w) = false -> ~ initialised w s ->
  prog true s (glog w ++ [EInit s]) = [Throw] ->
  exists w1, exec prog [Get s] w [Throw] w1 /\ gstep prog Throw [] w1 = Thrown w1 /\ initialised w1 s /\ glog w1 = glog w ++ [EInit s] /\
    forall k, gstep prog (Get s) k w1 = Next k w1.
Proof. exact throwing_initialiser. Qed.
Print Assumptions C49_throwing_initialiser_refuted.
(* a finaliser that throws ends FinalizeGlobalStorage: the storages registered later stay initialised; the exception
   passes through, and calling it again finalises them, and no other *)
Theorem C49_throwing_finaliser : forall prog t, one_throws prog t -> forall w d r, reach prog w ->
  (forall s, In s (reg w) -> mem s (gone w) = false) -> reg w = d ++ t :: r -> initialised w t ->
  exists k1 w1 w2, exec prog [FinalizeAll] w (Throw :: k1) w1 /\ gstep prog Throw k1 w1 = Thrown w1 /\
    glog w1 = glog w ++ map EFin (inits w (d ++ [t])) /\ (forall s, initialised w1 s <-> initialised w s /\ In s r) /\
    exec prog [FinalizeAll] w1 [] w2 /\ (forall s, ~ initialised w2 s) /\ glog w2 = glog w1 ++ map EFin (inits w r).
Proof. exact throwing_finaliser. Qed.
Print Assumptions C49_throwing_finaliser.
(* a finaliser that throws at exit terminates the program; the storages registered before it are not finalised *)
Theorem C49_throwing_at_exit : forall prog t, one_throws prog t -> forall w l r, reach prog w -> gone w = [] ->
  reg w = l ++ t :: r -> initialised w t ->
  exists k1 w1, exec prog [AtExit] w (Throw :: k1) w1 /\ gstep prog Throw k1 w1 = Bad Err /\
    glog w1 = glog w ++ map EFin (inits w (rev r ++ [t])) /\ (forall s, In s l -> initialised w s -> initialised w1 s).
Proof. exact throwing_at_exit. Qed.
Print Assumptions C49_throwing_at_exit.

Example C49_case : exists w w', reach prog_later w /\ deps prog_later dep_later /\ uses_later dep_later w /\
  exec prog_later [FinalizeAll] w [] w' /\ glog w' = [EInit 0; EInit 1; EFin 0; EFin 1].
Proof.
  exists (mkGW [0; 1]%nat [1; 0]%nat [] [EInit 0; EInit 1]), (mkGW [0; 1]%nat [] [] [EInit 0; EInit 1; EFin 0; EFin 1]).
  split; [eapply (reach_run _ 5 (Get 0)); [apply R_start|reflexivity]|]. split; [exact later_deps|]. split.
  - intros i s v H [-> ->]. exists 1%nat. destruct i as [|[|i]]; [split; [lia|reflexivity]|discriminate|destruct i; discriminate].
  - split; [apply (grun_exec _ 9); reflexivity|reflexivity].
Qed.
(* 1 throws; 0, 1 and 2 are initialised *)
Example C49_throwing_case : exists w, one_throws (prog_bad 1) 1 /\ reach (prog_bad 1) w /\ gone w = [] /\ reg w = [0; 1; 2]%nat /\
  (forall s, In s (reg w) -> initialised w s).
Proof. exact bad_case. Qed.
