(* C52: the unit test runner (Source/UnitTest/UnitTest.cpp) *)
From Verif Require Import Base UtModel UtSpec UtProofs UtDbgSpec UtDbgProofs.

(* With failures suppressed, for every set of files, tree of categories and cases, pattern of failures and list of
   filters: what runs, and what is reported failed, is what UtSpec says; every case is counted once; the result is 0
   iff no executed file failed. *)
Theorem C52_run : forall debugger options fs d r filters, parse options false false [] = Some (d, r, filters) ->
  d = false -> (r = true \/ debugger = false) ->
  exists s code passed, run_tests debugger options fs = Ok (Returned code s passed (length (chosen filters fs))) /\
    ulog s = files_log filters 0 fs /\ totalCases s = count_if is_case (ulog s) /\ passedCases s = count_if is_passed_case (ulog s) /\
    passed = count_if (fun q => negb (file_failed (snd q))) (chosen filters fs) /\
    (code = 0%nat <-> forall q, In q (chosen filters fs) -> file_failed (snd q) = false).
Proof. exact run_ok. Qed.
Print Assumptions C52_run.
(* a filter selects the files with that path or with a path that ends with it after a separator *)
Theorem C52_filter : forall filters file, selected filters file = true <-> filters = [] \/ exists f, In f filters /\ names file f.
Proof. exact selected_spec. Qed.
Print Assumptions C52_filter.
(* without suppression, a run in which nothing fails reports the same *)
Theorem C52_debug : forall debugger options fs r filters, parse options false false [] = Some (true, r, filters) ->
  (forall q, In q (chosen filters fs) -> file_failed (snd q) = false) ->
  exists s n, run_tests debugger options fs = Ok (Returned 0 s n n) /\ ulog s = files_log filters 0 fs /\ n = length (chosen filters fs).
Proof. exact debug_ok. Qed.
Print Assumptions C52_debug.
(* without suppression, a failure that the test itself catches leaves a dangling context: the next case uses it *)
Theorem C52_debug_catch_refuted :
  run_tests false [opt_D] [([97], TryAll (Nest false 1 (Raise XError) Done) (Nest false 2 Done Done))] = UB.
Proof. exact eq_refl. Qed.
Print Assumptions C52_debug_catch_refuted.

(* which command lines are accepted, and what they mean *)
Theorem C52_options : forall os,
  (parse os false false [] = None <-> (exists o, In o os /\ ~ recognized o) \/ (In slash_D os /\ In slash_R os)) /\
  (forall d r fs, parse os false false [] = Some (d, r, fs) -> (d = true <-> In slash_D os) /\ (r = true <-> In slash_R os) /\ fs = filters_of os).
Proof. exact options_ok. Qed.
Print Assumptions C52_options.
(* without suppression, unless a test catches what left a category or case (see above): what runs is everything up to
   the first exception that leaves a file, which is thrown to the caller of the runner; otherwise the result is 0 *)
Theorem C52_unsuppressed : forall debugger options fs d r filters, parse options false false [] = Some (d, r, filters) ->
  d = true \/ r = false /\ debugger = true -> (forall q, In q fs -> tidy File (snd q)) ->
  exists s, ulog s = fst (files_first filters 0 fs) /\ totalCases s = count_if is_case (ulog s) /\ passedCases s = totalCases s /\
    match snd (files_first filters 0 fs) with
    | Some e => run_tests debugger options fs = Ok (Threw e s)
    | None => run_tests debugger options fs = Ok (Returned 0 s (length (chosen filters fs)) (length (chosen filters fs)))
    end.
Proof. exact unsuppressed_ok. Qed.
Print Assumptions C52_unsuppressed.

Example C52_options_case : parse [[47; 70; 58; 98]; [47; 68]; [47; 70; 58; 99]] false false [] = Some (true, false, [[98]; [99]]) /\ parse [[47; 70; 58]] false false [] = None.
Proof. split; reflexivity. Qed.
Example C52_unsuppressed_case : (forall q, In q demo_files -> tidy File (snd q)) /\
  files_first [] 0 demo_files = ([Begin true 1; Begin false 2; CaseDone 2 false; Begin false 3], Some XAssert).
Proof. split; [|reflexivity]. intros q [<-|[<-|[<-|[]]]]; cbn; tauto. Qed.
Example C52_case : exists s, run_tests false [opt_F ++ [98]] demo_files = Ok (Returned 1 s 0 2) /\
  ulog s = [Begin true 1; Begin false 2; CaseDone 2 false; Begin false 3; CaseDone 3 true; Begin false 4; CaseDone 4 false;
            Begin false 5; CaseDone 5 true; FileDone 0 true; Begin false 7; CaseDone 7 false; FileDone 1 true; Skipped 2] /\
  totalCases s = 5 /\ passedCases s = 3.
Proof. eexists. split; [vm_compute; reflexivity|]. split; [reflexivity|]. split; reflexivity. Qed.
Example C52_filter_case : names [97; 47; 98] [98] /\ ~ names [97; 98] [98].
Proof.
  split; [right; exists [97], 47; split; [left|]; reflexivity|].
  rewrite <- matches_spec. vm_compute. discriminate.
Qed.
