(* The report of the unit test runner *)
From Verif Require Import Base RpModel RpSpec RpProofs.

(* a file with a passing case, and a category with a failing case and an exception of its own; a skipped file; a file that passes *)
Definition sample : list (nat * bool * body) :=
  [(1, true, Nest false 10 (Assert true 0 (Print 5 Done))
              (Nest true 11 (Nest false 12 (Assert false 7 Done) (Raise (XException 8))) Done));
   (2, false, Raise (XUnknown 0));
   (3, true, Nest false 13 (ExpectError (Raise (XError 1)) 9 Done) Done)]%nat.

(* For every set of files, any tree of categories and cases and any pattern of failures the report is the tree of what
   ran, printed with indentation, with one error line for every exception that leaves a case, category or file, below its
   line, followed by the summary. *)
Theorem C78_report : forall fs, run_tests fs =
  Ok (if Nat.eqb (count is_file_line (files_lines fs)) (clean is_file_line (files_lines fs)) then 0 else 1, mkL Info 0 TStart :: files_lines fs ++ summary fs)%nat.
Proof. exact run_ok. Qed.
Print Assumptions C78_report.
Example C78_report_ex : run_tests sample = Ok (1%nat,
  [mkL Info 0 TStart;
   mkL File 0 (TName 1);
   mkL Case 4 (TDesc 10);
   mkL Info 8 (TNote 5);
   mkL Category 4 (TDesc 11);
   mkL Case 8 (TDesc 12);
   mkL Error 12 (TFail 7);
   mkL Error 8 (TFail 8);
   mkL File 0 (TSkipped 2);
   mkL File 0 (TName 3);
   mkL Case 4 (TDesc 13);
   mkL Error 0 (TFiles 1 2);
   mkL Error 0 (TCases 2 3)]%nat).
Proof. reflexivity. Qed.

(* Read as a text: the totals in the last two lines are the numbers of file and case lines in the report, the passed ones are
   those with no error line below, and the result is 0 exactly if the report has no error line, and exactly if all files passed. *)
Theorem C78_totals : forall fs, exists code ls front, run_tests fs = Ok (code, ls) /\
  ls = front ++ [mkL (if Nat.eqb code 0 then Case else Error) 0 (TFiles (clean is_file_line ls) (count is_file_line ls));
                 mkL (if Nat.eqb code 0 then Case else Error) 0 (TCases (clean is_case_line ls) (count is_case_line ls))] /\
  (code = 0%nat <-> existsb is_error ls = false) /\ (code = 0%nat <-> clean is_file_line ls = count is_file_line ls).
Proof. exact totals_ok. Qed.
Print Assumptions C78_totals.
