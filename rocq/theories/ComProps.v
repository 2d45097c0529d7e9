(* C41: ComPtr. *)
From Verif Require Import Base ComModel ComSpec ComProofs.
Open Scope nat_scope.

(* C41: every history that uses variables only while they exist runs without undefined
   behaviour; the calls of Release, in order, and what each variable refers to are those of
   ownership without counters; a counter that still exists is in use. *)
Theorem C41_release (n : nat) (os : list cop) : olegal_run (oinit n) os ->
  exists s, crun (cinit n) os = Ok s /\ crel s = orel (ospec_run (oinit n) os) /\
    map (option_map cr) (cvs s) = shows (ospec_run (oinit n) os) /\
    (forall c k, nth_error (ccn s) c = Some (Some k) -> existsb (holds c) (ov (ospec_run (oinit n) os)) = true).
Proof. exact (com_ok n os). Qed.
Print Assumptions C41_release.

(* C41: of the references to o handed to ComPtr, those not held by a variable any more have
   been released, each once *)
Theorem C41_balance (n : nat) (os : list cop) (o : nat) : olegal_run (oinit n) os ->
  count_occ Nat.eq_dec (orel (ospec_run (oinit n) os)) o + length (live (ospec_run (oinit n) os) o) = handed o os.
Proof. exact (balance n os o). Qed.
Print Assumptions C41_balance.

Example C41_example :
  let os := [CWrap 0 7; CCopy 1 0; CWrap 2 8; CAssign 2 1; CMove 3 0; CDestroy 1; CSetNull 2; CSetRaw 3 9] in
  olegal_run (oinit 4) os /\
  match crun (cinit 4) os with
  | Ok s => crel s = [7; 8] /\ map (option_map cr) (cvs s) = [Some None; None; Some None; Some (Some 9)]
  | _ => False
  end /\ handed 9 os = 1 /\ length (live (ospec_run (oinit 4) os) 9) = 1.
Proof. vm_compute. repeat split; discriminate. Qed.

(* p = p.Obj() releases the object and leaves p referring to it, so an object handed over once
   by its creator is released twice *)
Theorem C41_self_assign_refuted :
  exists s1 s2, crun (cinit 1) [CWrap 0 7; CSetRaw 0 7] = Ok s1 /\ crel s1 = [7] /\ map (option_map cr) (cvs s1) = [Some (Some 7)] /\
    crun (cinit 1) [CWrap 0 7; CSetRaw 0 7; CDestroy 0] = Ok s2 /\ crel s2 = [7; 7].
Proof. exact self_assign. Qed.
Print Assumptions C41_self_assign_refuted.
