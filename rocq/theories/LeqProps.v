(* C94: searching lists and arrays with any equality (Source/Collections/List.h) *)
From Verif Require Import Base LstModel LstSpec LeqModel LeqSpec LeqProofs.
Open Scope Z_scope.

(* Whatever operator== answers, and whenever it throws: every history of a list is defined and terminates, and every step is one of
   LeqSpec.eq_step.  A search compares the elements once each from the front and stops at the first one called equal; Remove takes
   exactly that element; a search left by an exception changes nothing. *)
Theorem C94_history : forall (A K St : Type) eqv st os,
  exists y st' rs l, erun A K St eqv empty_lst st os = Ok (y, st', rs) /\ lst_shows A y l /\ eq_run A K St eqv [] st os l st' rs.
Proof. exact any_equality_ok. Qed.
Print Assumptions C94_history.
(* The same search in an array whose elements all have a value. *)
Theorem C94_array : forall (A K St : Type) eqv x l a st, arr_shows A x (map Some l) ->
  exists f st', earray A K St eqv x a st = Ok (st', position A f) /\ searched A K St eqv l a st f st'.
Proof. exact earray_ok. Qed.
Print Assumptions C94_array.
(* The specification leaves no choice: one outcome, and one sequence of comparisons. *)
Theorem C94_determined : forall (A K St : Type) eqv l a st f s f' s',
  searched A K St eqv l a st f s -> searched A K St eqv l a st f' s' -> f = f' /\ s = s'.
Proof. exact searched_det. Qed.
Print Assumptions C94_determined.
(* For an equality that is a function these are the searches of C15. *)
Theorem C94_agrees : forall (A : Type) e (a : A),
  (forall x, eindex A A unit (fixed_eq e) x a tt = (do z <- index_of A e x a; Ok (tt, Some z))) /\
  (forall x, earray A A unit (fixed_eq e) x a tt = (do z <- a_index_of A e x a; Ok (tt, Some z))).
Proof. exact both_agree. Qed.
Print Assumptions C94_agrees.

(* the fourth comparison throws: the first Remove(7) is given up after one comparison, the second one removes the 7 *)
Example C94_case :
  erun Z Z nat count_eq empty_lst 0%nat [EAdd 5; EAdd 6; EAdd 7; EIndexOf 7; ERemove 7; EContains 8; ERemove 7; ECount]
  = Ok (mkLst [Live 5; Live 6; Raw; Raw] 2 4 2, 10%nat, [RInt 0; RInt 1; RInt 2; RInt 2; RError; RBool false; RBool true; RInt 2]).
Proof. reflexivity. Qed.
Example C94_array_case :
  arr_shows Z (mkArr [Live 4; Live 9; Live 4] 3) (map Some [4; 9; 4]) /\
  earray Z Z nat count_eq (mkArr [Live 4; Live 9; Live 4] 3) 9 0%nat = Ok (2%nat, Some 1) /\
  searched Z Z nat count_eq [4; 9; 4] 9 0%nat (At [4] 9 [4]) 2%nat.
Proof.
  split; [split; [reflexivity|repeat constructor]|]. split; [reflexivity|].
  eapply sd_at; [reflexivity|eapply dn_cons; [reflexivity|constructor]|reflexivity].
Qed.
