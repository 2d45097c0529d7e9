From Verif Require Import Base FunModel FunSpec FunProofs.

(* C55: in every history the observable answers of Func are those of the specification: identities, targets, and functor
   objects shared by the copies and conversions of a Func. *)
Theorem C55_history os : snd (run init os) = snd (srun sinit os).
Proof. exact (fun_history os). Qed.
Print Assumptions C55_history.
Example C55_history_demo : snd (run init [MkFunctor 7 0; MkConvert 0; MkCopy 0; Call 0; Call 1; Call 2; Equal 0 2; Equal 0 1; MkMove 1; Bool 1; Call 3])
  = [Unit; Unit; Unit; Called (TFunctor 7) 0; Called (TFunctor 7) 1; Called (TFunctor 7) 2; Truth true; Truth false; Unit; Truth false; Called (TFunctor 7) 3].
Proof. vm_compute. reflexivity. Qed.

(* C55: a copy equals the original, is empty iff the original is, and calls the same target. *)
Theorem C55_copy os y : y < count os -> let x := count os in let os' := os ++ [MkCopy y] in
  ask os' (Equal x y) = Truth true /\ ask os' (Bool x) = ask os (Bool y) /\ ask os' (Call x) = ask os (Call y).
Proof. exact (fun_copy os y). Qed.
Print Assumptions C55_copy.
Example C55_copy_demo : let os := [MkStatic (Some 5%Z); MkEmpty] in 0 < count os /\ ask (os ++ [MkCopy 0]) (Call 2) = Called (TStatic 5) 0.
Proof. vm_compute. split; [repeat constructor|reflexivity]. Qed.

(* C55: the same for assignment; assignment from an rvalue leaves the source unchanged. *)
Theorem C55_assign os x y : x < count os -> y < count os -> forall o, o = Assign x y \/ o = MoveAssign x y ->
  ask (os ++ [o]) (Equal x y) = Truth true /\ ask (os ++ [o]) (Bool x) = ask os (Bool y) /\
  ask (os ++ [o]) (Bool y) = ask os (Bool y) /\ ask (os ++ [o]) (Call x) = ask os (Call y).
Proof. exact (fun_assign os x y). Qed.
Print Assumptions C55_assign.
Example C55_assign_demo : let os := [MkMember 1 2; MkEmpty] in 1 < count os /\ ask (os ++ [MoveAssign 1 0]) (Bool 0) = Truth true.
Proof. vm_compute. split; [repeat constructor|reflexivity]. Qed.

(* C55: construction from an rvalue takes over identity and target and empties the source. *)
Theorem C55_move os y : y < count os -> let x := count os in let os' := os ++ [MkMove y] in
  ask os' (Bool y) = Truth false /\ ask os' (Bool x) = ask os (Bool y) /\ ask os' (Call x) = ask os (Call y) /\
  forall z, z <> y -> z < count os -> ask os' (Equal x z) = ask os (Equal y z).
Proof. exact (fun_move os y). Qed.
Print Assumptions C55_move.
Example C55_move_demo : let os := [MkMember 1 2; MkCopy 0] in ask (os ++ [MkMove 0]) (Equal 2 1) = Truth true /\ ask (os ++ [MkMove 0]) (Equal 0 1) = Truth false.
Proof. vm_compute. split; reflexivity. Qed.

(* C55: Funcs created separately compare different, even for the same target. *)
Theorem C55_separate os o z : (o = MkStatic z \/ exists a m, o = MkMember a m \/ exists n k, o = MkFunctor n k) ->
  forall y, y < count os -> ask (os ++ [o]) (Equal (count os) y) = Truth false.
Proof. exact (fun_separate os o z). Qed.
Print Assumptions C55_separate.
Example C55_separate_demo : let os := [MkStatic (Some 5%Z)] in 0 < count os /\ ask (os ++ [MkStatic (Some 5%Z)]) (Equal 1 0) = Truth false.
Proof. vm_compute. split; [repeat constructor|reflexivity]. Qed.

(* C55: a Func made from a Func of another signature is empty iff the source is, calls the same target, and equals another
   Func only if both are empty. *)
Theorem C55_convert os y : y < count os -> let x := count os in let os' := os ++ [MkConvert y] in
  ask os' (Bool x) = ask os (Bool y) /\ ask os' (Call x) = ask os (Call y) /\
  forall z, z < count os -> ask os' (Equal x z) = Truth true <-> ask os (Bool y) = Truth false /\ ask os (Bool z) = Truth false.
Proof. exact (fun_convert os y). Qed.
Print Assumptions C55_convert.
Example C55_convert_demo : let os := [MkStatic (Some 5%Z); MkConvert 0; MkEmpty] in 1 < count os /\
  ask (os ++ [MkConvert 1]) (Call 3) = Called (TStatic 5) 0 /\ ask (os ++ [MkConvert 2]) (Equal 3 2) = Truth true.
Proof. vm_compute. split; [repeat constructor|split; reflexivity]. Qed.

(* C55: a Func made from a null function pointer is not empty, but calling it is undefined. *)
Theorem C55_null_pointer_refuted : ask [MkStatic None] (Bool 0) = Truth true /\ ask [MkStatic None] (Call 0) = Undefined.
Proof. exact (conj eq_refl eq_refl). Qed.
Print Assumptions C55_null_pointer_refuted.
