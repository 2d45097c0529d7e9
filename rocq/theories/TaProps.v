(* C76, continued: arrays whose element constructions throw, moves included (Source/Collections/List.h) *)
From Verif Require Import Base TaModel TaSpec TaProofs.
Open Scope nat_scope.

(* Whatever throws, no history of an array is undefined: every operation has the result TaSpec says, and the objects and
   blocks of memory that exist are those of the array and those that were lost. *)
Theorem C76_array_history : forall (A : Type) (husk : A -> A) (dflt : A) os, alegal_run husk dflt sstart os ->
  let (s, rs) := srun husk dflt sstart os in
  exists w, arun husk dflt astart os = Ok (w, rs) /\ alive w = objects s /\ blocks w = held_blocks s.
Proof. exact @history. Qed.
Print Assumptions C76_array_history.
(* If nothing throws nothing is lost: when the array is destroyed no object and no block is left. *)
Theorem C76_array_calm : forall (A : Type) (husk : A -> A) (dflt : A) os, Forall calm_op os ->
  alegal_run husk dflt sstart (os ++ [ADelete]) ->
  exists w rs, arun husk dflt astart (os ++ [ADelete]) = Ok (w, rs) /\ alive w = 0 /\ blocks w = 0.
Proof. exact @calm. Qed.
Print Assumptions C76_array_calm.
(* A Resize whose construction number k throws: the array has as many elements as before, but the first k are what moves
   leave; k objects and a block of memory are lost for ever. *)
Theorem C76_array_resize_refuted : forall (A : Type) (husk : A -> A) (dflt : A) os n k l,
  alegal_run husk dflt sstart os -> seq (fst (srun husk dflt sstart os)) = Some l -> k < n ->
  exists w rs w', arun husk dflt astart os = Ok (w, rs) /\
    arun husk dflt astart (os ++ [AResize n (Some k); ACount] ++ map AGet (List.seq 0 (length l)) ++ [ADelete]) =
      Ok (w', rs ++ [AThrown; ANum (length l)] ++ map AVal (map husk (firstn k l) ++ skipn k l) ++ [AUnit]) /\
    alive w' + length l = alive w + k /\ blocks w' + (if length l =? 0 then 0 else 1) = blocks w + 1.
Proof. exact @resize_fails. Qed.
Print Assumptions C76_array_resize_refuted.
(* When moves are copies, a failed Resize leaves the elements as they were. *)
Theorem C76_array_copies : forall (A : Type) (husk : A -> A) (dflt : A) os n k l, (forall a, husk a = a) ->
  alegal_run husk dflt sstart os -> seq (fst (srun husk dflt sstart os)) = Some l -> k < n ->
  seq (fst (srun husk dflt sstart (os ++ [AResize n (Some k)]))) = Some l.
Proof. exact @copies_keep. Qed.
Print Assumptions C76_array_copies.

(* an array of 3 from given elements; Resize(5) throws at the second move and at the first default construction *)
Example C76_array_case : let os := [AFrom [7; 8; 9] None; AResize 5 (Some 1); AResize 5 (Some 3); AGet 0; ASet 1 4 true; AResize 2 None; AGet 1; ACount; ADelete] in
  alegal_run (fun _ => 0) 1 sstart os /\
  srun (fun _ => 0) 1 sstart os = (mkSS None 4 2, [AUnit; AThrown; AThrown; AVal 0; AThrown; AUnit; AVal 4; ANum 2; AUnit]) /\
  exists w, arun (fun _ => 0) 1 astart os = Ok (w, snd (srun (fun _ => 0) 1 sstart os)) /\ alive w = 4 /\ blocks w = 2.
Proof. cbv zeta. split; [cbn; intuition lia|]. split; [reflexivity|]. eexists. split; [reflexivity|]. split; reflexivity. Qed.
Example C76_array_calm_case : let os := [ANew 3 (Some 3); AResize 5 None] in
  Forall calm_op os /\ alegal_run (fun _ => 0) 1 sstart (os ++ [ADelete]).
Proof. cbv zeta. split; [repeat constructor|cbn; tauto]. Qed.
