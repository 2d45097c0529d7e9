(* What a list holds, whatever its capacity says: the elements l in order in the first slots,
   nothing behind them.  A list without buffer holds the empty sequence. *)
From Verif Require Import Base LstModel LstSpec.
Open Scope Z_scope.

Section Spec.
  Variable A : Type.
  Definition holds (x : lst A) (l : list A) : Prop :=
    count x = zlen l /\ exists k, buf x = map Live l ++ repeat Raw k.
  Definition all_hold (s : vars A) (t : seqs A) : Prop :=
    Forall2 (fun x l => match x, l with
                        | Some x, Some l => holds x l
                        | None, None => True
                        | _, _ => False end) s t.
  (* RemoveAt of a list with this capacity, when n elements stay, takes a smaller buffer *)
  Definition shrinks (capacity n : Z) : bool :=
    (n <=? capacity / 2) && (n <=? 8) && (n <? capacity * 5 / 8).
End Spec.
