(* A loop over a list: the body sees the values from the left until it does not say Continue. *)
From Verif Require Import Base ForModel.
Open Scope Z_scope.

Fixpoint walk {V : Type} (body : list V -> V -> decision) (before rest : list V) : list V * ending :=
  match rest with
  | [] => (before, Finished)
  | v :: rest' =>
      match body before v with
      | Continue => walk body (before ++ [v]) rest'
      | Leave => (before ++ [v], Left)
      | Throw => (before ++ [v], Threw)
      end
  end.
(* the values with their positions 0, 1, 2, ... *)
Definition numbered {A : Type} (l : list A) : list (A * Z) := combine l (map Z.of_nat (seq 0 (length l))).
