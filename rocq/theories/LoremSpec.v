(* What the generated text looks like. *)
From Verif Require Import Base LoremModel.
Open Scope Z_scope.

Section spec.
  Context (words : list (list Z)).
  Definition word (i : Z) : list Z := match znth words (i mod zlen words) with Some w => w | None => [] end.
  Definition capital (w : list Z) : list Z := match w with c :: r => (c - 32) :: r | [] => [] end.
  (* k words from number i on, separated by single blanks *)
  Fixpoint line (c : casing) (first : bool) (i : Z) (k : nat) : list Z :=
    match k with
    | O => []
    | S k =>
        (if first then [] else [32]) ++
        (if match c with AllUpper => true | FirstUpper => first | AllLower => false end then capital (word i) else word i) ++
        line c false (i + 1) k
    end.
  Definition text (c : casing) (i : Z) (k : nat) : list Z := line c true i k.
  (* the distance of k words from the wanted length *)
  Definition distance (c : casing) (i n : Z) (k : nat) : Z := Z.abs (zlen (text c i k) - n).
  (* a list of words the function can work with *)
  Definition good_words : Prop := words <> [] /\ Forall (fun w => (1 <= length w <= 12)%nat /\ Forall (fun c => 32 < c) w) words.
End spec.

(* A paragraph: clauses of consecutive words; a clause ends with a comma or a stop and a blank, the last one with a stop.
   cl_open: the paragraph breaks off after a comma or a stop and a blank. *)
Inductive clauses (words : list (list Z)) : casing -> Z -> list Z -> Z -> Prop :=
| cl_open c i : clauses words c i [] i
| cl_end c i k : clauses words c i (text words c i k ++ [46]) (i + Z.of_nat k)
| cl_stop c i k t j : (0 < k)%nat -> clauses words FirstUpper (i + Z.of_nat k) t j -> clauses words c i (text words c i k ++ [46; 32] ++ t) j
| cl_comma c i k t j : (0 < k)%nat -> clauses words AllLower (i + Z.of_nat k) t j -> clauses words c i (text words c i k ++ [44; 32] ++ t) j.
