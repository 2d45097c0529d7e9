From Verif Require Import Base LstModel LstSpec CpyModel.
Open Scope Z_scope.
(* the source holds exactly the values m *)
Definition src_shows {A : Type} (s : src A) (m : list A) : Prop :=
  match s with
  | RArr x => arr_shows A x (map Some m)
  | RLst x => lst_shows A x m
  | RSlice l n => 0 <= n <= zlen l /\ m = firstn (Z.to_nat n) l
  end.
Definition kept {B : Type} (append : bool) (old : list B) : list B := if append then old else [].
