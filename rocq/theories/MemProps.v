(* C84: how much memory strings and lists need. *)
From Verif Require Import Base StrModel StrSpec LstModel LstSpec MemSpec MemProofs MemProofs2.
Open Scope Z_scope.

(* ---- lists ---- *)

(* In any program over a list: besides the elements behind a place of insertion or removal, at most eleven
   element moves for each statement - however large the list is *)
Theorem C84_moves :
  forall (A : Type) (eqb : A -> A -> bool) (os : list (LstModel.op A)) t ys, Forall (on_list A) os ->
    LstSpec.srun A eqb [Some []] os = Ok (t, ys) ->
    exists y l, LstModel.run A eqb [Some empty_lst] os = Ok ([Some y], ys) /\ t = [Some l] /\ lst_shows A y l /\
      moves y <= all_behind A eqb [] os + 11 * zlen os /\ cap y <= peak A eqb [] os * 5 / 4 + 1.
Proof. exact list_bound. Qed.
Print Assumptions C84_moves.
Example C84_moves_case :
  match LstModel.run Z Z.eqb [Some empty_lst] numbers_program with
  | Ok ([Some y], _) => (count y, cap y, moves y)
  | _ => (0, 0, 0)
  end = (8, 10, 86) /\ all_behind Z Z.eqb [] numbers_program = 54 /\ peak Z Z.eqb [] numbers_program = 13.
Proof. split; [|split]; reflexivity. Qed.

(* "Memory that is no longer needed is given back" is false: as long as more than nine elements are there, removing
   one never gives anything back ... *)
Theorem C84_shrink_refuted :
  forall (A : Type) (x : lst A) (l : list A) (i : Z), lst_shows A x l -> 0 <= i < zlen l -> 9 < zlen l ->
    exists y, LstModel.remove_at A x i = Ok y /\ cap y = cap x.
Proof. exact never_shrinks. Qed.
Print Assumptions C84_shrink_refuted.
(* ... and a list from which every element was removed keeps (5/8)^9 of its memory, which is unbounded; Clear keeps none *)
Theorem C84_emptied_refuted :
  forall (A : Type) (x : lst A) (l : list A), lst_shows A x l ->
    (exists y, remove_first_n A x (length l) = Ok y /\ lst_shows A y [] /\ Nat.iter 9 five_eighths (cap x) <= cap y) /\
    exists z, LstModel.clear A x = Ok z /\ lst_shows A z [] /\ cap z = 0.
Proof. exact emptied_cleared. Qed.
Print Assumptions C84_emptied_refuted.
Example C84_emptied_case : Nat.iter 9 five_eighths 1000000 = 14550.
Proof. reflexivity. Qed.

(* ---- strings ---- *)

(* One statement allocates at most the characters of its result and a terminator; copies, moves and parts of a
   string allocate nothing *)
Theorem C84_statement :
  forall (n : nat) (os : list StrModel.op) vs ys s rs o vs' y,
    StrSpec.srun (repeat None n) os = Ok (vs, ys) -> StrModel.run (init n) os = Ok (s, rs) -> StrSpec.sstep vs o = Ok (vs', y) ->
    exists s' r, StrModel.step s o = Ok (s', r) /\ StrSpec.shows s' vs' /\ held (hp s') <= held (hp s) + needs vs o.
Proof. exact step_memory. Qed.
Print Assumptions C84_statement.

(* so everything a program holds at its end is bounded by what its statements needed *)
Theorem C84_program :
  forall (n : nat) (os : list StrModel.op) vs ys, StrSpec.srun (repeat None n) os = Ok (vs, ys) ->
    exists s rs, StrModel.run (init n) os = Ok (s, rs) /\ StrSpec.shows s vs /\ held (hp s) <= all_needs (repeat None n) os.
Proof. exact memory_bound. Qed.
Print Assumptions C84_program.

(* Without Left, Right and Sub: never more than the characters of all strings and a terminator for each, whatever
   happened before *)
Theorem C84_no_waste :
  forall (n : nat) (os : list StrModel.op) vs ys, Forall whole os -> StrSpec.srun (repeat None n) os = Ok (vs, ys) ->
    exists s rs, StrModel.run (init n) os = Ok (s, rs) /\ StrSpec.shows s vs /\ held (hp s) <= total_length vs.
Proof. exact whole_memory. Qed.
Print Assumptions C84_no_waste.
Example C84_no_waste_case :
  StrSpec.srun (repeat None 4) words_program =
    Ok ([None; Some [99]; Some [98; 99]; Some [97; 98; 99]], [SNone; SNone; SNone; SNone; SNone; SNone; SChars [97; 98; 99]]) /\
  Forall whole words_program /\ total_length [None; Some [99]; Some [98; 99]; Some [97; 98; 99]] = 9 /\
  match StrModel.run (init 4) words_program with Ok (s, _) => held (hp s) | _ => 0 end = 9.
Proof. split; [reflexivity|]. split; [repeat constructor|]. split; reflexivity. Qed.

(* With them it is false: one character taken with Left keeps the memory of the whole text, of any length, after the
   text is gone - until Buffer() is called ... *)
Theorem C84_left_refuted :
  forall (c : Z) (l : list Z), ~ In 0 (c :: l) ->
    exists s rs, StrModel.run (init 2) (keep_one (ELeft 0 1) (c :: l)) = Ok (s, rs) /\
      StrSpec.shows s [None; Some [c]] /\ held (hp s) = zlen (c :: l) + 1.
Proof. exact left_keeps. Qed.
Print Assumptions C84_left_refuted.
Theorem C84_left_buffer :
  forall (c d : Z) (l : list Z), ~ In 0 (c :: d :: l) ->
    exists s rs, StrModel.run (init 2) (keep_one (ELeft 0 1) (c :: d :: l) ++ [OBuffer 1]) = Ok (s, rs) /\ held (hp s) = 2.
Proof. exact left_buffer. Qed.
Print Assumptions C84_left_buffer.
(* ... and taken with Right even after that *)
Theorem C84_right_refuted :
  forall (l : list Z) (c : Z), ~ In 0 (l ++ [c]) ->
    (exists s rs, StrModel.run (init 2) (keep_one (ERight 0 1) (l ++ [c])) = Ok (s, rs) /\
       StrSpec.shows s [None; Some [c]] /\ held (hp s) = zlen (l ++ [c]) + 1) /\
    exists s rs, StrModel.run (init 2) (keep_one (ERight 0 1) (l ++ [c]) ++ [OBuffer 1]) = Ok (s, rs) /\ held (hp s) = zlen (l ++ [c]) + 1.
Proof. exact right_both. Qed.
Print Assumptions C84_right_refuted.
Example C84_right_case : ~ In 0 ([104; 101; 108; 108] ++ [111]).
Proof. intros H; repeat (destruct H as [H|H]; [discriminate|]); contradiction. Qed.
