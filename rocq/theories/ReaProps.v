(* Lists of Ptr whose objects add to the list when they are destroyed *)
From Coq Require Import Permutation.
From Verif Require Import Base ReaModel ReaSpec ReaProofs2 ReaProofs3.
Open Scope nat_scope.

(* what the examples use: the destructors of the objects 10, 11, ... add the object 1; that of 20 adds 1 and 2 *)
Definition ex_adds (v : nat) : list (option nat) := if v <? 10 then [] else if v =? 20 then [Some 1; Some 2] else [Some 1].
Definition ex_show (r : res (lst nat * list (out nat))) : option (list (cell nat) * nat * list (out nat)) :=
  match r with Ok (x, rs) => Some (cells x, count x, rs) | _ => None end.
Definition ex_fill (l : list nat) : list (op nat) := map (fun v => Add (Some v)) l.

(* Every program over a list, whatever the destructors add: the elements, the room, the answers and
   the pointers that are lost are those of the specification, and exactly the programs that it calls
   undefined are undefined; a program that it calls broken reaches a RemoveAt of the last element
   after which the list counts an element that was never constructed. *)
Theorem C90_history_partial : forall V (adds : V -> list (option V)) os,
  match srun V adds [] 0 [] os with
  | Done l room gone rs => exists x, run V adds (start V) os = Ok (x, rs) /\ shows V x l room gone
  | Undef => run V adds (start V) os = UB
  | Break => exists p i r x rs y, os = p ++ RemoveAt i :: r /\ run V adds (start V) p = Ok (x, rs) /\ i = count x - 1 /\
               step V adds x (RemoveAt i) = Ok (y, Nothing) /\ i < count y /\ get V y i = UB
  end.
Proof. exact programs. Qed.
Print Assumptions C90_history_partial.
Example C90_history_ex :
  srun nat ex_adds [] 0 [] (ex_fill [7; 10; 8; 9; 6] ++ [SetAt 1 None; RemoveAt 0; Get 4; Count]) =
    Done [None; Some 8; Some 9; Some 6; Some 1] 7 [] [Number 0; Number 1; Number 2; Number 3; Number 4; Nothing; Nothing; Value (Some 1); Number 5] /\
  srun nat ex_adds [] 0 [] (ex_fill [10; 8] ++ [SetAt 0 None]) = Undef /\
  srun nat ex_adds [] 0 [] (ex_fill [7; 8; 9; 6; 5] ++ [RemoveAt 0; SetAt 3 (Some 10); RemoveAt 3]) = Break.
Proof. repeat split; reflexivity. Qed.

(* When no destructor adds anything the list is the plain sequence, and nothing is lost. *)
Theorem C90_quiet : forall V (adds : V -> list (option V)) os, (forall v, adds v = []) ->
  exists x room, run V adds (start V) os = Ok (x, snd (prun V [] os)) /\ shows V x (fst (prun V [] os)) room [].
Proof. exact quiet. Qed.
Print Assumptions C90_quiet.
Example C90_quiet_ex :
  prun nat [] (ex_fill [7; 8; 9] ++ [RemoveAt 1; SetAt 0 (Some 5); Get 1; RemoveAt 2]) =
    ([Some 5; Some 9], [Number 0; Number 1; Number 2; Nothing; Nothing; Value (Some 9); Error]).
Proof. reflexivity. Qed.

(* Set: the added pointers follow the others, if the list has room for all of them; otherwise the
   place that is assigned is in a buffer that was freed meanwhile. *)
Theorem C90_set_partial : forall V (adds : V -> list (option V)) x l1 v l2 room gone o, shows V x (l1 ++ Some v :: l2) room gone ->
  (length (l1 ++ Some v :: l2) + length (adds v) <= room ->
     exists y, step V adds x (SetAt (length l1) o) = Ok (y, Nothing) /\ shows V y (l1 ++ o :: l2 ++ adds v) room gone) /\
  (room < length (l1 ++ Some v :: l2) + length (adds v) -> step V adds x (SetAt (length l1) o) = UB).
Proof. exact set_adds. Qed.
Print Assumptions C90_set_partial.
Example C90_set_ex :
  ex_show (run nat ex_adds (start nat) (ex_fill [7; 10; 8] ++ [SetAt 1 (Some 6)])) =
    Some ([Full (Some 7); Full (Some 6); Full (Some 8); Full (Some 1)], 4, [Number 0; Number 1; Number 2; Nothing]) /\
  run nat ex_adds (start nat) (ex_fill [7; 10; 8; 9] ++ [SetAt 1 (Some 6)]) = UB.
Proof. split; reflexivity. Qed.

(* RemoveAt of an element that is not the last one: there is a null before the added pointers, and
   the last one of these is not in the list and is never released. *)
Theorem C90_remove_refuted : forall V (adds : V -> list (option V)) x l1 v u l2 room gone os b,
  shows V x (l1 ++ Some v :: u :: l2) room gone -> adds v = os ++ [b] ->
  (length (l1 ++ Some v :: u :: l2) + length (os ++ [b]) <= room ->
     exists y room', step V adds x (RemoveAt (length l1)) = Ok (y, Nothing) /\ shows V y (l1 ++ u :: l2 ++ None :: os) room' (b :: gone)) /\
  (room < length (l1 ++ Some v :: u :: l2) + length (os ++ [b]) -> step V adds x (RemoveAt (length l1)) = UB).
Proof. exact remove_adds. Qed.
Print Assumptions C90_remove_refuted.
Example C90_remove_ex :
  ex_show (run nat ex_adds (start nat) (ex_fill [7; 20; 8; 9; 6] ++ [RemoveAt 1; Get 5; Get 4])) =
    Some ([Full (Some 7); Full (Some 8); Full (Some 9); Full (Some 6); Full None; Full (Some 1); Full (Some 2)], 6,
          [Number 0; Number 1; Number 2; Number 3; Number 4; Nothing; Value (Some 1); Value None]).
Proof. reflexivity. Qed.

(* RemoveAt of the last element: the first added pointer is lost and a null is in its place; or, if
   the list moves to a smaller buffer, it counts elements that are not there. *)
Theorem C90_remove_last_refuted : forall V (adds : V -> list (option V)) x l v room gone b os,
  shows V x (l ++ [Some v]) room gone -> adds v = b :: os ->
  (length l + length (b :: os) <= room -> too_roomy room (length l) = false ->
     exists y, step V adds x (RemoveAt (length l)) = Ok (y, Nothing) /\ shows V y (l ++ None :: os) room (b :: gone)) /\
  (length l + length (b :: os) <= room -> too_roomy room (length l) = true ->
     exists y, step V adds x (RemoveAt (length l)) = Ok (y, Nothing) /\ length l < count y /\ get V y (length l) = UB) /\
  (room < length l + length (b :: os) -> step V adds x (RemoveAt (length l)) = UB).
Proof. exact remove_last_adds. Qed.
Print Assumptions C90_remove_last_refuted.
Example C90_remove_last_ex :
  ex_show (run nat ex_adds (start nat) (ex_fill [7; 8; 20] ++ [RemoveAt 2])) =
    Some ([Full (Some 7); Full (Some 8); Full None; Full (Some 2)], 4, [Number 0; Number 1; Number 2; Nothing]) /\
  ex_show (run nat ex_adds (start nat) (ex_fill [7; 8; 9; 6; 10] ++ [RemoveAt 0; RemoveAt 3])) =
    Some ([Full (Some 8); Full (Some 9); Full (Some 6); Raw], 4, [Number 0; Number 1; Number 2; Number 3; Number 4; Nothing; Nothing]).
Proof. split; reflexivity. Qed.

(* Clear is undefined as soon as one destructor adds something, however much room there is. *)
Theorem C90_clear_refuted : forall V (adds : V -> list (option V)) x l room gone, shows V x l room gone ->
  (exists v, In (Some v) l /\ adds v <> []) -> step V adds x Clear = UB.
Proof. exact clear_adds. Qed.
Print Assumptions C90_clear_refuted.
Example C90_clear_ex : run nat ex_adds (start nat) (ex_fill [7; 10; 8] ++ [Clear]) = UB /\
  ex_show (run nat ex_adds (start nat) (ex_fill [7; 9; 8] ++ [Clear; Count])) = Some ([], 0, [Number 0; Number 1; Number 2; Nothing; Number 0]).
Proof. split; reflexivity. Qed.

(* Destroying the list, or moving another one into it: everything that is added is lost; without
   room for it the program is undefined. *)
Theorem C90_destroy_refuted : forall V (adds : V -> list (option V)) x l room gone, shows V x l room gone ->
  if length l + length (flat_map (brings V adds) l) <=? room
  then exists out, finish V adds x = Ok out /\ Permutation out (gone ++ flat_map (brings V adds) l)
  else finish V adds x = UB.
Proof. exact finish_loses. Qed.
Print Assumptions C90_destroy_refuted.
Example C90_destroy_ex :
  (do (x, rs) <- run nat ex_adds (start nat) (ex_fill [7; 10; 8]); finish nat ex_adds x) = Ok [Some 1] /\
  (do (x, rs) <- run nat ex_adds (start nat) (ex_fill [7; 20; 8]); finish nat ex_adds x) = UB.
Proof. split; reflexivity. Qed.
