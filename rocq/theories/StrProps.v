(* Properties of strings: C08 - C13. *)
From Verif Require Import Base StrModel StrSpec StrProofs StrProofs2.
Open Scope Z_scope.

(* A program over string variables.  Its plain-list meaning is srun (StrSpec.v), whose
   outcome UB marks client errors: using a variable that holds no object, reading past
   the memory handed in, overflowing a 64-bit position. *)
Definition abc : list Z := [97; 98; 99; 0].
Definition demo : list op :=
  [ OInit 0 (ELit (Some abc)); OInit 1 (EConcat 0 0); OInit 2 (ESub 1 1 3); OSet 0 (EMove 1);
    OSet 1 (EInsert 2 1 0); OBuffer 2; OAssign 0 2; OCompare 0 2; OSet 2 (ERemove 1 0 2); OAt 2 9 ].
Example demo_meaning :
  srun (repeat None 3) demo =
  Ok ([Some [98; 99; 97]; Some [98; 97; 98; 99; 97; 98; 99; 99; 97]; Some [98; 99; 97; 98; 99; 99; 97]],
      [SNone; SNone; SNone; SNone; SNone; SChars [98; 99; 97]; SNone; SCmp Eq; SNone; SError]).
Proof. vm_compute. reflexivity. Qed.

(* C08, C10: every program whose meaning on plain lists is defined runs on the shared,
   reference counted representation without undefined behaviour, shows the same values
   in every variable at the end, and returned the same results. *)
Theorem C08_C10_strings_are_values : forall n ops vs ys,
  srun (repeat None n) ops = Ok (vs, ys) ->
  exists s xs, run (init n) ops = Ok (s, xs) /\ shows s vs /\ Forall2 out_ok xs ys.
Proof. exact strings_refine. Qed.
Print Assumptions C08_C10_strings_are_values.

(* C10: a statement changes the characters of no string but the ones it assigns
   (Buffer() included, which may replace the block behind a string). *)
Theorem C10_other_strings_unchanged : forall n ops vs ys s xs o vs' y s' r v x,
  srun (repeat None n) ops = Ok (vs, ys) -> run (init n) ops = Ok (s, xs) ->
  sstep vs o = Ok (vs', y) -> step s o = Ok (s', r) ->
  nth_error (vars s) v = Some (Some x) -> ~ In v (targets o) ->
  exists x' l, nth_error (vars s') v = Some (Some x') /\
    content (hp s') x' = Ok l /\ content (hp s) x = Ok l.
Proof. exact step_frame. Qed.
Print Assumptions C10_other_strings_unchanged.

(* C10: in every reachable state each live string points into a live block, its window
   lies inside the block and the cell at [real] holds the terminating zero. *)
Theorem C10_windows_are_live : forall n ops vs ys s xs v x,
  srun (repeat None n) ops = Ok (vs, ys) -> run (init n) ops = Ok (s, xs) ->
  nth_error (vars s) v = Some (Some x) ->
  exists cs, (if managed x then exists k, nth_error (hp s) (buf x) = Some (Counted cs k)
              else nth_error (hp s) (buf x) = Some (Static cs)) /\
    0 <= start x /\ 0 <= len x /\ start x + len x <= real x < zlen cs /\
    nth_error cs (Z.to_nat (real x)) = Some (Some 0).
Proof. exact live_reached. Qed.
Print Assumptions C10_windows_are_live.

(* C11: the counter of every allocated block is the number of live strings sharing it,
   and is positive; so a block is released exactly when its last string goes. *)
Theorem C11_counter_is_number_of_sharers : forall n ops vs ys s xs,
  srun (repeat None n) ops = Ok (vs, ys) -> run (init n) ops = Ok (s, xs) ->
  (forall b cs k, nth_error (hp s) b = Some (Counted cs k) -> k = Z.of_nat (refs b (vars s)) /\ 0 < k) /\
  (forall v x, nth_error (vars s) v = Some (Some x) -> managed x = true ->
     exists cs k, nth_error (hp s) (buf x) = Some (Counted cs k)).
Proof. exact counts_reached. Qed.
Print Assumptions C11_counter_is_number_of_sharers.

Theorem C11_no_leak : forall n ops vs ys s xs,
  srun (repeat None n) ops = Ok (vs, ys) -> run (init n) ops = Ok (s, xs) ->
  Forall (fun x => x = None) (vars s) -> forall b cs k, nth_error (hp s) b <> Some (Counted cs k).
Proof. exact no_leak_reached. Qed.
Print Assumptions C11_no_leak.
Example C11_no_leak_case :
  exists s xs, run (init 3) (demo ++ [ODestroy 1; ODestroy 0; ODestroy 2]) = Ok (s, xs) /\
    vars s = [None; None; None] /\
    (exists vs ys, srun (repeat None 3) (demo ++ [ODestroy 1; ODestroy 0; ODestroy 2]) = Ok (vs, ys)).
Proof. eexists _, _. split; [vm_compute; reflexivity|]. split; [reflexivity|].
  eexists _, _. vm_compute. reflexivity. Qed.

(* C12: the comparison of two strings depends on their characters only (not on which
   block or window shows them), and is the lexicographic order, a strict total order. *)
Theorem C12_compare_is_lexicographic : forall n ops vs ys s xs v w l m,
  srun (repeat None n) ops = Ok (vs, ys) -> run (init n) ops = Ok (s, xs) ->
  nth_error vs v = Some (Some l) -> nth_error vs w = Some (Some m) ->
  step s (OCompare v w) = Ok (s, RCmp (lex l m)).
Proof. exact compare_reached. Qed.
Print Assumptions C12_compare_is_lexicographic.
Theorem C12_order_meaning : forall a b, lex a b = Lt <->
  (exists c r, b = a ++ c :: r) \/
  (exists p x y a' b', a = p ++ x :: a' /\ b = p ++ y :: b' /\ x < y).
Proof. exact lex_lt. Qed.
Print Assumptions C12_order_meaning.
Theorem C12_order_equal : forall a b, lex a b = Eq <-> a = b.
Proof. exact lex_eq. Qed.
Print Assumptions C12_order_equal.
Theorem C12_order_antisymmetric : forall a b, lex b a = CompOpp (lex a b).
Proof. exact lex_antisym. Qed.
Print Assumptions C12_order_antisymmetric.
Theorem C12_order_transitive : forall a b c, lex a b = Lt -> lex b c = Lt -> lex a c = Lt.
Proof. exact lex_trans. Qed.
Print Assumptions C12_order_transitive.

(* C13: Buffer() returns the characters followed by a zero, whatever window the string
   is, and changes the value of no variable. *)
Theorem C13_buffer_terminated : forall n ops vs ys s xs v l,
  srun (repeat None n) ops = Ok (vs, ys) -> run (init n) ops = Ok (s, xs) ->
  nth_error vs v = Some (Some l) ->
  exists s' mem, step s (OBuffer v) = Ok (s', RMem mem) /\
    firstn (length l + 1) mem = map Some l ++ [Some 0] /\ shows s' vs.
Proof. exact buffer_reached. Qed.
Print Assumptions C13_buffer_terminated.

(* C13: whatever happens next, the pointer Buffer() returned is good, and shows the same characters, as long as some string
   uses the same block; and as long as the string itself is not assigned, moved from or destroyed, it keeps that block and
   Buffer() returns the same pointer again *)
Theorem C13_pointer_stays : forall n ops vs ys s xs v s1 mem ops2 vs2 ys2,
  srun (repeat None n) ops = Ok (vs, ys) -> run (init n) ops = Ok (s, xs) -> step s (OBuffer v) = Ok (s1, RMem mem) ->
  srun vs ops2 = Ok (vs2, ys2) ->
  exists x s2 xs2, nth_error (vars s1) v = Some (Some x) /\ memory (hp s1) x = Ok mem /\ run s1 ops2 = Ok (s2, xs2) /\
    (forall u y, nth_error (vars s2) u = Some (Some y) -> buf y = buf x -> memory (hp s2) x = Ok mem) /\
    ((forall o, In o ops2 -> ~ In v (targets o)) ->
       nth_error (vars s2) v = Some (Some x) /\ memory (hp s2) x = Ok mem /\ step s2 (OBuffer v) = Ok (s2, RMem mem)).
Proof. exact pointer_ok. Qed.
Print Assumptions C13_pointer_stays.

Example C13_pointer_stays_case : exists vs ys s xs s1 mem vs2 ys2,
  srun (repeat None 3) demo = Ok (vs, ys) /\ run (init 3) demo = Ok (s, xs) /\ step s (OBuffer 1) = Ok (s1, RMem mem) /\
  srun vs [OSet 0 (ESub 1 2 3); OSet 2 (EConcat 1 0); OBuffer 0] = Ok (vs2, ys2).
Proof. do 8 eexists. do 3 (split; [vm_compute; reflexivity|]). vm_compute. reflexivity. Qed.

(* C13: copying or moving a string whose Buffer() has been asked for hands the same pointer on *)
Theorem C13_pointer_shared : forall n ops vs ys s xs v s1 mem w e,
  srun (repeat None n) ops = Ok (vs, ys) -> run (init n) ops = Ok (s, xs) -> step s (OBuffer v) = Ok (s1, RMem mem) ->
  v <> w -> e = ECopy v \/ e = EMove v -> (exists l, nth_error vs w = Some l) ->
  let o := match nth_error vs w with Some None => OInit w e | _ => OSet w e end in
  exists x s2, nth_error (vars s1) v = Some (Some x) /\ step s1 o = Ok (s2, RNone) /\ nth_error (vars s2) w = Some (Some x) /\
    step s2 (OBuffer w) = Ok (s2, RMem mem).
Proof. exact pointer_shared. Qed.
Print Assumptions C13_pointer_shared.

(* C09: an Error exactly when the range is not inside the string, and then nothing
   changed.  Negative counts and Remove(Length(), 0) are excluded: see below. *)
Theorem C09_slices_checked : forall n ops vs ys s xs d w l,
  srun (repeat None n) ops = Ok (vs, ys) -> run (init n) ops = Ok (s, xs) ->
  (exists m, nth_error vs d = Some (Some m)) -> nth_error vs w = Some (Some l) ->
  (forall k, step s (OSet d (ELeft w k)) = Ok (s, RError) <-> ~ (0 <= k <= zlen l)) /\
  (forall k, step s (OSet d (ERight w k)) = Ok (s, RError) <-> ~ (0 <= k <= zlen l)) /\
  (forall i x m, nth_error vs x = Some (Some m) ->
     (step s (OSet d (EInsert w i x)) = Ok (s, RError) <-> ~ (0 <= i <= zlen l))) /\
  (forall i k, - 2 ^ 63 <= i + k < 2 ^ 63 -> 0 <= k ->
     (step s (OSet d (ESub w i k)) = Ok (s, RError) <-> ~ (0 <= i /\ i + k <= zlen l))) /\
  (forall i k, - 2 ^ 63 <= i + k < 2 ^ 63 -> 0 < k ->
     (step s (OSet d (ERemove w i k)) = Ok (s, RError) <-> ~ (0 <= i /\ i + k <= zlen l))).
Proof. exact range_checks. Qed.
Print Assumptions C09_slices_checked.
Theorem C09_index_checked : forall n ops vs ys s xs v l i,
  srun (repeat None n) ops = Ok (vs, ys) -> run (init n) ops = Ok (s, xs) ->
  nth_error vs v = Some (Some l) ->
  step s (OAt v i) = Ok (s, match znth l i with Some c => RInt c | None => RError end).
Proof. exact index_check. Qed.
Print Assumptions C09_index_checked.
Theorem C09_error_changes_nothing : forall s o s', step s o = Ok (s', RError) -> s' = s.
Proof. exact step_error_keeps. Qed.
Print Assumptions C09_error_changes_nothing.

(* C09: Sub and Remove for all integer arguments, negative counts included: what is an Error, what is undefined because
   index + count does not fit, and what the result is otherwise *)
Theorem C09_all_arguments : forall n ops vs ys s xs d w l i k,
  srun (repeat None n) ops = Ok (vs, ys) -> run (init n) ops = Ok (s, xs) ->
  (exists m, nth_error vs d = Some (Some m)) -> nth_error vs w = Some (Some l) ->
  (if (i <? 0) || (zlen l <? i) then step s (OSet d (ESub w i k)) = Ok (s, RError)
   else if negb (fits (i + k)) then step s (OSet d (ESub w i k)) = UB
   else if (i + k <? 0) || (zlen l <? i + k) then step s (OSet d (ESub w i k)) = Ok (s, RError)
   else exists s', step s (OSet d (ESub w i k)) = Ok (s', RNone) /\ shows s' (upd vs d (Some (take k (drop i l))))) /\
  (if (i <? 0) || (zlen l <=? i) then step s (OSet d (ERemove w i k)) = Ok (s, RError)
   else if negb (fits (i + k)) then step s (OSet d (ERemove w i k)) = UB
   else if (i + k <? 0) || (zlen l <? i + k) then step s (OSet d (ERemove w i k)) = Ok (s, RError)
   else exists s', step s (OSet d (ERemove w i k)) = Ok (s', RNone) /\ shows s' (upd vs d (Some (take i l ++ drop (i + k) l)))).
Proof. exact slices_all. Qed.
Print Assumptions C09_all_arguments.

(* C09, where the code departs from "an Error iff out of range" *)
(* "abc".Remove(2, -1) is accepted and yields "abbc" *)
Theorem C09_remove_negative_refuted : exists s xs,
  run (init 1) [OInit 0 (ELit (Some abc)); OSet 0 (ERemove 0 2 (-1))] = Ok (s, xs) /\
  shows s [Some [97; 98; 98; 99]].
Proof.
  eexists _, _. split; [vm_compute; reflexivity|].
  repeat constructor; vm_compute; reflexivity.
Qed.
Print Assumptions C09_remove_negative_refuted.
(* "abc".Sub(2, -1) is accepted and yields "" *)
Theorem C09_sub_negative_refuted : exists s xs,
  run (init 1) [OInit 0 (ELit (Some abc)); OSet 0 (ESub 0 2 (-1))] = Ok (s, xs) /\ shows s [Some []].
Proof.
  eexists _, _. split; [vm_compute; reflexivity|].
  repeat constructor; vm_compute; reflexivity.
Qed.
Print Assumptions C09_sub_negative_refuted.
(* "abc".Remove(3, 0) is an Error although "abc".Sub(3, 0) is not *)
Theorem C09_remove_at_end_refuted : exists s xs,
  run (init 2) [OInit 0 (ELit (Some abc)); OInit 1 (ESub 0 3 0); OSet 0 (ERemove 0 3 0)]
  = Ok (s, xs) /\ xs = [RNone; RNone; RError].
Proof. eexists _, _. split; [vm_compute; reflexivity|reflexivity]. Qed.
Print Assumptions C09_remove_at_end_refuted.
(* "abc".Sub(1, INT64_MAX) overflows a signed integer inside the range check *)
Theorem C09_range_check_overflow_refuted :
  run (init 1) [OInit 0 (ELit (Some abc)); OSet 0 (ESub 0 1 (2 ^ 63 - 1))] = UB.
Proof. vm_compute. reflexivity. Qed.
Print Assumptions C09_range_check_overflow_refuted.
