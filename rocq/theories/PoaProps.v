(* Property C43. *)
From Verif Require Import Base PoaModel PoaSpec PoaProofs.
Open Scope Z_scope.

(* C43: every history of creates, reads and writes through the returned pointers, index lookups and
   allocations of other code, for every positive block size, is a history of the specification: each Create
   returns an address no earlier object has, Get(i) returns the address of the i-th object, objects keep their
   contents until they are written.  An index beyond the last object gives null. *)
Theorem C43_history : forall V (d : V) bs ops, 1 <= bs -> oks 0 ops ->
  exists w xs s, prun d (pinit V bs) ops = Ok (w, xs) /\ aspecs d [] ops xs s.
Proof. intros V d. exact (poa_history d). Qed.
Print Assumptions C43_history.
(* C43: whatever happens after the i-th Create, Get(i) returns the pointer it returned *)
Theorem C43_stable : forall V (d : V) bs ops1 ops2 w1 xs1 w2 xs2 w3 p i, 1 <= bs -> oks 0 (ops1 ++ PCreate :: ops2) ->
  i = length (filter (fun o => match o with PCreate => true | _ => false end) ops1) ->
  prun d (pinit V bs) ops1 = Ok (w1, xs1) -> pstep d w1 PCreate = Ok (w2, PPtr (Some p)) -> prun d w2 ops2 = Ok (w3, xs2) ->
  poa_get (pal w3) (Z.of_nat i) = Ok (Some p).
Proof. intros V d. exact (poa_stable d). Qed.
Print Assumptions C43_stable.
(* C43: the destructor deletes every block once and nothing else *)
Theorem C43_destroyed : forall V (d : V) bs ops w xs, 1 <= bs -> oks 0 ops -> prun d (pinit V bs) ops = Ok (w, xs) ->
  exists h, poa_destroy (pheap w) (pal w) = Ok h /\
    (forall p, In p (kept w) -> load h p = UB) /\
    (forall b, ~ In b (blocks (pal w)) -> nth_error h b = nth_error (pheap w) b).
Proof. intros V d. exact (poa_destroyed d). Qed.
Print Assumptions C43_destroyed.
Example C43_case : match prun 0 (pinit Z 2) demo with
  | Ok (_, xs) => xs = [PPtr (Some (0%nat, 0)); PUnit; PPtr (Some (0%nat, 1)); PUnit; PPtr (Some (2%nat, 0)); PUnit;
                        PPtr (Some (0%nat, 0)); PPtr (Some (2%nat, 0)); PVal 7; PVal 0; PVal 9; PPtr None]
  | _ => False
  end.
Proof. reflexivity. Qed.
(* C43 is false where it says that Get out of range raises an error: beyond the end Get returns null, and for a
   negative index it returns an address outside of its block *)
Theorem C43_get_range_refuted : exists w xs, prun 0 (pinit Z 2) [PCreate; PCreate; PCreate] = Ok (w, xs) /\
  (forall i, 3 <= i -> poa_get (pal w) i = Ok None) /\ poa_get (pal w) (-1) = UB /\ poa_get (pal w) (-2) = Err.
Proof. exact poa_get_range. Qed.
Print Assumptions C43_get_range_refuted.
(* C43: Get after any history, for every index whatsoever *)
Theorem C43_get : forall V (d : V) bs ops w xs i, 1 <= bs -> oks 0 ops -> prun d (pinit V bs) ops = Ok (w, xs) ->
  poa_get (pal w) i =
    if 0 <=? i then Ok (nth_error (kept w) (Z.to_nat i))
    else if (- bs <? i) && negb (zlen (kept w) =? 0) then UB else Err.
Proof. intros V d. exact (poa_get_any d). Qed.
Print Assumptions C43_get.
Example C43_get_case : oks 0 demo /\ match prun 0 (pinit Z 2) demo with
  | Ok (w, _) => map (poa_get (pal w)) [0; 2; 3; -1; -2] = [Ok (Some (0%nat, 0)); Ok (Some (2%nat, 0)); Ok None; UB; Err]
  | _ => False
  end.
Proof. split; [exact demo_oks|reflexivity]. Qed.
(* C43: a block size of zero divides by zero at the first Create; a negative one raises an error *)
Theorem C43_block_size : forall V (d : V) bs, bs <= 0 ->
  pstep d (pinit V bs) PCreate = if bs =? 0 then UB else Err.
Proof. exact @poa_bad_size. Qed.
Print Assumptions C43_block_size.
