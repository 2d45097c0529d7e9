(* Lists when moves of their elements throw *)
From Verif Require Import Base LstModel LstSpec LmSpec TmModel TmSpec TmProofs TmProofs2.
Open Scope Z_scope.

(* what the examples use: a number whose move leaves 0 behind and whose throwing assignment
   leaves -1; a number that is copied *)
Definition zhusk (z : Z) : Z := 0.
Definition ztorn (x y : Z) : Z := -1.
Definition zcopy (z : Z) : Z := z.
Definition zkeep (x y : Z) : Z := x.
(* what variable 0 shows, the elements alive and the buffers *)
Definition glance (r : res (tworld Z * list (tout Z))) : option (list Z * Z * Z * list (tout Z)) :=
  match r with
  | Ok (w, ys) =>
      match tvars w with
      | Some x :: _ => Some (flat_map (fun o => match o with Some e => [e] | None => [] end) (firstn (Z.to_nat (tcount x)) (tbuf x)),
                             alive (books w), blocks (books w), ys)
      | _ => None
      end
  | _ => None
  end.
Definition quiet (os : list (top Z)) : list (top Z * plan) := map (fun o => (o, None)) os.
Definition three : list (top Z * plan) := quiet [TNew 0%nat; TAdd 0%nat 7; TAdd 0%nat 8; TAdd 0%nat 9].
Definition four : list (top Z * plan) := three ++ quiet [TAdd 0%nat 10].

(* Any program over lists, any kind of element (what a move leaves behind, what a throwing
   assignment leaves in its target), any of the moves of every statement throwing: nothing is
   undefined, every result and every element is the one of the specification, and the elements
   and buffers alive are those of the lists and those the specification counts as lost. *)
Theorem C76_history_partial : forall E husk torn n p s ys, tsrun E husk torn (sinit n) p = Ok (s, ys) ->
  exists w, trun E husk torn (tinit n) p = Ok (w, ys) /\ all_show w s /\
    alive (books w) = listed (svars s) + Z.of_nat (selems s) /\
    blocks (books w) = owning (svars s) + Z.of_nat (sbufs s).
Proof. exact exact_run. Qed.
Print Assumptions C76_history_partial.
Example C76_history_ex :
  tsrun Z zhusk ztorn (sinit 1) (four ++ [(TInsert 0%nat 1 5, Some 1%nat); (TRemoveAt 0%nat 0, Some 1%nat); (TGet 0%nat 1, None)]) =
  Ok (mkS [Some ([8; -1; 9; 10], 4)] 1 1, [YNone; YInt 0; YInt 1; YInt 2; YInt 3; YThrown; YThrown; YVal (-1)]).
Proof. reflexivity. Qed.

(* When no move throws, programs show the plain sequences of C14 and nothing is lost. *)
Theorem C76_calm : forall E husk torn n os t ys,
  srun E (fun _ _ => false) (repeat None n) (map plain os) = Ok (t, ys) ->
  exists w, trun E husk torn (tinit n) (map (fun o => (o, None)) os) = Ok (w, map answer ys) /\
    Forall2 (fun x l => match x, l with Some x, Some l => exists c, tshows x l c | None, None => True | _, _ => False end) (tvars w) t /\
    alive (books w) = fold_right (fun l n => match l with Some l => zlen l + n | None => n end) 0 t.
Proof. exact calm. Qed.
Print Assumptions C76_calm.
Example C76_calm_ex :
  srun Z (fun _ _ => false) (repeat None 1) (map plain [TNew 0%nat; TAdd 0%nat 7; TInsert 0%nat 0 8; TRemoveAt 0%nat 1]) =
    Ok ([Some [8]], [RNone; RInt 0; RInt 0; RBool true]) /\
  glance (trun Z zhusk ztorn (tinit 1) (quiet [TNew 0%nat; TAdd 0%nat 7; TInsert 0%nat 0 8; TRemoveAt 0%nat 1])) =
    Some ([8], 1, 1, [YNone; YInt 0; YInt 0; YBool true]).
Proof. split; reflexivity. Qed.

(* Elements that are copied: an insertion that needs a bigger buffer and throws leaves the
   elements of the list alone, but loses the bigger buffer and the k copies in it. *)
Theorem C76_growth_leak_refuted : forall E (w : tworld E) v l i a k,
  holds_list w v l (zlen l) -> 0 <= i <= zlen l -> (k < length l)%nat ->
  exists w', tstep E (fun e => e) (fun old _ => old) w (TInsert v i a) (Some k) = Ok (w', YThrown) /\
    holds_list w' v l (zlen l) /\ others_same w w' v /\
    alive (books w') = alive (books w) + Z.of_nat k /\ blocks (books w') = blocks (books w) + 1.
Proof. exact copying_growth. Qed.
Print Assumptions C76_growth_leak_refuted.
Example C76_growth_leak_ex :
  glance (trun Z zcopy zkeep (tinit 1) four) = Some ([7; 8; 9; 10], 4, 1, [YNone; YInt 0; YInt 1; YInt 2; YInt 3]) /\
  glance (trun Z zcopy zkeep (tinit 1) (four ++ [(TInsert 0%nat 1 5, Some 2%nat)])) =
    Some ([7; 8; 9; 10], 6, 2, [YNone; YInt 0; YInt 1; YInt 2; YInt 3; YThrown]).
Proof. split; reflexivity. Qed.

(* Elements that are moved: the first k elements of the list are what their moves left behind. *)
Theorem C76_growth_moved_refuted : forall E husk torn (w : tworld E) v l i a k,
  holds_list w v l (zlen l) -> 0 <= i <= zlen l -> (k < length l)%nat ->
  exists w', tstep E husk torn w (TInsert v i a) (Some k) = Ok (w', YThrown) /\
    holds_list w' v (map husk (firstn k l) ++ skipn k l) (zlen l) /\ others_same w w' v /\
    alive (books w') = alive (books w) + Z.of_nat k /\ blocks (books w') = blocks (books w) + 1.
Proof. exact growth. Qed.
Print Assumptions C76_growth_moved_refuted.
Example C76_growth_moved_ex :
  glance (trun Z zhusk ztorn (tinit 1) (four ++ [(TAdd 0%nat 5, Some 2%nat)])) =
    Some ([0; 0; 9; 10], 6, 2, [YNone; YInt 0; YInt 1; YInt 2; YInt 3; YThrown]).
Proof. reflexivity. Qed.

(* An insertion in place that throws, even of elements that are copied and whose throwing
   assignments change nothing: the last element leaves the list without being destroyed, and
   the element at which the move threw is in the list twice. *)
Theorem C76_in_place_refuted : forall E (w : tworld E) v l1 y x l2 e c i a,
  holds_list w v (l1 ++ y :: x :: l2 ++ [e]) c -> zlen (l1 ++ y :: x :: l2 ++ [e]) < c -> 0 <= i <= zlen l1 ->
  exists w', tstep E (fun e => e) (fun old _ => old) w (TInsert v i a) (Some (length l2 + 2)%nat) = Ok (w', YThrown) /\
    holds_list w' v (l1 ++ y :: x :: x :: l2) c /\ others_same w w' v /\
    alive (books w') = alive (books w) + 1 /\ blocks (books w') = blocks (books w).
Proof. exact copying_in_place. Qed.
Print Assumptions C76_in_place_refuted.
Example C76_in_place_ex :
  glance (trun Z zcopy zkeep (tinit 1) (three ++ [(TInsert 0%nat 0 5, Some 2%nat)])) =
    Some ([7; 8; 8], 4, 1, [YNone; YInt 0; YInt 1; YInt 2; YThrown]).
Proof. reflexivity. Qed.

(* A removal that throws: the element is gone although the count is the same, and the element
   that was moved last is in the list twice. *)
Theorem C76_removal_refuted : forall E (w : tworld E) v l1 x l2 y z l3 c,
  holds_list w v (l1 ++ x :: l2 ++ y :: z :: l3) c ->
  exists w', tstep E (fun e => e) (fun old _ => old) w (TRemoveAt v (zlen l1)) (Some (length l2 + 1)%nat) = Ok (w', YThrown) /\
    holds_list w' v (l1 ++ l2 ++ y :: y :: z :: l3) c /\ others_same w w' v /\
    alive (books w') = alive (books w) /\ blocks (books w') = blocks (books w).
Proof. exact copying_removal. Qed.
Print Assumptions C76_removal_refuted.
Example C76_removal_ex :
  glance (trun Z zcopy zkeep (tinit 1) (three ++ [(TRemoveAt 0%nat 0, Some 1%nat)])) =
    Some ([8; 8; 9], 3, 1, [YNone; YInt 0; YInt 1; YInt 2; YThrown]).
Proof. reflexivity. Qed.

(* RemoveRange of the elements d1 ++ x :: d2 that throws after as many moves as d1 is long: the
   elements d1 are gone, x and d2 are still there, the elements l2 that have been moved are in
   the list twice, and the count is the same. *)
Theorem C76_range_refuted : forall E (w : tworld E) v l1 d1 x d2 l2 y l3 c,
  holds_list w v (l1 ++ (d1 ++ x :: d2) ++ l2 ++ y :: l3) c -> length l2 = length d1 ->
  zlen (l1 ++ (d1 ++ x :: d2) ++ l2 ++ y :: l3) < 2 ^ 63 ->
  exists w', tstep E (fun e => e) (fun old _ => old) w (TRemoveRange v (zlen l1) (zlen (d1 ++ x :: d2))) (Some (length l2)) = Ok (w', YThrown) /\
    holds_list w' v (l1 ++ l2 ++ x :: d2 ++ l2 ++ y :: l3) c /\ others_same w w' v /\
    alive (books w') = alive (books w) /\ blocks (books w') = blocks (books w).
Proof. exact copying_range. Qed.
Print Assumptions C76_range_refuted.
Example C76_range_ex :
  glance (trun Z zcopy zkeep (tinit 1) (four ++ [(TRemoveRange 0%nat 0 2, Some 1%nat)])) =
    Some ([9; 8; 9; 10], 4, 1, [YNone; YInt 0; YInt 1; YInt 2; YInt 3; YThrown]) /\
  glance (trun Z zhusk ztorn (tinit 1) (four ++ [(TRemoveRange 0%nat 0 2, Some 1%nat); (TRemoveRange 0%nat 1 2, None); (TRemoveRange 0%nat 1 2, None)])) =
    Some ([9; 10], 2, 1, [YNone; YInt 0; YInt 1; YInt 2; YInt 3; YThrown; YBool true; YError]).
Proof. split; reflexivity. Qed.

(* A removal that throws while the list changes to a smaller buffer: the element has been
   removed, the smaller buffer and the k elements in it are lost, and the list keeps what the
   moves left behind. *)
Theorem C76_shrinking_refuted : forall E husk torn (w : tworld E) v l1 x l2 c k,
  holds_list w v (l1 ++ x :: l2) c -> shrinks c (zlen (l1 ++ l2)) = true -> (k < length (l1 ++ l2))%nat ->
  exists w', tstep E husk torn w (TRemoveAt v (zlen l1)) (Some (length l2 + k)%nat) = Ok (w', YThrown) /\
    holds_list w' v (map husk (firstn k (l1 ++ l2)) ++ skipn k (l1 ++ l2)) c /\ others_same w w' v /\
    alive (books w') = alive (books w) - 1 + Z.of_nat k /\ blocks (books w') = blocks (books w) + 1.
Proof. exact shrinking. Qed.
Print Assumptions C76_shrinking_refuted.
Example C76_shrinking_ex :
  glance (trun Z zhusk ztorn (tinit 1) (four ++ [(TAdd 0%nat 11, None); (TRemoveAt 0%nat 4, None); (TRemoveAt 0%nat 2, Some 2%nat)])) =
    Some ([0; 8; 10], 4, 2, [YNone; YInt 0; YInt 1; YInt 2; YInt 3; YInt 4; YBool true; YThrown]).
Proof. reflexivity. Qed.
