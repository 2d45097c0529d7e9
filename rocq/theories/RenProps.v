(* Theorems about destructors that look at the collection they were kept in. *)
From Verif Require Import Base RenModel RenSpec RenProofs RenProofs2.
Open Scope nat_scope.

(* C89: RemoveAt, Set and Clear: every destructor sees the list as before the operation, except
   for its own object, or as after it. *)
Theorem C89_remove_at : forall V (veq : V -> V -> bool) out l1 x l2,
  exists w lg, remove_at V veq out (holds V (l1 ++ x :: l2)) (length l1) = Ok (w, lg) /\
    look V w = map Ok (l1 ++ l2) /\ saw V (look V) lg = dying V veq out (l1 ++ l2) [x] (during_remove V l1 [x] l2) /\
    before_or_after V (l1 ++ x :: l2) (l1 ++ l2) (saw V (look V) lg).
Proof. exact remove_at_before_or_after. Qed.
Print Assumptions C89_remove_at.

Theorem C89_set : forall V (veq : V -> V -> bool) out l1 x l2 y,
  exists lg, set V veq out (holds V (l1 ++ x :: l2)) (length l1) y = Ok (holds V (l1 ++ y :: l2), lg) /\
    saw V (look V) lg = dying V veq out (y :: l1 ++ l2) [x] (fun _ => map Ok l1 ++ UB :: map Ok l2).
Proof. exact set_seen. Qed.
Print Assumptions C89_set.

Theorem C89_clear : forall V (veq : V -> V -> bool) out l,
  exists lg, clear V veq out (holds V l) = Ok (holds V [], lg) /\ saw V (look V) lg = dying V veq out [] l (fun _ => []).
Proof. exact clear_seen. Qed.
Print Assumptions C89_clear.

(* C89: which objects die during RemoveRange, in which order, and what each sees. *)
Theorem C89_remove_range : forall V (veq : V -> V -> bool) out l1 d l2,
  exists w lg, remove_range V veq out (holds V (l1 ++ d ++ l2)) (length l1) (length d) = Ok (w, lg) /\
    vcount w = length (l1 ++ l2) /\ look V w = map Ok (l1 ++ l2) /\
    saw V (look V) lg = dying V veq out (l1 ++ l2) d (during_remove V l1 d l2).
Proof. exact remove_range_seen. Qed.
Print Assumptions C89_remove_range.

(* C89: that is neither the list before nor the list after: some see null pointers in between. *)
Theorem C89_remove_range_refuted : ~ (forall out l1 d l2,
  exists w lg, remove_range nat Nat.eqb out (holds nat (l1 ++ d ++ l2)) (length l1) (length d) = Ok (w, lg) /\
    before_or_after nat (l1 ++ d ++ l2) (l1 ++ l2) (saw nat (look nat) lg)).
Proof. exact remove_range_refuted. Qed.
Print Assumptions C89_remove_range_refuted.

(* C89: when a list or an array is destroyed, or another one is moved into it, Count() stays and
   the elements before are destroyed already. *)
Theorem C89_destroy : forall V (veq : V -> V -> bool) out l,
  exists lg, finish V veq out (holds V l) = Ok lg /\ saw V (look V) lg = dying V veq out [] l (during_end V l).
Proof. exact finish_seen. Qed.
Print Assumptions C89_destroy.

Theorem C89_move : forall V (veq : V -> V -> bool) out l l',
  exists lg, move_list V veq out (holds V l) (holds V l') = Ok (holds V l', lg) /\
    saw V (look V) lg = dying V veq out [] l (during_end V l).
Proof. exact move_seen. Qed.
Print Assumptions C89_move.

(* C89: shrinking an array: even the elements that stay cannot be read. *)
Theorem C89_resize : forall V (veq : V -> V -> bool) out l1 d,
  exists lg, resize V veq out (holds V (l1 ++ d)) (length l1) = Ok (holds V l1, lg) /\
    saw V (look V) lg = dying V veq out l1 d (fun i => repeat UB (length l1) ++ during_end V d i).
Proof. exact shrink_seen. Qed.
Print Assumptions C89_resize.

Theorem C89_resize_refuted : ~ (forall out l1 d,
  exists w lg, resize nat Nat.eqb out (holds nat (l1 ++ d)) (length l1) = Ok (w, lg) /\
    before_or_after nat (l1 ++ d) l1 (saw nat (look nat) lg)).
Proof. exact resize_refuted. Qed.
Print Assumptions C89_resize_refuted.

Theorem C89_resize_up : forall V (veq : V -> V -> bool) out l n,
  resize V veq out (holds V l) (length l + n) = Ok (holds V (l ++ repeat None n), []).
Proof. exact grow_seen. Qed.
Print Assumptions C89_resize_up.

(* C89: dictionaries. Set and Clear show the map before or after. *)
Theorem C89_dictionary_set : forall K V (keq : K -> K -> bool) (veq : V -> V -> bool), (forall a b, keq a b = true <-> a = b) ->
  forall out m1 k x m2 y, NoDup (map fst (m1 ++ (k, x) :: m2)) ->
  exists lg, d_set K V keq veq out (dholds K V (m1 ++ (k, x) :: m2)) k y = Ok (dholds K V (m1 ++ (k, y) :: m2), lg) /\
    saw V (dlook K V keq) lg =
      dying V veq out (y :: map snd (m1 ++ m2)) [x] (fun _ => right K V m1 ++ (k, UB) :: right K V m2).
Proof. exact d_set_seen. Qed.
Print Assumptions C89_dictionary_set.

Theorem C89_dictionary_clear : forall K V (keq : K -> K -> bool) (veq : V -> V -> bool), (forall a b, keq a b = true <-> a = b) ->
  forall out m,
  exists lg, d_clear K V veq out (dholds K V m) = Ok (dholds K V [], lg) /\
    saw V (dlook K V keq) lg = dying V veq out [] (map snd m) (fun _ => []).
Proof. exact d_clear_seen. Qed.
Print Assumptions C89_dictionary_clear.

(* C89: Remove has removed the key already: the keys after it read the value of the key before. *)
Theorem C89_dictionary_remove : forall K V (keq : K -> K -> bool) (veq : V -> V -> bool), (forall a b, keq a b = true <-> a = b) ->
  forall out m1 k x m2, NoDup (map fst (m1 ++ (k, x) :: m2)) ->
  exists d lg, d_remove K V keq veq out (dholds K V (m1 ++ (k, x) :: m2)) k = Ok (d, lg) /\
    dlook K V keq d = right K V (m1 ++ m2) /\
    saw V (dlook K V keq) lg = dying V veq out (map snd (m1 ++ m2)) [x] (fun _ => right K V m1 ++ shifted K V m2).
Proof. exact d_remove_seen. Qed.
Print Assumptions C89_dictionary_remove.

Theorem C89_dictionary_remove_refuted : forall K V (keq : K -> K -> bool) (veq : V -> V -> bool),
  (forall a b, keq a b = true <-> a = b) -> (forall a b, veq a b = true <-> a = b) ->
  forall out m1 k v k1 x1 k2 x2 m2,
  NoDup (map fst (m1 ++ (k, Some v) :: (k1, x1) :: (k2, x2) :: m2)) ->
  out v = false -> ~ In (Some v) (map snd (m1 ++ (k1, x1) :: (k2, x2) :: m2)) ->
  exists d lg s, d_remove K V keq veq out (dholds K V (m1 ++ (k, Some v) :: (k1, x1) :: (k2, x2) :: m2)) k = Ok (d, lg) /\
    saw V (dlook K V keq) lg = [(v, s)] /\ In (k2, Ok x1) s /\ In (k1, UB) s.
Proof. exact d_remove_wrong. Qed.
Print Assumptions C89_dictionary_remove_refuted.

(* C89: when a dictionary is destroyed the smaller keys read destroyed values; when another one is
   moved into it the new keys read the old values. *)
Theorem C89_dictionary_destroy : forall K V (keq : K -> K -> bool) (veq : V -> V -> bool), (forall a b, keq a b = true <-> a = b) ->
  forall out m, NoDup (map fst m) ->
  exists lg, d_finish K V veq out (dholds K V m) = Ok lg /\
    saw V (dlook K V keq) lg =
      dying V veq out [] (map snd m) (fun i => map (fun p => (fst p, UB)) (firstn (S i) m) ++ right K V (skipn (S i) m)).
Proof. exact d_finish_seen. Qed.
Print Assumptions C89_dictionary_destroy.

Theorem C89_dictionary_move : forall K V (keq : K -> K -> bool) (veq : V -> V -> bool), (forall a b, keq a b = true <-> a = b) ->
  forall out m m', NoDup (map fst m') ->
  exists lg, d_move K V veq out (dholds K V m) (dholds K V m') = Ok (dholds K V m', lg) /\
    saw V (dlook K V keq) lg = dying V veq out [] (map snd m)
      (fun i => combine (map fst m') (during_end V (map snd m) i ++ repeat Err (length m' - length m))).
Proof. exact d_move_seen. Qed.
Print Assumptions C89_dictionary_move.

(* C89: groups. Removing a key shows the group after it. *)
Theorem C89_group_remove : forall K V (keq : K -> K -> bool) (veq : V -> V -> bool), (forall a b, keq a b = true <-> a = b) ->
  forall out m1 k l m2, NoDup (map fst (m1 ++ (k, l) :: m2)) ->
  exists lg, g_remove K V keq veq out (gholds K V (m1 ++ (k, l) :: m2)) k = Ok (gholds K V (m1 ++ m2), lg) /\
    saw V (glook K V keq) lg = dying V veq out (all_values K V (m1 ++ m2)) l (fun _ => gright K V (m1 ++ m2)).
Proof. exact g_remove_seen. Qed.
Print Assumptions C89_group_remove.

(* C89: removing a value shows the list of the key as RemoveAt does: for the only value of a key,
   the key with no value. *)
Theorem C89_group_remove_value : forall K V (keq : K -> K -> bool) (veq : V -> V -> bool),
  (forall a b, keq a b = true <-> a = b) -> (forall a b, veq a b = true <-> a = b) ->
  forall out m1 k l1 v l2 m2, NoDup (map fst (m1 ++ (k, l1 ++ Some v :: l2) :: m2)) -> ~ In (Some v) l1 ->
  exists g lg, g_remove_value K V keq veq out (gholds K V (m1 ++ (k, l1 ++ Some v :: l2) :: m2)) k v = Ok (g, lg) /\
    glook K V keq g = gright K V (match l1 ++ l2 with [] => m1 ++ m2 | l => m1 ++ (k, l) :: m2 end) /\
    saw V (glook K V keq) lg = dying V veq out (all_values K V (m1 ++ m2) ++ l1 ++ l2) [Some v]
      (fun _ => gright K V m1 ++ (k, Ok (during_remove V l1 [Some v] l2 0)) :: gright K V m2).
Proof. exact g_remove_value_seen. Qed.
Print Assumptions C89_group_remove_value.

(* C89: Clear, and destroying a group: the keys before have a deleted list. *)
Theorem C89_group_clear : forall K V (keq : K -> K -> bool) (veq : V -> V -> bool), (forall a b, keq a b = true <-> a = b) ->
  forall out m, NoDup (map fst m) ->
  exists lg, g_clear K V veq out (gholds K V m) = Ok ([], lg) /\
    saw V (glook K V keq) lg = during_clear K V veq out [] m.
Proof. exact g_clear_seen. Qed.
Print Assumptions C89_group_clear.

(* C89: the first equal element is the one that List::Remove takes. *)
Theorem C89_remove : forall V (veq : V -> V -> bool), (forall a b, veq a b = true <-> a = b) ->
  forall out l1 v l2, ~ In (Some v) l1 ->
  exists w lg, remove V veq out (holds V (l1 ++ Some v :: l2)) v = Ok (w, lg) /\
    look V w = map Ok (l1 ++ l2) /\
    saw V (look V) lg = dying V veq out (l1 ++ l2) [Some v] (during_remove V l1 [Some v] l2).
Proof. exact remove_seen. Qed.
Print Assumptions C89_remove.

(* C89: no destructor runs when there is nothing to remove or the index is out of range. *)
Theorem C89_nothing : forall K V (keq : K -> K -> bool) (veq : V -> V -> bool),
  (forall a b, keq a b = true <-> a = b) -> (forall a b, veq a b = true <-> a = b) -> forall out,
  (forall l i n, length l < i \/ length l < i + n -> remove_range V veq out (holds V l) i n = Err) /\
  (forall l i, length l <= i -> remove_at V veq out (holds V l) i = Err) /\
  (forall l i y, length l <= i -> set V veq out (holds V l) i y = Err) /\
  (forall l v, ~ In (Some v) l -> remove V veq out (holds V l) v = Ok (holds V l, [])) /\
  (forall m k, ~ In k (map fst m) -> d_remove K V keq veq out (dholds K V m) k = Ok (dholds K V m, [])) /\
  (forall m k, ~ In k (map fst m) -> g_remove K V keq veq out (gholds K V m) k = Ok (gholds K V m, [])) /\
  (forall m k v, ~ In k (map fst m) -> g_remove_value K V keq veq out (gholds K V m) k v = Ok (gholds K V m, [])).
Proof. exact nothing_dies. Qed.
Print Assumptions C89_nothing.

(* Removing objects 1, 2 and a null pointer from 9 1 2 null 3 4, where object 2 has a reference
   outside; then 1 and 2 from 1 2 3 4. *)
Example C89_range_example :
  (do (w, lg) <- remove_range nat Nat.eqb (fun v => v =? 2) (holds nat [Some 9; Some 1; Some 2; None; Some 3; Some 4]) 1 3;
   Ok (look nat w, saw nat (look nat) lg)) =
  Ok ([Ok (Some 9); Ok (Some 3); Ok (Some 4)],
      [(1, [Ok (Some 9); UB; Ok (Some 2); Ok None; Ok (Some 3); Ok (Some 4)])]) /\
  (do (w, lg) <- remove_range nat Nat.eqb (fun v => false) (holds nat [Some 1; Some 2; Some 3; Some 4]) 0 2;
   Ok (saw nat (look nat) lg)) =
  Ok [(1, [UB; Ok (Some 2); Ok (Some 3); Ok (Some 4)]); (2, [Ok (Some 3); UB; Ok None; Ok (Some 4)])].
Proof. split; reflexivity. Qed.

(* An object that is an element twice dies with the second. *)
Example C89_destroy_example :
  (do lg <- finish nat Nat.eqb (fun v => false) (holds nat [Some 1; Some 2; Some 1]); Ok (saw nat (look nat) lg)) =
  Ok [(2, [UB; UB; Ok (Some 1)]); (1, [UB; UB; UB])].
Proof. reflexivity. Qed.

Example C89_dictionary_example :
  NoDup (map fst [(1, Some 10); (2, Some 20); (3, Some 30); (4, Some 40)]) /\
  (do (d, lg) <- d_remove nat nat Nat.eqb Nat.eqb (fun v => false) (dholds nat nat [(1, Some 10); (2, Some 20); (3, Some 30); (4, Some 40)]) 2;
   Ok (dlook nat nat Nat.eqb d, saw nat (dlook nat nat Nat.eqb) lg)) =
  Ok ([(1, Ok (Some 10)); (3, Ok (Some 30)); (4, Ok (Some 40))],
      [(20, [(1, Ok (Some 10)); (3, UB); (4, Ok (Some 30))])]).
Proof. split; [repeat constructor; cbn; intuition discriminate|reflexivity]. Qed.

Example C89_group_example :
  (do (g, lg) <- g_remove_value nat nat Nat.eqb Nat.eqb (fun v => false) (gholds nat nat [(1, [Some 10]); (2, [Some 20])]) 2 20;
   Ok (glook nat nat Nat.eqb g, saw nat (glook nat nat Nat.eqb) lg)) =
  Ok ([(1, Ok [Ok (Some 10)])], [(20, [(1, Ok [Ok (Some 10)]); (2, Ok [])])]) /\
  (do (g, lg) <- g_clear nat nat Nat.eqb (fun v => false) (gholds nat nat [(1, [Some 10]); (2, [Some 20; Some 10])]);
   Ok (saw nat (glook nat nat Nat.eqb) lg)) =
  Ok [(20, [(1, UB); (2, Ok [UB; Ok (Some 10)])]); (10, [(1, UB); (2, Ok [UB; UB])])].
Proof. split; reflexivity. Qed.
