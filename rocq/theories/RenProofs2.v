(* Proofs about destructors that look at a dictionary or a group. *)
From Coq Require Import ZifyBool ZifyNat.
From Verif Require Import Base RenModel RenSpec RenProofs.
Open Scope nat_scope.

Section Ren.
Variables (K V : Type) (keq : K -> K -> bool) (veq : V -> V -> bool).
Hypothesis KEQ : forall a b, keq a b = true <-> a = b.
Hypothesis VEQ : forall a b, veq a b = true <-> a = b.

Local Notation refers := (refers V veq).
Local Notation dying := (dying V veq).
Local Notation look := (look V).
Local Notation saw := (saw V).

Lemma keq_refl : forall k, keq k k = true.
Proof. intros. apply KEQ. reflexivity. Qed.

Lemma keq_ne : forall a b, a <> b -> keq a b = false.
Proof. intros. destruct (keq a b) eqn:E; auto. apply KEQ in E. congruence. Qed.

Lemma saw_saw : forall A B C (f : A -> B) (h : B -> C) (l : list (V * A)), saw h (saw f l) = saw (fun x => h (f x)) l.
Proof. intros. unfold RenSpec.saw. rewrite map_map. reflexivity. Qed.

Lemma saw_dying : forall A B (f : A -> B) out keep d see, saw f (dying out keep d see) = dying out keep d (fun i => f (see i)).
Proof. intros. rewrite !dying_dy. apply dy_saw. Qed.

Lemma dying_ext : forall S out keep keep' d (see see' : nat -> S),
  (forall v, refers keep v = refers keep' v) -> (forall i, i < length d -> see i = see' i) -> dying out keep d see = dying out keep' d see'.
Proof.
  intros. rewrite !dying_dy. apply dy_ext.
  - intros. rewrite H. reflexivity.
  - intros i v Hi. apply H0. exact (nth_lt _ _ _ _ Hi).
Qed.

Lemma lookups : forall A (ks : list K) (f : nat -> A) e, NoDup ks ->
  map (fun k => (k, match index_of K keq ks k with Some i => f i | None => e end)) ks = combine ks (map f (seq 0 (length ks))).
Proof.
  induction ks as [|k ks IH]; intros f e H; [reflexivity|]. inversion H; subst.
  cbn [map length seq combine index_of]. rewrite keq_refl. f_equal.
  rewrite <- seq_shift, map_map. rewrite <- (IH (fun i => f (S i)) e H3). apply map_ext_in. intros a Ha.
  rewrite keq_ne by (intros ->; auto). f_equal. destruct (index_of K keq ks a); reflexivity.
Qed.

Lemma look_length : forall w, length (look w) = vcount w.
Proof. intros. unfold RenSpec.look. rewrite map_length, seq_length. reflexivity. Qed.

Lemma combine_app_r : forall A B (a : list A) (b c : list B), length a <= length b -> combine a (b ++ c) = combine a b.
Proof.
  induction a as [|x a IH]; intros; [reflexivity|]. destruct b; cbn in *; [lia|]. f_equal. apply IH. lia.
Qed.

Definition spread (ks : list K) (s : list (res (option V))) : list (K * res (option V)) :=
  combine ks (s ++ repeat Err (length ks - length s)).

Lemma dlook_spread : forall ks w, NoDup ks -> dlook K V keq (DView ks w) = spread ks (look w).
Proof.
  intros. unfold dlook, d_get. cbn [dkeys dvals]. rewrite lookups by auto. unfold spread. rewrite look_length.
  destruct (Nat.le_gt_cases (length ks) (vcount w)) as [L|L].
  - rewrite combine_app_r by (rewrite look_length; lia). unfold RenSpec.look.
    replace (vcount w) with (length ks + (vcount w - length ks)) by lia. rewrite seq_app, map_app.
    rewrite combine_app_r; [reflexivity|]. rewrite map_length, seq_length. lia.
  - f_equal. unfold RenSpec.look. replace (length ks) with (vcount w + (length ks - vcount w)) at 1 by lia.
    rewrite seq_app, map_app. f_equal. cbn [Nat.add].
    replace (length ks - vcount w) with (length (seq (vcount w) (length ks - vcount w))) at 2 by apply seq_length.
    assert (H1 : forall i, In i (seq (vcount w) (length ks - vcount w)) -> vcount w <= i) by (intros i Hi; apply in_seq in Hi; lia).
    revert H1. generalize (seq (vcount w) (length ks - vcount w)). induction l as [|i l IH]; intros H1; [reflexivity|].
    cbn [map length repeat]. f_equal; [|apply IH; intros; apply H1; right; auto].
    unfold get. assert (E : (i <? vcount w) = false) by (specialize (H1 i (or_introl eq_refl)); lia). rewrite E. reflexivity.
Qed.

Lemma saw_with_keys : forall ks l, NoDup ks ->
  saw (dlook K V keq) (with_keys K V ks l) = saw (spread ks) (saw look l).
Proof.
  intros. unfold RenSpec.saw, with_keys. rewrite !map_map. cbn [fst snd]. apply map_ext. intros [v w].
  cbn [fst snd]. rewrite dlook_spread by auto. reflexivity.
Qed.

Lemma index_of_app : forall (a b : list K) k, ~ In k a -> index_of K keq (a ++ k :: b) k = Some (length a).
Proof.
  induction a as [|x a IH]; intros; cbn [app index_of length].
  - rewrite keq_refl. reflexivity.
  - rewrite keq_ne by (intros ->; apply H; left; auto). rewrite IH by (intros Q; apply H; right; auto). reflexivity.
Qed.

Lemma erase_mid : forall A (a b : list A) x, erase (a ++ x :: b) (length a) = a ++ b.
Proof. induction a; intros; cbn; auto. f_equal. auto. Qed.

Lemma combine_right : forall (m : list (K * option V)) c, combine (map fst m) (map Ok (map snd m) ++ c) = right K V m.
Proof.
  induction m as [|[k x] m IH]; intros; [reflexivity|]. cbn. f_equal. apply IH.
Qed.

Lemma spread_right : forall m, spread (map fst m) (map Ok (map snd m)) = right K V m.
Proof. intros. apply combine_right. Qed.

Lemma combine_app' : forall A B (a1 a2 : list A) (b1 b2 : list B), length a1 = length b1 ->
  combine (a1 ++ a2) (b1 ++ b2) = combine a1 b1 ++ combine a2 b2.
Proof. induction a1; intros; destruct b1; cbn in *; try discriminate; auto. f_equal. apply IHa1. lia. Qed.

Lemma combine_right' : forall (m : list (K * option V)), combine (map fst m) (map Ok (map snd m)) = right K V m.
Proof. intros. rewrite <- (combine_right m []). rewrite app_nil_r. reflexivity. Qed.

Theorem d_remove_seen : forall out m1 k x m2, NoDup (map fst (m1 ++ (k, x) :: m2)) ->
  exists d lg, d_remove K V keq veq out (dholds K V (m1 ++ (k, x) :: m2)) k = Ok (d, lg) /\
    dlook K V keq d = right K V (m1 ++ m2) /\
    saw (dlook K V keq) lg = dying out (map snd (m1 ++ m2)) [x] (fun _ => right K V m1 ++ shifted K V m2).
Proof.
  intros out m1 k x m2 N. unfold d_remove, dholds. cbn [dkeys dvals]. rewrite map_app in N. cbn [map fst] in N.
  pose proof (NoDup_remove_1 _ _ _ N) as N1. pose proof (NoDup_remove_2 _ _ _ N) as N2.
  rewrite !map_app. cbn [map fst snd].
  rewrite index_of_app by (intros Q; apply N2; apply in_or_app; auto).
  rewrite erase_mid.
  destruct (remove_at_seen V veq out (map snd m1) x (map snd m2)) as (w & lg & A & _ & B & C & _ & _).
  rewrite !map_length in *. rewrite A. cbn [bind]. do 2 eexists. split; [reflexivity|]. split.
  - rewrite dlook_spread by auto. rewrite B. rewrite <- !map_app. apply spread_right.
  - rewrite saw_with_keys by auto. rewrite C, saw_dying. apply dying_ext; auto. intros i Hi.
    replace i with 0 by (cbn in Hi; lia). unfold during_remove, spread, shifted. destruct m2 as [|[k2 x2] m2].
    + cbn [map length Nat.ltb Nat.leb combine]. rewrite !app_nil_r. apply combine_right.
    + cbn [map length Nat.ltb Nat.leb fst snd firstn skipn repeat app].
      rewrite <- app_assoc. rewrite combine_app' by (rewrite !map_length; auto). rewrite combine_right'. f_equal.
      cbn [app combine]. f_equal. change (Ok x2 :: map Ok (map snd m2)) with (map Ok (map snd ((k2, x2) :: m2))).
      cbn [map]. apply (combine_app_r _ _ (map fst m2) (Ok x2 :: map Ok (map snd m2))). cbn [length]. rewrite !map_length. lia.
Qed.

Theorem d_set_seen : forall out m1 k x m2 y, NoDup (map fst (m1 ++ (k, x) :: m2)) ->
  exists lg, d_set K V keq veq out (dholds K V (m1 ++ (k, x) :: m2)) k y = Ok (dholds K V (m1 ++ (k, y) :: m2), lg) /\
    saw (dlook K V keq) lg = dying out (y :: map snd (m1 ++ m2)) [x] (fun _ => right K V m1 ++ (k, UB) :: right K V m2).
Proof.
  intros out m1 k x m2 y N. unfold d_set, dholds. cbn [dkeys dvals].
  pose proof N as N0. rewrite map_app in N. cbn [map fst] in N.
  pose proof (NoDup_remove_2 _ _ _ N) as N2.
  rewrite !map_app. cbn [map fst snd].
  rewrite index_of_app by (intros Q; apply N2; apply in_or_app; auto).
  destruct (set_seen V veq out (map snd m1) x (map snd m2) y) as (lg & A & B).
  rewrite !map_length in *. rewrite A. cbn [bind]. eexists. split; [reflexivity|].
  rewrite saw_with_keys by auto. rewrite B, saw_dying. apply dying_ext; auto. intros i _.
  unfold spread. rewrite <- app_assoc. rewrite combine_app' by (rewrite !map_length; auto). rewrite combine_right'. f_equal.
  cbn [app combine]. f_equal. apply combine_right.
Qed.

Theorem d_clear_seen : forall out m,
  exists lg, d_clear K V veq out (dholds K V m) = Ok (dholds K V [], lg) /\
    saw (dlook K V keq) lg = dying out [] (map snd m) (fun _ => []).
Proof.
  intros. unfold d_clear, dholds. cbn [dvals]. destruct (clear_seen V veq out (map snd m)) as (lg & A & B).
  rewrite A. cbn [bind]. eexists. split; [reflexivity|]. rewrite saw_with_keys by constructor. rewrite B, saw_dying. reflexivity.
Qed.

Theorem d_finish_seen : forall out m, NoDup (map fst m) ->
  exists lg, d_finish K V veq out (dholds K V m) = Ok lg /\
    saw (dlook K V keq) lg = dying out [] (map snd m) (fun i => map (fun p => (fst p, UB)) (firstn (S i) m) ++ right K V (skipn (S i) m)).
Proof.
  intros out m N. unfold d_finish, dholds. cbn [dvals dkeys]. destruct (finish_seen V veq out (map snd m)) as (lg & A & B).
  rewrite A. cbn [bind]. eexists. split; [reflexivity|]. rewrite saw_with_keys by auto. rewrite B, saw_dying.
  apply dying_ext; auto. intros i Hi. rewrite map_length in Hi. unfold spread, during_end.
  rewrite <- (firstn_skipn (S i) m) at 1. rewrite map_app, <- app_assoc.
  rewrite combine_app' by (rewrite map_length, firstn_length, repeat_length; lia). f_equal.
  - assert (L : length (firstn (S i) m) = S i) by (rewrite firstn_length; lia). rewrite <- L at 2.
    generalize (firstn (S i) m). induction l as [|p l IH]; [reflexivity|]. cbn. f_equal. exact IH.
  - rewrite skipn_map. apply combine_right.
Qed.

Theorem d_move_seen : forall out m m', NoDup (map fst m') ->
  exists lg, d_move K V veq out (dholds K V m) (dholds K V m') = Ok (dholds K V m', lg) /\
    saw (dlook K V keq) lg = dying out [] (map snd m)
      (fun i => combine (map fst m') (during_end V (map snd m) i ++ repeat Err (length m' - length m))).
Proof.
  intros out m m' N. unfold d_move, dholds. cbn [dvals dkeys].
  destruct (move_seen V veq out (map snd m) (map snd m')) as (lg & A & B).
  rewrite A. cbn [bind]. eexists. split; [reflexivity|]. rewrite saw_with_keys by auto. rewrite B, saw_dying.
  apply dying_ext; auto. intros i Hi. unfold spread. rewrite map_length in Hi.
  assert (L : length (during_end V (map snd m) i) = length m).
  { unfold during_end. rewrite app_length, repeat_length, map_length, skipn_length, map_length. lia. }
  rewrite L, map_length. reflexivity.
Qed.

(* Groups *)

Lemma glook_map : forall g, NoDup (map fst g) ->
  glook K V keq g = map (fun p => (fst p, match snd p with Some w => Ok (look w) | None => UB end)) g.
Proof.
  intros g N. unfold glook. apply map_ext_in. intros [k c] H. cbn [fst snd]. f_equal.
  assert (E : g_get K V keq g k = match c with Some w => Ok w | None => UB end).
  { induction g as [|[k' c'] g IH]; [destruct H|]. cbn [map fst] in N. inversion N; subst. cbn [g_get].
    destruct H as [H|H].
    - inversion H; subst. rewrite keq_refl. reflexivity.
    - rewrite keq_ne; [auto|]. intros ->. apply H2. apply in_map_iff. exists (k, c). auto. }
  rewrite E. destruct c; reflexivity.
Qed.

Lemma gholds_keys : forall m, map fst (gholds K V m) = map fst m.
Proof. intros. unfold gholds. rewrite map_map. reflexivity. Qed.

Lemma look_holds : forall l, look (holds V l) = map Ok l.
Proof. intros. unfold holds. rewrite look_all by (rewrite map_length; auto). apply read_full. Qed.

Lemma glook_holds : forall m, NoDup (map fst m) -> glook K V keq (gholds K V m) = gright K V m.
Proof.
  intros. rewrite glook_map by (rewrite gholds_keys; auto). unfold gholds, gright. rewrite map_map. apply map_ext.
  intros [k l]. cbn [fst snd]. rewrite look_holds. reflexivity.
Qed.

Lemma in_lists_refers : forall m v, in_lists K V veq (gholds K V m) v = refers (all_values K V m) v.
Proof.
  induction m as [|[k l] m IH]; intros; [reflexivity|]. cbn [gholds map in_lists existsb snd fst all_values flat_map holds vcells].
  rewrite refers_app. f_equal; [exact (cheld_full V veq l v)|apply IH].
Qed.

Lemma g_index_mid : forall m1 k c m2, ~ In k (map fst m1) ->
  g_index K V keq (gholds K V m1 ++ (k, c) :: m2) k = Some (length (gholds K V m1)).
Proof.
  induction m1 as [|[k' l'] m1 IH]; intros; cbn [gholds map app g_index fst snd length].
  - rewrite keq_refl. reflexivity.
  - cbn [map fst] in H. rewrite keq_ne by (intros ->; apply H; left; auto).
    fold (gholds K V m1). rewrite IH by (intros Q; apply H; right; auto). reflexivity.
Qed.

Lemma gholds_app : forall a b, gholds K V (a ++ b) = gholds K V a ++ gholds K V b.
Proof. intros. apply map_app. Qed.

Lemma finish_ext : forall out out' w, (forall v, out v = out' v) -> finish V veq out w = finish V veq out' w.
Proof.
  intros. unfold finish. assert (E : forall n w i, dtors V veq out w i n = dtors V veq out' w i n).
  { induction n as [|n IH]; intros; [reflexivity|]. cbn [dtors].
    assert (R : release V veq out w0 i = release V veq out' w0 i).
    { unfold release. destruct (nth_error (vcells w0) i) as [[|[v|]|]|]; auto. unfold last. rewrite H. reflexivity. }
    rewrite R. destruct (release V veq out' w0 i); auto. cbn [bind]. rewrite IH. reflexivity. }
  rewrite E. reflexivity.
Qed.

Lemma dying_out : forall S out out' keep keep' d (see : nat -> S),
  (forall v, out v || refers keep v = out' v || refers keep' v) -> dying out keep d see = dying out' keep' d see.
Proof. intros. rewrite !dying_dy. apply dy_ext; auto. Qed.

Theorem g_remove_seen : forall out m1 k l m2, NoDup (map fst (m1 ++ (k, l) :: m2)) ->
  exists lg, g_remove K V keq veq out (gholds K V (m1 ++ (k, l) :: m2)) k = Ok (gholds K V (m1 ++ m2), lg) /\
    saw (glook K V keq) lg = dying out (all_values K V (m1 ++ m2)) l (fun _ => gright K V (m1 ++ m2)).
Proof.
  intros out m1 k l m2 N. rewrite map_app in N. cbn [map fst] in N.
  pose proof (NoDup_remove_1 _ _ _ N) as N1. pose proof (NoDup_remove_2 _ _ _ N) as N2. rewrite <- map_app in N1.
  unfold g_remove. rewrite gholds_app. cbn [gholds map fst snd]. fold (gholds K V m2). 
  rewrite g_index_mid by (intros Q; apply N2; apply in_or_app; auto). rewrite nth_mid, erase_mid. rewrite <- gholds_app.
  destruct (finish_seen V veq (fun v => out v || in_lists K V veq (gholds K V (m1 ++ m2)) v) l) as (lg & A & B).
  rewrite A. cbn [bind]. eexists. split; [reflexivity|].
  assert (E : saw (glook K V keq) (map (fun p : V * view V => (fst p, gholds K V (m1 ++ m2))) lg) = saw (fun _ => gright K V (m1 ++ m2)) (saw look lg)).
  { unfold RenSpec.saw. rewrite !map_map. apply map_ext. intros. cbn [fst snd]. rewrite glook_holds by auto. reflexivity. }
  etransitivity; [exact E|]. rewrite B, saw_dying. apply dying_out. intros v. rewrite in_lists_refers. cbn. rewrite orb_false_r. reflexivity.
Qed.

Lemma index_in_app : forall l1 v rest i, ~ In (Some v) l1 -> index_in V veq (map Full l1 ++ Full (Some v) :: rest) v i = Some (i + length l1).
Proof.
  induction l1 as [|o l1 IH]; intros; cbn [map app index_in length].
  - replace (veq v v) with true by (symmetry; apply VEQ; auto). f_equal. lia.
  - assert (Q : index_in V veq (map Full l1 ++ Full (Some v) :: rest) v (S i) = Some (i + S (length l1)))
      by (rewrite IH; [f_equal; lia|intros Q; apply H; right; auto]).
    destruct o as [u|]; [|exact Q].
    destruct (veq u v) eqn:E; [|exact Q]. apply VEQ in E. subst. exfalso. apply H. left. reflexivity.
Qed.

Lemma remove_first : forall out l1 v l2, ~ In (Some v) l1 ->
  remove V veq out (holds V (l1 ++ Some v :: l2)) v = remove_at V veq out (holds V (l1 ++ Some v :: l2)) (length l1).
Proof.
  intros. unfold remove, holds at 1. cbn [vcells]. rewrite map_app. cbn [map]. rewrite index_in_app by auto.
  cbn [Nat.add]. unfold holds at 1. cbn [vcount].
  assert (E : (length l1 <? length (l1 ++ Some v :: l2)) = true) by (rewrite app_length; cbn [length]; lia).
  rewrite E. reflexivity.
Qed.

Lemma upd_mid' : forall m1 k c m2 c', upd (gholds K V m1 ++ (k, c) :: m2) (length (gholds K V m1)) c' = gholds K V m1 ++ c' :: m2.
Proof. intros. apply upd_mid. Qed.

Lemma glook_at : forall m1 k w m2, NoDup (map fst m1 ++ k :: map fst m2) ->
  glook K V keq (gholds K V m1 ++ (k, Some w) :: gholds K V m2) = gright K V m1 ++ (k, Ok (look w)) :: gright K V m2.
Proof.
  intros. rewrite glook_map.
  - rewrite map_app. cbn [map fst snd]. unfold gholds, gright. rewrite !map_map.
    f_equal; [|f_equal]; apply map_ext; intros [k' l']; cbn [fst snd]; rewrite look_holds; reflexivity.
  - rewrite map_app. cbn [map fst]. rewrite !gholds_keys. auto.
Qed.

Theorem g_remove_value_seen : forall out m1 k l1 v l2 m2,
  NoDup (map fst (m1 ++ (k, l1 ++ Some v :: l2) :: m2)) -> ~ In (Some v) l1 ->
  exists g lg, g_remove_value K V keq veq out (gholds K V (m1 ++ (k, l1 ++ Some v :: l2) :: m2)) k v = Ok (g, lg) /\
    glook K V keq g = gright K V (match l1 ++ l2 with [] => m1 ++ m2 | l => m1 ++ (k, l) :: m2 end) /\
    saw (glook K V keq) lg = dying out (all_values K V (m1 ++ m2) ++ l1 ++ l2) [Some v]
      (fun _ => gright K V m1 ++ (k, Ok (during_remove V l1 [Some v] l2 0)) :: gright K V m2).
Proof.
  intros out m1 k l1 v l2 m2 N F. rewrite map_app in N. cbn [map fst] in N.
  pose proof (NoDup_remove_1 _ _ _ N) as N1. pose proof (NoDup_remove_2 _ _ _ N) as N2. rewrite <- map_app in N1.
  unfold g_remove_value. rewrite gholds_app. cbn [gholds map fst snd]. fold (gholds K V m2).
  rewrite g_index_mid by (intros Q; apply N2; apply in_or_app; auto). rewrite nth_mid, erase_mid. rewrite <- gholds_app.
  rewrite remove_first by auto.
  destruct (remove_at_seen V veq (fun u => out u || in_lists K V veq (gholds K V (m1 ++ m2)) u) l1 (Some v) l2)
    as (w & lg & A & B & C & D & (n & E) & _).
  rewrite A. cbn [bind].
  assert (G : saw (glook K V keq) (map (fun p : V * view V => (fst p, upd (gholds K V m1 ++ (k, Some (holds V (l1 ++ Some v :: l2))) :: gholds K V m2)
      (length (gholds K V m1)) (k, Some (snd p)))) lg) =
    dying out (all_values K V (m1 ++ m2) ++ l1 ++ l2) [Some v]
      (fun _ => gright K V m1 ++ (k, Ok (during_remove V l1 [Some v] l2 0)) :: gright K V m2)).
  { assert (E1 : saw (glook K V keq) (map (fun p : V * view V => (fst p, upd (gholds K V m1 ++ (k, Some (holds V (l1 ++ Some v :: l2))) :: gholds K V m2)
        (length (gholds K V m1)) (k, Some (snd p)))) lg) =
      saw (fun s => gright K V m1 ++ (k, Ok s) :: gright K V m2) (saw look lg)).
    { unfold RenSpec.saw. rewrite !map_map. apply map_ext. intros [u w']. cbn [fst snd]. rewrite upd_mid', glook_at by auto. reflexivity. }
    rewrite E1, D, saw_dying.
    transitivity (dying (fun u => out u || in_lists K V veq (gholds K V (m1 ++ m2)) u) (l1 ++ l2) [Some v]
      (fun _ => gright K V m1 ++ (k, Ok (during_remove V l1 [Some v] l2 0)) :: gright K V m2)).
    - apply dying_ext; auto. intros i Hi. replace i with 0 by (cbn in Hi; lia). reflexivity.
    - apply dying_out. intros u. rewrite in_lists_refers, (refers_app V veq (all_values K V (m1 ++ m2))). rewrite orb_assoc. reflexivity. }
  destruct (vcount w =? 0) eqn:Z.
  - assert (L0 : l1 ++ l2 = []) by (destruct (l1 ++ l2); auto; rewrite B in Z; discriminate Z).
    unfold finish. replace (vcount w) with 0 by lia. cbn [dtors bind map]. rewrite app_nil_r.
    do 2 eexists. split; [reflexivity|]. split; [|exact G]. rewrite L0. rewrite glook_holds by auto. reflexivity.
  - do 2 eexists. split; [reflexivity|]. split; [|exact G]. rewrite upd_mid', glook_at by auto. rewrite C.
    destruct (l1 ++ l2) eqn:Q; [rewrite B in Z; discriminate Z|]. unfold gright. rewrite map_app. reflexivity.
Qed.

Lemma g_clear_from_seen : forall m2 m1 out, NoDup (map fst (m1 ++ m2)) ->
  exists lg, g_clear_from K V veq out (map (fun p => (fst p, None)) m1) (gholds K V m2) = Ok lg /\
    saw (glook K V keq) lg = during_clear K V veq out m1 m2.
Proof.
  induction m2 as [|[k l] m2 IH]; intros m1 out N.
  - exists []. split; reflexivity.
  - cbn [gholds map fst snd g_clear_from during_clear]. fold (gholds K V m2).
    destruct (finish_seen V veq (fun v => out v || in_lists K V veq (gholds K V m2) v) l) as (lg & A & B).
    rewrite A. cbn [bind].
    destruct (IH (m1 ++ [(k, l)]) out) as (lg' & A' & B'); [rewrite <- app_assoc; exact N|].
    rewrite map_app in A'. cbn [map fst] in A'. rewrite A'. cbn [bind]. eexists. split; [reflexivity|].
    unfold RenSpec.saw at 1. rewrite map_app. refine (f_equal2 (@app _) _ B').
    assert (E : map (fun p => (fst p, glook K V keq (snd p))) (map (fun p : V * view V =>
        (fst p, map (fun q : K * list (option V) => (fst q, None)) m1 ++ (k, Some (snd p)) :: gholds K V m2)) lg) =
      saw (fun s => map (fun p => (fst p, UB)) m1 ++ (k, Ok s) :: gright K V m2) (saw look lg)).
    { unfold RenSpec.saw. rewrite !map_map. apply map_ext. intros [u w]. cbn [fst snd]. f_equal. rewrite glook_map.
      - rewrite map_app. cbn [map fst snd]. rewrite map_map. cbn [fst snd]. f_equal. f_equal.
        unfold gholds, gright. rewrite map_map. apply map_ext. intros [k' l']. cbn [fst snd]. rewrite look_holds. reflexivity.
      - rewrite map_app. cbn [map fst]. rewrite map_map. cbn [fst]. rewrite gholds_keys.
        rewrite map_app in N. exact N. }
    etransitivity; [exact E|]. rewrite B, saw_dying. apply dying_out. intros v. rewrite in_lists_refers. cbn. rewrite orb_false_r. reflexivity.
Qed.

Theorem g_clear_seen : forall out m, NoDup (map fst m) ->
  exists lg, g_clear K V veq out (gholds K V m) = Ok ([], lg) /\ saw (glook K V keq) lg = during_clear K V veq out [] m.
Proof.
  intros out m N. destruct (g_clear_from_seen m [] out N) as (lg & A & B). exists lg. unfold g_clear. cbn [map] in A.
  rewrite A. auto.
Qed.

(* Nothing to remove *)

Lemma index_of_none : forall ks k, ~ In k ks -> index_of K keq ks k = None.
Proof.
  induction ks as [|k' ks IH]; intros; [reflexivity|]. cbn [index_of]. rewrite keq_ne by (intros ->; apply H; left; auto).
  rewrite IH by (intros Q; apply H; right; auto). reflexivity.
Qed.

Lemma g_index_none : forall g k, ~ In k (map fst g) -> g_index K V keq g k = None.
Proof.
  induction g as [|[k' c] g IH]; intros; [reflexivity|]. cbn [g_index]. cbn [map fst] in H.
  rewrite keq_ne by (intros ->; apply H; left; auto).
  rewrite IH by (intros Q; apply H; right; auto). reflexivity.
Qed.

Lemma index_in_none : forall l v i, ~ In (Some v) l -> index_in V veq (map Full l) v i = None.
Proof.
  induction l as [|o l IH]; intros; [reflexivity|]. cbn [map index_in].
  assert (Q : index_in V veq (map Full l) v (S i) = None) by (apply IH; intros Q; apply H; right; auto).
  destruct o as [u|]; [|exact Q]. destruct (veq u v) eqn:E; [|exact Q]. apply VEQ in E. subst. exfalso. apply H. left. reflexivity.
Qed.

Theorem nothing_dies : forall out,
  (forall l i n, length l < i \/ length l < i + n -> remove_range V veq out (holds V l) i n = Err) /\
  (forall l i, length l <= i -> remove_at V veq out (holds V l) i = Err) /\
  (forall l i y, length l <= i -> set V veq out (holds V l) i y = Err) /\
  (forall l v, ~ In (Some v) l -> remove V veq out (holds V l) v = Ok (holds V l, [])) /\
  (forall m k, ~ In k (map fst m) -> d_remove K V keq veq out (dholds K V m) k = Ok (dholds K V m, [])) /\
  (forall m k, ~ In k (map fst m) -> g_remove K V keq veq out (gholds K V m) k = Ok (gholds K V m, [])) /\
  (forall m k v, ~ In k (map fst m) -> g_remove_value K V keq veq out (gholds K V m) k v = Ok (gholds K V m, [])).
Proof.
  intros out. split; [|split; [|split; [|split; [|split; [|split]]]]].
  - intros l i n H. unfold remove_range, holds. cbn [vcount]. destruct (i <=? length l) eqn:E1; cbn [check]; auto.
    destruct (i + n <=? length l) eqn:E2; cbn [check]; auto. lia.
  - intros l i H. unfold remove_at, holds. cbn [vcount]. destruct (i <? length l) eqn:E1; cbn [check]; auto. lia.
  - intros l i y H. unfold set, holds. cbn [vcount]. destruct (i <? length l) eqn:E1; cbn [check]; auto. lia.
  - intros l v H. unfold remove. cbn [holds vcells]. rewrite index_in_none by auto. reflexivity.
  - intros m k H. unfold d_remove. cbn [dholds dkeys]. rewrite index_of_none by auto. reflexivity.
  - intros m k H. unfold g_remove. rewrite g_index_none by (rewrite gholds_keys; auto). reflexivity.
  - intros m k v H. unfold g_remove_value. rewrite g_index_none by (rewrite gholds_keys; auto). reflexivity.
Qed.

(* List::Remove takes the first equal element. *)
Theorem remove_seen : forall out l1 v l2, ~ In (Some v) l1 ->
  exists w lg, remove V veq out (holds V (l1 ++ Some v :: l2)) v = Ok (w, lg) /\
    look w = map Ok (l1 ++ l2) /\ saw look lg = dying out (l1 ++ l2) [Some v] (during_remove V l1 [Some v] l2).
Proof.
  intros. rewrite remove_first by auto. destruct (remove_at_seen V veq out l1 (Some v) l2) as (w & lg & A & _ & B & C & _ & _).
  exists w, lg. auto.
Qed.

(* Before or after *)

Lemma dying_in : forall S out keep d (see : nat -> S) p, In p (dying out keep d see) ->
  exists i, nth_error d i = Some (Some (fst p)) /\ snd p = see i.
Proof.
  intros. unfold RenSpec.dying in H. apply in_flat_map in H. destruct H as (i & _ & H).
  destruct (nth_error d i) as [[v|]|] eqn:E; try destruct H. exists i.
  destruct (out v || refers keep v || refers (skipn (Datatypes.S i) d) v); [destruct H|]. destruct H as [<-|[]]. auto.
Qed.

Theorem remove_at_before_or_after : forall out l1 x l2,
  exists w lg, remove_at V veq out (holds V (l1 ++ x :: l2)) (length l1) = Ok (w, lg) /\
    look w = map Ok (l1 ++ l2) /\ saw look lg = dying out (l1 ++ l2) [x] (during_remove V l1 [x] l2) /\
    before_or_after V (l1 ++ x :: l2) (l1 ++ l2) (saw look lg).
Proof.
  intros. destruct (remove_at_seen V veq out l1 x l2) as (w & lg & A & _ & B & C & _ & _). exists w, lg.
  split; [exact A|]. split; [exact B|]. split; [exact C|]. unfold before_or_after. rewrite C. apply Forall_forall. intros p Hp.
  apply dying_in in Hp. destruct Hp as (i & Hi & ->). assert (i = 0) as -> by (apply nth_lt in Hi; cbn in Hi; lia).
  cbn in Hi. inversion Hi; subst. unfold during_remove. destruct l2 as [|y l2].
  - right. left. cbn [length Nat.ltb Nat.leb map]. rewrite map_app. reflexivity.
  - left. right. exists l1, (y :: l2). split; [reflexivity|]. reflexivity.
Qed.

Theorem set_before_or_after : forall out l1 x l2 y,
  exists lg, set V veq out (holds V (l1 ++ x :: l2)) (length l1) y = Ok (holds V (l1 ++ y :: l2), lg) /\
    before_or_after V (l1 ++ x :: l2) (l1 ++ y :: l2) (saw look lg).
Proof.
  intros. destruct (set_seen V veq out l1 x l2 y) as (lg & A & C). exists lg.
  split; [exact A|]. unfold before_or_after. rewrite C. apply Forall_forall. intros p Hp.
  apply dying_in in Hp. destruct Hp as (i & Hi & ->). assert (i = 0) as -> by (apply nth_lt in Hi; cbn in Hi; lia).
  cbn in Hi. inversion Hi; subst. left. right. exists l1, l2. auto.
Qed.

Theorem clear_before_or_after : forall out l,
  exists lg, clear V veq out (holds V l) = Ok (holds V [], lg) /\ before_or_after V l [] (saw look lg).
Proof.
  intros. destruct (clear_seen V veq out l) as (lg & A & C). exists lg.
  split; [exact A|]. unfold before_or_after. rewrite C. apply Forall_forall. intros p Hp.
  apply dying_in in Hp. destruct Hp as (i & Hi & ->). right. left. reflexivity.
Qed.

(* Removing a key that is not the last two: the key after next reads a wrong value. *)
Theorem d_remove_wrong : forall out m1 k v k1 x1 k2 x2 m2,
  NoDup (map fst (m1 ++ (k, Some v) :: (k1, x1) :: (k2, x2) :: m2)) ->
  out v = false -> ~ In (Some v) (map snd (m1 ++ (k1, x1) :: (k2, x2) :: m2)) ->
  exists d lg s, d_remove K V keq veq out (dholds K V (m1 ++ (k, Some v) :: (k1, x1) :: (k2, x2) :: m2)) k = Ok (d, lg) /\
    saw (dlook K V keq) lg = [(v, s)] /\ In (k2, Ok x1) s /\ In (k1, UB) s.
Proof.
  intros out m1 k v k1 x1 k2 x2 m2 N O F.
  destruct (d_remove_seen out m1 k (Some v) ((k1, x1) :: (k2, x2) :: m2) N) as (d & lg & A & _ & B).
  exists d, lg, (right K V m1 ++ shifted K V ((k1, x1) :: (k2, x2) :: m2)). split; [exact A|].
  split.
  - rewrite B. unfold RenSpec.dying. cbn [length seq flat_map nth_error skipn]. rewrite O.
    assert (R : refers (map snd (m1 ++ (k1, x1) :: (k2, x2) :: m2)) v = false).
    { destruct (refers (map snd (m1 ++ (k1, x1) :: (k2, x2) :: m2)) v) eqn:E; auto. exfalso. apply F.
      unfold RenSpec.refers in E. apply existsb_exists in E. destruct E as ([u|] & H1 & H2); [|discriminate H2].
      apply VEQ in H2. subst. exact H1. }
    rewrite R. reflexivity.
  - unfold shifted. cbn [map fst snd combine]. split; apply in_or_app; right; cbn; auto.
Qed.

End Ren.

Theorem remove_range_refuted : ~ (forall out l1 d l2,
  exists w lg, remove_range nat Nat.eqb out (holds nat (l1 ++ d ++ l2)) (length l1) (length d) = Ok (w, lg) /\
    before_or_after nat (l1 ++ d ++ l2) (l1 ++ l2) (saw nat (look nat) lg)).
Proof.
  intros H. destruct (H (fun _ => false) [] [Some 1; Some 2] [Some 3; Some 4]) as (w & lg & A & B).
  vm_compute in A. inversion A; subst. vm_compute in B. inversion B as [|? ? _ B2]; subst. inversion B2 as [|? ? C _]; subst.
  unfold but_one in C. cbn [fst snd map app] in C.
  destruct C as [[C|(a & b & C & D)]|[C|(a & b & C & D)]]; try discriminate C.
  - destruct a as [|x a]; [discriminate C|]. cbn in C, D. inversion D. inversion C. congruence.
  - destruct a as [|x a]; [discriminate C|]. cbn in C, D. inversion D. inversion C. destruct a as [|y a]; cbn in *; congruence.
Qed.

Theorem resize_refuted : ~ (forall out l1 d,
  exists w lg, resize nat Nat.eqb out (holds nat (l1 ++ d)) (length l1) = Ok (w, lg) /\
    before_or_after nat (l1 ++ d) l1 (saw nat (look nat) lg)).
Proof.
  intros H. destruct (H (fun _ => false) [Some 1] [Some 2]) as (w & lg & A & B).
  vm_compute in A. inversion A; subst. vm_compute in B. inversion B as [|? ? C _]; subst.
  unfold but_one in C. cbn [fst snd map app] in C.
  destruct C as [[C|(a & b & C & D)]|[C|(a & b & C & D)]]; try discriminate C.
  - destruct a as [|x a]; [discriminate C|]. discriminate D.
  - destruct a as [|x a]; [discriminate C|]. discriminate D.
Qed.
