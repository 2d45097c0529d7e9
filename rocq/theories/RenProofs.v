(* Proofs about destructors that look at the collection. *)
From Coq Require Import ZifyBool ZifyNat.
From Verif Require Import Base RenModel RenSpec.
Open Scope nat_scope.

Section Ren.
Variables (K V : Type) (keq : K -> K -> bool) (veq : V -> V -> bool).

Local Notation refers := (refers V veq).
Local Notation dying := (dying V veq).

Definition read (c : cell V) : res (option V) := match c with Full o => Ok o | _ => UB end.

Lemma nth_mid : forall A (a b : list A) x, nth_error (a ++ x :: b) (length a) = Some x.
Proof. induction a; intros; cbn; auto. Qed.

Lemma upd_mid : forall A (a b : list A) x y, upd (a ++ x :: b) (length a) y = a ++ y :: b.
Proof. induction a; intros; cbn; auto. f_equal. apply IHa. Qed.

Lemma look_view : forall cs rest, look V (View (length cs) (cs ++ rest)) = map read cs.
Proof.
  intros. unfold look. cbn [vcount].
  assert (H : forall cs pre, map (get V (View (length pre + length cs) (pre ++ cs ++ rest))) (seq (length pre) (length cs)) = map read cs).
  { clear cs. induction cs as [|c cs IH]; intros pre; [reflexivity|].
    cbn [length seq map]. f_equal.
    - unfold get. cbn [vcount vcells app]. rewrite nth_mid.
      assert (E : (length pre <? length pre + S (length cs)) = true) by lia. rewrite E. cbn [check]. reflexivity.
    - specialize (IH (pre ++ [c])). rewrite app_length in IH. cbn [length] in IH.
      rewrite <- app_assoc in IH. cbn [app] in IH.
      replace (length pre + 1 + length cs) with (length pre + S (length cs)) in IH by lia.
      replace (length pre + 1) with (S (length pre)) in IH by lia. exact IH. }
  exact (H cs []).
Qed.

Lemma look_view' : forall n cs rest, n = length cs -> look V (View n (cs ++ rest)) = map read cs.
Proof. intros. subst. apply look_view. Qed.

Lemma look_all : forall n cs, n = length cs -> look V (View n cs) = map read cs.
Proof. intros. rewrite <- (app_nil_r cs) at 1. apply look_view'; auto. Qed.

Lemma read_full : forall l : list (option V), map read (map Full l) = map Ok l.
Proof. intros. rewrite map_map. reflexivity. Qed.

Lemma map_repeat' : forall A B (f : A -> B) x n, map f (repeat x n) = repeat (f x) n.
Proof. induction n; cbn; congruence. Qed.

Definition cheld (cs : list (cell V)) (v : V) : bool :=
  existsb (fun c => match c with Full (Some u) => veq u v | _ => false end) cs.

Lemma cheld_app : forall a b v, cheld (a ++ b) v = cheld a v || cheld b v.
Proof. intros. apply existsb_app. Qed.

Lemma cheld_full : forall l v, cheld (map Full l) v = refers l v.
Proof. induction l as [|o l IH]; intros; [reflexivity|]. cbn. unfold cheld in IH. rewrite IH. destruct o; reflexivity. Qed.

Lemma cheld_gone : forall n v, cheld (repeat Gone n) v = false.
Proof. induction n; cbn; auto. Qed.

Lemma refers_app : forall a b v, refers (a ++ b) v = refers a v || refers b v.
Proof. intros. apply existsb_app. Qed.

Lemma refers_none : forall n v, refers (repeat None n) v = false.
Proof. induction n; cbn; auto. Qed.

(* The objects that die, with what is seen depending on the object as well. *)
Definition dy {W : Type} (b : V -> bool) (d : list (option V)) (see : nat -> V -> W) : list (V * W) :=
  flat_map (fun i => match nth_error d i with
                     | Some (Some v) => if b v || refers (skipn (S i) d) v then [] else [(v, see i v)]
                     | _ => []
                     end) (seq 0 (length d)).

Lemma dying_dy : forall S out keep d (see : nat -> S),
  dying out keep d see = dy (fun v => out v || refers keep v) d (fun i _ => see i).
Proof. reflexivity. Qed.

Lemma dy_cons : forall W b x d (see : nat -> V -> W),
  dy b (x :: d) see =
  match x with Some v => if b v || refers d v then [] else [(v, see 0 v)] | None => [] end ++
  dy b d (fun i => see (S i)).
Proof.
  intros. unfold dy at 1. cbn [length seq flat_map nth_error]. f_equal.
  rewrite <- seq_shift. rewrite flat_map_concat_map, map_map, <- flat_map_concat_map. reflexivity.
Qed.

Lemma dy_ext : forall W b b' d (see see' : nat -> V -> W),
  (forall v, b v = b' v) -> (forall i v, nth_error d i = Some (Some v) -> see i v = see' i v) ->
  dy b d see = dy b' d see'.
Proof.
  intros. unfold dy. apply flat_map_ext. intros i. destruct (nth_error d i) as [[v|]|] eqn:E; auto.
  rewrite H. rewrite (H0 i v E). reflexivity.
Qed.

Lemma dy_saw : forall W W' (f : W -> W') b d (see : nat -> V -> W), saw V f (dy b d see) = dy b d (fun i v => f (see i v)).
Proof.
  intros. unfold saw, dy. rewrite flat_map_concat_map, concat_map, map_map, <- flat_map_concat_map.
  apply flat_map_ext. intros i. destruct (nth_error d i) as [[v|]|]; auto. destruct (_ || _); auto.
Qed.

Lemma dy_nones : forall W b d n (see : nat -> V -> W), dy b (d ++ repeat None n) see = dy b d see.
Proof.
  induction d as [|x d IH]; intros.
  - cbn [app]. revert see. induction n as [|n IHn]; intros; [reflexivity|]. cbn [repeat]. rewrite dy_cons. cbn [app]. exact (IHn (fun i => see (S i))).
  - cbn [app]. rewrite !dy_cons, IH. f_equal. destruct x; auto. rewrite refers_app, refers_none, orb_false_r. reflexivity.
Qed.

Lemma release_at : forall out n a o b,
  release V veq out (View n (a ++ Full o :: b)) (length a) =
  Ok match o with Some v => if (out v || (cheld a v || cheld b v)) then [] else [(v, View n (a ++ Dying v :: b))] | None => [] end.
Proof.
  intros. unfold release. cbn [vcells]. rewrite nth_mid. destruct o as [v|]; [|reflexivity].
  unfold put, last. cbn [vcells vcount]. rewrite upd_mid. fold (cheld (a ++ Dying v :: b) v).
  rewrite cheld_app. cbn [cheld existsb]. fold (cheld b v). cbn [orb].
  destruct (out v), (cheld a v), (cheld b v); reflexivity.
Qed.

Lemma dtors_dy : forall xs out n P,
  dtors V veq out (View n (P ++ map Full xs)) (length P) (length xs) =
  Ok (View n (P ++ repeat Gone (length xs)),
      dy (fun v => out v || cheld P v) xs (fun i v => View n (P ++ repeat Gone i ++ Dying v :: map Full (skipn (S i) xs)))).
Proof.
  induction xs as [|x xs IH]; intros; [reflexivity|].
  cbn [length dtors map]. rewrite release_at. cbn [bind]. unfold put. cbn [vcells vcount]. rewrite upd_mid.
  specialize (IH out n (P ++ [Gone])). rewrite app_length in IH. cbn [length] in IH.
  replace (length P + 1) with (S (length P)) in IH by lia. rewrite <- !app_assoc in IH. cbn [app] in IH.
  rewrite IH. cbn [bind]. f_equal. f_equal. rewrite dy_cons. f_equal.
  - destruct x as [v|]; auto. rewrite cheld_full. cbn [repeat app skipn]. rewrite orb_assoc. reflexivity.
  - apply dy_ext.
    + intros v. rewrite cheld_app. cbn. rewrite orb_false_r. reflexivity.
    + intros i v _. cbn [repeat skipn]. rewrite <- app_assoc. reflexivity.
Qed.

Definition run2 out w dst src m c' n : res (view V * log V (view V)) :=
  do (w1, l1) <- move_down V veq out w dst src m;
  do (w3, l2) <- dtors V veq out (View c' (vcells w1)) c' n;
  Ok (w3, l1 ++ l2).

Lemma run2_S : forall out w dst src m c' n,
  run2 out w dst src (S m) c' n =
  do (w1, l1) <- move_assign V veq out w dst src;
  do (w2, l2) <- run2 out w1 (S dst) (S src) m c' n;
  Ok (w2, l1 ++ l2).
Proof.
  intros. unfold run2. cbn [move_down]. destruct (move_assign V veq out w dst src) as [[w1 l1]| | |]; auto. cbn [bind].
  destruct (move_down V veq out w1 (S dst) (S src) m) as [[w2 l2]| | |]; auto. cbn [bind].
  destruct (dtors V veq out (View c' (vcells w2)) c' n) as [[w3 l3]| | |]; auto. cbn [bind]. rewrite app_assoc. reflexivity.
Qed.

Lemma move_assign_at : forall out n a x b y c,
  move_assign V veq out (View n (a ++ Full x :: b ++ Full y :: c)) (length a) (length a + S (length b)) =
  Ok (View n (a ++ Full y :: b ++ Full None :: c),
      match x with Some v => if (out v || (cheld a v || cheld (b ++ Full y :: c) v)) then []
                             else [(v, View n (a ++ Dying v :: b ++ Full y :: c))] | None => [] end).
Proof.
  intros. unfold move_assign. rewrite release_at. cbn [bind vcells].
  replace (a ++ Full x :: b ++ Full y :: c) with ((a ++ Full x :: b) ++ Full y :: c) at 1 by (rewrite <- app_assoc; reflexivity).
  replace (length a + S (length b)) with (length (a ++ Full x :: b)) by (rewrite app_length; reflexivity).
  rewrite nth_mid. unfold put. cbn [vcells vcount]. rewrite upd_mid.
  replace (length (a ++ Full x :: b)) with (length (a ++ Full y :: b)) by (rewrite !app_length; reflexivity).
  replace (a ++ Full y :: b ++ Full y :: c) with ((a ++ Full y :: b) ++ Full y :: c) by (rewrite <- app_assoc; reflexivity).
  rewrite upd_mid. rewrite <- app_assoc. reflexivity.
Qed.

Definition see_remove (c c' : nat) (pre d : list (option V)) (j : nat) (l2 : list (option V)) (i : nat) (v : V) : view V :=
  if i <? length l2
  then View c (map Full pre ++ map Full (firstn i l2) ++ Dying v :: map Full (skipn (S i) d) ++ repeat (Full None) (j + i) ++ map Full (skipn i l2))
  else View c' (map Full pre ++ map Full l2 ++ repeat Gone (i - length l2) ++ Dying v :: map Full (skipn (S i) d) ++ repeat (Full None) (j + length l2)).

Lemma repeat_snoc : forall A (x : A) n, repeat x n ++ [x] = repeat x (S n).
Proof. induction n; cbn; auto. f_equal. exact IHn. Qed.

Lemma run2_dy : forall l2 out d j pre c c', 1 <= length d + j -> c' = length pre + length l2 ->
  run2 out (View c (map Full (pre ++ d ++ repeat None j ++ l2))) (length pre) (length pre + (length d + j)) (length l2) c' (length d + j) =
  Ok (View c' (map Full (pre ++ l2) ++ repeat Gone (length d + j)),
      dy (fun v => out v || (refers pre v || refers l2 v)) d (see_remove c c' pre d j l2)).
Proof.
  induction l2 as [|y l2 IH]; intros out d j pre c c' H1 Hc.
  - unfold run2. cbn [length move_down bind vcells]. rewrite !app_nil_r. subst c'. cbn [length]. rewrite Nat.add_0_r.
    pose proof (dtors_dy (d ++ repeat None j) out (length pre) (map Full pre)) as E.
    rewrite app_length, repeat_length, map_length in E.
    rewrite !map_app. rewrite map_app in E. rewrite E. cbn [bind app]. f_equal. f_equal.
    rewrite dy_nones. apply dy_ext.
    + intros v. rewrite cheld_full. cbn. rewrite orb_false_r. reflexivity.
    + intros i v Hi. unfold see_remove. cbn [length Nat.ltb Nat.leb map app]. 
      replace (j + 0) with j by lia. rewrite Nat.sub_0_r. rewrite skipn_app.
      assert (Li : i < length d) by (apply nth_error_Some; congruence).
      replace (S i - length d) with 0 by lia. cbn [skipn]. rewrite map_app, map_repeat'. reflexivity.
  - cbn [length]. rewrite run2_S. destruct d as [|x d].
    + destruct j as [|j]; [cbn in H1; lia|]. cbn [length app Nat.add repeat].
      replace (map Full (pre ++ None :: repeat None j ++ y :: l2))
        with (map Full pre ++ @Full V None :: map Full (repeat None j) ++ Full y :: map Full l2)
        by (rewrite !map_app; cbn [map]; rewrite map_app; reflexivity).
      pose proof (move_assign_at out c (map Full pre) None (map Full (repeat None j)) y (map Full l2)) as E.
      rewrite !map_length, repeat_length in E. rewrite E. cbn [bind app].
      specialize (IH out [] (S j) (pre ++ [y]) c c'). rewrite app_length in IH. cbn [length Nat.add app] in IH.
      rewrite <- !app_assoc in IH. cbn [app] in IH.
      replace (length pre + 1) with (S (length pre)) in IH by lia.
      replace (map Full pre ++ Full y :: map Full (repeat None j) ++ Full None :: map Full l2)
        with (map Full (pre ++ y :: repeat None (S j) ++ l2)).
      2:{ rewrite <- repeat_snoc. rewrite <- app_assoc, !map_app. cbn [map app]. rewrite map_app. reflexivity. }
      cbn [Nat.add] in IH. rewrite IH; [reflexivity|lia|subst c'; cbn [length]; lia].
    + cbn [length app Nat.add].
      replace (map Full (pre ++ x :: d ++ repeat None j ++ y :: l2))
        with (map Full pre ++ @Full V x :: map Full (d ++ repeat None j) ++ Full y :: map Full l2)
        by (rewrite (app_assoc d), !map_app; cbn [map]; rewrite !map_app; reflexivity).
      pose proof (move_assign_at out c (map Full pre) x (map Full (d ++ repeat None j)) y (map Full l2)) as E.
      rewrite !map_length, app_length, repeat_length in E. rewrite E. cbn [bind].
      specialize (IH out d (S j) (pre ++ [y]) c c'). rewrite app_length in IH. cbn [length] in IH.
      rewrite <- !app_assoc in IH. cbn [app] in IH.
      replace (length pre + 1 + (length d + S j)) with (S (length pre + S (length d + j))) in IH by lia.
      replace (length pre + 1) with (S (length pre)) in IH by lia.
      replace (length d + S j) with (S (length d + j)) in IH by lia.
      replace (map Full pre ++ Full y :: map Full (d ++ repeat None j) ++ Full None :: map Full l2)
        with (map Full (pre ++ y :: d ++ repeat None (S j) ++ l2)).
      2:{ rewrite <- repeat_snoc. rewrite <- app_assoc, !map_app. cbn [map app]. rewrite !map_app. rewrite <- app_assoc. reflexivity. }
      rewrite IH; [|lia|subst c'; cbn [length]; lia]. cbn [bind]. f_equal. f_equal. rewrite dy_cons. f_equal.
      * destruct x as [v|]; auto.
        assert (Eb : out v || (cheld (map Full pre) v || cheld (map Full (d ++ repeat None j) ++ Full y :: map Full l2) v)
                   = out v || (refers pre v || refers (y :: l2) v) || refers d v).
        { rewrite cheld_app, !cheld_full. replace (cheld (Full y :: map Full l2) v) with (refers (y :: l2) v)
            by (symmetry; apply (cheld_full (y :: l2))).
          rewrite refers_app, refers_none, orb_false_r.
          destruct (out v), (refers pre v), (refers d v), (refers (y :: l2) v); reflexivity. }
        rewrite Eb. unfold see_remove. cbn [length Nat.ltb Nat.leb firstn skipn map app]. rewrite Nat.add_0_r.
        rewrite map_app, map_repeat', <- app_assoc. reflexivity.
      * apply dy_ext.
        -- intros v. rewrite refers_app. cbn. rewrite orb_false_r, !orb_assoc. reflexivity.
        -- intros i v _. unfold see_remove. cbn [length skipn firstn].
           replace (S i <? S (length l2)) with (i <? length l2) by (destruct (i <? length l2) eqn:Q; lia).
           rewrite map_app, <- !app_assoc. cbn [map app]. rewrite Nat.sub_succ.
           replace (j + S i) with (S j + i) by lia. replace (j + S (length l2)) with (S j + length l2) by lia. reflexivity.
Qed.

(* What is left after an operation: the elements, and destroyed places behind. *)
Definition rests (w : view V) (l : list (option V)) : Prop :=
  vcount w = length l /\ look V w = map Ok l.

Lemma rests_intro : forall c l n, c = length l -> rests (View c (map Full l ++ repeat Gone n)) l.
Proof.
  intros. split; cbn [vcount]; auto. rewrite look_view'; [apply read_full|]. rewrite map_length. auto.
Qed.

Lemma look_see_remove : forall l1 d l2 i v, i < length d ->
  look V (see_remove (length (l1 ++ d ++ l2)) (length l1 + length l2) l1 d 0 l2 i v) = during_remove V l1 d l2 i.
Proof.
  intros. unfold see_remove, during_remove. destruct (i <? length l2) eqn:E.
  - rewrite look_all.
    + rewrite !map_app. cbn [map]. rewrite !map_app, !read_full, map_repeat'. cbn [read Nat.add]. reflexivity.
    + rewrite !app_length. cbn [length]. rewrite !app_length, !map_length, repeat_length, firstn_length, !skipn_length. lia.
  - rewrite (app_assoc (map Full l1)). rewrite look_view'.
    + rewrite map_app, !read_full. reflexivity.
    + rewrite app_length, !map_length. reflexivity.
Qed.

Lemma nth_lt : forall A (l : list A) i x, nth_error l i = Some x -> i < length l.
Proof. intros. apply nth_error_Some. congruence. Qed.

Theorem remove_range_seen : forall out l1 d l2,
  exists w lg, remove_range V veq out (holds V (l1 ++ d ++ l2)) (length l1) (length d) = Ok (w, lg) /\
    vcount w = length (l1 ++ l2) /\ look V w = map Ok (l1 ++ l2) /\
    saw V (look V) lg = dying out (l1 ++ l2) d (during_remove V l1 d l2).
Proof.
  intros. unfold remove_range, holds. cbn [vcount].
  assert (B1 : (length l1 <=? length (l1 ++ d ++ l2)) = true) by (rewrite !app_length; lia).
  assert (B2 : (length l1 + length d <=? length (l1 ++ d ++ l2)) = true) by (rewrite !app_length; lia).
  rewrite B1, B2. cbn [check].
  replace (length (l1 ++ d ++ l2) - length l1 - length d) with (length l2) by (rewrite !app_length; lia).
  replace (length (l1 ++ d ++ l2) - length d) with (length l1 + length l2) by (rewrite !app_length; lia).
  destruct (length d =? 0) eqn:Z.
  - destruct d; [|discriminate Z]. cbn [length bind app dtors vcells]. do 2 eexists. split; [reflexivity|].
    cbn [vcount]. rewrite app_length. split; [auto|]. split; [|reflexivity].
    rewrite look_all; [apply read_full|]. rewrite map_length, app_length. reflexivity.
  - pose proof (run2_dy l2 out d 0 l1 (length (l1 ++ d ++ l2)) (length l1 + length l2)) as R.
    cbn [repeat app] in R. rewrite Nat.add_0_r in R. unfold run2 in R.
    do 2 eexists. split; [apply R; [lia|reflexivity]|].
    destruct (rests_intro (length l1 + length l2) (l1 ++ l2) (length d)) as [A B]; [rewrite app_length; auto|].
    split; [exact A|]. split; [exact B|]. rewrite dy_saw, dying_dy. apply dy_ext.
    + intros v. rewrite refers_app. reflexivity.
    + intros i v Hi. apply look_see_remove. exact (nth_lt _ _ _ _ Hi).
Qed.

Lemma remove_at_seen : forall out l1 x l2,
  exists w lg, remove_at V veq out (holds V (l1 ++ x :: l2)) (length l1) = Ok (w, lg) /\
    vcount w = length (l1 ++ l2) /\ look V w = map Ok (l1 ++ l2) /\
    saw V (look V) lg = dying out (l1 ++ l2) [x] (during_remove V l1 [x] l2) /\
    (exists n, w = View (length (l1 ++ l2)) (map Full (l1 ++ l2) ++ repeat Gone n)) /\
    lg = dy (fun v => out v || (refers l1 v || refers l2 v)) [x] (see_remove (length (l1 ++ x :: l2)) (length l1 + length l2) l1 [x] 0 l2).
Proof.
  intros. unfold remove_at, holds. cbn [vcount].
  assert (B1 : (length l1 <? length (l1 ++ x :: l2)) = true) by (rewrite !app_length; cbn [length]; lia).
  rewrite B1. cbn [check].
  replace (length (l1 ++ x :: l2) - length l1 - 1) with (length l2) by (rewrite !app_length; cbn [length]; lia).
  replace (length (l1 ++ x :: l2) - 1) with (length l1 + length l2) by (rewrite !app_length; cbn [length]; lia).
  pose proof (run2_dy l2 out [x] 0 l1 (length (l1 ++ x :: l2)) (length l1 + length l2)) as R.
  cbn [repeat app length Nat.add] in R. unfold run2 in R.
  do 2 eexists. split; [apply R; [lia|reflexivity]|].
  destruct (rests_intro (length l1 + length l2) (l1 ++ l2) 1) as [A B]; [rewrite app_length; auto|].
  split; [exact A|]. split; [exact B|]. split.
  - rewrite dy_saw, dying_dy. apply dy_ext.
    + intros v. rewrite refers_app. reflexivity.
    + intros i v Hi. apply (look_see_remove l1 [x] l2). exact (nth_lt _ _ _ _ Hi).
  - split; [|reflexivity]. exists 1. rewrite app_length. reflexivity.
Qed.

Lemma dtors_all : forall out n l,
  dtors V veq out (View n (map Full l)) 0 (length l) =
  Ok (View n (repeat Gone (length l)), dy out l (fun i v => View n (repeat Gone i ++ Dying v :: map Full (skipn (S i) l)))).
Proof.
  intros. pose proof (dtors_dy l out n []) as E. cbn [app length] in E. rewrite E. f_equal. f_equal.
  apply dy_ext; auto. intros. cbn. apply orb_false_r.
Qed.

Theorem clear_seen : forall out l,
  exists lg, clear V veq out (holds V l) = Ok (holds V [], lg) /\ saw V (look V) lg = dying out [] l (fun _ => []).
Proof.
  intros. unfold clear, holds. cbn [vcount vcells]. rewrite dtors_all. cbn [bind]. eexists. split; [reflexivity|].
  rewrite dy_saw, dying_dy. apply dy_ext; auto. intros. cbn. rewrite orb_false_r. reflexivity.
Qed.

Lemma look_end : forall l i v, i < length l ->
  look V (View (length l) (repeat Gone i ++ Dying v :: map Full (skipn (S i) l))) = during_end V l i.
Proof.
  intros. rewrite look_all.
  - unfold during_end. rewrite map_app, map_repeat'. cbn [map]. rewrite read_full. cbn [read].
    change (UB :: map Ok (skipn (S i) l)) with ([UB] ++ map (@Ok (option V)) (skipn (S i) l)).
    rewrite app_assoc. rewrite repeat_snoc. reflexivity.
  - rewrite app_length. cbn [length]. rewrite map_length, repeat_length, skipn_length. lia.
Qed.

Lemma finish_dy : forall out l,
  finish V veq out (holds V l) = Ok (dy out l (fun i v => View (length l) (repeat Gone i ++ Dying v :: map Full (skipn (S i) l)))).
Proof. intros. unfold finish, holds. cbn [vcount]. rewrite dtors_all. reflexivity. Qed.

Theorem finish_seen : forall out l,
  exists lg, finish V veq out (holds V l) = Ok lg /\ saw V (look V) lg = dying out [] l (during_end V l).
Proof.
  intros. rewrite finish_dy. eexists. split; [reflexivity|]. rewrite dy_saw, dying_dy. apply dy_ext.
  - intros. cbn. rewrite orb_false_r. reflexivity.
  - intros i v Hi. apply look_end. exact (nth_lt _ _ _ _ Hi).
Qed.

Theorem move_seen : forall out l l',
  exists lg, move_list V veq out (holds V l) (holds V l') = Ok (holds V l', lg) /\
    saw V (look V) lg = dying out [] l (during_end V l).
Proof.
  intros. destruct (finish_seen out l) as (lg & A & B). exists lg. unfold move_list. rewrite A. auto.
Qed.

Lemma set_dy : forall out l1 x l2 y,
  set V veq out (holds V (l1 ++ x :: l2)) (length l1) y =
  Ok (holds V (l1 ++ y :: l2),
      dy (fun v => out v || (refers [y] v || refers (l1 ++ l2) v)) [x]
         (fun _ v => View (length (l1 ++ x :: l2)) (map Full l1 ++ Dying v :: map Full l2))).
Proof.
  intros. unfold set, holds. cbn [vcount].
  assert (B1 : (length l1 <? length (l1 ++ x :: l2)) = true) by (rewrite !app_length; cbn [length]; lia).
  rewrite B1. cbn [check]. rewrite !map_app. cbn [map].
  pose proof (release_at (fun v => out v || match y with Some u => veq u v | None => false end)
    (length (l1 ++ x :: l2)) (map Full l1) x (map Full l2)) as E. rewrite map_length in E. rewrite E. clear E.
  cbn [bind]. unfold put. cbn [vcells vcount].
  pose proof (upd_mid _ (map Full l1) (map Full l2) (Full x) (Full y)) as E. rewrite map_length in E. rewrite E. clear E.
  rewrite !app_length. cbn [length].
  f_equal. f_equal. rewrite dy_cons. change (dy _ [] _) with (@nil (V * view V)). rewrite app_nil_r.
  destruct x as [v|]; auto.
  assert (E : (out v || match y with Some u => veq u v | None => false end) || (cheld (map Full l1) v || cheld (map Full l2) v)
     = out v || (refers [y] v || refers (l1 ++ l2) v) || refers [] v).
  { rewrite !cheld_full, refers_app. cbn. rewrite !orb_false_r, !orb_assoc. reflexivity. }
  rewrite E. reflexivity.
Qed.

Lemma look_one : forall l1 x v l2,
  look V (View (length (l1 ++ x :: l2)) (map Full l1 ++ Dying v :: map Full l2)) = map Ok l1 ++ UB :: map Ok l2.
Proof.
  intros. rewrite look_all.
  - rewrite map_app. cbn [map]. rewrite !read_full. reflexivity.
  - rewrite !app_length. cbn [length]. rewrite !map_length. reflexivity.
Qed.

Theorem set_seen : forall out l1 x l2 y,
  exists lg, set V veq out (holds V (l1 ++ x :: l2)) (length l1) y = Ok (holds V (l1 ++ y :: l2), lg) /\
    saw V (look V) lg = dying out (y :: l1 ++ l2) [x] (fun _ => map Ok l1 ++ UB :: map Ok l2).
Proof.
  intros. rewrite set_dy. eexists. split; [reflexivity|]. rewrite dy_saw, dying_dy. apply dy_ext.
  - intros v. change (y :: l1 ++ l2) with ([y] ++ (l1 ++ l2)). rewrite (refers_app [y]). reflexivity.
  - intros. apply look_one.
Qed.

Lemma firstn_all_app : forall A (a b : list A), firstn (length a) (a ++ b) = a.
Proof. induction a; intros; cbn; [destruct b; auto|]. f_equal. auto. Qed.
Lemma skipn_all_app : forall A (a b : list A), skipn (length a) (a ++ b) = b.
Proof. induction a; intros; cbn; auto. Qed.

Theorem shrink_seen : forall out l1 d,
  exists lg, resize V veq out (holds V (l1 ++ d)) (length l1) = Ok (holds V l1, lg) /\
    saw V (look V) lg = dying out l1 d (fun i => repeat UB (length l1) ++ during_end V d i).
Proof.
  intros. unfold resize, holds. cbn [vcount vcells]. rewrite map_app.
  assert (F1 : firstn (length l1) (map Full l1 ++ map Full d) = map (@Full V) l1)
    by (rewrite <- (map_length (@Full V) l1) at 1; apply firstn_all_app).
  assert (F2 : skipn (length l1) (map Full l1 ++ map Full d) = map (@Full V) d)
    by (rewrite <- (map_length (@Full V) l1) at 1; apply skipn_all_app).
  rewrite F1, F2.
  replace (length l1 - length (l1 ++ d)) with 0 by (rewrite app_length; lia). cbn [repeat]. rewrite app_nil_r, map_length.
  replace (repeat (Full None) (length l1) ++ map Full d) with (map (@Full V) (repeat None (length l1) ++ d))
    by (rewrite map_app, map_repeat'; reflexivity).
  replace (length (l1 ++ d)) with (length (repeat (@None V) (length l1) ++ d)) by (rewrite !app_length, repeat_length; reflexivity).
  rewrite dtors_all. cbn [bind]. eexists. split; [reflexivity|].
  rewrite dy_saw, dying_dy.
  assert (H : forall n b (f : nat -> V -> list (res (option V))), dy b (repeat None n ++ d) f = dy b d (fun i v => f (n + i) v)).
  { induction n as [|n IH]; intros; [reflexivity|]. cbn [repeat app]. rewrite dy_cons. cbn [app]. rewrite IH. reflexivity. }
  rewrite H. apply dy_ext.
  - intros v. f_equal. clear H F1 F2. induction l1 as [|o l IH]; [reflexivity|]. cbn. rewrite IH. reflexivity.
  - intros i v Hi. rewrite look_end.
    + unfold during_end. rewrite skipn_app, repeat_length.
      replace (skipn (S (length l1 + i)) (repeat None (length l1))) with (@nil (option V))
        by (symmetry; apply skipn_all2; rewrite repeat_length; lia).
      replace (S (length l1 + i) - length l1) with (S i) by lia. cbn [app].
      replace (S (length l1 + i)) with (length l1 + S i) by lia. rewrite repeat_app, <- app_assoc. reflexivity.
    + rewrite app_length, repeat_length. apply nth_lt in Hi. lia.
Qed.

Theorem grow_seen : forall out l n,
  resize V veq out (holds V l) (length l + n) = Ok (holds V (l ++ repeat None n), []).
Proof.
  intros. unfold resize, holds. cbn [vcount vcells].
  rewrite (firstn_all2 (n := length l + n)) by (rewrite map_length; lia).
  rewrite skipn_all2 by (rewrite map_length; lia). rewrite app_nil_r, map_length.
  replace (length l + n - length l) with n by lia.
  replace (repeat (Full None) (length l)) with (map (@Full V) (repeat None (length l))) by apply map_repeat'.
  match goal with |- context [dtors V veq ?o _ _ _] => pose proof (dtors_all o (length l) (repeat None (length l))) as E end.
  rewrite repeat_length in E. rewrite E. clear E. cbn [bind].
  f_equal. f_equal.
  - rewrite map_app, map_repeat', app_length, repeat_length. reflexivity.
  - rewrite <- (app_nil_l (repeat None (length l))) at 1. rewrite dy_nones. reflexivity.
Qed.

End Ren.
