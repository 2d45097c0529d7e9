From Coq Require Import ZifyBool ZifyNat Permutation.
From Verif Require Import Base BaseFacts StrModel StrSpec StrProofs SlModel SlSpec SlProofs SlProofs2.
From Verif Require LstModel LstSpec LstProofs.
Open Scope Z_scope.

(* ---- the layout of a world ------------------------------------------------------------ *)
Definition ospan (o : option slist) (a : nat) : Prop := match o with Some x => span x a | None => False end.
Definition olrep (vs : values) (o : option slist) (p : option lst) : Prop :=
  match o, p with Some x, Some y => lrep vs x y | None, None => True | _, _ => False end.
Definition spans (xs : list (option slist)) (l : nat) (a : nat) : Prop :=
  match nth_error xs l with Some o => ospan o a | None => False end.

Record Geo (n : nat) (xs : list (option slist)) (vs : values) (pv : values) (ys : list (option lst)) : Prop := {
  g_nv : length pv = n;
  g_le : (n <= length vs)%nat;
  g_pv : forall v, (v < n)%nat -> nth_error vs v = nth_error pv v;
  g_len : length xs = length ys;
  g_rep : forall l o p, nth_error xs l = Some o -> nth_error ys l = Some p -> olrep vs o p;
  g_low : forall l a, spans xs l a -> (n <= a)%nat;
  g_dis : forall l m a, spans xs l a -> spans xs m a -> l = m;
  g_none : forall a, (n <= a < length vs)%nat -> (forall l, ~ spans xs l a) -> nth_error vs a = Some None
}.

Definition ochanges (vs : values) (o : option slist) (vs' : values) (o' : option slist) : Prop :=
  (length vs <= length vs')%nat /\
  (forall a, ospan o' a -> (a < length vs')%nat /\ (ospan o a \/ (length vs <= a)%nat)) /\
  (forall a, ~ ospan o' a -> ospan o a -> nth_error vs' a = Some None) /\
  (forall a, ~ ospan o' a -> ~ ospan o a -> nth_error vs' a = nth_error vs a).

Lemma olrep_span vs o p a : olrep vs o p -> ospan o a -> (a < length vs)%nat.
Proof. destruct o, p; cbn; try tauto. apply lrep_span. Qed.
Lemma geo_span n xs vs pv ys l a : Geo n xs vs pv ys -> spans xs l a -> (n <= a < length vs)%nat.
Proof.
  intros G H. split; [exact (g_low _ _ _ _ _ G _ _ H)|]. unfold spans in H.
  destruct (nth_error xs l) as [o|] eqn:E; [|contradiction].
  destruct (nth_error ys l) as [p|] eqn:E2.
  - exact (olrep_span _ _ _ _ (g_rep _ _ _ _ _ G _ _ _ E E2) H).
  - apply nth_error_None in E2. apply nth_error_lt in E. pose proof (g_len _ _ _ _ _ G). lia.
Qed.

Lemma span_dec x a : {span x a} + {~ span x a}.
Proof.
  unfold span, at_span. destruct (base x <=? a)%nat eqn:E1; destruct (Z.of_nat a <? Z.of_nat (base x) + room x) eqn:E2;
    [left; lia|right; lia|right; lia|right; lia].
Qed.
Lemma ospan_dec o a : {ospan o a} + {~ ospan o a}.
Proof. destruct o as [x|]; cbn; [apply span_dec|right; tauto]. Qed.

Lemma changes_len vs x vs' x' : changes vs x vs' x' -> (forall a, span x a -> (a < length vs)%nat) -> (length vs <= length vs')%nat.
Proof.
  intros (C1 & C2 & C3) S. destruct (length vs) as [|n] eqn:E; [lia|].
  assert (n < length vs')%nat; [|lia].
  destruct (span_dec x' n) as [H|H].
  - now destruct (C1 _ H).
  - destruct (span_dec x n) as [K|K].
    + exact (nth_error_lt _ _ _ (C2 _ H K)).
    + apply nth_error_Some. rewrite C3 by auto. apply nth_error_Some. lia.
Qed.

Lemma rep_change vs vs' x y : lrep vs x y -> (forall a, span x a -> nth_error vs' a = nth_error vs a) -> lrep vs' x y.
Proof.
  intros (H1 & H2 & H3 & R) E. split; [exact H1|]. split; [exact H2|]. split; [exact H3|].
  intros i s Hs. rewrite E; [now apply R|]. unfold span. rewrite H2, <- H3. apply adr_span. exact (aget_range _ _ _ Hs).
Qed.

Lemma nth_upd {A} (l : list A) n x m : nth_error (upd l n x) m = if Nat.eqb n m then (if (n <? length l)%nat then Some x else None) else nth_error l m.
Proof.
  destruct (Nat.eqb n m) eqn:E.
  - assert (n = m) by lia. subst m. destruct (n <? length l)%nat eqn:L; [apply upd_same; lia|].
    apply nth_error_None. rewrite upd_length. lia.
  - apply upd_other. lia.
Qed.

Lemma geo_set n xs vs pv ys l o o' p' vs' : Geo n xs vs pv ys -> nth_error xs l = Some o ->
  ochanges vs o vs' o' -> olrep vs' o' p' -> Geo n (upd xs l o') vs' pv (upd ys l p').
Proof.
  intros G El (CL & C1 & C2 & C3) RP.
  pose proof (nth_error_lt _ _ _ El) as Hl.
  assert (Sp : forall m a, spans (upd xs l o') m a -> (m = l /\ ospan o' a) \/ (m <> l /\ spans xs m a)).
  { intros m a H. unfold spans in *. rewrite nth_upd in H. destruct (Nat.eqb l m) eqn:E.
    - left. split; [lia|]. destruct (l <? length xs)%nat; [exact H|contradiction].
    - right. split; [lia|exact H]. }
  assert (Sl : forall a, ospan o a -> spans xs l a) by (intros a H; unfold spans; now rewrite El).
  assert (New : forall m a, m <> l -> spans xs m a -> ~ ospan o' a /\ ~ ospan o a).
  { intros m a N H. assert (K : ~ ospan o a) by (intros X; apply N; exact (g_dis _ _ _ _ _ G _ _ _ H (Sl _ X))).
    split; [|exact K]. intros X. destruct (C1 _ X) as (_ & [Y|Y]); [exact (K Y)|].
    pose proof (geo_span _ _ _ _ _ _ _ G H). lia. }
  split.
  - exact (g_nv _ _ _ _ _ G).
  - pose proof (g_le _ _ _ _ _ G). lia.
  - intros v Hv. rewrite C3; [exact (g_pv _ _ _ _ _ G _ Hv)| |].
    + intros X. pose proof (g_le _ _ _ _ _ G). destruct (C1 _ X) as (_ & [Y|Y]); [|lia].
      pose proof (g_low _ _ _ _ _ G _ _ (Sl _ Y)). lia.
    + intros X. pose proof (g_low _ _ _ _ _ G _ _ (Sl _ X)). lia.
  - rewrite !upd_length. exact (g_len _ _ _ _ _ G).
  - intros m q p Hq Hp. rewrite nth_upd in Hq. rewrite nth_upd in Hp. destruct (Nat.eqb l m) eqn:E.
    + pose proof (g_len _ _ _ _ _ G). replace (l <? length xs)%nat with true in Hq by lia. replace (l <? length ys)%nat with true in Hp by lia.
      assert (q = o') by congruence. assert (p = p') by congruence. now subst.
    + pose proof (g_rep _ _ _ _ _ G _ _ _ Hq Hp) as K. destruct q as [x|], p as [y|]; cbn in *; try tauto.
      eapply rep_change; [exact K|]. intros a Ha.
      destruct (New m a) as [N1 N2]; [lia|unfold spans; now rewrite Hq|]. now apply C3.
  - intros m a H. destruct (Sp _ _ H) as [[-> X]|[_ X]]; [|exact (g_low _ _ _ _ _ G _ _ X)].
    destruct (C1 _ X) as (_ & [Y|Y]); [exact (g_low _ _ _ _ _ G _ _ (Sl _ Y))|]. pose proof (g_le _ _ _ _ _ G). lia.
  - intros m k a H1 H2. destruct (Sp _ _ H1) as [[-> X]|[N X]], (Sp _ _ H2) as [[-> Y]|[M Y]]; auto.
    + destruct (New _ _ M Y) as [Q _]. contradiction.
    + destruct (New _ _ N X) as [Q _]. contradiction.
    + exact (g_dis _ _ _ _ _ G _ _ _ X Y).
  - intros a Ha H. assert (N1 : ~ ospan o' a).
    { intros X. apply (H l). unfold spans. rewrite upd_same by exact Hl. exact X. }
    destruct (ospan_dec o a) as [X|X]; [now apply C2|]. rewrite C3 by auto.
    destruct (Nat.lt_ge_cases a (length vs)) as [Q|Q].
    + apply (g_none _ _ _ _ _ G); [lia|]. intros m Y. destruct (Nat.eq_dec m l) as [->|N].
      * unfold spans in Y. rewrite El in Y. exact (X Y).
      * apply (H m). unfold spans in *. rewrite upd_other by lia. exact Y.
    + assert (nth_error vs' a = nth_error vs a) as E by auto. rewrite (proj2 (nth_error_None vs a)) in E by exact Q.
      apply nth_error_None in E. lia.
Qed.

Lemma geo_change n xs vs pv ys l x x' y y' vs' : Geo n xs vs pv ys -> nth_error xs l = Some (Some x) -> nth_error ys l = Some (Some y) ->
  changes vs x vs' x' -> lrep vs' x' y' -> Geo n (upd xs l (Some x')) vs' pv (upd ys l (Some y')).
Proof.
  intros G El Ey C R. eapply geo_set; [exact G|exact El| |exact R].
  pose proof (g_rep _ _ _ _ _ G _ _ _ El Ey) as K. cbn in K.
  split; [|exact C]. eapply changes_len; [exact C|]. intros a. exact (lrep_span vs x y a K).
Qed.
Lemma empty_span b c a : ~ span (mkSl b c 0) a.
Proof. unfold span, at_span. cbn [base room]. lia. Qed.
Lemma geo_drop n xs vs pv ys l x y vs' : Geo n xs vs pv ys -> nth_error xs l = Some (Some x) -> nth_error ys l = Some (Some y) ->
  changes vs x vs' empty_list -> Geo n (upd xs l None) vs' pv (upd ys l None).
Proof.
  intros G El Ey C. eapply (geo_set n xs vs pv ys l (Some x) None None vs'); [exact G|exact El| |exact I].
  pose proof (g_rep _ _ _ _ _ G _ _ _ El Ey) as K. cbn in K.
  split; [eapply changes_len; [exact C|]; intros a; exact (lrep_span vs x y a K)|].
  destruct C as (C1 & C2 & C3). split; [|split].
  - intros a [].
  - intros a _ H. apply C2; auto. apply empty_span.
  - intros a _ H. apply C3; auto. apply empty_span.
Qed.
Lemma empty_lrep vs : lrep vs empty_list LstModel.empty_lst.
Proof.
  split; [reflexivity|]. split; [reflexivity|]. split; [reflexivity|]. intros i s H. apply aget_range in H. cbn in H.
  unfold zlen in H. cbn in H. lia.
Qed.
Lemma geo_new n xs vs pv ys l : Geo n xs vs pv ys -> nth_error xs l = Some None ->
  Geo n (upd xs l (Some empty_list)) vs pv (upd ys l (Some LstModel.empty_lst)).
Proof.
  intros G El. eapply geo_set; [exact G|exact El| |apply empty_lrep].
  split; [lia|]. split; [|split].
  - intros a H. apply empty_span in H. contradiction.
  - intros a _ [].
  - auto.
Qed.
(* moving a buffer to an empty place *)
Lemma geo_move n xs vs pv ys l m x y : Geo n xs vs pv ys -> nth_error xs l = Some None ->
  nth_error xs m = Some (Some x) -> nth_error ys m = Some (Some y) ->
  Geo n (upd (upd xs l (Some x)) m (Some empty_list)) vs pv (upd (upd ys l (Some y)) m (Some LstModel.empty_lst)).
Proof.
  intros G El Em Ey. assert (N : l <> m) by congruence.
  pose proof (nth_error_lt _ _ _ El) as Hl. pose proof (nth_error_lt _ _ _ Em) as Hm.
  set (xs' := upd (upd xs l (Some x)) m (Some empty_list)).
  assert (Al : nth_error xs' l = Some (Some x)) by (unfold xs'; rewrite upd_other by auto; now apply upd_same).
  assert (Am : nth_error xs' m = Some (Some empty_list)) by (unfold xs'; apply upd_same; rewrite upd_length; exact Hm).
  assert (Ao : forall k, k <> l -> k <> m -> nth_error xs' k = nth_error xs k) by (intros k K1 K2; unfold xs'; now rewrite !upd_other by auto).
  assert (Sp : forall k a, spans xs' k a -> (k = l /\ spans xs m a) \/ (k <> l /\ k <> m /\ spans xs k a)).
  { intros k a H. unfold spans in *. destruct (Nat.eq_dec k l) as [->|K1].
    - rewrite Al in H. left. split; [reflexivity|]. now rewrite Em.
    - destruct (Nat.eq_dec k m) as [->|K2].
      + rewrite Am in H. apply empty_span in H. contradiction.
      + rewrite Ao in H by auto. auto. }
  split.
  - exact (g_nv _ _ _ _ _ G).
  - exact (g_le _ _ _ _ _ G).
  - exact (g_pv _ _ _ _ _ G).
  - unfold xs'. rewrite !upd_length. exact (g_len _ _ _ _ _ G).
  - pose proof (g_len _ _ _ _ _ G) as Ln.
    intros k o p Ho Hp. destruct (Nat.eq_dec k l) as [->|K1].
    + rewrite Al in Ho. rewrite upd_other, upd_same in Hp by (auto; lia). assert (o = Some x) by congruence. assert (p = Some y) by congruence. subst.
      exact (g_rep _ _ _ _ _ G _ _ _ Em Ey).
    + destruct (Nat.eq_dec k m) as [->|K2].
      * rewrite Am in Ho. rewrite upd_same in Hp by (rewrite upd_length; lia). assert (o = Some empty_list) by congruence.
        assert (p = Some LstModel.empty_lst) by congruence. subst. apply empty_lrep.
      * rewrite Ao in Ho by auto. rewrite !upd_other in Hp by auto. exact (g_rep _ _ _ _ _ G _ _ _ Ho Hp).
  - intros k a H. destruct (Sp _ _ H) as [[_ X]|(_ & _ & X)]; exact (g_low _ _ _ _ _ G _ _ X).
  - intros k j a H1 H2. destruct (Sp _ _ H1) as [[-> X]|(N1 & N2 & X)], (Sp _ _ H2) as [[-> Y]|(M1 & M2 & Y)]; auto.
    + pose proof (g_dis _ _ _ _ _ G _ _ _ X Y). congruence.
    + pose proof (g_dis _ _ _ _ _ G _ _ _ X Y). congruence.
    + exact (g_dis _ _ _ _ _ G _ _ _ X Y).
  - intros a Ha H. apply (g_none _ _ _ _ _ G); [exact Ha|]. intros k X.
    destruct (Nat.eq_dec k m) as [->|K2].
    + apply (H l). unfold spans in *. rewrite Al. rewrite Em in X. exact X.
    + destruct (Nat.eq_dec k l) as [->|K1].
      * unfold spans in X. rewrite El in X. exact X.
      * apply (H k). unfold spans in *. now rewrite Ao by auto.
Qed.

(* ---- storing into a place ----------------------------------------------------------------- *)
Definition vstore (pv : values) (a : arg) (c : list Z) : values :=
  match a with AVar v => upd pv v (Some c) | AItem _ _ => pv end.
Definition setbuf (y : lst) (m : list slot) : lst := LstModel.mkLst m (LstModel.count y) (LstModel.cap y) (LstModel.moves y).
Definition ystore (ys : list (option lst)) (a : arg) (c : list Z) : list (option lst) :=
  match a with
  | AVar _ => ys
  | AItem l i =>
      match nth_error ys l with
      | Some (Some y) => upd ys l (Some (setbuf y (upd (LstModel.buf y) (Z.to_nat i) (LstModel.Live c))))
      | _ => ys
      end
  end.
(* the place exists and has the address u *)
Definition place (n : nat) (xs : list (option slist)) (a : arg) (u : nat) : Prop :=
  match a with
  | AVar v => (v < n)%nat /\ u = v
  | AItem l i => exists x, nth_error xs l = Some (Some x) /\ 0 <= i < room x /\ u = adr (base x) i
  end.

Lemma geo_ys n xs vs pv ys l x : Geo n xs vs pv ys -> nth_error xs l = Some (Some x) ->
  exists y, nth_error ys l = Some (Some y) /\ lrep vs x y.
Proof.
  intros G E. destruct (nth_error ys l) as [p|] eqn:Ey.
  - pose proof (g_rep _ _ _ _ _ G _ _ _ E Ey) as K. destruct p as [y|]; [eauto|contradiction].
  - apply nth_error_None in Ey. apply nth_error_lt in E. pose proof (g_len _ _ _ _ _ G). lia.
Qed.
Lemma place_lt n xs vs pv ys a u : Geo n xs vs pv ys -> place n xs a u -> (u < length vs)%nat.
Proof.
  intros G H. destruct a as [v|l i]; cbn in H.
  - pose proof (g_le _ _ _ _ _ G). lia.
  - destruct H as (x & E & Hi & ->). apply (geo_span n xs vs pv ys l). exact G. unfold spans. rewrite E. now apply adr_span.
Qed.
Lemma place_inj n xs vs pv ys a b u : Geo n xs vs pv ys -> place n xs a u -> place n xs b u -> same_place a b = true.
Proof.
  intros G H K. destruct a as [v|l i], b as [w|m j]; cbn in *.
  - lia.
  - destruct K as (x & E & Hi & ->). assert (S : spans xs m (adr (base x) j)) by (unfold spans; rewrite E; now apply adr_span).
    pose proof (g_low _ _ _ _ _ G _ _ S). lia.
  - destruct H as (x & E & Hi & ->). assert (S : spans xs l (adr (base x) i)) by (unfold spans; rewrite E; now apply adr_span).
    pose proof (g_low _ _ _ _ _ G _ _ S). lia.
  - destruct H as (x & E & Hi & ->), K as (x' & E' & Hj & Eu).
    assert (S : spans xs l (adr (base x) i)) by (unfold spans; rewrite E; now apply adr_span).
    assert (S' : spans xs m (adr (base x) i)) by (unfold spans; rewrite E', Eu; now apply adr_span).
    pose proof (g_dis _ _ _ _ _ G _ _ _ S S') as ->. assert (x' = x) by congruence. subst x'.
    apply adr_inj in Eu; lia.
Qed.

Lemma geo_store n xs vs pv ys a u c : Geo n xs vs pv ys -> place n xs a u ->
  Geo n xs (upd vs u (Some c)) (vstore pv a c) (ystore ys a c).
Proof.
  intros G H. destruct a as [v|l i]; cbn [vstore ystore].
  - destruct H as [Hv ->]. split.
    + rewrite upd_length. exact (g_nv _ _ _ _ _ G).
    + rewrite upd_length. exact (g_le _ _ _ _ _ G).
    + intros w Hw. pose proof (g_le _ _ _ _ _ G). pose proof (g_nv _ _ _ _ _ G). rewrite !nth_upd. destruct (Nat.eqb v w).
      * replace (v <? length vs)%nat with true by lia. replace (v <? length pv)%nat with true by lia. reflexivity.
      * exact (g_pv _ _ _ _ _ G _ Hw).
    + exact (g_len _ _ _ _ _ G).
    + intros l o p Ho Hp. pose proof (g_rep _ _ _ _ _ G _ _ _ Ho Hp) as K. destruct o as [x|], p as [y|]; cbn in *; try tauto.
      eapply rep_change; [exact K|]. intros a Ha. apply upd_other.
      assert (S : spans xs l a) by (unfold spans; now rewrite Ho). pose proof (g_low _ _ _ _ _ G _ _ S). lia.
    + exact (g_low _ _ _ _ _ G).
    + exact (g_dis _ _ _ _ _ G).
    + intros a Ha Hn. rewrite upd_length in Ha. rewrite upd_other by lia. now apply (g_none _ _ _ _ _ G).
  - destruct H as (x & E & Hi & ->). destruct (geo_ys _ _ _ _ _ _ _ G E) as (y & Ey & LR). rewrite Ey.
    pose proof LR as (Hc & Hr & Hl & Rp).
    assert (G2 : Geo n (upd xs l (Some x)) (upd vs (adr (base x) i) (Some c)) pv (upd ys l (Some (setbuf y (upd (LstModel.buf y) (Z.to_nat i) (LstModel.Live c)))))).
    { eapply geo_change; [exact G|exact E|exact Ey| |].
      - apply changes_frame; [reflexivity|reflexivity|intros a; exact (lrep_span vs x y a LR)|]. apply frame_upd. now apply adr_span.
      - split; [exact Hc|]. split; [exact Hr|]. split; [unfold setbuf; cbn [LstModel.buf LstModel.cap]; unfold zlen in *; rewrite upd_length; exact Hl|].
        unfold setbuf. cbn [LstModel.buf]. change (Some c) with (valof (LstModel.Live c)). eapply rep_in; [exact Rp|].
        unfold aset. replace ((0 <=? i) && (i <? zlen (LstModel.buf y))) with true by lia. reflexivity. }
    rewrite (upd_id xs) in G2 by exact E. exact G2.
Qed.

Lemma ystore_upd ys l z a c : own_item l a = false -> ystore (upd ys l z) a c = upd (ystore ys a c) l z.
Proof.
  intros H. destruct a as [v|m i]; cbn in *; [reflexivity|]. rewrite upd_other by lia.
  destruct (nth_error ys m) as [[y|]|]; auto. apply upd_comm. lia.
Qed.

(* ---- statements about named variables -------------------------------------------------------- *)
Lemma geo_split n xs vs pv ys : Geo n xs vs pv ys -> vs = pv ++ skipn n vs.
Proof.
  intros G. pose proof (g_nv _ _ _ _ _ G) as L. pose proof (g_le _ _ _ _ _ G). apply nth_error_ext. intros i.
  destruct (Nat.lt_ge_cases i n) as [H1|H1].
  - rewrite nth_error_app1 by lia. exact (g_pv _ _ _ _ _ G _ H1).
  - rewrite nth_error_app2, nth_error_skipn by lia. f_equal. lia.
Qed.
Lemma geo_vars n xs pv r ys pv' : Geo n xs (pv ++ r) pv ys -> length pv' = length pv -> Geo n xs (pv' ++ r) pv' ys.
Proof.
  intros G L. pose proof (g_nv _ _ _ _ _ G) as Ln.
  assert (Hi : forall a, (n <= a)%nat -> nth_error (pv' ++ r) a = nth_error (pv ++ r) a).
  { intros a Ha. rewrite !nth_error_app2 by lia. f_equal. lia. }
  split.
  - congruence.
  - rewrite app_length. lia.
  - intros v Hv. apply nth_error_app1. lia.
  - exact (g_len _ _ _ _ _ G).
  - intros l o p Ho Hp. pose proof (g_rep _ _ _ _ _ G _ _ _ Ho Hp) as K. destruct o as [x|], p as [y|]; cbn in *; try tauto.
    eapply rep_change; [exact K|]. intros a Ha. apply Hi. apply (g_low _ _ _ _ _ G l). unfold spans. now rewrite Ho.
  - exact (g_low _ _ _ _ _ G).
  - exact (g_dis _ _ _ _ _ G).
  - intros a Ha H. rewrite Hi by lia. apply (g_none _ _ _ _ _ G); [|exact H]. rewrite app_length in *. lia.
Qed.

Lemma sread_app pv r v : (v < length pv)%nat -> sread (pv ++ r) v = sread pv v.
Proof. intros H. unfold sread. now rewrite nth_error_app1. Qed.
Lemma sread_lt pv v l : sread pv v = Ok l -> (v < length pv)%nat.
Proof. unfold sread. destruct (nth_error pv v) as [[x|]|] eqn:E; try discriminate. intros _. exact (nth_error_lt _ _ _ E). Qed.
Lemma upd_app1 {A} (l r : list A) n x : (n < length l)%nat -> upd (l ++ r) n x = upd l n x ++ r.
Proof. revert n. induction l as [|y l IH]; intros [|n] H; cbn in *; try lia; auto. rewrite IH by lia. reflexivity. Qed.
Lemma sread_case pv v : (exists l, sread pv v = Ok l /\ (v < length pv)%nat) \/ sread pv v = UB.
Proof. unfold sread. destruct (nth_error pv v) as [[x|]|] eqn:E; auto. left. exists x. split; [reflexivity|]. exact (nth_error_lt _ _ _ E). Qed.

Definition ext_ok {B} (r : values) (q q' : res (values * B)) : Prop :=
  match q with
  | Ok (pv', y) => q' = Ok (pv' ++ r, y)
  | Err => q' = Err
  | UB => True
  | NoFuel => False
  end.
Ltac rd pv v l Hl := let E := fresh "E" in destruct (sread_case pv v) as [(l & E & Hl)|E];
  [rewrite (sread_app pv _ v Hl), E; cbn [bind]|rewrite E; cbn [bind]; auto; try exact I].

Lemma seval_ext pv r e :
  ext_ok r (seval pv e) (seval (pv ++ r) e) /\
  (seval pv e <> UB -> Forall (fun v => (v < length pv)%nat) (expr_vars e)) /\
  (forall pv' l, seval pv e = Ok (pv', l) -> length pv' = length pv).
Proof.
  assert (K : forall (q : res (list Z)), q <> NoFuel ->
    ext_ok r (do l <- q; Ok (pv, l)) (do l <- q; Ok (pv ++ r, l)) /\
    (forall pv' l, (do l <- q; Ok (pv, l)) = Ok (pv', l) -> length pv' = length pv)).
  { intros q Hq. destruct q; cbn; try tauto; (split; [auto|]); try discriminate. intros pv' l H. congruence. }
  assert (CS : forall m, c_string m <> NoFuel).
  { induction m as [|z m IH]; cbn; [discriminate|]. destruct (z =? 0); [discriminate|]. destruct (c_string m); cbn; congruence. }
  assert (LS : forall p, literal p <> NoFuel) by (intros [m|]; cbn; [apply CS|discriminate]).
  assert (N : forall P : Prop, Forall (fun v => (v < length pv)%nat) [] /\ (P -> P)) by (split; auto).
  Ltac fin K := first [ (split; [reflexivity|]; split; [intros _; repeat constructor; auto|intros ? ? ?; congruence]) | match goal with |- context [do l <- ?q; Ok (_, l)] => destruct (K q) as [K1 K2]; [auto; try discriminate|]; (split; [exact K1|]; split; [intros _; repeat constructor; auto|exact K2]) end ].
  Ltac bad := split; [cbn; auto|]; split; [intros X; try (exfalso; apply X; reflexivity); repeat constructor; auto|discriminate].
  destruct e; cbn [seval expr_vars].
  - fin K.
  - fin K.
  - destruct (n <? 0); [bad|]. unfold aget. destruct (znth mem n); cbn [bind]; [|bad].
    destruct (z =? 0); [fin K|bad].
  - fin K.
  - destruct (n <? 0); [bad|]. destruct (n <=? zlen mem); [fin K|bad].
  - fin K.
  - destruct (sread_case pv w) as [(l & E & Hl)|E]; [rewrite (sread_app pv _ w Hl), E; fin K|].
    rewrite E. cbn [bind]. bad.
  - destruct (sread_case pv w) as [(l & E & Hl)|E]; [rewrite (sread_app pv _ w Hl), E; cbn [bind]|rewrite E; cbn [bind]; bad].
    rewrite upd_app1 by exact Hl. split; [reflexivity|]. split; [intros _; repeat constructor; exact Hl|].
    intros pv' l' H. injection H as <- <-. apply upd_length.
  - destruct (sread_case pv w) as [(l & E & Hl)|E]; [rewrite (sread_app pv _ w Hl), E; cbn [bind]|rewrite E; cbn [bind]; bad].
    destruct (_ && _); [fin K|bad].
  - destruct (sread_case pv w) as [(l & E & Hl)|E]; [rewrite (sread_app pv _ w Hl), E; cbn [bind]|rewrite E; cbn [bind]; bad].
    destruct (_ && _); [fin K|bad].
  - destruct (sread_case pv w) as [(l & E & Hl)|E]; [rewrite (sread_app pv _ w Hl), E; cbn [bind]|rewrite E; cbn [bind]; bad].
    destruct ((0 <=? i) && _); [|bad]. destruct (negb _); [bad|]. destruct (_ && _); [fin K|bad].
  - destruct (sread_case pv w) as [(l & E & Hl)|E]; [rewrite (sread_app pv _ w Hl), E; cbn [bind]|rewrite E; cbn [bind]; bad].
    destruct ((0 <=? i) && _); [|bad]. destruct (negb _); [bad|]. destruct (_ && _); [fin K|bad].
  - destruct (sread_case pv w) as [(l & E & Hl)|E]; [rewrite (sread_app pv _ w Hl), E; cbn [bind]|rewrite E; cbn [bind]; bad].
    destruct (sread_case pv x) as [(l2 & E2 & Hl2)|E2]; [rewrite (sread_app pv _ x Hl2), E2; cbn [bind]|rewrite E2; cbn [bind]; bad].
    destruct (_ && _); [fin K|bad].
  - destruct (sread_case pv w) as [(l & E & Hl)|E]; [rewrite (sread_app pv _ w Hl), E; cbn [bind]|rewrite E; cbn [bind]; bad].
    destruct (sread_case pv x) as [(l2 & E2 & Hl2)|E2]; [rewrite (sread_app pv _ x Hl2), E2; cbn [bind]|rewrite E2; cbn [bind]; bad].
    split; [reflexivity|]. split; [intros _; repeat constructor; auto|]. intros pv' l' H. congruence.
  - destruct (sread_case pv w) as [(l & E & Hl)|E]; [rewrite (sread_app pv _ w Hl), E; cbn [bind]|rewrite E; cbn [bind]; bad].
    destruct p as [m|]; [|fin K]. pose proof (CS m). destruct (c_string m) as [l2| | |]; cbn [bind]; try (bad; fail); try congruence.
    split; [reflexivity|]. split; [intros _; repeat constructor; auto|]. intros pv' l' H'. congruence.
  - destruct (sread_case pv w) as [(l & E & Hl)|E]; [rewrite (sread_app pv _ w Hl), E; cbn [bind]|rewrite E; cbn [bind]; bad].
    pose proof (LS p). destruct (literal p) as [l2| | |]; cbn [bind]; try (bad; fail); try congruence.
    split; [reflexivity|]. split; [intros _; repeat constructor; auto|]. intros pv' l' H'. congruence.
Qed.

Lemma sstep_ext pv r o :
  ext_ok r (sstep_raw pv o) (sstep_raw (pv ++ r) o) /\
  (sstep_raw pv o <> UB -> Forall (fun v => (v < length pv)%nat) (op_vars o)) /\
  (forall pv' l, sstep_raw pv o = Ok (pv', l) -> length pv' = length pv).
Proof.
  Ltac nope := split; [cbn; auto|]; split; [intros X; try (exfalso; apply X; reflexivity); repeat constructor; auto|discriminate].
  Ltac yes := split; [cbn [ext_ok]; rewrite ?upd_app1 by (rewrite ?upd_length; auto); reflexivity|]; split; [intros _; repeat constructor; auto|];
    let H := fresh in intros ? ? H; injection H as <- <-; rewrite ?upd_length; reflexivity.
  Ltac rdv v l Hl := let E := fresh "E" in match goal with |- context [sread ?pv v] => destruct (sread_case pv v) as [(l & E & Hl)|E];
     [rewrite (sread_app pv _ v Hl), E; cbn [bind]|rewrite E; cbn [bind]; nope] end.
  destruct o; cbn [sstep_raw op_vars].
  - destruct (nth_error pv v) as [[l|]|] eqn:E; [nope| |nope].
    pose proof (nth_error_lt _ _ _ E) as Hl. rewrite nth_error_app1, E by exact Hl.
    destruct (seval_ext pv r e) as (S1 & S2 & S3). destruct (seval pv e) as [[pv' l]| | |]; cbn [ext_ok bind] in *.
    + rewrite S1. cbn [bind]. specialize (S3 _ _ eq_refl). rewrite upd_app1 by lia. split; [reflexivity|].
      split; [intros _; constructor; [exact Hl|apply S2; discriminate]|]. intros ? ? H. injection H as <- <-. rewrite upd_length. exact S3.
    + rewrite S1. split; [reflexivity|]. split; [intros _; constructor; [exact Hl|apply S2; discriminate]|discriminate].
    + nope.
    + contradiction.
  - rdv v l Hl. destruct (seval_ext pv r e) as (S1 & S2 & S3). destruct (seval pv e) as [[pv' l']| | |]; cbn [ext_ok bind] in *.
    + rewrite S1. cbn [bind]. specialize (S3 _ _ eq_refl). rewrite upd_app1 by lia. split; [reflexivity|].
      split; [intros _; constructor; [exact Hl|apply S2; discriminate]|]. intros ? ? H. injection H as <- <-. rewrite upd_length. exact S3.
    + rewrite S1. split; [reflexivity|]. split; [intros _; constructor; [exact Hl|apply S2; discriminate]|discriminate].
    + nope.
    + contradiction.
  - rdv v l Hl. rdv w l' Hl'. yes.
  - rdv v l Hl. rdv w l' Hl'. destruct (Nat.eqb v w); yes.
  - rdv v l Hl. yes.
  - rdv v l Hl. yes.
  - rdv v l Hl. destruct (_ && _); [|nope]. unfold aget. destruct (znth l i); cbn [bind]; [yes|nope].
  - rdv v l Hl. yes.
  - rdv v l Hl. yes.
  - rdv v l Hl. rdv w l' Hl'. yes.
Qed.

(* ---- the allocated buffers are the buffers of the lists -------------------------------------- *)
Definition Live (L : list (nat * Z)) (xs : list (option slist)) : Prop :=
  forall p, In p L <-> exists l x, nth_error xs l = Some (Some x) /\ room x <> 0 /\ p = (base x, room x).

Lemma live_held m xs l x : Live (live m) xs -> nth_error xs l = Some (Some x) -> held m (base x, room x) = true.
Proof.
  intros H E. unfold held. cbn [fst snd]. destruct (room x =? 0) eqn:Z0; [reflexivity|]. cbn [orb].
  apply existsb_exists. exists (base x, room x). split; [|cbn [fst snd]; now rewrite Nat.eqb_refl, Z.eqb_refl].
  apply H. exists l, x. split; [exact E|]. split; [lia|reflexivity].
Qed.
Lemma geo_base n xs vs pv ys l m x z : Geo n xs vs pv ys -> nth_error xs l = Some (Some x) -> nth_error xs m = Some (Some z) ->
  room x <> 0 -> room z <> 0 -> base x = base z -> l = m.
Proof.
  intros G El Em Hx Hz E.
  assert (P : forall k q, nth_error xs k = Some (Some q) -> 0 <= room q).
  { intros k q Hq. destruct (geo_ys _ _ _ _ _ _ _ G Hq) as (y & Hy & LR). destruct LR as (_ & B & C & _). rewrite B, <- C. apply zlen_nonneg. }
  pose proof (P _ _ El). pose proof (P _ _ Em).
  apply (g_dis _ _ _ _ _ G l m (base x)); unfold spans; [rewrite El|rewrite Em]; unfold ospan, span, at_span; lia.
Qed.
Lemma live_del n xs vs pv ys L l x : Live L xs -> Geo n xs vs pv ys -> nth_error xs l = Some (Some x) ->
  forall p, In p (del x L) <-> exists m z, m <> l /\ nth_error xs m = Some (Some z) /\ room z <> 0 /\ p = (base z, room z).
Proof.
  intros H G El p. unfold del. destruct (room x =? 0) eqn:E0.
  - rewrite (H p). split.
    + intros (m & z & Em & Hz & ->). exists m, z. split; [|auto]. intros ->. assert (z = x) by congruence. subst. lia.
    + intros (m & z & _ & Em & Hz & ->). exists m, z. auto.
  - rewrite filter_In, (H p). split.
    + intros [(m & z & Em & Hz & ->) Q]. cbn [fst] in Q. exists m, z. split; [|auto]. intros ->. assert (z = x) by congruence. subst.
      rewrite Nat.eqb_refl in Q. discriminate.
    + intros (m & z & N & Em & Hz & ->). split; [exists m, z; auto|]. cbn [fst]. destruct (base z =? base x)%nat eqn:Eb; [|reflexivity].
      exfalso. apply N. apply (geo_base _ _ _ _ _ m l z x G Em El); lia.
Qed.
Lemma live_set n xs vs pv ys L L' l x x' : Live L xs -> Geo n xs vs pv ys -> nth_error xs l = Some (Some x) ->
  swap L x L' x' -> Live L' (upd xs l (Some x')).
Proof.
  intros H G El Sw. pose proof (nth_error_lt _ _ _ El) as Hl. destruct Sw as [(E1 & E2 & EL)|EL]; subst L'; intros p.
  - rewrite (H p). split; intros (m & z & Em & Hz & ->).
    + destruct (Nat.eq_dec m l) as [->|N].
      * assert (z = x) by congruence. subst z. exists l, x'. rewrite upd_same by exact Hl. rewrite E1, E2. auto.
      * exists m, z. rewrite upd_other by auto. auto.
    + destruct (Nat.eq_dec m l) as [->|N].
      * rewrite upd_same in Em by exact Hl. assert (z = x') by congruence. subst z. exists l, x. rewrite <- E1, <- E2. auto.
      * rewrite upd_other in Em by auto. exists m, z. auto.
  - assert (A : In p (add x' (del x L)) <-> (room x' <> 0 /\ p = (base x', room x')) \/ In p (del x L)).
    { unfold add. destruct (room x' =? 0) eqn:E; cbn [In]; split; intros Q; auto.
      - destruct Q as [[Q _]|Q]; [lia|exact Q].
      - destruct Q as [Q|Q]; [left; split; [lia|congruence]|right; exact Q].
      - destruct Q as [[_ Q]|Q]; [left; congruence|right; exact Q]. }
    rewrite A, (live_del _ _ _ _ _ _ _ _ H G El p). split.
    + intros [[Q1 Q2]|(m & z & N & Em & Hz & ->)].
      * exists l, x'. rewrite upd_same by exact Hl. auto.
      * exists m, z. rewrite upd_other by auto. auto.
    + intros (m & z & Em & Hz & ->). destruct (Nat.eq_dec m l) as [->|N].
      * rewrite upd_same in Em by exact Hl. assert (z = x') by congruence. subst z. left. auto.
      * rewrite upd_other in Em by auto. right. exists m, z. auto.
Qed.
Lemma live_drop n xs vs pv ys L l x : Live L xs -> Geo n xs vs pv ys -> nth_error xs l = Some (Some x) -> Live (del x L) (upd xs l None).
Proof.
  intros H G El p. pose proof (nth_error_lt _ _ _ El) as Hl. rewrite (live_del _ _ _ _ _ _ _ _ H G El p). split.
  - intros (m & z & N & Em & Hz & ->). exists m, z. rewrite upd_other by auto. auto.
  - intros (m & z & Em & Hz & ->). destruct (Nat.eq_dec m l) as [->|N].
    + rewrite upd_same in Em by exact Hl. discriminate.
    + rewrite upd_other in Em by auto. exists m, z. auto.
Qed.
Lemma live_move L xs l m x : Live L xs -> nth_error xs l = Some None -> nth_error xs m = Some (Some x) ->
  Live L (upd (upd xs l (Some x)) m (Some empty_list)).
Proof.
  intros H El Em p. assert (N : l <> m) by congruence. pose proof (nth_error_lt _ _ _ El) as Hl. pose proof (nth_error_lt _ _ _ Em) as Hm.
  rewrite (H p). split; intros (k & z & Ek & Hz & ->).
  - destruct (Nat.eq_dec k m) as [->|K1].
    + assert (z = x) by congruence. subst z. exists l, x. rewrite upd_other, upd_same by auto. auto.
    + exists k, z. rewrite !upd_other by congruence. auto.
  - destruct (Nat.eq_dec k m) as [->|K1].
    + rewrite upd_same in Ek by (rewrite upd_length; exact Hm). assert (z = empty_list) by congruence. subst z. cbn in Hz. congruence.
    + rewrite upd_other in Ek by auto. destruct (Nat.eq_dec k l) as [->|K2].
      * rewrite upd_same in Ek by exact Hl. assert (z = x) by congruence. subst z. exists m, x. auto.
      * rewrite upd_other in Ek by auto. exists k, z. auto.
Qed.
Lemma live_new L xs l : Live L xs -> nth_error xs l = Some None -> Live L (upd xs l (Some empty_list)).
Proof.
  intros H El p. pose proof (nth_error_lt _ _ _ El) as Hl. rewrite (H p). split; intros (k & z & Ek & Hz & ->).
  - exists k, z. rewrite upd_other by congruence. auto.
  - destruct (Nat.eq_dec k l) as [->|K1].
    + rewrite upd_same in Ek by exact Hl. assert (z = empty_list) by congruence. subst z. cbn in Hz. congruence.
    + rewrite upd_other in Ek by auto. exists k, z. auto.
Qed.
