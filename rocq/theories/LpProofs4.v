(* Changes of one variable, item or list *)
From Verif Require Import Base BaseFacts RcModel RcSpec RcProofs RcProofs2 LpModel LpSpec LpProofs LpProofs2 LpProofs3.
From Coq Require Import ZifyBool ZifyNat.
Open Scope nat_scope.

Definition inb (x : lrec) (a : nat) : Prop := base x <= a < base x + room x.
Lemma inb_dec x a : inb x a \/ ~ inb x a.
Proof. unfold inb. lia. Qed.
Lemma inb_i x a : inb x a -> exists i, i < room x /\ a = base x + i.
Proof. intros H. unfold inb in H. exists (a - base x). lia. Qed.
Lemma at_upd s l m x y : at_list s l x -> (at_list (upd s l y) m x <-> (if m =? l then y = Some x else at_list s m x)).
Proof.
  intros A. unfold at_list in *. pose proof (nth_error_lt _ _ _ A). destruct (Nat.eqb_spec m l) as [->|N].
  - rewrite upd_same by auto. split; congruence.
  - rewrite upd_other by auto. reflexivity.
Qed.
Lemma at_upd' s l m x x' y : at_list s l x' -> (at_list (upd s l y) m x <-> (if m =? l then y = Some x else at_list s m x)).
Proof.
  intros A. unfold at_list in *. pose proof (nth_error_lt _ _ _ A). destruct (Nat.eqb_spec m l) as [->|N].
  - rewrite upd_same by auto. split; congruence.
  - rewrite upd_other by auto. reflexivity.
Qed.
Lemma items_ext w w' x x' : cnt x = cnt x' -> (forall i, i < cnt x -> wv w (base x + i) = wv w' (base x' + i)) -> items w x = items w' x'.
Proof.
  intros C H. apply nth_error_ext. intros i. rewrite !nth_items, <- C. destruct (Nat.ltb_spec i (cnt x)); auto. now rewrite H.
Qed.

(* a buffer's cells are not variables and not cells of other lists *)
Lemma inb_kind w k s l x a : Inv w k s -> at_list s l x -> inb x a -> kind_of k a = KMade \/ kind_of k a = KRaw.
Proof.
  intros I A B. destruct (inb_i _ _ B) as (i & L & ->). rewrite (i_kind _ _ _ I _ _ _ A L). destruct (i <? cnt x); auto.
Qed.
Lemma inb_other w k s l m x y a : Inv w k s -> at_list s l x -> at_list s m y -> m <> l -> inb x a -> ~ inb y a.
Proof.
  intros I A B N X Y. destruct (inb_i _ _ X) as (i & L & ->). destruct (inb_i _ _ Y) as (j & L' & E).
  apply (i_apart _ _ _ I l m x y i j); auto.
Qed.

(* lists that are not touched *)
Lemma other_list w k s l x w1 k1 y1 : at_list s l x -> (forall o, wa w1 o = wa w o) ->
  (forall m y, m <> l -> at_list s m y -> lives w (lhome y) -> items w1 y = items w y) ->
  (forall u, kind_of k u = KVar -> kind_of k1 u = KVar /\ wv w1 u = wv w u /\ wh w1 u = wh w u) ->
  (forall u, kind_of k1 u = KVar -> kind_of k u = KVar) -> wn w1 = wn w ->
  forall c, (match y1 with Some x1 => lives w (lhome x1) /\ c = Some (items w1 x1) /\ lhome x1 = lhome x | None => c = None /\ lhome x = None end) ->
  asame (lw w1 k1 (upd s l y1)) (set_l (lw w k s) l c).
Proof.
  intros A Ha It K1 K2 Hn c Y. pose proof (nth_error_lt _ _ _ A) as Ll.
  split; [|split; [|split; [|split; [|split; [|split; [|split]]]]]]; unfold lw, set_l; cbn [av ah avar al alh aa an aln].
  - intros u. destruct (kind_of k u) eqn:Q.
    + destruct (K1 u Q) as (-> & -> & _). auto.
    + destruct (kind_of k1 u) eqn:Q1; auto. apply K2 in Q1. congruence.
    + destruct (kind_of k1 u) eqn:Q1; auto. apply K2 in Q1. congruence.
    + destruct (kind_of k1 u) eqn:Q1; auto. apply K2 in Q1. congruence.
  - intros u. destruct (kind_of k u) eqn:Q.
    + destruct (K1 u Q) as (-> & _ & ->). auto.
    + destruct (kind_of k1 u) eqn:Q1; auto. apply K2 in Q1. congruence.
    + destruct (kind_of k1 u) eqn:Q1; auto. apply K2 in Q1. congruence.
    + destruct (kind_of k1 u) eqn:Q1; auto. apply K2 in Q1. congruence.
  - intros u. destruct (kind_of k u) eqn:Q.
    + destruct (K1 u Q) as (-> & _). auto.
    + destruct (kind_of k1 u) eqn:Q1; auto. apply K2 in Q1. congruence.
    + destruct (kind_of k1 u) eqn:Q1; auto. apply K2 in Q1. congruence.
    + destruct (kind_of k1 u) eqn:Q1; auto. apply K2 in Q1. congruence.
  - intros m. destruct (Nat.eqb_spec m l) as [->|N].
    + rewrite upd_same by auto. destruct y1 as [x1|].
      * destruct Y as (L & -> & _). unfold lives in L. destruct (lhome x1) as [h|]; auto. now rewrite Ha, (L h eq_refl).
      * now destruct Y as [-> _].
    + rewrite upd_other by auto. destruct (nth_error s m) as [[y|]|] eqn:B; auto. destruct (lhome y) as [h|] eqn:Hh.
      * rewrite Ha. destruct (wa w h) eqn:Q; auto. f_equal. apply (It m); auto. intros o E. congruence.
      * f_equal. apply (It m); auto. intros o E. congruence.
  - intros m. destruct (Nat.eq_dec m l) as [->|N].
    + rewrite upd_same, A by auto. destruct y1 as [x1|]; [apply Y|]. now destruct Y.
    + rewrite upd_other by auto. reflexivity.
  - exact Ha.
  - exact Hn.
  - apply upd_length.
Qed.

Lemma Inv_update w k s l x w1 k1 x1 : Inv w k s -> at_list s l x -> lives w (lhome x) -> lhome x1 = lhome x -> rest w1 w -> length k1 = length k ->
  (forall a, ~ inb x a -> ~ inb x1 a -> kind_of k1 a = kind_of k a /\ wv w1 a = wv w a) ->
  (forall a, inb x a -> ~ inb x1 a -> ~ live_kind (kind_of k1 a) /\ forall o, ~ refers w1 a o) ->
  (forall a, inb x1 a -> ~ inb x a -> kind_of k a = KRaw /\ forall m y, m <> l -> at_list s m y -> ~ inb y a) ->
  cnt x1 <= room x1 ->
  (forall i, i < room x1 -> kind_of k1 (base x1 + i) = (if i <? cnt x1 then KMade else KRaw) /\ wh w (base x1 + i) = lhome x /\
     wv w1 (base x1 + i) <> None /\ (cnt x1 <= i -> forall o, ~ refers w1 (base x1 + i) o)) ->
  Inv w1 k1 (upd s l (Some x1)) /\ asame (lw w1 k1 (upd s l (Some x1))) (set_l (lw w k s) l (Some (items w1 x1))).
Proof.
  intros I A Lv Hx (R1 & R2 & R3 & R4) Lk U1 U2 U3 Hc U4.
  assert (forall m y, m <> l -> at_list s m y -> forall a, inb y a -> ~ inb x a /\ ~ inb x1 a) as Ap.
  { intros m y N B a Y. assert (~ inb x a) as Nx by (eapply inb_other; eauto). split; auto.
    intros X1. destruct (U3 a X1 Nx) as [_ Q]. apply (Q m y); auto. }
  assert (forall u, kind_of k u = KVar -> ~ inb x u /\ ~ inb x1 u) as Va.
  { intros u Q. assert (~ inb x u) as Nx by (intros X; destruct (inb_kind _ _ _ _ _ _ I A X); congruence). split; auto.
    intros X1. destruct (U3 u X1 Nx). congruence. }
  assert (forall a, inb x1 a -> kind_of k1 a = KMade \/ kind_of k1 a = KRaw) as K1.
  { intros a X. destruct (inb_i _ _ X) as (i & L & ->). destruct (U4 i L) as [-> _]. destruct (i <? cnt x1); auto. }
  assert (forall u, kind_of k1 u = KVar -> kind_of k u = KVar) as Vb.
  { intros u Q. destruct (inb_dec x1 u) as [X1|X1]; [destruct (K1 u X1); congruence|].
    destruct (inb_dec x u) as [X|X]; [|destruct (U1 u X X1); congruence].
    exfalso. apply (U2 u X X1). now left. }
  split.
  - constructor.
    + rewrite R4, Lk. apply (i_len _ _ _ I).
    + intros a o N R. destruct (inb_dec x1 a) as [X1|X1].
      * destruct (inb_i _ _ X1) as (i & L & ->). destruct (U4 i L) as (Q1 & _ & _ & Q2). destruct (Nat.ltb_spec i (cnt x1)).
        -- apply N. right. auto.
        -- eapply Q2; eauto.
      * destruct (inb_dec x a) as [X|X]; [eapply U2; eauto|]. destruct (U1 a X X1) as [Q1 Q2]. apply (i_blank _ _ _ I a o).
        -- congruence.
        -- unfold refers in *. congruence.
    + intros a Q. destruct (inb_dec x1 a) as [X1|X1].
      * exists l, x1. split; [apply (at_upd' _ _ _ _ _ _ A); now rewrite Nat.eqb_refl|].
        destruct (inb_i _ _ X1) as (i & L & ->). destruct (U4 i L) as (Q1 & _). rewrite Q in Q1. destruct (Nat.ltb_spec i (cnt x1)); [lia|discriminate].
      * destruct (inb_dec x a) as [X|X]; [exfalso; apply (U2 a X X1); now right|]. destruct (U1 a X X1) as [Q1 _]. rewrite Q1 in Q.
        destruct (i_made _ _ _ I a Q) as (m & y & B & Y). exists m, y. split; auto. apply (at_upd' _ _ _ _ _ _ A).
        destruct (Nat.eqb_spec m l) as [->|]; auto. exfalso. apply X. unfold at_list in *. assert (y = x) by congruence. subst.
        pose proof (i_cnt _ _ _ I _ _ A). unfold inb. lia.
    + intros m y B. apply (at_upd' _ _ _ _ _ _ A) in B. destruct (m =? l); [congruence|]. eapply (i_cnt _ _ _ I); eauto.
    + intros m y i B L. apply (at_upd' _ _ _ _ _ _ A) in B. destruct (Nat.eqb_spec m l) as [->|N].
      * inversion B; subst y. apply U4; auto.
      * destruct (Ap m y N B (base y + i)) as [Q1 Q2]; [unfold inb; lia|]. destruct (U1 _ Q1 Q2) as [-> _]. eapply (i_kind _ _ _ I); eauto.
    + intros m y i B L. rewrite R1. apply (at_upd' _ _ _ _ _ _ A) in B. destruct (Nat.eqb_spec m l) as [->|N].
      * inversion B; subst y. rewrite Hx. apply U4; auto.
      * eapply (i_wh _ _ _ I); eauto.
    + intros m y i B L Lh. apply (at_upd' _ _ _ _ _ _ A) in B. destruct (Nat.eqb_spec m l) as [->|N].
      * inversion B; subst y. apply U4; auto.
      * destruct (Ap m y N B (base y + i)) as [Q1 Q2]; [unfold inb; lia|]. destruct (U1 _ Q1 Q2) as [_ ->]. eapply (i_wv _ _ _ I); eauto.
        intros o E. rewrite <- R2. auto.
    + intros m1 m2 y1 y2 i j B1 B2 N L1 L2. apply (at_upd' _ _ _ _ _ _ A) in B1, B2.
      destruct (Nat.eqb_spec m1 l) as [->|N1], (Nat.eqb_spec m2 l) as [->|N2]; try congruence.
      * inversion B1; subst y1. intros E. destruct (Ap m2 y2 N2 B2 (base y2 + j)) as [_ Q]; [unfold inb; lia|]. apply Q. unfold inb. lia.
      * inversion B2; subst y2. intros E. destruct (Ap m1 y1 N1 B1 (base y1 + i)) as [_ Q]; [unfold inb; lia|]. apply Q. unfold inb. lia.
      * eapply (i_apart _ _ _ I); eauto.
    + intros m y h B H. apply (at_upd' _ _ _ _ _ _ A) in B. rewrite R3. destruct (Nat.eqb_spec m l) as [->|N].
      * inversion B; subst y. eapply (i_home _ _ _ I l x); eauto. congruence.
      * eapply (i_home _ _ _ I); eauto.
    + intros a h Hh Ha. rewrite R1 in Hh. rewrite R2 in Ha. assert (forall i, wh w a = lhome x -> a = i -> False) as NN.
      { intros i E _. pose proof (Lv h ltac:(congruence)). congruence. }
      destruct (inb_dec x a) as [X|X].
      { exfalso. destruct (inb_i _ _ X) as (i & L & ->). eapply NN; eauto. eapply (i_wh _ _ _ I); eauto. }
      destruct (inb_dec x1 a) as [X1|X1].
      { exfalso. destruct (inb_i _ _ X1) as (i & L & ->). eapply NN; eauto. apply U4; auto. }
      destruct (U1 a X X1) as [_ ->]. eapply (i_dead _ _ _ I); eauto.
  - eapply other_list; eauto.
    + intros m y N B _. apply items_ext; auto. intros i L. destruct (Ap m y N B (base y + i)) as [Q1 Q2].
      * pose proof (i_cnt _ _ _ I _ _ B). unfold inb. lia.
      * now destruct (U1 _ Q1 Q2).
    + intros u Q. destruct (Va u Q) as [Q1 Q2]. destruct (U1 u Q1 Q2). split; [congruence|]. split; auto.
    + split; [rewrite Hx; auto|]. split; auto.
Qed.

Lemma Inv_forget w k s l x : Inv w k s -> at_list s l x -> room x = 0 -> lhome x = None ->
  Inv w k (upd s l None) /\ asame (lw w k (upd s l None)) (set_l (lw w k s) l None).
Proof.
  intros I A R H. assert (forall m y, at_list (upd s l None) m y -> at_list s m y /\ m <> l) as B.
  { intros m y Q. apply (at_upd' _ _ _ _ _ _ A) in Q. destruct (Nat.eqb_spec m l); [discriminate|auto]. }
  split.
  - destruct I as [J1 J2 J3 J4 J5 J6 J7 J8 J9 J10]. constructor; auto.
    + intros u Q. destruct (J3 u Q) as (m & y & Q1 & Q2). exists m, y. split; auto. apply (at_upd' _ _ _ _ _ _ A).
      destruct (Nat.eqb_spec m l) as [->|]; auto. exfalso. unfold at_list in *. assert (y = x) by congruence. subst.
      pose proof (J4 _ _ A). lia.
    + intros m y Q. eapply J4. apply B; eauto.
    + intros m y i Q. apply (J5 m). apply B; auto.
    + intros m y i Q. apply (J6 m). apply B; auto.
    + intros m y i Q. apply (J7 m). apply B; auto.
    + intros m1 m2 y1 y2 i j Q1 Q2. apply J8; apply B; auto.
    + intros m y h Q. apply (J9 m). apply B; auto.
  - eapply other_list; eauto.
Qed.

(* writing a variable *)
Lemma Inv_var w k s u x : Inv w k s -> kind_of k u = KVar -> (x <> None -> lives w (wh w u)) ->
  Inv (set_var w u x) k s /\ asame (lw (set_var w u x) k s) (set_v (lw w k s) u x).
Proof.
  intros I K L. assert (forall l y i, at_list s l y -> i < room y -> base y + i <> u) as N.
  { intros l y i A Li E. subst u. rewrite (i_kind _ _ _ I _ _ _ A Li) in K. destruct (i <? cnt y); discriminate. }
  assert (forall l y i, at_list s l y -> i < room y -> wv (set_var w u x) (base y + i) = wv w (base y + i)) as V.
  { intros l y i A Li. unfold set_var. cbn [wv]. pose proof (N l y i A Li). destruct (Nat.eqb_spec (base y + i) u); [contradiction|auto]. }
  split.
  - destruct I as [J1 J2 J3 J4 J5 J6 J7 J8 J9 J10]. constructor; auto.
    + intros a o Q. unfold refers, set_var. cbn [wv]. destruct (Nat.eqb_spec a u) as [->|]; [|apply J2; auto].
      exfalso. apply Q. now left.
    + intros l y i A Li Lh. rewrite (V l) by auto. eapply J7; eauto.
    + intros a h Hh Ha. change (wh w a = Some h) in Hh. change (wa w h = false) in Ha. unfold set_var. cbn [wv]. destruct (Nat.eqb_spec a u) as [->|]; [|eapply J10; eauto].
      destruct x; auto. exfalso. rewrite (L ltac:(discriminate) h Hh) in Ha. discriminate.
  - split; [|split; [|split; [|split; [|split; [|split; [|split]]]]]]; try reflexivity.
    + intros a. unfold lw, set_v, set_var. cbn [av wv]. destruct (Nat.eqb_spec a u) as [->|]; auto. now rewrite K.
    + intros l. unfold lw, set_v. cbn [al]. destruct (nth_error s l) as [[y|]|] eqn:A; auto.
      assert (items (set_var w u x) y = items w y) as ->; auto.
      apply items_ext; auto. intros i Li. apply (V l y); auto. pose proof (i_cnt _ _ _ I _ _ A). lia.
Qed.
(* writing an item *)
Lemma Inv_item w k s l y i x : Inv w k s -> at_list s l y -> i < cnt y -> lives w (lhome y) ->
  Inv (set_var w (base y + i) (Some x)) k s /\
  asame (lw (set_var w (base y + i) (Some x)) k s) (set_p (lw w k s) (PItem l i) x).
Proof.
  intros I A Li L. pose proof (i_cnt _ _ _ I _ _ A) as Hc.
  set (w1 := set_var w (base y + i) (Some x)).
  assert (forall a, wv w1 a = if a =? base y + i then Some x else wv w a) as W by reflexivity.
  assert (kind_of k (base y + i) = KMade) as Ki by (rewrite (i_kind _ _ _ I _ _ _ A) by lia; now replace (i <? cnt y) with true by lia).
  destruct (Inv_update w k s l y w1 k y I A L eq_refl) as [Q1 Q2]; auto.
  - split; [reflexivity|]. split; [reflexivity|]. split; reflexivity.
  - intros a N _. split; auto. rewrite W. destruct (Nat.eqb_spec a (base y + i)) as [->|]; auto. exfalso. apply N. unfold inb. lia.
  - intros a Q N. contradiction.
  - intros j Lj. rewrite (i_kind _ _ _ I _ _ _ A), (i_wh _ _ _ I _ _ _ A) by lia. split; auto. split; auto. rewrite W.
    split.
    + destruct (base y + j =? base y + i); [discriminate|]. eapply (i_wv _ _ _ I); eauto.
    + intros Q o. unfold refers. rewrite W. replace (base y + j =? base y + i) with false by lia. apply (i_blank _ _ _ I).
      rewrite (i_kind _ _ _ I _ _ _ A) by lia. replace (j <? cnt y) with false by lia. intros [?|?]; discriminate.
  - assert (upd s l (Some y) = s) as E.
    { apply nth_error_ext. intros m. destruct (Nat.eq_dec m l) as [->|N]; [|now rewrite upd_other by auto].
      rewrite upd_same; auto. eapply nth_error_lt; eauto. }
    rewrite E in Q1, Q2. split; auto. cbn [set_p]. rewrite (al_at _ _ _ _ _ A L).
    replace (upd (items w y) i x) with (items w1 y); auto.
    apply nth_error_ext. intros j. rewrite nth_items. destruct (Nat.eq_dec j i) as [->|N].
    + rewrite upd_same by (rewrite items_len; auto). replace (i <? cnt y) with true by lia. rewrite W, Nat.eqb_refl. auto.
    + rewrite upd_other by auto. rewrite nth_items, W. replace (base y + j =? base y + i) with false by lia. auto.
Qed.
Lemma addr_lives w k s p u : Inv w k s -> addr k s p u -> wv w u <> None -> lives w (wh w u).
Proof.
  intros I A N o H. destruct (wa w o) eqn:Q; auto. exfalso. apply N. eapply (i_dead _ _ _ I); eauto.
Qed.
Lemma Inv_place w k s p u x : Inv w k s -> addr k s p u -> wv w u <> None ->
  Inv (set_var w u (Some x)) k s /\ asame (lw (set_var w u (Some x)) k s) (set_p (lw w k s) p x).
Proof.
  intros I A N. pose proof (addr_lives _ _ _ _ _ I A N) as L. destruct p as [v|l i]; cbn [addr] in A.
  - destruct A as [-> K]. cbn [set_p]. apply Inv_var; auto.
  - destruct A as (y & A & Li & ->). apply Inv_item; auto. pose proof (i_cnt _ _ _ I _ _ A). rewrite (i_wh _ _ _ I _ _ _ A) in L by lia. auto.
Qed.
(* a new buffer *)
Lemma Inv_alloc r k s h n r' k' : good r -> Inv (world_of r) k s -> lives (world_of r) h -> allocate r k h n = (r', k') ->
  Inv (world_of r') k' s /\ asame (lw (world_of r') k' s) (lw (world_of r) k s).
Proof.
  intros G I L E. destruct (allocate_ok _ _ _ _ _ _ G L E) as (G' & _ & -> & V & H & Al & Lo & Lv).
  pose proof (i_len _ _ _ I) as Lk. cbn [world_of wm] in Lk.
  assert (forall a, kind_of (k ++ repeat KRaw n) a = if inr a (length k) n then KRaw else kind_of k a) as K by apply kind_app.
  assert (forall a, live_kind (kind_of k a) -> a < length k) as Lt.
  { intros a Q. apply kind_lt. intros E'. rewrite E' in Q. destruct Q; discriminate. }
  assert (forall a, kind_of k a <> KFree -> kind_of (k ++ repeat KRaw n) a = kind_of k a) as K'.
  { intros a Q. rewrite K. apply kind_lt in Q. rng. auto. }
  assert (forall l y i, at_list s l y -> i < room y -> base y + i < length (vs r)) as Lc.
  { intros l y i A Li. rewrite <- Lk. apply kind_lt. rewrite (i_kind _ _ _ I _ _ _ A Li). destruct (i <? cnt y); discriminate. }
  split.
  - constructor.
    + cbn [world_of wm]. rewrite app_length, repeat_length. lia.
    + intros a o N. unfold refers. rewrite V. destruct (Nat.ltb_spec a (length (vs r))).
      * apply (i_blank _ _ _ I). rewrite K in N. revert N. rng. auto.
      * destruct (a <? length (vs r) + n); discriminate.
    + intros a Q. apply (i_made _ _ _ I). rewrite K in Q. revert Q. rng; [discriminate|auto].
    + apply (i_cnt _ _ _ I).
    + intros l y i A Li. rewrite K'; [eapply (i_kind _ _ _ I); eauto|]. rewrite (i_kind _ _ _ I _ _ _ A Li). destruct (i <? cnt y); discriminate.
    + intros l y i A Li. rewrite wh_of, H. pose proof (Lc l y i A Li). replace (base y + i <? length (vs r)) with true by lia.
      apply (i_wh _ _ _ I l); auto.
    + intros l y i A Li Lh. rewrite V. pose proof (Lc l y i A Li). replace (base y + i <? length (vs r)) with true by lia.
      apply (i_wv _ _ _ I l); auto. intros o Q. specialize (Lh o Q). cbn in Lh. rewrite Al in Lh. exact Lh.
    + apply (i_apart _ _ _ I).
    + intros l y h' A Q. cbn [world_of wn]. rewrite Lo. eapply (i_home _ _ _ I); eauto.
    + intros a h' Hh Ha. rewrite wh_of, H in Hh. cbn [wa world_of] in Ha. rewrite Al in Ha. rewrite V.
      destruct (a <? length (vs r)); [eapply (i_dead _ _ _ I); eauto|]. destruct (a <? length (vs r) + n); auto.
      exfalso. pose proof (L h' Hh) as Q. cbn in Q. congruence.
  - split; [|split; [|split; [|split; [|split; [|split; [|split]]]]]]; unfold lw; cbn [av ah avar al alh aa an aln]; try reflexivity.
    + intros u. rewrite K, V. destruct (kind_of k u) eqn:Q.
      * pose proof (kind_lt k u ltac:(congruence)). rng. replace (u <? length (vs r)) with true by lia. auto.
      * rng; auto.
      * rng; auto.
      * rng; auto.
    + intros u. rewrite K, !wh_of, H. destruct (kind_of k u) eqn:Q.
      * pose proof (kind_lt k u ltac:(congruence)). rng. replace (u <? length (vs r)) with true by lia. auto.
      * rng; auto.
      * rng; auto.
      * rng; auto.
    + intros u. rewrite K. destruct (kind_of k u) eqn:Q.
      * pose proof (kind_lt k u ltac:(congruence)). rng; auto.
      * rng; auto.
      * rng; auto.
      * rng; auto.
    + intros l. destruct (nth_error s l) as [[y|]|] eqn:A; auto.
      assert (items (world_of r') y = items (world_of r) y) as ->.
      { apply items_ext; auto. intros i Li. rewrite V. pose proof (i_cnt _ _ _ I _ _ A). pose proof (Lc l y i A ltac:(lia)).
        now replace (base y + i <? length (vs r)) with true by lia. }
      destruct (lhome y) as [h'|]; auto. cbn [world_of wa]. now rewrite Al.
    + exact Al.
    + exact Lo.
Qed.
