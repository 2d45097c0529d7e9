(* Lists and their buffers *)
From Verif Require Import Base BaseFacts RcModel RcSpec RcProofs RcProofs2 LpModel LpSpec LpProofs LpProofs2.
From Coq Require Import ZifyBool ZifyNat.
Open Scope nat_scope.

Definition at_list (s : list (option lrec)) (l : nat) (x : lrec) : Prop := nth_error s l = Some (Some x).
Definition lives (w : world) (h : option nat) : Prop := forall o, h = Some o -> wa w o = true.
Record Inv (w : world) (k : list kind) (s : list (option lrec)) : Prop := {
  i_len : length k = wm w;
  i_blank : forall u o, ~ live_kind (kind_of k u) -> ~ refers w u o;
  i_made : forall u, kind_of k u = KMade -> exists l x, at_list s l x /\ base x <= u < base x + cnt x;
  i_cnt : forall l x, at_list s l x -> cnt x <= room x;
  i_kind : forall l x i, at_list s l x -> i < room x -> kind_of k (base x + i) = if i <? cnt x then KMade else KRaw;
  i_wh : forall l x i, at_list s l x -> i < room x -> wh w (base x + i) = lhome x;
  i_wv : forall l x i, at_list s l x -> i < room x -> lives w (lhome x) -> wv w (base x + i) <> None;
  i_apart : forall l1 l2 x1 x2 i j, at_list s l1 x1 -> at_list s l2 x2 -> l1 <> l2 -> i < room x1 -> j < room x2 -> base x1 + i <> base x2 + j;
  i_home : forall l x h, at_list s l x -> lhome x = Some h -> h < wn w;
  i_dead : forall u h, wh w u = Some h -> wa w h = false -> wv w u = None
}.
Definition addr (k : list kind) (s : list (option lrec)) (p : place) (u : nat) : Prop :=
  match p with
  | PVar v => u = v /\ kind_of k v = KVar
  | PItem l i => exists x, at_list s l x /\ i < cnt x /\ u = base x + i
  end.

Lemma nth_items w x i : nth_error (items w x) i = if i <? cnt x then Some (match wv w (base x + i) with Some v => v | None => None end) else None.
Proof.
  unfold items. destruct (Nat.ltb_spec i (cnt x)).
  - rewrite nth_error_map. rewrite (nth_error_nth' _ 0) by (rewrite seq_length; auto). rewrite seq_nth by auto. reflexivity.
  - apply nth_error_None. now rewrite map_length, seq_length.
Qed.
Lemma items_len w x : length (items w x) = cnt x.
Proof. unfold items. now rewrite map_length, seq_length. Qed.
Lemma lives_dec w h : lives w h \/ exists o, h = Some o /\ wa w o = false.
Proof.
  destruct h as [o|]; [|left; intros ? H; discriminate]. destruct (wa w o) eqn:A.
  - left. intros o' H. congruence.
  - right. eauto.
Qed.
Lemma al_at w k s l x : at_list s l x -> lives w (lhome x) -> al (lw w k s) l = Some (items w x).
Proof.
  intros A L. unfold lw. cbn [al]. rewrite A. unfold lives in L. destruct (lhome x) as [h|]; auto. now rewrite (L h eq_refl).
Qed.
Lemma al_some w k s l c : al (lw w k s) l = Some c -> exists x, at_list s l x /\ lives w (lhome x) /\ c = items w x.
Proof.
  unfold lw. cbn [al]. destruct (nth_error s l) as [[x|]|] eqn:A; try discriminate. intros H. exists x. split; auto.
  destruct (lhome x) as [h|] eqn:L.
  - destruct (wa w h) eqn:Q; [|discriminate]. inversion H. split; auto. intros o E. congruence.
  - inversion H. split; auto. intros o E. discriminate.
Qed.
Lemma alh_at w k s l x : at_list s l x -> alh (lw w k s) l = lhome x.
Proof. intros A. unfold lw. cbn [alh]. now rewrite A. Qed.
Lemma place_at w k s p u : Inv w k s -> addr k s p u -> at_ (lw w k s) p = wv w u /\ phome (lw w k s) p = wh w u.
Proof.
  intros I A. destruct p as [v|l i]; cbn [addr] in A.
  - destruct A as [-> K]. unfold lw. cbn. rewrite K. auto.
  - destruct A as (x & A & Li & ->). cbn [at_ phome]. rewrite (alh_at _ _ _ _ _ A).
    pose proof (i_cnt _ _ _ I _ _ A) as Hc. rewrite (i_wh _ _ _ I _ _ i A) by lia. split; auto.
    destruct (lives_dec w (lhome x)) as [L|(o & H & D)].
    + rewrite (al_at _ _ _ _ _ A L), nth_items. replace (i <? cnt x) with true by lia.
      pose proof (i_wv _ _ _ I _ _ i A ltac:(lia) L) as N. destruct (wv w (base x + i)); congruence.
    + unfold lw at 1. cbn [al]. rewrite A, H, D. symmetry. eapply (i_dead _ _ _ I); eauto.
      rewrite (i_wh _ _ _ I _ _ i A) by lia. auto.
Qed.
Lemma at_addr w k s p v : at_ (lw w k s) p = Some v -> exists u, addr k s p u.
Proof.
  destruct p as [u|l i]; cbn [at_ addr].
  - unfold lw. cbn [av]. destruct (kind_of k u) eqn:K; try discriminate. eauto.
  - destruct (al (lw w k s) l) as [c|] eqn:A; [|discriminate]. apply al_some in A. destruct A as (x & A & L & ->).
    rewrite nth_items. destruct (Nat.ltb_spec i (cnt x)); [|discriminate]. eauto.
Qed.
Lemma addr_of w k s u : Inv w k s -> live_kind (kind_of k u) -> exists p, addr k s p u.
Proof.
  intros I [K|K].
  - exists (PVar u). cbn. auto.
  - destruct (i_made _ _ _ I u K) as (l & x & A & B). exists (PItem l (u - base x)). cbn. exists x. split; auto. lia.
Qed.
Lemma addr_live w k s p u : Inv w k s -> addr k s p u -> live_kind (kind_of k u).
Proof.
  intros I A. destruct p as [v|l i]; cbn [addr] in A.
  - destruct A as [-> K]. now left.
  - destruct A as (x & A & Li & ->). right. pose proof (i_cnt _ _ _ I _ _ A) as Hc. rewrite (i_kind _ _ _ I _ _ i A) by lia.
    now replace (i <? cnt x) with true by lia.
Qed.
Lemma addr_fun k s p u v : addr k s p u -> addr k s p v -> u = v.
Proof.
  destruct p as [n|l i]; cbn [addr].
  - intros [-> _] [-> _]. auto.
  - intros (x & A & _ & ->) (y & B & _ & ->). unfold at_list in *. assert (x = y) by congruence. now subst.
Qed.
Lemma addr_inj w k s p q u : Inv w k s -> addr k s p u -> addr k s q u -> p = q.
Proof.
  intros I A B. destruct p as [v|l i], q as [v'|l' i']; cbn [addr] in *.
  - destruct A, B. congruence.
  - exfalso. destruct A as [-> K], B as (x & B & Li & ->). pose proof (i_cnt _ _ _ I _ _ B) as Hc. rewrite (i_kind _ _ _ I _ _ i' B) in K by lia.
    destruct (i' <? cnt x); discriminate.
  - exfalso. destruct B as [-> K], A as (x & B & Li & ->). pose proof (i_cnt _ _ _ I _ _ B) as Hc. rewrite (i_kind _ _ _ I _ _ i B) in K by lia.
    destruct (i <? cnt x); discriminate.
  - destruct A as (x & A & Li & ->), B as (y & B & Li' & E).
    pose proof (i_cnt _ _ _ I _ _ A) as Hc. pose proof (i_cnt _ _ _ I _ _ B) as Hc'.
    destruct (Nat.eq_dec l l') as [->|N].
    + unfold at_list in *. assert (x = y) by congruence. subst. f_equal. lia.
    + exfalso. eapply (i_apart _ _ _ I l l' x y i i'); eauto; lia.
Qed.
Lemma ref_place w k s u o : Inv w k s -> refers w u o -> exists p, addr k s p u /\ arefers (lw w k s) p o /\ phome (lw w k s) p = wh w u.
Proof.
  intros I R. destruct (addr_of w k s u I) as [p A].
  - destruct (kind_of k u) eqn:K; try (now left); try (now right); exfalso; (eapply (i_blank _ _ _ I); [rewrite K; intros [?|?]; discriminate|eauto]).
  - exists p. destruct (place_at _ _ _ _ _ I A) as [Q1 Q2]. split; auto. split; auto. unfold arefers. now rewrite Q1.
Qed.
Lemma place_ref w k s p o : Inv w k s -> arefers (lw w k s) p o -> exists u, addr k s p u /\ refers w u o /\ phome (lw w k s) p = wh w u.
Proof.
  intros I R. destruct (at_addr _ _ _ _ _ R) as [u A]. exists u. destruct (place_at _ _ _ _ _ I A) as [Q1 Q2].
  split; auto. split; auto. unfold refers. now rewrite <- Q1.
Qed.

(* ---- objects go away in both worlds --------------------------------------------------------- *)
Lemma adies_rec w0 w (P : nat -> Prop) :
  (forall o, (exists p, arefers w0 p o) -> (forall p, arefers w p o -> exists h, phome w p = Some h /\ adies w0 w h /\ P h) -> P o) ->
  forall o, adies w0 w o -> P o.
Proof.
  intros F. fix IH 2. intros o [o' R K]. apply F; auto. intros p Q. destruct (K p Q) as (h & H1 & H2). exists h. split; auto.
Qed.
Lemma adies_iff w0 k0 s0 w1 k1 s1 : Inv w0 k0 s0 -> Inv w1 k1 s1 -> forall o, adies (lw w0 k0 s0) (lw w1 k1 s1) o <-> dies w0 w1 o.
Proof.
  intros I0 I1 o. split; revert o.
  - apply adies_rec. intros o [p R] F. constructor.
    + destruct (place_ref _ _ _ _ _ I0 R) as (u & _ & Q & _). eauto.
    + intros u Ru. destruct (ref_place _ _ _ _ _ I1 Ru) as (q & _ & Q1 & Q2). destruct (F q Q1) as (h & H1 & _ & H2).
      exists h. split; auto. congruence.
  - apply dies_rec. intros o [u R] F. constructor.
    + destruct (ref_place _ _ _ _ _ I0 R) as (p & _ & Q & _). eauto.
    + intros p Rp. destruct (place_ref _ _ _ _ _ I1 Rp) as (u' & _ & Q1 & Q2). destruct (F u' Q1) as (h & H1 & _ & H2).
      exists h. split; auto. congruence.
Qed.
Lemma collect_Inv w0 w1 w2 k s : Inv w1 k s -> collect w0 w1 w2 -> Inv w2 k s.
Proof.
  intros I (C1 & C2 & C3 & C4 & C5 & C6 & C7).
  assert (forall u, wv w2 u <> None -> wv w2 u = wv w1 u) as V.
  { intros u N. destruct (wh w1 u) as [h|] eqn:Hh.
    - destruct (wa w1 h) eqn:A.
      + destruct (C2 h A) as [A2|D]; [|exfalso; eauto]. apply C4. intros h' E. assert (h' = h) by congruence. subst. apply C1. auto.
      + assert (wv w1 u = None) as W by (eapply (i_dead _ _ _ I); eauto).
        rewrite C4; auto. intros h' E D. apply N. eapply C3; eauto.
    - apply C4. intros; congruence. }
  constructor.
  - rewrite C7. apply (i_len _ _ _ I).
  - intros u o N R. apply (i_blank _ _ _ I u o N). unfold refers in *. rewrite <- V; congruence.
  - apply (i_made _ _ _ I).
  - apply (i_cnt _ _ _ I).
  - apply (i_kind _ _ _ I).
  - intros l x i A L. rewrite C5. eapply (i_wh _ _ _ I); eauto.
  - intros l x i A L Hl. rewrite C4.
    + eapply (i_wv _ _ _ I); eauto. intros o E. apply C1. auto.
    + intros h Hh D. rewrite (i_wh _ _ _ I _ _ _ A L) in Hh. destruct (C1 h (Hl h Hh)). auto.
  - apply (i_apart _ _ _ I).
  - intros l x h A H. rewrite C6. eapply (i_home _ _ _ I); eauto.
  - intros u h Hh Ha. rewrite C5 in Hh. destruct (wv w2 u) eqn:W; auto. exfalso.
    assert (wv w1 u <> None) as N by (rewrite <- V; congruence).
    destruct (wa w1 h) eqn:A; [|apply N; eapply (i_dead _ _ _ I); eauto].
    destruct (C2 h A) as [|D]; [congruence|]. assert (wv w2 u = None) by eauto. congruence.
Qed.
Lemma transfer w0 k0 s0 w1 k1 s1 w2 : Inv w0 k0 s0 -> Inv w1 k1 s1 -> collect w0 w1 w2 ->
  acollect (lw w0 k0 s0) (lw w1 k1 s1) (lw w2 k1 s1).
Proof.
  intros I0 I1 C. pose proof (collect_Inv _ _ _ _ _ I1 C) as I2. pose proof C as (C1 & C2 & C3 & C4 & C5 & C6 & C7).
  pose proof (adies_iff _ _ _ _ _ _ I0 I1) as D.
  assert (forall l x, at_list s1 l x -> (forall h, lhome x = Some h -> ~ dies w0 w1 h) -> lives w1 (lhome x) -> items w2 x = items w1 x) as It.
  { intros l x A Nd L. apply nth_error_ext. intros i. rewrite !nth_items. destruct (Nat.ltb_spec i (cnt x)); auto.
    rewrite C4; auto. intros h. rewrite (i_wh _ _ _ I1 _ _ _ A); auto. pose proof (i_cnt _ _ _ I1 _ _ A). lia. }
  split; [|split; [|split; [|split; [|split; [|split; [|split; [|split; [|split; [|split]]]]]]]]].
  - intros o A. split; [now apply C1|]. rewrite D. now apply C1.
  - intros o A. rewrite D. apply C2. exact A.
  - intros u h Hu Hd. apply D in Hd. revert Hu. unfold lw. cbn [ah av]. destruct (kind_of k1 u); auto. intros Hu. eapply C3; eauto.
  - intros u K. assert (forall h, ah (lw w1 k1 s1) u = Some h -> ~ dies w0 w1 h) as K' by (intros h Hh; rewrite <- D; auto).
    revert K'. unfold lw. cbn [ah av]. destruct (kind_of k1 u) eqn:Ku; auto.
  - intros l h Hh Dh. apply D in Dh. revert Hh. unfold lw. cbn [al alh]. destruct (nth_error s1 l) as [[x|]|] eqn:A; auto. intros ->.
    destruct (wa w2 h) eqn:A2; auto. exfalso. destruct (C1 h A2). auto.
  - intros l K. assert (forall h, alh (lw w1 k1 s1) l = Some h -> ~ dies w0 w1 h) as K' by (intros h Hh; rewrite <- D; auto).
    revert K'. unfold lw. cbn [al alh]. destruct (nth_error s1 l) as [[x|]|] eqn:A; auto. change (at_list s1 l x) in A. intros K'.
    destruct (lhome x) as [h|] eqn:Hh.
    + destruct (wa w1 h) eqn:A1.
      * destruct (C2 h A1) as [A2|Dh]; [|exfalso; eapply K'; eauto]. rewrite A2. f_equal. eapply It; eauto; rewrite Hh; auto.
        intros o E. congruence.
      * destruct (wa w2 h) eqn:A2; auto. destruct (C1 h A2). congruence.
    + f_equal. eapply It; eauto; rewrite Hh; auto. intros o E. discriminate.
  - intros u. unfold lw. cbn [ah]. now rewrite C5.
  - reflexivity.
  - reflexivity.
  - exact C6.
  - reflexivity.
Qed.

(* ---- worlds that look the same ----------------------------------------------------------------- *)
Lemma asame_refl a : asame a a.
Proof. repeat split; auto. Qed.
Lemma asame_sym a b : asame a b -> asame b a.
Proof. intros (A1 & A2 & A3 & A4 & A5 & A6 & A7 & A8). repeat (split; auto). Qed.
Lemma asame_trans a b c : asame a b -> asame b c -> asame a c.
Proof.
  intros (A1 & A2 & A3 & A4 & A5 & A6 & A7 & A8) (B1 & B2 & B3 & B4 & B5 & B6 & B7 & B8).
  split; [intros; now rewrite A1|]. split; [intros; now rewrite A2|]. split; [intros; now rewrite A3|].
  split; [intros; now rewrite A4|]. split; [intros; now rewrite A5|]. split; [intros; now rewrite A6|]. split; congruence.
Qed.
Lemma asame_at a b p : asame a b -> at_ a p = at_ b p.
Proof. intros (A1 & A2 & A3 & A4 & A5 & A6 & A7 & A8). destruct p; cbn [at_]; auto. now rewrite A4. Qed.
Lemma asame_home a b p : asame a b -> phome a p = phome b p.
Proof. intros (A1 & A2 & A3 & A4 & A5 & A6 & A7 & A8). destruct p; cbn [phome]; auto. Qed.
Lemma asame_dies a a' b b' : asame a a' -> asame b b' -> forall o, adies a b o -> adies a' b' o.
Proof.
  intros A B. apply adies_rec. intros o [p R] F. constructor.
  - exists p. unfold arefers in *. now rewrite <- (asame_at _ _ p A).
  - intros q Q. unfold arefers in Q. rewrite <- (asame_at _ _ q B) in Q. destruct (F q Q) as (h & H1 & _ & H2).
    exists h. split; auto. now rewrite <- (asame_home _ _ q B).
Qed.
Lemma acollect_ext a b c a' b' c' : asame a a' -> asame b b' -> asame c c' -> acollect a b c -> acollect a' b' c'.
Proof.
  intros A B C. assert (forall o, adies a b o <-> adies a' b' o) as D.
  { intros o. split; apply asame_dies; auto using asame_sym. }
  destruct B as (B1 & B2 & B3 & B4 & B5 & B6 & B7 & B8), C as (C1 & C2 & C3 & C4 & C5 & C6 & C7 & C8).
  intros (K1 & K2 & K3 & K4 & K5 & K6 & K7 & K8 & K9 & K10 & K11).
  split; [|split; [|split; [|split; [|split; [|split; [|split; [|split; [|split; [|split]]]]]]]]].
  - intros o. rewrite <- C6, <- B6, <- D. auto.
  - intros o. rewrite <- C6, <- B6, <- D. auto.
  - intros u h. rewrite <- B2, <- D, <- C1. eauto.
  - intros u K. rewrite <- C1, <- B1. apply K4. intros h. rewrite D, B2. auto.
  - intros u h. rewrite <- B5, <- D, <- C4. eauto.
  - intros u K. rewrite <- C4, <- B4. apply K6. intros h. rewrite D, B5. auto.
  - intros u. now rewrite <- C2, <- B2.
  - intros u. now rewrite <- C3, <- B3.
  - intros u. now rewrite <- C5, <- B5.
  - congruence.
  - congruence.
Qed.
(* nothing goes away while every object keeps a reference *)
Lemma no_deaths w0 w1 w2 : (forall p o, arefers w0 p o -> exists q, arefers w1 q o) -> acollect w0 w1 w2 -> asame w2 w1.
Proof.
  intros R (K1 & K2 & K3 & K4 & K5 & K6 & K7 & K8 & K9 & K10 & K11).
  assert (forall o, ~ adies w0 w1 o) as N.
  { intros o D. revert o D. apply adies_rec. intros o [p Q] F. destruct (R p o Q) as [q Q']. destruct (F q Q') as (h & _ & _ & []). }
  split; [intros; apply K4; auto|]. split; [auto|]. split; [auto|]. split; [intros; apply K6; auto|]. split; [auto|].
  split; [|split; auto]. intros o. destruct (aa w1 o) eqn:A.
  - destruct (K2 o A) as [|D]; auto. exfalso. eapply N; eauto.
  - destruct (aa w2 o) eqn:A2; auto. destruct (K1 o A2). congruence.
Qed.
