From Coq Require Import ZifyBool ZifyNat Permutation.
From Verif Require Import Base BaseFacts StrModel StrSpec StrProofs SlModel SlSpec.
From Verif Require LstModel LstSpec LstProofs.
Open Scope Z_scope.

Notation slot := (LstModel.slot (list Z)).
Notation lst := (LstModel.lst (list Z)).

(* ---- slots of the plain lists and values at addresses ------------------------- *)
Definition valof (s : slot) : option (list Z) :=
  match s with LstModel.Raw => None | LstModel.Moved => Some [] | LstModel.Live a => Some a end.
Lemma valof_raw s : LstModel.is_raw _ s = true <-> valof s = None.
Proof. destruct s; cbn; split; congruence. Qed.

Definition at_span (b : nat) (n : Z) (a : nat) : Prop := (b <= a)%nat /\ Z.of_nat a < Z.of_nat b + n.
Definition rep (vs : values) (b : nat) (m : list slot) : Prop :=
  forall i s, aget m i = Ok s -> nth_error vs (adr b i) = Some (valof s).
Definition frame (P : nat -> Prop) (vs vs' : values) : Prop :=
  length vs' = length vs /\ forall a, ~ P a -> nth_error vs' a = nth_error vs a.

Lemma frame_refl P vs : frame P vs vs.
Proof. split; auto. Qed.
Lemma frame_trans P a b c : frame P a b -> frame P b c -> frame P a c.
Proof. intros [L1 H1] [L2 H2]. split; [congruence|]. intros x Hx. rewrite H2, H1; auto. Qed.
Lemma frame_upd (P : nat -> Prop) vs a x : P a -> frame P vs (upd vs a x).
Proof. intros H. split; [apply upd_length|]. intros b Hb. apply upd_other. intros ->. auto. Qed.
Lemma frame_mono (P Q : nat -> Prop) vs vs' : (forall a, P a -> Q a) -> frame P vs vs' -> frame Q vs vs'.
Proof. intros H [L F]. split; [exact L|]. intros a Ha. apply F. auto. Qed.

Lemma aget_range {A} (m : list A) i s : aget m i = Ok s -> 0 <= i < zlen m.
Proof.
  unfold aget, znth. destruct (i <? 0) eqn:E; [discriminate|].
  destruct (nth_error m (Z.to_nat i)) eqn:N; [|discriminate]. intros _. apply nth_error_lt in N. unfold zlen. lia.
Qed.
Lemma aget_some {A} (m : list A) i : 0 <= i < zlen m -> exists s, aget m i = Ok s.
Proof.
  intros H. unfold aget, znth. replace (i <? 0) with false by lia.
  destruct (nth_error m (Z.to_nat i)) eqn:N; [eauto|]. apply nth_error_None in N. unfold zlen in H. lia.
Qed.
Lemma aset_ok {A} (m m' : list A) i s : aset m i s = Ok m' ->
  0 <= i < zlen m /\ zlen m' = zlen m /\ forall j, aget m' j = if j =? i then Ok s else aget m j.
Proof.
  unfold aset. destruct ((0 <=? i) && (i <? zlen m)) eqn:E; [|discriminate]. intros H.
  assert (m' = upd m (Z.to_nat i) s) as -> by congruence. split; [lia|]. split; [unfold zlen; now rewrite upd_length|].
  intros j. unfold aget, znth. destruct (j =? i) eqn:Ej.
  - replace j with i by lia. replace (i <? 0) with false by lia. rewrite upd_same; [reflexivity|]. unfold zlen in E. lia.
  - destruct (j <? 0) eqn:E0; [reflexivity|]. rewrite upd_other by lia. reflexivity.
Qed.

Lemma adr_span b n i : 0 <= i < n -> at_span b n (adr b i).
Proof. unfold at_span, adr. lia. Qed.
Lemma adr_inj b i j : 0 <= i -> 0 <= j -> adr b i = adr b j -> i = j.
Proof. unfold adr. lia. Qed.
Lemma span_adr b n a : at_span b n a -> exists i, 0 <= i < n /\ a = adr b i.
Proof. intros [H1 H2]. exists (Z.of_nat a - Z.of_nat b). unfold adr. lia. Qed.

Lemma rep_in vs b m i s m' : rep vs b m -> aset m i s = Ok m' -> rep (upd vs (adr b i) (valof s)) b m'.
Proof.
  intros R H. destruct (aset_ok _ _ _ _ H) as (Hi & L & G). intros j t Hj. pose proof (aget_range _ _ _ Hj).
  rewrite G in Hj. destruct (j =? i) eqn:E.
  - assert (j = i) by lia. subst j. assert (t = s) by congruence. subst t. apply upd_same.
    destruct (aget_some m i Hi) as (s0 & Hs). exact (nth_error_lt _ _ _ (R _ _ Hs)).
  - rewrite upd_other; [now apply R|]. intros X. apply adr_inj in X; lia.
Qed.
Lemma rep_out vs b m a x : rep vs b m -> ~ at_span b (zlen m) a -> rep (upd vs a x) b m.
Proof.
  intros R H j t Hj. rewrite upd_other; [now apply R|]. intros ->. apply H. apply adr_span. exact (aget_range _ _ _ Hj).
Qed.
Lemma rep_frame P vs vs' b m : rep vs b m -> frame P vs vs' -> (forall a, at_span b (zlen m) a -> ~ P a) -> rep vs' b m.
Proof.
  intros R [_ F] H j t Hj. rewrite F; [now apply R|]. apply H. apply adr_span. exact (aget_range _ _ _ Hj).
Qed.
Lemma rep_lt vs b m a : rep vs b m -> at_span b (zlen m) a -> (a < length vs)%nat.
Proof.
  intros R H. destruct (span_adr _ _ _ H) as (i & Hi & ->). destruct (aget_some _ _ Hi) as (s & Hs).
  exact (nth_error_lt _ _ _ (R _ _ Hs)).
Qed.
Lemma sread_rep vs b m i s : rep vs b m -> aget m i = Ok s ->
  sread vs (adr b i) = match valof s with Some l => Ok l | None => UB end.
Proof. intros R H. unfold sread. rewrite (R _ _ H). reflexivity. Qed.

(* ---- running element statements on plain values ---------------------------------- *)
Fixpoint sexec (sp : list (nat * Z)) (p : list op) (vs : values) : res values :=
  match p with
  | [] => Ok vs
  | o :: p' =>
      if forallb (inside sp) (touched o) then do (vs, _) <- sstep vs o; sexec sp p' vs else UB
  end.
Lemma sexec_app sp p q vs vs' : sexec sp p vs = Ok vs' -> sexec sp (p ++ q) vs = sexec sp q vs'.
Proof.
  revert vs. induction p as [|o p IH]; intros vs H; cbn [sexec app] in *.
  - now injection H as ->.
  - destruct (forallb _ _); [|discriminate]. destruct (sstep vs o) as [[v y]| | |]; try discriminate. cbn [bind] in *. auto.
Qed.
Lemma elems_refines sp p : forall s vs vs', Rel s vs -> sexec sp p vs = Ok vs' ->
  exists s', elems sp p s = Ok s' /\ Rel s' vs'.
Proof.
  induction p as [|o p IH]; intros s vs vs' R H; cbn [sexec elems] in *.
  - injection H as <-. eauto.
  - destruct (forallb _ _); [|discriminate].
    destruct (sstep vs o) as [[v y]| | |] eqn:E; try discriminate. cbn [bind] in H.
    destruct (step_refines _ _ _ _ _ R E) as (s1 & x & -> & R1 & _). cbn [bind]. eauto.
Qed.

Definition covers (sp : list (nat * Z)) (b : nat) (n : Z) : Prop := forall a, at_span b n a -> inside sp a = true.
Lemma covers_1 b n q : covers ((b, n) :: q) b n.
Proof. intros a [H1 H2]. unfold inside. cbn [existsb fst snd]. replace ((b <=? a)%nat && (Z.of_nat a <? Z.of_nat b + n)) with true by lia. reflexivity. Qed.
Lemma covers_2 c q b n : covers q b n -> covers (c :: q) b n.
Proof. intros H a Ha. unfold inside. cbn [existsb]. rewrite (H a Ha : existsb _ _ = true). apply orb_true_r. Qed.

(* constructing at d from std::move(u) *)
Lemma init_move vs d u l : nth_error vs d = Some None -> nth_error vs u = Some (Some l) ->
  sstep vs (OInit d (EMove u)) = Ok (upd (upd vs u (Some [])) d (Some l), SNone).
Proof. intros H1 H2. unfold sstep, sstep_raw, seval, sread. rewrite H1, H2. reflexivity. Qed.
Lemma init_copy vs d u l : nth_error vs d = Some None -> nth_error vs u = Some (Some l) ->
  sstep vs (OInit d (ECopy u)) = Ok (upd vs d (Some l), SNone).
Proof. intros H1 H2. unfold sstep, sstep_raw, seval, sread. rewrite H1, H2. reflexivity. Qed.
Lemma move_assign vs d u l x : nth_error vs d = Some (Some x) -> nth_error vs u = Some (Some l) -> d <> u ->
  sstep vs (OMoveAssign d u) = Ok (upd (upd vs d (Some l)) u (Some []), SNone).
Proof.
  intros H1 H2 N. unfold sstep, sstep_raw, sread. rewrite H1, H2. cbn [bind].
  replace (Nat.eqb d u) with false by lia. reflexivity.
Qed.
Lemma destroy_val vs d l : nth_error vs d = Some (Some l) -> sstep vs (ODestroy d) = Ok (upd vs d None, SNone).
Proof. intros H1. unfold sstep, sstep_raw, sread. rewrite H1. reflexivity. Qed.

Lemma move_out_inv (m m1 : list slot) i s : LstModel.move_out _ m i = Ok (m1, s) ->
  aget m i = Ok s /\ (exists l, valof s = Some l) /\ aset m i LstModel.Moved = Ok m1.
Proof.
  unfold LstModel.move_out. destruct (aget m i) as [t| | |] eqn:E; try discriminate. cbn [bind].
  destruct (LstModel.is_raw _ t) eqn:Er; [discriminate|].
  destruct (aset m i LstModel.Moved) as [m2| | |] eqn:E2; try discriminate. cbn [bind]. intros H. injection H as <- <-.
  split; [reflexivity|]. split; [|reflexivity]. destruct t; [discriminate| |]; cbn; eauto.
Qed.
Lemma construct_inv (m m' : list slot) i s : LstModel.construct _ m i s = Ok m' ->
  aget m i = Ok LstModel.Raw /\ aset m i s = Ok m'.
Proof.
  unfold LstModel.construct. destruct (aget m i) as [t| | |] eqn:E; try discriminate. cbn [bind].
  destruct t; cbn; try discriminate. auto.
Qed.
Lemma assign_inv (m m' : list slot) i s : LstModel.assign _ m i s = Ok m' ->
  (exists t l, aget m i = Ok t /\ valof t = Some l) /\ aset m i s = Ok m'.
Proof.
  unfold LstModel.assign. destruct (aget m i) as [t| | |] eqn:E; try discriminate. cbn [bind].
  destruct t; cbn; try discriminate; intros H; (split; [|exact H]); do 2 eexists; (split; [reflexivity|reflexivity]).
Qed.
Lemma destroy_inv (m m' : list slot) i : LstModel.destroy _ m i = Ok m' ->
  (exists t l, aget m i = Ok t /\ valof t = Some l) /\ aset m i LstModel.Raw = Ok m'.
Proof.
  unfold LstModel.destroy. destruct (aget m i) as [t| | |] eqn:E; try discriminate. cbn [bind].
  destruct t; cbn; try discriminate; intros H; (split; [|exact H]); do 2 eexists; (split; [reflexivity|reflexivity]).
Qed.

Ltac peel E a F := apply bind_ok in E; destruct E as (a & F & E).

(* ---- each loop of the list code, on plain values ------------------------------------ *)
Lemma sim_dtors sp b N : covers sp b N -> forall n m i m' vs, zlen m = N -> rep vs b m ->
  LstModel.dtors _ m i n = Ok m' ->
  zlen m' = N /\ exists vs', sexec sp (dtors b i n) vs = Ok vs' /\ rep vs' b m' /\ frame (at_span b N) vs vs'.
Proof.
  intros C. induction n as [|n IH]; intros m i m' vs L R H; cbn [LstModel.dtors dtors sexec] in *.
  - injection H as <-. split; [exact L|]. exists vs. split; [reflexivity|]. split; [exact R|apply frame_refl].
  - peel H m1 H1. apply destroy_inv in H1. destruct H1 as ((t & l & Ht & Hv) & Hs).
    pose proof (aget_range _ _ _ Ht) as Hr. destruct (aset_ok _ _ _ _ Hs) as (_ & L1 & _).
    assert (Sp : at_span b N (adr b i)) by (apply adr_span; lia).
    cbn [touched forallb]. rewrite (C _ Sp). cbn [andb].
    rewrite (destroy_val vs (adr b i) l) by (now rewrite (R _ _ Ht), Hv). cbn [bind].
    destruct (IH m1 (i + 1) m' (upd vs (adr b i) None)) as (L' & vs' & E & R' & F); auto; [congruence|exact (rep_in _ _ _ _ _ _ R Hs)|].
    split; [exact L'|]. exists vs'. split; [exact E|]. split; [exact R'|]. eapply frame_trans; [|exact F]. now apply frame_upd.
Qed.

Lemma sim_across sp db N sb M : covers sp db N -> covers sp sb M -> (forall a, at_span db N a -> ~ at_span sb M a) ->
  forall n d di u ui d' u' vs, zlen d = N -> zlen u = M -> rep vs db d -> rep vs sb u ->
  LstModel.move_across _ d di u ui n = Ok (d', u') ->
  zlen d' = N /\ zlen u' = M /\ exists vs', sexec sp (move_ctors db di sb ui n) vs = Ok vs' /\ rep vs' db d' /\ rep vs' sb u' /\
    frame (fun a => at_span db N a \/ at_span sb M a) vs vs'.
Proof.
  intros C1 C2 D. induction n as [|n IH]; intros d di u ui d' u' vs L1 L2 R1 R2 H; cbn [LstModel.move_across move_ctors sexec] in *.
  - injection H as <- <-. split; [exact L1|]. split; [exact L2|]. exists vs. split; [reflexivity|]. split; [exact R1|]. split; [exact R2|apply frame_refl].
  - peel H a F. destruct a as [u1 s]. peel H d1 G. apply move_out_inv in F. destruct F as (Hu & (l & Hl) & Hsu).
    apply construct_inv in G. destruct G as (Hd & Hsd).
    pose proof (aget_range _ _ _ Hu). pose proof (aget_range _ _ _ Hd).
    destruct (aset_ok _ _ _ _ Hsu) as (_ & Lu & _). destruct (aset_ok _ _ _ _ Hsd) as (_ & Ld & _).
    assert (S1 : at_span db N (adr db di)) by (apply adr_span; lia).
    assert (S2 : at_span sb M (adr sb ui)) by (apply adr_span; lia).
    cbn [touched forallb]. rewrite (C1 _ S1), (C2 _ S2). cbn [andb].
    rewrite (init_move vs _ _ l) by (first [now rewrite (R1 _ _ Hd)|now rewrite (R2 _ _ Hu), Hl]). cbn [bind].
    set (vs1 := upd (upd vs (adr sb ui) (Some [])) (adr db di) (Some l)).
    assert (Q1 : rep vs1 db d1).
    { unfold vs1. rewrite <- Hl. eapply rep_in; [|exact Hsd]. apply rep_out; [exact R1|]. rewrite L1. intros X. exact (D _ X S2). }
    assert (Q2 : rep vs1 sb u1).
    { unfold vs1. apply rep_out; [|rewrite Lu, L2; exact (D _ S1)]. exact (rep_in _ _ _ _ _ _ R2 Hsu). }
    destruct (IH d1 (di + 1) u1 (ui + 1) d' u' vs1) as (L1' & L2' & vs' & E & R1' & R2' & F); auto; try congruence.
    split; [exact L1'|]. split; [exact L2'|]. exists vs'. split; [exact E|]. split; [exact R1'|]. split; [exact R2'|].
    eapply frame_trans; [|exact F]. unfold vs1. eapply frame_trans; apply frame_upd; auto.
Qed.

Lemma sim_within sp b N : covers sp b N -> forall n m di si m' vs, zlen m = N -> rep vs b m ->
  LstModel.move_within _ m di si n = Ok m' ->
  zlen m' = N /\ exists vs', sexec sp (move_ctors b di b si n) vs = Ok vs' /\ rep vs' b m' /\ frame (at_span b N) vs vs'.
Proof.
  intros C. induction n as [|n IH]; intros m di si m' vs L R H; cbn [LstModel.move_within move_ctors sexec] in *.
  - injection H as <-. split; [exact L|]. exists vs. split; [reflexivity|]. split; [exact R|apply frame_refl].
  - peel H a F. destruct a as [m1 s]. peel H m2 G. apply move_out_inv in F. destruct F as (Hu & (l & Hl) & Hsu).
    apply construct_inv in G. destruct G as (Hd & Hsd).
    destruct (aset_ok _ _ _ _ Hsu) as (_ & Lu & Gu). destruct (aset_ok _ _ _ _ Hsd) as (_ & Ld & _).
    rewrite Gu in Hd. destruct (di =? si) eqn:Eq; [discriminate|].
    pose proof (aget_range _ _ _ Hu). pose proof (aget_range _ _ _ Hd).
    assert (S1 : at_span b N (adr b di)) by (apply adr_span; lia).
    assert (S2 : at_span b N (adr b si)) by (apply adr_span; lia).
    cbn [touched forallb]. rewrite (C _ S1), (C _ S2). cbn [andb].
    rewrite (init_move vs _ _ l) by (first [now rewrite (R _ _ Hd)|now rewrite (R _ _ Hu), Hl]). cbn [bind].
    set (vs1 := upd (upd vs (adr b si) (Some [])) (adr b di) (Some l)).
    assert (Q : rep vs1 b m2).
    { unfold vs1. rewrite <- Hl. eapply rep_in; [|exact Hsd]. exact (rep_in _ _ _ _ _ _ R Hsu). }
    destruct (IH m2 (di + 1) (si + 1) m' vs1) as (L' & vs' & E & R' & F); auto; try congruence.
    split; [exact L'|]. exists vs'. split; [exact E|]. split; [exact R'|].
    eapply frame_trans; [|exact F]. unfold vs1. eapply frame_trans; apply frame_upd; auto.
Qed.

Lemma assign_step sp b N m m1 m2 s di si vs : covers sp b N -> zlen m = N -> rep vs b m -> di <> si ->
  LstModel.move_out _ m si = Ok (m1, s) -> LstModel.assign _ m1 di s = Ok m2 ->
  zlen m2 = N /\ exists vs', forallb (inside sp) (touched (OMoveAssign (adr b di) (adr b si))) = true /\
    sstep vs (OMoveAssign (adr b di) (adr b si)) = Ok (vs', SNone) /\ rep vs' b m2 /\ frame (at_span b N) vs vs'.
Proof.
  intros C L R Nq F G. apply move_out_inv in F. destruct F as (Hu & (l & Hl) & Hsu).
  apply assign_inv in G. destruct G as ((t & x & Hd & Hx) & Hsd).
  destruct (aset_ok _ _ _ _ Hsu) as (_ & Lu & Gu). destruct (aset_ok _ _ _ _ Hsd) as (_ & Ld & _).
  rewrite Gu in Hd. replace (di =? si) with false in Hd by lia.
  pose proof (aget_range _ _ _ Hu). pose proof (aget_range _ _ _ Hd).
  assert (S1 : at_span b N (adr b di)) by (apply adr_span; lia).
  assert (S2 : at_span b N (adr b si)) by (apply adr_span; lia).
  assert (NA : adr b di <> adr b si) by (intros X; apply adr_inj in X; lia).
  split; [congruence|]. exists (upd (upd vs (adr b di) (Some l)) (adr b si) (Some [])).
  split; [cbn [touched forallb]; now rewrite (C _ S1), (C _ S2)|].
  split; [apply (move_assign vs _ _ l x); [now rewrite (R _ _ Hd), Hx|now rewrite (R _ _ Hu), Hl|exact NA]|].
  split.
  - rewrite upd_comm by exact NA. rewrite <- Hl. eapply rep_in; [|exact Hsd]. exact (rep_in _ _ _ _ _ _ R Hsu).
  - eapply frame_trans; apply frame_upd; auto.
Qed.
Lemma sim_fwd sp b N : covers sp b N -> forall n m di si m' vs, di <> si -> zlen m = N -> rep vs b m ->
  LstModel.assign_fwd _ m di si n = Ok m' ->
  zlen m' = N /\ exists vs', sexec sp (assign_fwd b di si n) vs = Ok vs' /\ rep vs' b m' /\ frame (at_span b N) vs vs'.
Proof.
  intros C. induction n as [|n IH]; intros m di si m' vs Nq L R H; cbn [LstModel.assign_fwd assign_fwd sexec] in *.
  - injection H as <-. split; [exact L|]. exists vs. split; [reflexivity|]. split; [exact R|apply frame_refl].
  - peel H a F. destruct a as [m1 s]. peel H m2 G.
    destruct (assign_step sp b N m m1 m2 s di si vs C L R Nq F G) as (L2 & vs1 & E1 & E2 & R2 & F2).
    rewrite E1, E2. cbn [bind].
    destruct (IH m2 (di + 1) (si + 1) m' vs1) as (L' & vs' & E & R' & F'); auto; try lia.
    split; [exact L'|]. exists vs'. split; [exact E|]. split; [exact R'|]. eapply frame_trans; eauto.
Qed.
Lemma sim_bwd sp b N : covers sp b N -> forall n m di si m' vs, di <> si -> zlen m = N -> rep vs b m ->
  LstModel.assign_bwd _ m di si n = Ok m' ->
  zlen m' = N /\ exists vs', sexec sp (assign_bwd b di si n) vs = Ok vs' /\ rep vs' b m' /\ frame (at_span b N) vs vs'.
Proof.
  intros C. induction n as [|n IH]; intros m di si m' vs Nq L R H; cbn [LstModel.assign_bwd assign_bwd sexec] in *.
  - injection H as <-. split; [exact L|]. exists vs. split; [reflexivity|]. split; [exact R|apply frame_refl].
  - peel H a F. destruct a as [m1 s]. peel H m2 G.
    destruct (assign_step sp b N m m1 m2 s (di + Z.of_nat n) (si + Z.of_nat n) vs C L R ltac:(lia) F G) as (L2 & vs1 & E1 & E2 & R2 & F2).
    rewrite E1, E2. cbn [bind].
    destruct (IH m2 di si m' vs1) as (L' & vs' & E & R' & F'); auto; try lia.
    split; [exact L'|]. exists vs'. split; [exact E|]. split; [exact R'|]. eapply frame_trans; eauto.
Qed.
Lemma sim_overlapped sp b N m di si n m' vs : covers sp b N -> zlen m = N -> rep vs b m ->
  LstModel.assign_overlapped _ m di si n = Ok m' ->
  zlen m' = N /\ exists vs', sexec sp (assign_overlapped b di si n) vs = Ok vs' /\ rep vs' b m' /\ frame (at_span b N) vs vs'.
Proof.
  intros C L R H. unfold LstModel.assign_overlapped, assign_overlapped in *.
  destruct (di <? si) eqn:E1; [eapply sim_fwd; eauto; lia|].
  destruct (di >? si) eqn:E2; [eapply sim_bwd; eauto; lia|].
  injection H as <-. split; [exact L|]. exists vs. split; [reflexivity|]. split; [exact R|apply frame_refl].
Qed.

(* ---- allocation -------------------------------------------------------------------- *)
Lemma rel_len s vs : Rel s vs -> length (vars s) = length vs.
Proof. intros [H _]. unfold shape in H. induction H; cbn; congruence. Qed.
Lemma rel_alloc s vs n : Rel s vs -> Rel (mkState (hp s) (vars s ++ repeat None n)) (vs ++ repeat None n).
Proof.
  intros [H I]. split; cbn [vars hp].
  - apply Forall2_app; [exact H|]. induction n; cbn; constructor; auto.
  - assert (E : forall (xs : list (option str)) (ws : values), shape xs ws -> pairs (xs ++ repeat None n) (ws ++ repeat None n) = pairs xs ws).
    { intros xs ws F. unfold shape in F. induction F as [|x y xs ws K F IH]; cbn [app pairs].
      - induction n; auto.
      - destruct x, y; try contradiction; rewrite IH; reflexivity. }
    rewrite E; auto.
Qed.
Lemma rel_none s vs a : Rel s vs -> nth_error vs a = Some None -> nth_error (vars s) a = Some None.
Proof.
  intros [H _] E. pose proof (shape_nth _ _ a H) as K. rewrite E in K. destruct (nth_error (vars s) a) as [[|]|]; tauto.
Qed.
(* the allocated buffers after giving back a list's buffer, and after receiving one *)
Definition del (x : slist) (L : list (nat * Z)) : list (nat * Z) :=
  if room x =? 0 then L else filter (fun q => negb (fst q =? base x)%nat) L.
Definition add (x : slist) (L : list (nat * Z)) : list (nat * Z) :=
  if room x =? 0 then L else (base x, room x) :: L.
Definition swap (L : list (nat * Z)) (x : slist) (L' : list (nat * Z)) (x' : slist) : Prop :=
  (base x' = base x /\ room x' = room x /\ L' = L) \/ L' = add x' (del x L).
Lemma exec_ok sp p m vs vs' : forallb (held m) sp = true -> Rel (objs m) vs -> sexec sp p vs = Ok vs' ->
  exists s', exec sp p m = Ok (mkSt s' (live m)) /\ Rel s' vs'.
Proof.
  intros H R E. destruct (elems_refines _ _ _ _ _ R E) as (s' & X & R'). exists s'. unfold exec. rewrite H, X. auto.
Qed.
Lemma dealloc_ok m vs x : Rel (objs m) vs -> held m (base x, room x) = true ->
  (forall a, at_span (base x) (room x) a -> nth_error vs a = Some None) ->
  deallocate m (base x) (room x) = Ok (mkSt (objs m) (del x (live m))).
Proof.
  intros R Hd H. unfold deallocate, del. destruct (room x =? 0) eqn:E; [destruct m; reflexivity|].
  rewrite Hd, (proj2 (forallb_forall _ _)); [reflexivity|].
  intros a Ha. apply in_seq in Ha. unfold no_object. rewrite (rel_none (objs m) vs a R); [reflexivity|]. apply H. unfold at_span. lia.
Qed.
Lemma held_live m m' p : live m' = live m -> held m' p = held m p.
Proof. unfold held. now intros ->. Qed.
Lemma held_new m m' p q : live m' = p :: live m -> held m q = true -> held m' q = true.
Proof. unfold held. intros ->. cbn [existsb]. destruct (snd q =? 0); auto. cbn [orb]. intros ->. apply orb_true_r. Qed.
Lemma held_first m p L : live m = p :: L -> held m p = true.
Proof. unfold held. intros ->. cbn [existsb]. rewrite Nat.eqb_refl, Z.eqb_refl. cbn. apply orb_true_r. Qed.

Lemma dealloc_raw vs b (m : list slot) : rep vs b m -> LstModel.deallocate _ m = Ok tt ->
  forall a, at_span b (zlen m) a -> nth_error vs a = Some None.
Proof.
  intros R D a Ha. unfold LstModel.deallocate in D. destruct (forallb _ m) eqn:E; [|discriminate].
  destruct (span_adr _ _ _ Ha) as (i & Hi & ->). destruct (aget_some _ _ Hi) as (s & Hs).
  rewrite (R _ _ Hs). f_equal. apply valof_raw. eapply (proj1 (forallb_forall _ _) E).
  unfold aget, znth in Hs. replace (i <? 0) with false in Hs by lia. destruct (nth_error m (Z.to_nat i)) eqn:Z0; [|discriminate].
  apply nth_error_In in Z0. congruence.
Qed.
Lemma rep_new (vs : values) n : rep (vs ++ repeat None n) (length vs) (repeat LstModel.Raw n).
Proof.
  intros i s H. pose proof (aget_range _ _ _ H) as Hr. rewrite zlen_repeat in Hr.
  unfold adr. rewrite nth_error_app2 by lia. replace (length vs + Z.to_nat i - length vs)%nat with (Z.to_nat i) by lia.
  unfold aget, znth in H. replace (i <? 0) with false in H by lia.
  destruct (nth_error (repeat LstModel.Raw n) (Z.to_nat i)) as [t|] eqn:E; [|discriminate].
  assert (t = s) by congruence. subst t. apply nth_error_In, repeat_spec in E. subst s. cbn [valof]. apply nth_error_repeat. lia.
Qed.
Lemma rep_app vs ws b m : rep vs b m -> rep (vs ++ ws) b m.
Proof.
  intros R i s H. pose proof (R _ _ H) as E. rewrite nth_error_app1; [exact E|]. exact (nth_error_lt _ _ _ E).
Qed.

(* What a list operation may change: addresses of the old and the new buffer; what is left
   of the old buffer holds no object; new addresses all belong to the new buffer. *)
Definition span (x : slist) (a : nat) : Prop := at_span (base x) (room x) a.
Definition changes (vs : values) (x : slist) (vs' : values) (x' : slist) : Prop :=
  (forall a, span x' a -> (a < length vs')%nat /\ (span x a \/ (length vs <= a)%nat)) /\
  (forall a, ~ span x' a -> span x a -> nth_error vs' a = Some None) /\
  (forall a, ~ span x' a -> ~ span x a -> nth_error vs' a = nth_error vs a).

(* a list and its plain counterpart *)
Definition lrep (vs : values) (x : slist) (y : lst) : Prop :=
  cnt x = LstModel.count y /\ room x = LstModel.cap y /\ zlen (LstModel.buf y) = LstModel.cap y /\ rep vs (base x) (LstModel.buf y).

Lemma lrep_span vs x y a : lrep vs x y -> span x a -> (a < length vs)%nat.
Proof. intros (_ & E & L & R) H. eapply rep_lt; [exact R|]. rewrite L, <- E. exact H. Qed.

Lemma changes_frame vs vs' x x' : base x' = base x -> room x' = room x -> (forall a, span x a -> (a < length vs)%nat) ->
  frame (span x) vs vs' -> changes vs x vs' x'.
Proof.
  intros E1 E2 S [L F]. assert (Q : forall a, span x' a <-> span x a) by (intros a; unfold span; rewrite E1, E2; tauto).
  split; [|split].
  - intros a Ha. apply Q in Ha. rewrite L. auto.
  - intros a Na Ha. exfalso. apply Na. now apply Q.
  - intros a _ Na. now apply F.
Qed.
