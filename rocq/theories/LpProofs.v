(* Sequences of element operations: what they do to the world of RcSpec *)
From Verif Require Import Base BaseFacts RcModel RcSpec RcProofs RcProofs2 LpModel.
From Coq Require Import ZifyBool ZifyNat.
Open Scope nat_scope.

(* an element operation without its consequences for objects *)
Definition pure (o : eop) (w : world) : world :=
  match o with
  | EMake d u | EMove d u => match wv w u with Some x => set_var (set_var w u (Some None)) d (Some x) | None => w end
  | ECopy d u | ESet d u => set_var w d (wv w u)
  | EEnd d => set_var w d (Some None)
  end.
(* the variables an operation writes, and uses *)
Definition writes (o : eop) (v : nat) : Prop :=
  match o with
  | EMake d u | EMove d u => v = d \/ v = u
  | ECopy d u | ESet d u => v = d
  | EEnd d => v = d
  end.
Definition uses (o : eop) (v : nat) : Prop :=
  match o with
  | EMake d u | EMove d u | ECopy d u | ESet d u => v = d \/ v = u
  | EEnd d => v = d
  end.

Section Track.
(* P: the variables written *)
Variables (P : nat -> Prop) (w0 : world).
Definition anchored (u : nat) : Prop := forall h, wh w0 u = Some h -> rooted w0 P h.
Record track (w1 : world) (s : st) : Prop := {
  k_good : good s;
  k_home : forall u, home s u = wh w0 u;
  k_home1 : forall u, wh w1 u = wh w0 u;
  k_n : length (ob s) = wn w0 /\ wn w1 = wn w0;
  k_m : length (vs s) = wm w0 /\ wm w1 = wm w0;
  k_wa : forall o, wa w1 o = wa w0 o;
  k_old : forall o, alive s o = true -> wa w0 o = true;
  k_dead : forall o, wa w0 o = true -> alive s o = true \/ dies w0 w1 o;
  k_val : forall u, (forall h, wh w0 u = Some h -> alive s h = true) -> wv (world_of s) u = wv w1 u;
  k_kept : forall o, alive s o = true -> (exists u, refers w0 u o) -> exists u, refers (world_of s) u o;
  k_src : forall u o, refers w1 u o -> exists u', refers w0 u' o;
  k_in : forall u h, wv w1 u <> None -> wh w0 u = Some h -> wa w0 h = true;
  k_out : forall u, ~ P u -> wv w1 u = wv w0 u
}.
Lemma root_alive w1 s h : track w1 s -> rooted w0 P h -> alive s h = true.
Proof.
  intros T R. induction R as [h t N R _ IH]. apply (good_refers s t h (k_good _ _ T)).
  unfold refers. rewrite (k_val _ _ T) by auto. rewrite (k_out _ _ T); auto.
Qed.
Lemma anchor_alive w1 s u : track w1 s -> anchored u -> forall h, wh w0 u = Some h -> alive s h = true.
Proof.
  intros T A h Hh. eapply root_alive; eauto.
Qed.
Lemma root_stays w1 h : (forall u, wh w1 u = wh w0 u) -> (forall u, ~ P u -> wv w1 u = wv w0 u) -> rooted w0 P h -> ~ dies w0 w1 h.
Proof.
  intros Q1 Q2 R. induction R as [h t N R _ IH]. intros D. destruct D as [h _ F]. destruct (F t) as (h' & H3 & D').
  - unfold refers. rewrite Q2; auto.
  - rewrite Q1 in H3. exact (IH h' H3 D').
Qed.
Lemma anchor_stays w1 u h : (forall u, wh w1 u = wh w0 u) -> (forall u, ~ P u -> wv w1 u = wv w0 u) -> anchored u -> wh w0 u = Some h -> ~ dies w0 w1 h.
Proof.
  intros Q1 Q2 A Hh. apply root_stays; auto.
Qed.
Lemma track_dead w1 s : track w1 s -> forall o, dies w0 w1 o -> alive s o = false.
Proof.
  intros T. apply dies_rec. intros o R F. destruct (alive s o) eqn:A; auto. exfalso.
  destruct (k_kept _ _ T o A R) as [u U].
  assert (forall h, wh w0 u = Some h -> alive s h = true) as L.
  { intros h Hh. destruct (alive s h) eqn:Ah; auto. exfalso. destruct (k_good _ _ T) as (E & HJ & G).
    unfold refers in U. rewrite wv_of in U. rewrite (G u h) in U; [discriminate| |auto]. now rewrite (k_home _ _ T). }
  destruct (F u) as (h & H1 & _ & H2).
  { unfold refers in *. rewrite <- (k_val _ _ T); auto. }
  rewrite (k_home1 _ _ T) in H1. rewrite (L h H1) in H2. discriminate.
Qed.
Lemma track_collect w1 s : track w1 s -> collect w0 w1 (world_of s).
Proof.
  intros T. pose proof (track_dead _ _ T) as D. split; [|split; [|split; [|split; [|split; [|split]]]]].
  - intros o A. split; [rewrite (k_wa _ _ T); now apply (k_old _ _ T)|]. intros Q. apply D in Q. cbn in A. congruence.
  - intros o A. rewrite (k_wa _ _ T) in A. now apply (k_dead _ _ T).
  - intros u h Hu Dh. rewrite wv_of. destruct (k_good _ _ T) as (E & HJ & G). rewrite (G u h); auto.
    rewrite (k_home _ _ T). now rewrite <- (k_home1 _ _ T).
  - intros u K. destruct (wh w0 u) as [h|] eqn:Hh.
    + destruct (alive s h) eqn:Ah.
      * apply (k_val _ _ T). intros h' Q. congruence.
      * assert (~ dies w0 w1 h) as Nd by (apply K; now rewrite (k_home1 _ _ T)).
        destruct (wv w1 u) eqn:W.
        -- exfalso. destruct (k_dead _ _ T h) as [Q|Q]; [|congruence|auto]. apply (k_in _ _ T u); congruence.
        -- rewrite wv_of. destruct (k_good _ _ T) as (E & HJ & G). rewrite (G u h); auto. now rewrite (k_home _ _ T).
    + apply (k_val _ _ T). intros; congruence.
  - intros u. rewrite wh_of, (k_home _ _ T), (k_home1 _ _ T). reflexivity.
  - cbn. destruct (k_n _ _ T). congruence.
  - cbn. destruct (k_m _ _ T). congruence.
Qed.

(* one operation *)
Lemma track_step w1 w1' s s' ws1 (md : nat -> Prop) : track w1 s -> good s' -> collect (world_of s) ws1 (world_of s') ->
  (forall u, md u \/ ~ md u) ->
  (forall u, ~ md u -> wv ws1 u = wv (world_of s) u /\ wv w1' u = wv w1 u) ->
  (forall u, md u -> wv ws1 u = wv w1' u /\ P u /\ anchored u) ->
  (forall u o, md u -> refers w1' u o -> exists x, refers w1 x o /\ anchored x) ->
  (forall u, wh ws1 u = home s u) -> (forall o, wa ws1 o = alive s o) -> wn ws1 = length (ob s) -> wm ws1 = length (vs s) ->
  (forall u, wh w1' u = wh w1 u) -> (forall o, wa w1' o = wa w1 o) -> wn w1' = wn w1 -> wm w1' = wm w1 ->
  track w1' s'.
Proof.
  intros T G' C MD U1 U2 U3 H1 H2 H3 H4 H5 H6 H7 H8. pose proof C as (C1 & C2 & C3 & C4 & C5 & C6 & C7).
  assert (forall o, dies w0 w1 o -> dies w0 w1' o) as Mo.
  { apply dies_rec. intros o R F. constructor; auto. intros u Ru. destruct (MD u) as [M|M].
    - exfalso. destruct (U3 u o M Ru) as (x & Rx & Ax). destruct (F x Rx) as (h & Q1 & Q2 & _).
      rewrite (k_home1 _ _ T) in Q1. eapply (anchor_stays w1); eauto; [apply (k_home1 _ _ T)|apply (k_out _ _ T)].
    - destruct (F u) as (h & Q1 & _ & Q2); [unfold refers; now rewrite <- (proj2 (U1 u M))|].
      exists h. now rewrite H5. }
  assert (forall u h, wv w1' u <> None -> wh w0 u = Some h -> wa w0 h = true) as In'.
  { intros u h W Hu. destruct (MD u) as [M|M].
    - destruct (U2 u M) as (_ & _ & A). apply (k_old _ _ T). eapply anchor_alive; eauto.
    - apply (k_in _ _ T u); auto. now rewrite <- (proj2 (U1 u M)). }
  assert (forall o, dies (world_of s) ws1 o -> dies w0 w1' o) as Di.
  { apply dies_rec. intros o [u0 R] F. constructor.
    - apply (k_src _ _ T u0). unfold refers. rewrite <- (k_val _ _ T); auto. intros h Hh.
      destruct (alive s h) eqn:Ah; auto. exfalso. destruct (k_good _ _ T) as (E & HJ & G).
      unfold refers in R. rewrite wv_of in R. rewrite (G u0 h) in R; [discriminate| |auto]. now rewrite (k_home _ _ T).
    - intros u Ru. destruct (wh w0 u) as [h|] eqn:Hu.
      + destruct (alive s h) eqn:Ah.
        * destruct (F u) as (h' & Q1 & _ & Q2).
          { unfold refers in *. rewrite <- Ru. destruct (MD u) as [M|M]; [apply U2; auto|].
            destruct (U1 u M) as [-> ->]. apply (k_val _ _ T). intros; congruence. }
          exists h'. split; auto. rewrite H5, (k_home1 _ _ T), <- (k_home _ _ T), <- H1. exact Q1.
        * exists h. split; [now rewrite H5, (k_home1 _ _ T)|]. apply Mo. destruct (k_dead _ _ T h) as [Q|Q]; [|congruence|auto].
          apply (In' u); auto. unfold refers in Ru. congruence.
      + exfalso. destruct (F u) as (h' & Q1 & _).
        { unfold refers in *. rewrite <- Ru. destruct (MD u) as [M|M]; [apply U2; auto|].
          destruct (U1 u M) as [-> ->]. apply (k_val _ _ T). intros; congruence. }
        rewrite H1, (k_home _ _ T) in Q1. congruence. }
  constructor.
  - exact G'.
  - intros u. rewrite <- wh_of, C5, H1. apply (k_home _ _ T).
  - intros u. rewrite H5. apply (k_home1 _ _ T).
  - cbn in C6. destruct (k_n _ _ T). split; congruence.
  - cbn in C7. destruct (k_m _ _ T). split; congruence.
  - intros o. rewrite H6. apply (k_wa _ _ T).
  - intros o A. destruct (C1 o A) as [A1 _]. rewrite H2 in A1. now apply (k_old _ _ T).
  - intros o A. destruct (k_dead _ _ T o A) as [Q|Q]; auto. destruct (C2 o) as [Q1|Q1]; [now rewrite H2|auto|auto].
  - intros u K. rewrite C4.
    + destruct (MD u) as [M|M]; [apply U2; auto|]. destruct (U1 u M) as [-> ->]. apply (k_val _ _ T).
      intros h Hh. specialize (K h Hh). destruct (C1 h K) as [A1 _]. now rewrite H2 in A1.
    + intros h Hh D. rewrite H1, (k_home _ _ T) in Hh. specialize (K h Hh). destruct (C1 h K) as [_ N]. auto.
  - intros o A R. assert (kept s' o) as K; [|now apply K].
    apply (collect_kept s s' ws1 o (k_good _ _ T) G' C H1 H2).
    + intros u h Hh W. rewrite (k_home _ _ T) in Hh. destruct (MD u) as [M|M].
      * destruct (U2 u M) as (_ & _ & An). eapply anchor_alive; eauto.
      * rewrite (proj1 (U1 u M)) in W. destruct (alive s h) eqn:Ah; auto. exfalso. apply W. destruct (k_good _ _ T) as (E & HJ & G).
        rewrite wv_of. rewrite (G u h); auto. now rewrite (k_home _ _ T).
    + split; [intros _; apply (k_kept _ _ T); auto|].
      * destruct (C1 o A) as [A1 _]. now rewrite H2 in A1.
      * intros [u Ru]. eapply good_refers; eauto. apply (k_good _ _ T).
  - intros u o Ru. destruct (MD u) as [M|M].
    + destruct (U3 u o M Ru) as (x & Rx & _). eapply (k_src _ _ T); eauto.
    + eapply (k_src _ _ T u). unfold refers. now rewrite <- (proj2 (U1 u M)).
  - exact In'.
  - intros u N. destruct (MD u) as [M|M]; [exfalso; apply N; apply U2; auto|]. rewrite (proj2 (U1 u M)). now apply (k_out _ _ T).
Qed.

Lemma track_same w s : track w s -> forall s', good s' -> same_world (world_of s') (world_of s) -> track w s'.
Proof.
  intros [A1 A2 A3 A4 A5 A6 A7 A8 A9 A10 A11 A12 A13] s' G (S1 & S2 & S3 & S4 & S5). cbn in S3, S4, S5.
  constructor; auto.
  - intros u. rewrite <- wh_of, S2. apply A2.
  - now rewrite S4.
  - now rewrite S5.
  - intros o. rewrite S3. auto.
  - intros o. rewrite S3. auto.
  - intros u K. rewrite S1. apply A9. intros. rewrite <- S3. auto.
  - intros o. rewrite S3. intros A R. destruct (A10 o A R) as [u Q]. exists u. unfold refers. now rewrite S1.
Qed.
Lemma track_ext w w' s : track w s -> same_world w' w -> track w' s.
Proof.
  intros [A1 A2 A3 A4 A5 A6 A7 A8 A9 A10 A11 A12 A13] (S1 & S2 & S3 & S4 & S5).
  assert (forall u o, refers w' u o <-> refers w u o) as R by (intros; unfold refers; now rewrite S1).
  constructor; auto.
  - intros u. rewrite S2. auto.
  - now rewrite S4.
  - now rewrite S5.
  - intros o. rewrite S3. auto.
  - intros o A. destruct (A8 o A) as [Q|Q]; auto. right. revert Q. apply (dies_equiv w0 w w'); [intros; symmetry; auto|intros a b; symmetry; apply R].
  - intros u K. rewrite S1. auto.
  - intros u o Q. apply R in Q. eapply A11; eauto.
  - intros u h. rewrite S1. intros; eapply A12; eauto.
  - intros u N. rewrite S1. auto.
Qed.
Lemma track_eop w1 s o : track w1 s -> (forall v, uses o v -> anchored v /\ wv w1 v <> None) -> (forall v, writes o v -> P v) ->
  exists s', step s (effect_of o) = Ok (s', None) /\ track (pure o w1) s' /\ (no_leak s -> no_leak s').
Proof.
  intros T Hu Hw.
  assert (forall v u, P v -> uses o u -> held (world_of s) v u) as Held.
  { intros v u Pv Uu. destruct (Hu u Uu) as [A W]. split.
    - unfold exists_var. rewrite (k_val _ _ T); auto. intros h Hh. eapply anchor_alive; eauto.
    - intros h Hh. rewrite wh_of, (k_home _ _ T) in Hh. specialize (A h Hh). clear Hh. induction A as [h t N R Rt IH].
      apply (rooted_by _ _ h t); [intros ->; auto| |intros h' Q; apply IH; now rewrite wh_of, (k_home _ _ T) in Q].
      unfold refers. rewrite (k_val _ _ T); [now rewrite (k_out _ _ T)|]. intros h' Q. eapply root_alive; eauto. }
  assert (forall u, uses o u -> wv (world_of s) u = wv w1 u) as Val.
  { intros u Uu. apply (k_val _ _ T). intros h Hh. eapply anchor_alive; eauto. apply Hu; auto. }
  assert (legal (world_of s) (effect_of o)) as L.
  { destruct o; cbn [effect_of legal]; cbn [uses writes] in *; (apply Held; now auto) || (split; apply Held; auto). }
  destruct (step_ok _ _ (k_good _ _ T) L) as (s' & r & R & Sp & G' & NL).
  assert (forall d u, effect_of o = PMoveAssign d u -> uses o d /\ uses o u /\ P d /\ P u ->
     exists x, wv w1 u = Some x /\ track (set_var (set_var w1 u (Some None)) d (Some x)) s' /\ r = None) as Mv.
  { intros d u Eo (Ud & Uu & Pd & Pu). rewrite Eo in Sp. destruct (wv w1 u) as [x|] eqn:Wu; [|exfalso; now apply (Hu u Uu)].
    exists x. split; auto. pose proof (Val _ Uu) as Vu. rewrite Wu in Vu. inversion Sp; subst.
    - split; auto. match goal with H : wv _ u = Some ?y |- _ => assert (y = x) by congruence; subst y end.
      eapply (track_step w1 _ s s' _ (fun t => t = d \/ t = u)); eauto; try reflexivity.
      + intros t. destruct (Nat.eq_dec t d), (Nat.eq_dec t u); tauto.
      + intros t N. unfold set_var. cbn [wv]. destruct (Nat.eqb_spec t d); [exfalso; auto|]. destruct (Nat.eqb_spec t u); [exfalso; auto|auto].
      + intros t M. unfold set_var. cbn [wv]. split; [destruct (Nat.eqb_spec t d), (Nat.eqb_spec t u); auto; destruct M; congruence|].
        destruct M as [->| ->]; split; auto; apply Hu; auto.
      + intros t o' M. unfold refers, set_var. cbn [wv]. destruct (Nat.eqb_spec t d) as [->|].
        * intros Q. exists u. split; [unfold refers; congruence|apply Hu; auto].
        * destruct (Nat.eqb_spec t u) as [->|]; [discriminate|]. destruct M; congruence.
    - split; auto. apply (track_ext w1).
      + eapply track_same; eauto.
      + unfold set_var. repeat split; cbn; auto. intros t. destruct (Nat.eqb_spec t u) as [->|]; congruence. }
  assert (forall d u, effect_of o = PAssign d u -> uses o d /\ uses o u /\ P d ->
     track (set_var w1 d (wv w1 u)) s' /\ r = None) as As.
  { intros d u Eo (Ud & Uu & Pd). rewrite Eo in Sp. destruct (wv w1 u) as [x|] eqn:Wu; [|exfalso; now apply (Hu u Uu)].
    pose proof (Val _ Uu) as Vu. rewrite Wu in Vu. inversion Sp; subst. split; auto.
    match goal with H : wv _ u = Some ?y |- _ => assert (y = x) by congruence; subst y end.
    eapply (track_step w1 _ s s' _ (fun t => t = d)); eauto; try reflexivity.
    + intros t. destruct (Nat.eq_dec t d); tauto.
    + intros t N. unfold set_var. cbn [wv]. destruct (Nat.eqb_spec t d); [exfalso; auto|auto].
    + intros t ->. unfold set_var. cbn [wv]. rewrite Nat.eqb_refl. split; auto. split; auto. apply Hu; auto.
    + intros t o' ->. unfold refers, set_var. cbn [wv]. rewrite Nat.eqb_refl. intros Q. exists u. split; [unfold refers; congruence|apply Hu; auto]. }
  assert (no_leak s -> no_leak s') as NL' by (apply NL; destruct o; exact I).
  exists s'. destruct o as [d u|d u|d u|d u|d]; cbn [uses writes pure] in *.
  - destruct (Mv d u) as (x & -> & Q1 & Q2); [reflexivity|auto 6|]. subst r. auto.
  - destruct (As d u) as (Q1 & Q2); [reflexivity|auto 6|]. subst r. auto.
  - destruct (Mv d u) as (x & -> & Q1 & Q2); [reflexivity|auto 6|]. subst r. auto.
  - destruct (As d u) as (Q1 & Q2); [reflexivity|auto 6|]. subst r. auto.
  - cbn [effect_of] in Sp. inversion Sp; subst. split; auto. split; auto.
    eapply (track_step w1 _ s s' _ (fun t => t = d)); eauto; try reflexivity.
    + intros t. destruct (Nat.eq_dec t d); tauto.
    + intros t N. unfold set_var. cbn [wv]. destruct (Nat.eqb_spec t d); [exfalso; auto|auto].
    + intros t ->. unfold set_var. cbn [wv]. rewrite Nat.eqb_refl. split; auto. split; auto. apply Hu; auto.
    + intros t o' ->. unfold refers, set_var. cbn [wv]. rewrite Nat.eqb_refl. discriminate.
Qed.
End Track.

Lemma track_init P s : good s -> track P (world_of s) (world_of s) s.
Proof.
  intros G. constructor; auto.
  - intros u o R. eauto.
  - intros u h W Hh. cbn. destruct (alive s h) eqn:A; auto. exfalso. apply W. rewrite wv_of. destruct G as (E & HJ & G).
    rewrite (G u h); auto.
Qed.

(* ---- a sequence of operations -------------------------------------------------------- *)
Fixpoint checks (os : list eop) (k : list kind) : res (list kind) :=
  match os with [] => Ok k | o :: os => do k <- check k o; checks os k end.
Fixpoint pures (os : list eop) (w : world) : world :=
  match os with [] => w | o :: os => pures os (pure o w) end.
Lemma checks_app a b k : checks (a ++ b) k = do k <- checks a k; checks b k.
Proof. revert k. induction a as [|o a IH]; intros k; cbn; auto. destruct (check k o); cbn; auto. Qed.
Lemma pures_app a b w : pures (a ++ b) w = pures b (pures a w).
Proof. revert w. induction a; intros w; cbn; auto. Qed.
Lemma pure_some o w v : wv w v <> None -> (forall u, uses o u -> wv w u <> None) -> wv (pure o w) v <> None.
Proof.
  intros H U. destruct o as [d u|d u|d u|d u|d]; cbn [pure uses] in *; unfold set_var; try (destruct (wv w u) as [x|] eqn:W; [|exfalso; apply (U u); auto]); cbn [wv];
    repeat match goal with |- context [if ?b then _ else _] => destruct b end; try congruence.
Qed.
Lemma exec_ok P w0 os : forall w1 s k k', track P w0 w1 s -> checks os k = Ok k' ->
  (forall o, In o os -> forall v, uses o v -> anchored P w0 v /\ wv w1 v <> None) -> (forall o, In o os -> forall v, writes o v -> P v) ->
  exists s', exec os s k = Ok (s', k') /\ track P w0 (pures os w1) s' /\ (no_leak s -> no_leak s').
Proof.
  induction os as [|o os IH]; intros w1 s k k' T C U W.
  - cbn in *. inversion C. subst. eauto.
  - cbn [checks] in C. destruct (check k o) as [k1| | |] eqn:Ck; try discriminate. cbn [bind] in C.
    destruct (track_eop P w0 w1 s o T) as (s1 & R1 & T1 & N1).
    { intros v Q. apply (U o); [now left|auto]. }
    { intros v Q. apply (W o); [now left|auto]. }
    destruct (IH (pure o w1) s1 k1 k' T1 C) as (s' & R' & T' & N').
    { intros o' I v Q. destruct (U o' (or_intror I) v Q) as [Q1 Q2]. split; auto. apply pure_some; auto.
      intros u Uu. apply (U o); [now left|auto]. }
    { intros o' I. apply W. now right. }
    exists s'. cbn [exec]. rewrite Ck. cbn [bind]. rewrite R1. cbn [bind]. auto.
Qed.

(* ---- allocating a buffer --------------------------------------------------------------- *)
Lemma allocate_ok s k h n s' k' : good s -> (forall o, h = Some o -> alive s o = true) -> allocate s k h n = (s', k') ->
  good s' /\ (no_leak s -> no_leak s') /\ k' = k ++ repeat KRaw n /\
  (forall u, wv (world_of s') u = if u <? length (vs s) then wv (world_of s) u else if u <? length (vs s) + n then Some None else None) /\
  (forall u, home s' u = if u <? length (vs s) then home s u else if u <? length (vs s) + n then h else None) /\
  (forall o, alive s' o = alive s o) /\ length (ob s') = length (ob s) /\ length (vs s') = length (vs s) + n.
Proof.
  intros (E & HJ & HG) Ah Q. unfold allocate in Q. assert (s' = mkSt (cn s) (ob s) (vs s ++ repeat (Some null, h) n)) as -> by congruence.
  assert (k' = k ++ repeat KRaw n) as -> by congruence. clear Q.
  set (s' := mkSt (cn s) (ob s) (vs s ++ repeat (Some null, h) n)).
  assert (forall u, ex s' u = if Nat.ltb u (length (vs s)) then ex s u else if Nat.ltb u (length (vs s) + n) then Some null else None) as X.
  { intros u. unfold ex at 1, s'. cbn [vs]. destruct (Nat.ltb_spec u (length (vs s))).
    - now rewrite nth_error_app1.
    - rewrite nth_error_app2 by auto. destruct (Nat.ltb_spec u (length (vs s) + n)).
      + rewrite nth_error_repeat by lia. reflexivity.
      + replace (nth_error _ _) with (@None (option ptr * option nat)); auto.
        symmetry. apply nth_error_None. rewrite repeat_length. lia. }
  assert (forall u, home s' u = if Nat.ltb u (length (vs s)) then home s u else if Nat.ltb u (length (vs s) + n) then h else None) as H.
  { intros u. unfold home at 1, s'. cbn [vs]. destruct (Nat.ltb_spec u (length (vs s))).
    - now rewrite nth_error_app1.
    - rewrite nth_error_app2 by auto. destruct (Nat.ltb_spec u (length (vs s) + n)).
      + rewrite nth_error_repeat by lia. reflexivity.
      + replace (nth_error _ _) with (@None (option ptr * option nat)); auto.
        symmetry. apply nth_error_None. rewrite repeat_length. lia. }
  set (E' := E ++ repeat (Some None) n).
  assert (forall u, ev E' u = if Nat.ltb u (length (vs s)) then ev E u else if Nat.ltb u (length (vs s) + n) then Some None else None) as V.
  { intros u. rewrite <- (j_len _ _ _ HJ). unfold ev at 1, E'. destruct (Nat.ltb_spec u (length E)).
    - now rewrite nth_error_app1.
    - rewrite nth_error_app2 by auto. destruct (Nat.ltb_spec u (length E + n)).
      + rewrite nth_error_repeat by lia. reflexivity.
      + replace (nth_error _ _) with (@None (option (option (nat * nat)))); auto.
        symmetry. apply nth_error_None. rewrite repeat_length. lia. }
  assert (forall u q, ev E' u = Some (Some q) -> ev E u = Some (Some q)) as V'.
  { intros u q. rewrite V. destruct (u <? _); auto. destruct (u <? _); discriminate. }
  assert (forall c, cc E' c = cc E c) as C.
  { intros c. unfold cc, E'. rewrite filter_app, app_length, filter_blank. cbn [length]. lia. }
  split; [|split; [auto|split; [auto|split; [|split; [auto|split; [auto|split; [auto|]]]]]]].
  - exists E'. split.
    + destruct HJ as [A1 A2 A3 A4 A5 A6 A7 A8]. constructor.
      * unfold E', s'. cbn [vs]. rewrite !app_length, !repeat_length. lia.
      * intros u. rewrite X, V. destruct (u <? _); [apply A2|]. destruct (u <? _); auto.
      * intros u q _. rewrite X, V. destruct (u <? _); [apply A3; auto|]. destruct (u <? _); [|discriminate].
        intros Q. inversion Q. now split.
      * intros c m Q. rewrite C. auto.
      * intros u c o Q. apply V' in Q. destruct (A5 _ _ _ Q) as [Q1 Q2]. split; auto.
      * intros u1 u2 c1 c2 o1 o2 Q1 Q2. eapply A6; eauto.
      * intros u o. rewrite H, X. destruct (u <? _) eqn:Lu; [apply A7|]. destruct (u <? length (vs s) + n); intros; congruence.
      * intros u o. rewrite H. destruct (u <? _); [apply A8|]. destruct (u <? _); [|discriminate].
        intros Q. pose proof (Ah o Q) as Q1. unfold s'. cbn [ob]. unfold alive in Q1.
        destruct (nth_error (ob s) o) eqn:Q2; [|discriminate]. apply nth_error_Some. congruence.
    + intros u o. rewrite H, X. destruct (u <? _); [apply HG|]. destruct (u <? _); auto.
      intros Q Q1. pose proof (Ah o Q). change (alive s o = false) in Q1. congruence.
  - intros u. rewrite !wv_of, X. destruct (u <? _); auto. destruct (u <? _); auto.
  - unfold s'. cbn [vs]. rewrite app_length, repeat_length. reflexivity.
Qed.

(* ---- giving a buffer to another list ---------------------------------------------------- *)
Lemma rehome_ok h b n : forall s, good s -> (forall i, i < n -> wv (world_of s) (b + i) <> None) -> (forall o, h = Some o -> alive s o = true) ->
  exists s', rehome s h b n = Ok s' /\ good s' /\ (no_leak s -> no_leak s') /\
  (forall u, wv (world_of s') u = wv (world_of s) u) /\
  (forall u, home s' u = if (b <=? u) && (u <? b + n) then h else home s u) /\
  (forall o, alive s' o = alive s o) /\ length (ob s') = length (ob s) /\ length (vs s') = length (vs s).
Proof.
  revert b. induction n as [|n IH]; intros b s G V Ah.
  - exists s. cbn [rehome]. split; [reflexivity|]. split; [exact G|]. split; [auto|]. split; [auto|]. split; [|auto].
    intros u. replace ((b <=? u) && (u <? b + 0)) with false by lia. auto.
  - cbn [rehome]. pose proof (V 0 ltac:(lia)) as V0. rewrite Nat.add_0_r, wv_of in V0. unfold ex in V0.
    destruct (nth_error (vs s) b) as [[[p|] h0]|] eqn:Nb; try congruence.
    set (s1 := mkSt (cn s) (ob s) (upd (vs s) b (Some p, h))).
    assert (b < length (vs s)) as Lb by (apply nth_error_Some; congruence).
    assert (forall u, ex s1 u = ex s u) as X.
    { intros u. unfold ex, s1. cbn [vs]. destruct (Nat.eq_dec u b) as [->|N].
      - rewrite upd_same by auto. now rewrite Nb.
      - rewrite upd_other by auto. reflexivity. }
    assert (forall u, home s1 u = if u =? b then h else home s u) as H.
    { intros u. unfold home, s1. cbn [vs]. destruct (Nat.eqb_spec u b) as [->|N].
      - now rewrite upd_same by auto.
      - rewrite upd_other by auto. reflexivity. }
    assert (ex s b = Some p) as Xb by (unfold ex; now rewrite Nb).
    assert (good s1) as G1.
    { destruct G as (E & HJ & HG). exists E. split.
      - destruct HJ as [A1 A2 A3 A4 A5 A6 A7 A8]. constructor; auto.
        + unfold s1. cbn [vs]. now rewrite upd_length.
        + intros u. rewrite X. apply A2.
        + intros u q. rewrite X. apply A3.
        + intros u o. rewrite X, H. destruct (Nat.eqb_spec u b) as [->|]; [congruence|apply A7].
        + intros u o. rewrite H. destruct (Nat.eqb_spec u b) as [->|]; [|apply A8].
          intros Q. pose proof (Ah o Q) as Q1. unfold s1. cbn [ob]. unfold alive in Q1.
          destruct (nth_error (ob s) o) eqn:Q2; [|discriminate]. apply nth_error_Some. congruence.
      - intros u o. rewrite X, H. destruct (Nat.eqb_spec u b) as [->|]; [|apply HG].
        intros Q Q1. pose proof (Ah o Q). change (alive s o = false) in Q1. congruence. }
    destruct (IH (S b) s1 G1) as (s' & R & G' & NL & W & Hm & A & L1 & L2).
    { intros i Li. rewrite wv_of, X, <- wv_of. replace (S b + i) with (b + S i) by lia. apply V. lia. }
    { exact Ah. }
    exists s'. split; [exact R|]. split; [auto|]. split; [auto|]. split; [|split; [|split; [auto|split; [auto|]]]].
    + intros u. now rewrite W, !wv_of, X.
    + intros u. rewrite Hm, H. destruct (Nat.eqb_spec u b) as [->|].
      * replace ((S b <=? b) && (b <? S b + n)) with false by lia. replace ((b <=? b) && (b <? b + S n)) with true by lia. auto.
      * replace ((S b <=? u) && (u <? S b + n)) with ((b <=? u) && (u <? b + S n)) by lia. auto.
    + rewrite L2. unfold s1. cbn [vs]. apply upd_length.
Qed.
