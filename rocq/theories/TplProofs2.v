From Coq Require Import ZifyBool ZifyNat.
From Verif Require Import Base BaseFacts TplModel TplSpec TplProofs.
Open Scope nat_scope.

Section Proofs.
Context {V : Type} (gone self : V -> V).
Notation memory := (list (cell V)).

Lemma defaults_ok (ds : list (option V)) : forall b m es, defaults ds b = (m, es) ->
  length m = length ds /\ length es = length ds /\
  (forall i e, nth_error es i = Some e -> e = Own (b + i)) /\
  (forall i d, nth_error ds i = Some d -> nth_error es i = Some (Own (b + i)) /\
     nth_error m i = Some (match d with Some x => Val x | None => Raw end)).
Proof.
  induction ds as [|d ds IH]; intros b m es H; cbn [defaults] in H.
  - assert (m = [] /\ es = []) as [-> ->] by (split; congruence). split; [auto|]. split; [auto|]. split; intros [|i]; discriminate.
  - destruct (defaults ds (S b)) as [m1 es1] eqn:R. destruct (IH _ _ _ R) as (I1 & I2 & I3 & I4).
    assert (m = match d with Some x => Val x | None => Raw end :: m1 /\ es = Own b :: es1) as [-> ->] by (split; congruence).
    split; [cbn; lia|]. split; [cbn; lia|]. split.
    + intros [|i] e Q; cbn [nth_error] in Q; [rewrite Nat.add_0_r; congruence|]. rewrite (I3 _ _ Q). f_equal. lia.
    + intros [|i] d' Q; cbn [nth_error] in *; [rewrite Nat.add_0_r; assert (d = d') as -> by congruence; auto|]. replace (b + S i) with (S b + i) by lia. auto.
Qed.
Lemma free_ok es : forall m : memory, length (free es m) = length m /\
  (forall a, In (Own a) es -> forall x, nth_error (free es m) a <> Some (Val x) /\ nth_error (free es m) a <> Some Raw) /\
  (forall a, ~ In (Own a) es -> nth_error (free es m) a = nth_error m a).
Proof.
  induction es as [|[b|b] es IH]; intros m; cbn [free].
  - split; [auto|]. split; [intros a []|auto].
  - destruct (IH (upd m b Dead)) as (I1 & I2 & I3). rewrite upd_length in I1. split; [auto|]. split.
    + intros a I x. destruct (in_dec (fun x y : elem => ltac:(decide equality; apply Nat.eq_dec)) (Own a) es) as [J|J]; [auto|].
      destruct I as [I|I]; [|contradiction]. assert (b = a) as -> by congruence. rewrite I3 by auto.
      destruct (Nat.lt_ge_cases a (length m)) as [L|L].
      * rewrite upd_same by auto. split; discriminate.
      * replace (nth_error (upd m a Dead) a) with (@None (cell V)); [split; discriminate|]. symmetry. apply nth_error_None. rewrite upd_length. lia.
    + intros a N. rewrite I3 by (intros I; apply N; now right). apply upd_other. intros ->. apply N. now left.
  - destruct (IH m) as (I1 & I2 & I3). split; [auto|]. split.
    + intros a [I|I]; [discriminate|auto].
    + intros a N. apply I3. intros I. apply N. now right.
Qed.

Record sep (s : st V) : Prop := mkSep {
  sep_own : forall v i w j a, element s v i = Some (Own a) -> element s w j = Some (Own a) -> v = w /\ i = j;
  sep_live : forall v i a, element s v i = Some (Own a) -> live (mem s) a;
  sep_in : forall v i e, element s v i = Some e -> at_ e < length (mem s)
}.
Lemma element_of (s : st V) v es i : nth_error (tup s) v = Some (Some es) -> element s v i = nth_error es i.
Proof. unfold element. now intros ->. Qed.
Lemma element_upd (m : memory) (s : st V) v x u i : v < length (tup s) ->
  element (mkSt m (upd (tup s) v x)) u i = if Nat.eqb u v then match x with Some es => nth_error es i | None => None end else element s u i.
Proof.
  intros L. unfold element. cbn [tup]. destruct (Nat.eqb_spec u v) as [->|N]; [rewrite upd_same by auto; now destruct x|]. now rewrite upd_other by auto.
Qed.
Lemma sep_move (m m' : memory) t : stays m m' -> length m <= length m' -> sep (mkSt m t) -> sep (mkSt m' t).
Proof.
  intros S L [H1 H2 H3]. constructor; auto.
  - intros v i a E. apply S. eapply H2; eauto.
  - intros v i e E. specialize (H3 v i e E). cbn [mem] in *. lia.
Qed.
(* a tuple variable gets new elements *)
Lemma sep_new (s : st V) m' v es : sep s -> nth_error (tup s) v = Some None -> stays (mem s) m' -> length (mem s) <= length m' ->
  (forall i j a, nth_error es i = Some (Own a) -> nth_error es j = Some (Own a) -> i = j) ->
  (forall i a, nth_error es i = Some (Own a) -> length (mem s) <= a /\ live m' a) ->
  (forall i e, nth_error es i = Some e -> at_ e < length m') ->
  sep (mkSt m' (upd (tup s) v (Some es))).
Proof.
  intros [H1 H2 H3] Nv St L D N A. assert (v < length (tup s)) as Lv by (eapply nth_error_lt; eauto).
  constructor; cbn [mem].
  - intros u i w j a. rewrite !element_upd by auto. destruct (Nat.eqb_spec u v) as [->|Nu], (Nat.eqb_spec w v) as [->|Nw]; intros E1 E2.
    + split; [auto|]. eauto.
    + apply N in E1. specialize (H3 _ _ _ E2). cbn [at_] in H3. lia.
    + apply N in E2. specialize (H3 _ _ _ E1). cbn [at_] in H3. lia.
    + eauto.
  - intros u i a. rewrite element_upd by auto. destruct (Nat.eqb u v); intros E; [eapply N; eauto|]. apply St. eauto.
  - intros u i e. rewrite element_upd by auto. destruct (Nat.eqb u v); intros E; [eauto|]. specialize (H3 _ _ _ E). lia.
Qed.

Lemma resolves_in (s : st V) l : sep s -> forall src, resolves s l = Ok src -> forall i a mv, nth_error src i = Some (a, mv) -> a < length (mem s).
Proof.
  intros HS. induction l as [|[x mv0] l IH]; intros src H i a mv Q; cbn [resolves] in H.
  - assert (src = []) as -> by congruence. destruct i; discriminate.
  - destruct (resolve s x) as [b| | |] eqn:X; cbn [bind] in H; try discriminate. destruct (resolves s l) as [r| | |] eqn:R; cbn [bind] in H; try discriminate.
    assert (src = (b, mv0) :: r) as -> by congruence. destruct i as [|i]; cbn [nth_error] in Q; [|eauto].
    assert (b = a) as -> by congruence. destruct x as [c|w j]; cbn [resolve] in X.
    + destruct (Nat.ltb_spec c (length (mem s))); [|discriminate]. assert (c = a) as -> by congruence. auto.
    + unfold where_, tget in X. destruct (nth_error (tup s) w) as [[es|]|] eqn:W; cbn [bind] in X; try discriminate.
      destruct (nth_error es j) as [e|] eqn:E; try discriminate. assert (a = at_ e) as -> by congruence.
      apply (sep_in _ HS w j). now rewrite (element_of _ _ _ _ W).
Qed.

Lemma built_ok (s : st V) v refs src m es : sep s -> nth_error (tup s) v = Some None ->
  (forall i a mv, nth_error src i = Some (a, mv) -> a < length (mem s)) ->
  build gone refs src (mem s) = Ok (m, es) ->
  sep (mkSt m (upd (tup s) v (Some es))) /\ built gone s (mkSt m (upd (tup s) v (Some es))) v refs src.
Proof.
  intros HS Nv LT R. destruct (build_ok gone self refs src _ _ _ R LT) as (I1 & I2 & I3 & I4 & I5 & I6 & I7 & I8 & I9).
  assert (v < length (tup s)) as Lv by (eapply nth_error_lt; eauto).
  assert (forall i e, nth_error es i = Some e -> (exists a mv, nth_error refs i = Some true /\ nth_error src i = Some (a, mv) /\ e = Ref a) \/
     exists a mv b, nth_error refs i = Some false /\ nth_error src i = Some (a, mv) /\ e = Own b /\ length (mem s) <= b < length m /\ live m b) as CE.
  { intros i e Q. assert (i < length refs) as Li by (rewrite <- I1; eapply nth_error_lt; eauto).
    destruct (nth_error refs i) as [r|] eqn:Qr; [|apply nth_error_None in Qr; lia].
    destruct (nth_error src i) as [[a mv]|] eqn:Qs; [|apply nth_error_None in Qs; lia].
    destruct r; [left; exists a, mv; rewrite (I5 _ _ _ Qr Qs) in Q; repeat split; congruence|].
    right. destruct (I6 _ _ _ Qr Qs) as (b & B1 & B2 & B3 & B4 & _). exists a, mv, b. repeat split; auto. congruence. }
  split.
  - apply sep_new; auto.
    + intros i a Q. destruct (CE _ _ Q) as [(? & ? & _ & _ & ?)|(c & mv & b & _ & _ & E & B & B2)]; [discriminate|]. assert (a = b) as -> by congruence. split; [lia|auto].
    + intros i e Q. destruct (CE _ _ Q) as [(a & mv & _ & Qs & ->)|(c & mv & b & _ & _ & -> & B & _)]; cbn [at_]; [|lia]. specialize (LT _ _ _ Qs). lia.
  - constructor; cbn [tup mem]; auto.
    + exists es. split; [now apply upd_same|auto].
    + intros u N. cbn [tup]. apply upd_other. auto.
    + intros i a mv Q1 Q2. rewrite element_upd, Nat.eqb_refl by auto. eauto.
    + intros i a mv Q1 Q2. destruct (I6 _ _ _ Q1 Q2) as (b & B1 & B2 & B3 & B4 & B5). exists b.
      rewrite element_upd, Nat.eqb_refl by auto. split; auto. split; [apply nth_error_None; lia|]. intros K. apply B5, K.
    + intros a Ha K. apply I7; auto. destruct (Nat.lt_ge_cases a (length (mem s))); auto. apply nth_error_None in H. congruence.
Qed.

Lemma assigned_ok (s : st V) v w mv es us m es' : sep s -> nth_error (tup s) v = Some (Some es) -> nth_error (tup s) w = Some (Some us) ->
  assign gone self mv es us (mem s) = Ok (m, es') ->
  sep (mkSt m (upd (tup s) v (Some es'))) /\ assigned gone self s (mkSt m (upd (tup s) v (Some es'))) v mv es us.
Proof.
  intros HS Nv Nw R.
  destruct (assign_ok gone self mv es us _ _ _ R) as (I1 & I2 & I3 & I4 & I5 & I6 & I7 & I8 & I9 & I10).
  { intros i j a Q1 Q2. refine (proj2 (sep_own _ HS v i v j a _ _)); rewrite (element_of _ _ _ _ Nv); auto. }
  assert (v < length (tup s)) as Lv by (eapply nth_error_lt; eauto).
  assert (forall i e, nth_error es' i = Some e -> (exists a u, nth_error es i = Some (Ref a) /\ nth_error us i = Some u /\ e = Ref (at_ u)) \/
     exists a, nth_error es i = Some (Own a) /\ e = Own a) as CE.
  { intros i e Q. assert (i < length es) as Li by (rewrite <- I2; eapply nth_error_lt; eauto).
    destruct (nth_error es i) as [[a|a]|] eqn:Qe; [| |apply nth_error_None in Qe; lia].
    - right. exists a. rewrite (I6 _ _ Qe) in Q. split; auto. congruence.
    - destruct (nth_error us i) as [u|] eqn:Qu; [|apply nth_error_None in Qu; lia]. left. exists a, u. rewrite (I5 _ _ _ Qe Qu) in Q. repeat split; auto. congruence. }
  assert (forall u i a, element (mkSt m (upd (tup s) v (Some es'))) u i = Some (Own a) -> element s u i = Some (Own a)) as OE.
  { intros u i a. rewrite element_upd by auto. destruct (Nat.eqb_spec u v) as [->|N]; auto. intros Q.
    destruct (CE _ _ Q) as [(b & c & _ & _ & E)|(b & B & E)]; [discriminate|]. rewrite (element_of _ _ _ _ Nv). congruence. }
  split.
  - constructor; cbn [mem].
    + intros a i b j c Q1 Q2. apply OE in Q1, Q2. eapply sep_own; eauto.
    + intros a i c Q. apply OE in Q. apply I4. eapply sep_live; eauto.
    + intros u i e. rewrite element_upd by auto. rewrite I3. destruct (Nat.eqb_spec u v) as [->|N]; [|apply (sep_in _ HS)]. intros Q.
      destruct (CE _ _ Q) as [(b & c & _ & Qu & ->)|(b & B & ->)].
      * cbn [at_]. apply (sep_in _ HS w i). now rewrite (element_of _ _ _ _ Nw).
      * apply (sep_in _ HS v i). now rewrite (element_of _ _ _ _ Nv).
  - constructor; cbn [tup mem]; auto.
    + exists es'. split; [now apply upd_same|auto].
    + intros u N. cbn [tup]. apply upd_other. auto.
    + intros i a u Q1 Q2. rewrite element_upd, Nat.eqb_refl by auto. eauto.
    + intros i a Q. rewrite element_upd, Nat.eqb_refl by auto. eauto.
Qed.

Lemma where_ok (s : st V) v i a : where_ s v i = Ok a -> exists e, element s v i = Some e /\ a = at_ e.
Proof.
  unfold where_, tget, element. destruct (nth_error (tup s) v) as [[es|]|]; cbn [bind]; try discriminate.
  destruct (nth_error es i) as [e|]; [|discriminate]. intros Q. exists e. split; congruence.
Qed.
Lemma where_def (s : st V) v i e : element s v i = Some e -> where_ s v i = Ok (at_ e).
Proof.
  unfold where_, tget, element. destruct (nth_error (tup s) v) as [[es|]|]; cbn [bind]; try discriminate. now intros ->.
Qed.
Lemma tget_ok (s : st V) v es : tget s v = Ok es <-> nth_error (tup s) v = Some (Some es).
Proof. unfold tget. destruct (nth_error (tup s) v) as [[]|]; split; congruence. Qed.
Lemma fresh_ok (s : st V) v u : fresh s v = Ok u -> nth_error (tup s) v = Some None.
Proof. unfold fresh. destruct (nth_error (tup s) v) as [[]|]; congruence. Qed.

Lemma step_ok (s : st V) o s' r : sep s -> allowed s o -> step gone self s o = Ok (s', r) -> sep s' /\ effect gone self s o s' r.
Proof.
  intros HS A H. destruct o as [x|a|v ds|v refs args|v refs w mv|v w mv|v i x|v i|a|v]; cbn [step effect] in *.
  - assert (s' = mkSt (mem s ++ [Val x]) (tup s) /\ r = None) as [-> ->] by (split; congruence). cbn [mem tup]. split.
    + destruct s as [m t]. cbn [mem tup] in *. apply (sep_move m); auto; [apply stays_app|rewrite app_length; lia].
    + split; [apply nth_error_None; lia|]. split; [unfold value; cbn [mem]; rewrite nth_error_app2, Nat.sub_diag by lia; reflexivity|].
      split; [auto|]. split; [|auto]. intros a Ha. cbn [mem]. apply nth_error_app1. apply nth_error_Some in Ha. auto.
  - destruct (nth_error (mem s) a) as [[| |x]|] eqn:Q; try discriminate.
    assert (s' = mkSt (upd (mem s) a Dead) (tup s) /\ r = None) as [-> ->] by (split; congruence). cbn [mem tup].
    assert (a < length (mem s)) as La by (eapply nth_error_lt; eauto). split.
    + constructor; cbn [mem].
      * intros v i w j b. apply (sep_own _ HS).
      * intros v i b E. assert (b <> a) by (intros ->; apply A; exists v, i; exact E).
        pose proof (sep_live _ HS _ _ _ E) as Lv. unfold live in *. now rewrite upd_other by auto.
      * intros v i e E. rewrite upd_length. eapply (sep_in _ HS); eauto.
    + unfold value. cbn [mem]. rewrite Q, upd_same by auto. split; [discriminate|]. split; [auto|]. split; [auto|]. split; [auto|].
      intros b N. now rewrite upd_other by auto.
  - destruct (fresh s v) as [u| | |] eqn:F; cbn [bind] in H; try discriminate. apply fresh_ok in F.
    destruct (defaults ds (length (mem s))) as [m es] eqn:D. destruct (defaults_ok _ _ _ _ D) as (D1 & D2 & D3 & D4).
    assert (s' = mkSt (mem s ++ m) (upd (tup s) v (Some es)) /\ r = None) as [-> ->] by (split; congruence).
    assert (v < length (tup s)) as Lv by (eapply nth_error_lt; eauto).
    assert (forall i e, nth_error es i = Some e -> e = Own (length (mem s) + i) /\ i < length ds) as DE.
    { intros i e Q. split; [eauto|]. rewrite <- D2. eapply nth_error_lt; eauto. }
    assert (forall i d, nth_error ds i = Some d -> nth_error (mem s ++ m) (length (mem s) + i) = Some (match d with Some x => Val x | None => Raw end)) as DM.
    { intros i d Q. rewrite nth_error_app2 by lia. replace (length (mem s) + i - length (mem s)) with i by lia. now apply D4. }
    split.
    + apply sep_new; auto; [apply stays_app|rewrite app_length; lia| | |].
      * intros i j a Q1 Q2. apply DE in Q1, Q2. destruct Q1 as [Q1 _], Q2 as [Q2 _]. assert (length (mem s) + i = length (mem s) + j) by congruence. lia.
      * intros i a Q. apply DE in Q. destruct Q as [Q Li]. assert (a = length (mem s) + i) as -> by congruence. split; [lia|].
        destruct (nth_error ds i) as [d|] eqn:Qd; [|apply nth_error_None in Qd; lia]. specialize (DM _ _ Qd). unfold live. destruct d; eauto.
      * intros i e Q. apply DE in Q. destruct Q as [-> Li]. cbn [at_]. rewrite app_length. lia.
    + split; [auto|]. split; [intros u' N; cbn [tup]; apply upd_other; auto|]. split; [auto|]. split; [exists es; cbn [tup]; split; [now apply upd_same|auto]|].
      split.
      * intros i d Q. exists (length (mem s) + i). rewrite element_upd, Nat.eqb_refl by auto. split; [exact (proj1 (D4 i d Q))|]. split; [apply nth_error_None; lia|].
        unfold value. cbn [mem]. rewrite (DM _ _ Q). now destruct d.
      * intros a Ha. cbn [mem]. apply nth_error_app1. apply nth_error_Some in Ha. auto.
  - destruct (fresh s v) as [u| | |] eqn:F; cbn [bind] in H; try discriminate. apply fresh_ok in F.
    destruct (resolves s args) as [src| | |] eqn:Rs; cbn [bind] in H; try discriminate.
    destruct (build gone refs src (mem s)) as [[m es]| | |] eqn:B; cbn [bind] in H; try discriminate.
    assert (s' = mkSt m (upd (tup s) v (Some es)) /\ r = None) as [-> ->] by (split; congruence).
    destruct (built_ok s v refs src m es HS F (resolves_in _ _ HS _ Rs) B) as [S' E]. split; [auto|]. eauto.
  - destruct (fresh s v) as [u| | |] eqn:F; cbn [bind] in H; try discriminate. apply fresh_ok in F.
    destruct (tget s w) as [us| | |] eqn:W; cbn [bind] in H; try discriminate. apply tget_ok in W.
    destruct (build gone refs (map (fun u => (at_ u, mv)) us) (mem s)) as [[m es]| | |] eqn:B; cbn [bind] in H; try discriminate.
    assert (s' = mkSt m (upd (tup s) v (Some es)) /\ r = None) as [-> ->] by (split; congruence).
    destruct (built_ok s v refs (map (fun u => (at_ u, mv)) us) m es HS F) as [S' E].
    { intros i a mv' Q. rewrite nth_error_map in Q. destruct (nth_error us i) as [e|] eqn:Qe; cbn [option_map] in Q; [|discriminate].
      assert (a = at_ e) as -> by congruence. apply (sep_in _ HS w i). now rewrite (element_of _ _ _ _ W). }
    { exact B. }
    split; [auto|]. eauto.
  - destruct (tget s v) as [es| | |] eqn:F; cbn [bind] in H; try discriminate. apply tget_ok in F.
    destruct (tget s w) as [us| | |] eqn:W; cbn [bind] in H; try discriminate. apply tget_ok in W.
    destruct (assign gone self mv es us (mem s)) as [[m es']| | |] eqn:B; cbn [bind] in H; try discriminate.
    assert (s' = mkSt m (upd (tup s) v (Some es')) /\ r = None) as [-> ->] by (split; congruence).
    destruct (assigned_ok _ _ _ _ _ _ _ _ HS F W B) as [S' E]. split; [auto|]. eauto.
  - destruct (where_ s v i) as [a| | |] eqn:W; cbn [bind] in H; try discriminate. apply where_ok in W. destruct W as (e & E & ->).
    destruct (store (mem s) (at_ e) x) as [m| | |] eqn:St; cbn [bind] in H; try discriminate. apply store_ok in St. destruct St as [Lv ->].
    assert (s' = mkSt (upd (mem s) (at_ e) (Val x)) (tup s) /\ r = None) as [-> ->] by (split; congruence). split.
    + destruct s as [m t]. cbn [mem tup] in *. apply (sep_move m); auto; [apply stays_upd|rewrite upd_length; auto].
    + exists e. split; [auto|]. unfold value. cbn [mem tup]. rewrite upd_same by (now apply live_lt). split; [auto|]. split; [auto|]. split; [auto|].
      intros b N. now rewrite upd_other by auto.
  - destruct (where_ s v i) as [a| | |] eqn:W; cbn [bind] in H; try discriminate. apply where_ok in W. destruct W as (e & E & ->).
    destruct (load (mem s) (at_ e)) as [x| | |] eqn:L; cbn [bind] in H; try discriminate. apply load_val in L.
    assert (s' = s /\ r = Some x) as [-> ->] by (split; congruence). split; [auto|]. exists e. split; [auto|].
    change (value s (at_ e)) with (val (mem s) (at_ e)). split; [congruence|]. split; [discriminate|auto].
  - destruct (load (mem s) a) as [x| | |] eqn:L; cbn [bind] in H; try discriminate. apply load_val in L.
    assert (s' = s /\ r = Some x) as [-> ->] by (split; congruence). split; [auto|].
    change (value s a) with (val (mem s) a). split; [congruence|]. split; [discriminate|auto].
  - destruct (tget s v) as [es| | |] eqn:F; cbn [bind] in H; try discriminate. apply tget_ok in F.
    assert (s' = mkSt (free es (mem s)) (upd (tup s) v None) /\ r = None) as [-> ->] by (split; congruence).
    destruct (free_ok es (mem s)) as (F1 & F2 & F3). assert (v < length (tup s)) as Lv by (eapply nth_error_lt; eauto).
    split.
    + constructor; cbn [mem].
      * intros u i w j b. rewrite !element_upd by auto. destruct (Nat.eqb u v), (Nat.eqb w v); try discriminate. apply (sep_own _ HS).
      * intros u i b. rewrite element_upd by auto. destruct (Nat.eqb_spec u v) as [->|N]; [discriminate|]. intros E.
        assert (~ In (Own b) es) as NI.
        { intros I. apply In_nth_error in I. destruct I as [j J]. apply N. eapply (sep_own _ HS u i v j b E). now rewrite (element_of _ _ _ _ F). }
        pose proof (sep_live _ HS _ _ _ E) as Lv2. unfold live in *. now rewrite F3.
      * intros u i e. rewrite element_upd by auto. destruct (Nat.eqb u v); [discriminate|]. rewrite F1. apply (sep_in _ HS).
    + exists es. split; [auto|]. cbn [tup]. split; [now apply upd_same|]. split; [intros u N; cbn [tup]; apply upd_other; auto|]. split; [auto|].
      split; [|exact F3]. intros a I. unfold value. cbn [mem]. destruct (nth_error (free es (mem s)) a) as [[| |x]|] eqn:Q; auto.
      exfalso. exact (proj1 (F2 a I x) Q).
Qed.

Lemma sep_init n : sep (init n).
Proof.
  assert (forall v i, element (init (V := V) n) v i = None) as E.
  { intros v i. unfold element, init. cbn [tup]. destruct (nth_error (repeat None n) v) as [[es|]|] eqn:Q; auto. apply nth_error_In, repeat_spec in Q. discriminate. }
  constructor; intros *; rewrite ?E; discriminate.
Qed.
Lemma reach_sep n s : reach gone self n s -> sep s.
Proof. induction 1 as [|s o s' r R IH A St]; [apply sep_init|]. eapply step_ok; eauto. Qed.

Lemma own_ok n s v i w j a : reach gone self n s -> element s v i = Some (Own a) -> element s w j = Some (Own a) -> v = w /\ i = j.
Proof. intros R. apply (sep_own _ (reach_sep _ _ R)). Qed.
Lemma effect_ok n s o s' r : reach gone self n s -> allowed s o -> step gone self s o = Ok (s', r) -> effect gone self s o s' r.
Proof. intros R A H. eapply step_ok; eauto. eapply reach_sep; eauto. Qed.
Lemma good_ok n s o : reach gone self n s -> good s o -> exists s' r, step gone self s o = Ok (s', r).
Proof.
  intros R G. pose proof (reach_sep _ _ R) as HS. destruct o as [x|a|v ds|v refs args|v refs w mv|v w mv|v i x|v i|a|v]; cbn [step good] in *.
  - eauto.
  - unfold value in G. destruct (nth_error (mem s) a) as [[| |x]|]; try congruence. eauto.
  - unfold fresh. rewrite G. cbn [bind]. destruct (defaults ds (length (mem s))). eauto.
  - destruct G as (G1 & src & G2 & G3 & G4). unfold fresh. rewrite G1. cbn [bind]. rewrite G2. cbn [bind].
    destruct (build_defined gone self refs src (mem s)) as (m & es & ->); auto. cbn [bind]. eauto.
  - destruct G as (G1 & us & G2 & G3 & G4). unfold fresh. rewrite G1. cbn [bind]. unfold tget. rewrite G2. cbn [bind].
    destruct (build_defined gone self refs (map (fun u => (at_ u, mv)) us) (mem s)) as (m & es & ->); auto. cbn [bind]. eauto.
  - destruct G as (es & us & G1 & G2 & G3 & G4). unfold tget. rewrite G1, G2. cbn [bind].
    destruct (assign_defined gone self mv es us (mem s)) as (m & es' & ->); auto; [|cbn [bind]; eauto].
    intros i a Q. apply (sep_live _ HS v i). now rewrite (element_of _ _ _ _ G1).
  - destruct G as (e & E & K). rewrite (where_def _ _ _ _ E). cbn [bind].
    assert (live (mem s) (at_ e)) as Lv.
    { destruct K as [(u & j & Q)|K]; [eapply sep_live; eauto|]. destruct (value s (at_ e)) as [y|] eqn:Y; [|congruence]. eapply val_live. exact Y. }
    rewrite store_live by auto. cbn [bind]. eauto.
  - destruct G as (e & E & K). rewrite (where_def _ _ _ _ E). cbn [bind]. destruct (value s (at_ e)) as [y|] eqn:Y; [|congruence].
    rewrite (proj2 (load_val (mem s) (at_ e) y) Y). cbn [bind]. eauto.
  - destruct (value s a) as [y|] eqn:Y; [|congruence]. rewrite (proj2 (load_val (mem s) a y) Y). cbn [bind]. eauto.
  - destruct G as (es & G). unfold tget. rewrite G. cbn [bind]. eauto.
Qed.

(* a copy has the same elements *)
Lemma copy_ok n s v refs w s' r i : reach gone self n s -> step gone self s (TFrom v refs w false) = Ok (s', r) -> w <> v ->
  forall x, step gone self s (TGet w i) = Ok (s, Some x) -> step gone self s' (TGet v i) = Ok (s', Some x) /\ step gone self s' (TGet w i) = Ok (s', Some x).
Proof.
  intros R H N x G. pose proof (effect_ok _ _ (TFrom v refs w false) _ _ R I H) as (us & W & B & _). pose proof (effect_ok _ _ (TGet w i) _ _ R I G) as (e & E & Ex & _ & _).
  rewrite (element_of _ _ _ _ W) in E. destruct B as [B1 (es & B2 & B3) B4 B5 B6 B7 B8 B9]. rewrite map_length in B4.
  assert (forall j a, ~ taken refs (map (fun u => (at_ u, false)) us) j a) as NT.
  { intros j a [_ T]. rewrite nth_error_map in T. destruct (nth_error us j); discriminate. }
  assert (nth_error (mem s) (at_ e) <> None) as Nm by (unfold value in Ex; destruct (nth_error (mem s) (at_ e)); [discriminate|discriminate]).
  pose proof (B8 _ Nm (fun j => NT j _)) as Fr.
  assert (i < length refs) as Li by (rewrite <- B4; eapply nth_error_lt; eauto).
  assert (nth_error (map (fun u => (at_ u, false)) us) i = Some (at_ e, false)) as Ns by (rewrite nth_error_map, E; reflexivity).
  assert (value s' (at_ e) = Some x) as Vw by (unfold value; rewrite Fr; symmetry; exact Ex).
  split.
  - cbn [step]. destruct (nth_error refs i) as [[|]|] eqn:Q; [| |apply nth_error_None in Q; lia].
    + rewrite (where_def _ _ _ _ (B6 _ _ _ Q Ns)). cbn [bind at_]. rewrite (proj2 (load_val (mem s') _ x) Vw). reflexivity.
    + destruct (B7 _ _ _ Q Ns) as (b & Eb & _ & K). rewrite (where_def _ _ _ _ Eb). cbn [bind at_].
      destruct K as [_ K]; [intros; apply NT|]. rewrite (proj2 (load_val (mem s') b x)); [reflexivity|]. change (value s' b = Some x); congruence.
  - cbn [step]. assert (element s' w i = Some e) as Ew.
    { unfold element. rewrite (B5 w) by auto. now rewrite W. }
    rewrite (where_def _ _ _ _ Ew). cbn [bind]. rewrite (proj2 (load_val (mem s') _ x) Vw). reflexivity.
Qed.
(* so has an assigned tuple whose own objects the source does not refer to *)
Lemma assign_copy_ok n s v w s' r es us : reach gone self n s -> step gone self s (TAssign v w false) = Ok (s', r) ->
  nth_error (tup s) v = Some (Some es) -> nth_error (tup s) w = Some (Some us) ->
  (forall a, In (Own a) es -> ~ In a (map at_ us)) ->
  forall i x, step gone self s (TGet w i) = Ok (s, Some x) -> step gone self s' (TGet v i) = Ok (s', Some x).
Proof.
  intros R H Nv Nw Ap i x G. pose proof (effect_ok _ _ (TAssign v w false) _ _ R I H) as (es0 & us0 & W & B & _). pose proof (effect_ok _ _ (TGet w i) _ _ R I G) as (e & E & Ex & _ & _).
  assert (us0 = us) as -> by congruence. rewrite (element_of _ _ _ _ Nw) in E. destruct B as [B1 B2 (es' & B3 & B4) B5 B6 B7 B8 B9 B10 B11].
  assert (es0 = es) as -> by congruence.
  assert (forall j a, ~ takes false es us j a) as NT by (intros j a [T _]; discriminate).
  assert (nth_error (mem s') (at_ e) = nth_error (mem s) (at_ e)) as Fr.
  { apply B9. intros j. split; [|apply NT]. intros Wr. apply nth_error_In in Wr. apply (Ap _ Wr). apply in_map_iff. exists e. split; auto. eapply nth_error_In; eauto. }
  assert (i < length es) as Li by (rewrite B1; eapply nth_error_lt; eauto).
  cbn [step]. destruct (nth_error es i) as [[a|a]|] eqn:Q; [| |apply nth_error_None in Q; lia].
  - rewrite (where_def _ _ _ _ (B7 _ _ Q)). cbn [bind at_].
    destruct (B8 i a e Q E) as [_ K]; [|intros; apply NT|].
    + intros j J. split; [|apply NT]. intros Wr. apply nth_error_In in Wr. apply (Ap _ Wr). apply in_map_iff. exists e. split; auto. eapply nth_error_In; eauto.
    + rewrite (proj2 (load_val (mem s') a x)); [reflexivity|]. change (value s' a = Some x); congruence.
  - rewrite (where_def _ _ _ _ (B6 _ _ _ Q E)). cbn [bind at_]. rewrite (proj2 (load_val (mem s') _ x)); [reflexivity|]. change (value s' (at_ e) = Some x). unfold value in *. rewrite Fr. congruence.
Qed.
End Proofs.

Lemma run_reach {V} (gone self : V -> V) n os : (forall a, ~ In (TEnd a) os) -> forall s s' rs, reach gone self n s -> run gone self s os = Ok (s', rs) -> reach gone self n s'.
Proof.
  induction os as [|o os IH]; cbn [run]; intros N s s' rs R H; [congruence|].
  destruct (step gone self s o) as [[s1 r]| | |] eqn:E; cbn [bind] in H; try discriminate.
  destruct (run gone self s1 os) as [[s2 rs']| | |] eqn:F; cbn [bind] in H; try discriminate. assert (s' = s2) as -> by congruence.
  apply (IH (fun a I => N a (or_intror I)) s1 s2 rs'); auto. eapply reach_step; eauto. destruct o; cbn; auto. exfalso. eapply N. left. reflexivity.
Qed.

(* int a = 5, b = 7; Tuple<int, const int&> t(a, b); Tuple<int, int> u(t); u.get<0>() = 8; t = u *)
Definition demo : list (op Z) :=
  [TVar 5%Z; TVar 7%Z; TNew 0 [false; true] [(AVar 0, false); (AVar 1, false)]; TFrom 1 [false; false] 0 false; TPut 1 0 8%Z; TAssign 0 1 false].
Lemma demo_ok : exists s, run zero keep (init 2) demo = Ok (s, [None; None; None; None; None; None]) /\ reach zero keep 2 s /\
  value s 0 = Some 5%Z /\ value s 1 = Some 7%Z /\ nth_error (tup s) 0 = Some (Some [Own 2; Ref 4]) /\ nth_error (tup s) 1 = Some (Some [Own 3; Own 4]) /\
  value s 2 = Some 8%Z.
Proof.
  eexists. split; [reflexivity|]. split.
  - eapply (run_reach zero keep 2 demo); [|apply reach_init|reflexivity]. intros a H. cbn in H. repeat destruct H as [H|H]; try discriminate; contradiction.
  - repeat split.
Qed.

Lemma no_end (os : list (op Z)) : forallb (fun o => match o with TEnd _ => false | _ => true end) os = true -> forall a, ~ In (TEnd a) os.
Proof. intros H a I. rewrite forallb_forall in H. specialize (H _ I). discriminate. Qed.
Ltac reached os := eapply (run_reach zero keep 2 os); [apply no_end; reflexivity|apply reach_init|reflexivity].

(* the states the examples start from *)
Definition demo_copy : list (op Z) :=
  [TVar 5%Z; TVar 7%Z; TNew 0 [false; true] [(AVar 0, false); (AVar 1, false)]].
Lemma demo_copy_ok : exists s s' r, reach zero keep 2 s /\ step zero keep s (TFrom 1 [false; false] 0 false) = Ok (s', r) /\
  step zero keep s (TGet 0 1) = Ok (s, Some 7%Z) /\ step zero keep s' (TGet 1 1) = Ok (s', Some 7%Z) /\ element s' 0 1 = Some (Ref 1) /\
  element s' 1 1 = Some (Own 4).
Proof. do 3 eexists. split; [reached demo_copy|]. repeat split. Qed.
Definition demo_assign : list (op Z) :=
  [TVar 5%Z; TVar 7%Z; TNew 0 [false; true] [(AVar 0, false); (AVar 1, false)]; TNew 1 [false; false] [(AVar 1, false); (AVar 0, false)]].
Lemma demo_assign_ok : exists s s' r es us, reach zero keep 2 s /\ step zero keep s (TAssign 0 1 false) = Ok (s', r) /\
  nth_error (tup s) 0 = Some (Some es) /\ nth_error (tup s) 1 = Some (Some us) /\ (forall a, In (Own a) es -> ~ In a (map at_ us)) /\
  step zero keep s (TGet 1 0) = Ok (s, Some 7%Z) /\ step zero keep s (TGet 0 0) = Ok (s, Some 5%Z) /\ step zero keep s' (TGet 0 0) = Ok (s', Some 7%Z).
Proof.
  do 5 eexists. split; [reached demo_assign|]. do 3 (split; [reflexivity|]). split; [|repeat split].
  intros a [H|[H|[]]] [K|[K|[]]]; cbn in H, K; congruence.
Qed.

(* int a = 5; Tuple<int&> t(a); Tuple<int> u(std::move(t)); *)
Lemma move_through : exists s s' r, reach zero keep 2 s /\ step zero keep s (TFrom 1 [false] 0 true) = Ok (s', r) /\
  nth_error (tup s) 0 = Some (Some [Ref 0]) /\ ~ owned s 0 /\ value s 0 = Some 5%Z /\ value s' 0 = Some (zero 5%Z).
Proof.
  do 3 eexists. split; [reached [TVar 5%Z; TNew 0 [true] [(AVar 0, false)]]|]. split; [reflexivity|]. split; [reflexivity|]. split; [|split; reflexivity].
  intros (v & i & Q). unfold element in Q. destruct v as [|[|[|v]]]; cbn in Q; try discriminate. destruct i as [|[|i]]; discriminate.
Qed.
(* int a = 5, b = 7; Tuple<int&> t(a), u(b); t = u; *)
Lemma assign_through : exists s s' r, reach zero keep 2 s /\ step zero keep s (TAssign 0 1 false) = Ok (s', r) /\
  nth_error (tup s) 0 = Some (Some [Ref 0]) /\ nth_error (tup s) 1 = Some (Some [Ref 1]) /\ value s 0 = Some 5%Z /\ value s 1 = Some 7%Z /\
  value s' 0 = Some 5%Z /\ exists s2, step zero keep s' (TPut 0 0 9%Z) = Ok (s2, None) /\ value s2 0 = Some 5%Z /\ value s2 1 = Some 9%Z.
Proof.
  do 3 eexists. split; [reached [TVar 5%Z; TVar 7%Z; TNew 0 [true] [(AVar 0, false)]; TNew 1 [true] [(AVar 1, false)]]|].
  do 6 (split; [reflexivity|]). eexists. repeat split.
Qed.
(* int a = 5; Tuple<int&> t(a); { Tuple<int> u(a); t = std::move(u); } t.get<0>() *)
Lemma dangling : exists s, reach zero keep 2 s /\ nth_error (tup s) 1 = Some None /\ (exists b, element s 0 0 = Some (Ref b)) /\
  step zero keep s (TGet 0 0) = UB.
Proof.
  eexists. split; [reached [TVar 5%Z; TNew 0 [true] [(AVar 0, false)]; TNew 1 [false] [(AVar 0, false)]; TAssign 0 1 true; TDrop 1]|].
  split; [reflexivity|]. split; [eexists; reflexivity|reflexivity].
Qed.
(* Tuple<int> t; t.get<0>() *)
Lemma default_raw : exists s s' r, reach zero keep 2 s /\ step zero keep s (TDefault 0 [None]) = Ok (s', r) /\ step zero keep s' (TGet 0 0) = UB.
Proof. do 3 eexists. split; [reached (@nil (op Z))|]. split; reflexivity. Qed.
