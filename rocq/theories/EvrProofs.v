From Coq Require Import ZifyBool ZifyNat.
From Verif Require Import Base BaseFacts LstModel LstSpec LstProofs SrtModel EvtModel EvtSpec EvtProofs EvrModel EvrSpec.
Open Scope Z_scope.

Scheme frame_mind := Minimality for frame Sort Prop with raised_mind := Minimality for raised Sort Prop.
Combined Scheme frame_raised_ind from frame_mind, raised_mind.

Section proofs.
  Context (V : Type) (moved : V) (U : Type) (n : nat).
  Notation sim := (sim n).
  Notation code := (code V U).
  Notation es := (es U).
  Notation frame := (frame V moved).
  Notation raised := (raised V moved).

  Lemma live_b_ok r : live_b r = true <-> live r.
  Proof.
    unfold live_b, live. destruct (sheld r), (sat r); cbn; split; auto; try congruence.
    - intros _. right. discriminate.
    - intros [H|H]; congruence.
  Qed.
  Lemma held_ok s h : held_b s h = true -> exists r, nth_error s h = Some r /\ sheld r = true.
  Proof. unfold held_b. destruct (nth_error s h) as [r|]; [eauto|discriminate]. Qed.
  Lemma allowed_client busy s o : allowed n busy s o = true -> client V n s (Do o).
  Proof.
    destruct o as [e f a|e h|h|h|e]; cbn [allowed client]; intros H.
    - apply andb_prop in H. destruct H as [H1 H2]. split; [lia|]. intros h r R L E. rewrite forallb_forall in H2. specialize (H2 r (nth_error_In _ _ R)).
      apply live_b_ok in L. rewrite L, E, Z.eqb_refl in H2. discriminate.
    - apply andb_prop in H. destruct H as [H1 H2]. split; [lia|]. now apply held_ok.
    - now apply held_ok.
    - now apply held_ok.
    - apply andb_prop in H. destruct H as [H1 H2]. lia.
  Qed.
  Lemma ok_book s o s' r : ok_step V moved s (Do o) s' r -> s' = book s o.
  Proof.
    intros H. inversion H; subst; cbn [book]; try reflexivity; match goal with E : nth_error _ _ = Some _ |- _ => rewrite E end; auto.
    - match goal with E : sat ?r = Some _ |- context [sat ?r] => rewrite E end. now rewrite Nat.eqb_refl.
    - match goal with |- context [sat ?r] => destruct (sat r) as [e'|]; [|reflexivity] end. match goal with |- context [Nat.eqb ?a ?b] => destruct (Nat.eqb_spec a b); [congruence|reflexivity] end.
  Qed.
  Lemma act_ok busy w s o : sim w s -> allowed n busy s o = true ->
    exists w' r, cstep V w o = Ok (w', r) /\ ok_step V moved s (Do o) (book s o) r /\ sim w' (book s o).
  Proof.
    intros S A. destruct (step_ok V moved n w s (Do o) S (allowed_client busy s o A)) as (w' & r & s' & E & K & S'). cbn [estep] in E.
    rewrite <- (ok_book _ _ _ _ K). exists w', r. auto.
  Qed.

  Section exec.
    Context (beh : nat -> V -> code).
    Notation rz_t := (list nat -> list nat -> nat -> Z -> V -> bool -> es -> rr (es * list (tev V))).
    Definition good_rz (rz : rz_t) : Prop := forall busy running e i v rv st, sim (world st) (ledger st) -> (e < n)%nat -> 0 <= i ->
      match rz busy running e i v rv st with
      | ROk (st', t) => sim (world st') (ledger st') /\ exists cs, raised e (Z.to_nat i) v rv (ledger st) cs t (ledger st')
      | RFault => False
      | _ => True
      end.
    Definition good_run (st : es) (x : rr (es * list (tev V))) : Prop :=
      match x with
      | ROk (st', t) => sim (world st') (ledger st') /\ frame (ledger st) t (ledger st')
      | RFault => False
      | _ => True
      end.
    Lemma run_good rz : good_rz rz -> forall busy running c st, sim (world st) (ledger st) -> good_run st (run_code V U n rz busy running c st).
    Proof.
      intros G busy running c. induction c as [|o k IH|e v rv k IH|k IH|u k IH]; intros st S; cbn [run_code].
      - split; [exact S|constructor].
      - destruct (allowed n busy (ledger st) o) eqn:A; [|exact I]. destruct (act_ok busy _ _ _ S A) as (w' & r & E & K & S'). rewrite E. cbn [of_res rbind].
        destruct (gone _ _); [exact I|]. specialize (IH r (mkES w' (book (ledger st) o) (user st)) S').
        destruct (run_code V U n rz busy running (k r) _) as [[st' t]| | | |]; cbn [rbind good_run] in *; auto. destruct IH as [I1 I2]. split; [exact I1|]. econstructor; eauto.
      - destruct (Nat.ltb_spec e n) as [Le|]; [|exact I]. specialize (G busy running e 0 v rv st S Le ltac:(lia)).
        destruct (rz busy running e 0 v rv st) as [[st1 t1]| | | |]; cbn [rbind good_run] in *; auto. destruct G as [G1 (cs & G2)]. specialize (IH st1 G1).
        destruct (run_code V U n rz busy running k st1) as [[st' t]| | | |]; cbn [rbind good_run] in *; auto. destruct IH as [I1 I2]. split; [exact I1|]. eapply fr_raise; eauto.
      - apply IH. exact S.
      - apply (IH (mkES (world st) (ledger st) u)). exact S.
    Qed.
    Lemma raise_good fuel : good_rz (raise_any V moved U n beh fuel).
    Proof.
      induction fuel as [|fuel IH]; intros busy running e i v rv st S Le Li; cbn [raise_any]; [exact I|].
      destruct (nth_error (evs (world st)) e) as [x|] eqn:Ex; [|apply nth_error_None in Ex; rewrite (si_ev n _ _ S) in Ex; lia].
      destruct (si_list n _ _ S e x Ex) as (l & Sh & H). pose proof (strict n _ _ e l S H) as St. destruct (Sh) as (Cx & _).
      destruct (Z.ltb_spec i (count x)) as [Lt|Ge].
      - rewrite (get_ok _ _ _ _ Sh). unfold znth. replace (i <? 0) with false by lia. rewrite Cx in Lt.
        destruct (nth_error l (Z.to_nat i)) as [p|] eqn:Ep; [|apply nth_error_None in Ep; unfold zlen in Lt; lia]. cbn [of_res rbind].
        assert (exists rr, nth_error (ledger st) (snd p) = Some rr) as [rr Hr].
        { destruct p as [a h]. destruct H as (_ & _ & C). destruct (proj1 (C a h) (nth_error_In _ _ Ep)) as (rr & R & _). eauto. }
        rewrite (nth_hs n _ _ _ S), Hr. cbn [option_map hfn].
        pose proof (run_good _ IH (e :: busy) (snd p :: running) (beh (sfn rr) v) st S) as R1.
        destruct (run_code V U n _ (e :: busy) (snd p :: running) (beh (sfn rr) v) st) as [[st1 t1]| | | |]; cbn [rbind good_run] in *; auto.
        destruct R1 as [S1 F1]. specialize (IH busy running e (i + 1) (if rv then moved else v) rv st1 S1 Le ltac:(lia)).
        destruct (raise_any V moved U n beh fuel busy running e (i + 1) (if rv then moved else v) rv st1) as [[st2 t2]| | | |]; cbn [rbind] in *; auto.
        destruct IH as [S2 (cs & F2)]. split; [exact S2|]. exists (snd p :: cs). replace (Z.to_nat (i + 1)) with (Datatypes.S (Z.to_nat i)) in F2 by lia.
        eapply rs_call; eauto. rewrite nth_error_map, Ep. reflexivity.
      - split; [exact S|]. exists []. eapply rs_end; [exact St|]. rewrite map_length. unfold zlen in Cx. lia.
    Qed.
    Lemma program_ok fuel c u :
      match run_program V moved U n beh fuel c u with
      | ROk (st, t) => frame [] t (ledger st)
      | RFault => False
      | _ => True
      end.
    Proof.
      pose proof (run_good _ (raise_good fuel) [] [] c (mkES (events n) [] u) (sim0 n)) as H. unfold run_program.
      destruct (run_code V U n _ [] [] c _) as [[st t]| | | |]; cbn [good_run] in H; tauto.
    Qed.

    (* ---- nobody drops handlers: none is destroyed while it runs ---- *)
    Definition kept (s : list srec) : Prop := forall h r, nth_error s h = Some r -> sheld r = true.
    Definition known (s : list srec) (running : list nat) : Prop := forall h, In h running -> (h < length s)%nat.
    Lemma not_gone s running : kept s -> known s running -> gone s running = None.
    Proof.
      intros K N. unfold gone. destruct (find _ running) as [h|] eqn:F; [|reflexivity]. apply find_some in F. destruct F as [I F].
      destruct (nth_error s h) as [r|] eqn:E; [|apply nth_error_None in E; specialize (N h I); lia]. unfold live_b in F. rewrite (K h r E) in F. discriminate.
    Qed.
    Lemma book_length s o : (length s <= length (book s o))%nat.
    Proof.
      destruct o as [e f a|e h|h|h|e]; cbn [book]; try lia.
      - rewrite app_length. lia.
      - destruct (nth_error s h) as [r|]; [|lia]. destruct (sat r) as [e'|]; [|lia]. destruct (Nat.eqb e e'); [|lia]. now rewrite upd_length.
      - destruct (nth_error s h) as [r|]; [|lia]. now rewrite upd_length.
      - now rewrite map_length.
    Qed.
    Lemma book_kept s o : (forall h, o <> EDrop h) -> kept s -> kept (book s o).
    Proof.
      intros N K. destruct o as [e f a|e h|h|h|e]; cbn [book]; auto.
      - intros h r H. destruct (Nat.lt_ge_cases h (length s)); [rewrite nth_error_app1 in H by lia; eauto|]. rewrite nth_error_app2 in H by lia.
        destruct (h - length s)%nat as [|j]; [|destruct j; discriminate]. cbn in H. injection H as <-. reflexivity.
      - destruct (nth_error s h) as [r|] eqn:E; [|auto]. destruct (sat r) as [e'|]; [|auto]. destruct (Nat.eqb e e'); [|auto].
        intros h' r' H. rewrite nth_upd in H. destruct (Nat.eqb_spec h h'); [|eauto]. rewrite E in H. injection H as <-. cbn. eauto.
      - now specialize (N h).
      - intros h r H. rewrite nth_error_map in H. destruct (nth_error s h) as [r0|] eqn:E; [|discriminate]. cbn in H. injection H as <-. cbn. eauto.
    Qed.
    Definition keeps_rz (rz : rz_t) : Prop := forall busy running e i v rv st, sim (world st) (ledger st) -> (e < n)%nat -> 0 <= i ->
      kept (ledger st) -> known (ledger st) running ->
      match rz busy running e i v rv st with
      | ROk (st', _) => kept (ledger st') /\ (length (ledger st) <= length (ledger st'))%nat
      | RGone _ => False
      | _ => True
      end.
    Lemma run_keeps rz : good_rz rz -> keeps_rz rz -> forall busy running c st, no_drop c -> sim (world st) (ledger st) ->
      kept (ledger st) -> known (ledger st) running ->
      match run_code V U n rz busy running c st with
      | ROk (st', _) => kept (ledger st') /\ (length (ledger st) <= length (ledger st'))%nat
      | RGone _ => False
      | _ => True
      end.
    Proof.
      intros G Kz busy running c. induction c as [|o k IH|e v rv k IH|k IH|u k IH]; intros st N S K R; cbn [run_code]; inversion N; subst.
      - split; [exact K|lia].
      - destruct (allowed n busy (ledger st) o) eqn:A; [|exact I]. destruct (act_ok busy _ _ _ S A) as (w' & r & E & Ks & S'). rewrite E. cbn [of_res rbind].
        pose proof (book_length (ledger st) o) as Lb. pose proof (book_kept (ledger st) o ltac:(assumption) K) as Kb.
        assert (known (book (ledger st) o) running) as Nb by (intros h Ih; specialize (R h Ih); lia). rewrite (not_gone _ _ Kb Nb).
        specialize (IH r (mkES w' (book (ledger st) o) (user st)) ltac:(auto) S' Kb Nb). cbn [ledger] in IH.
        destruct (run_code V U n rz busy running (k r) _) as [[st' t]| | | |]; cbn [rbind] in *; auto. destruct IH. split; [auto|lia].
      - destruct (Nat.ltb_spec e n) as [Le|]; [|exact I]. pose proof (G busy running e 0 v rv st S Le ltac:(lia)) as G1. pose proof (Kz busy running e 0 v rv st S Le ltac:(lia) K R) as K1.
        destruct (rz busy running e 0 v rv st) as [[st1 t1]| | | |]; cbn [rbind] in *; auto. destruct G1 as [G1 _], K1 as [K1 L1].
        assert (known (ledger st1) running) as Nb by (intros h Ih; specialize (R h Ih); lia).
        specialize (IH st1 ltac:(auto) G1 K1 Nb). destruct (run_code V U n rz busy running k st1) as [[st' t]| | | |]; cbn [rbind] in *; auto. destruct IH. split; [auto|lia].
      - apply IH; auto.
      - apply (IH (mkES (world st) (ledger st) u)); auto.
    Qed.
    Lemma raise_keeps fuel : (forall f v, no_drop (beh f v)) -> keeps_rz (raise_any V moved U n beh fuel).
    Proof.
      intros B. induction fuel as [|fuel IH]; intros busy running e i v rv st S Le Li K R; cbn [raise_any]; [exact I|].
      destruct (nth_error (evs (world st)) e) as [x|] eqn:Ex; [|exact I].
      destruct (si_list n _ _ S e x Ex) as (l & Sh & H). destruct (Sh) as (Cx & _).
      destruct (Z.ltb_spec i (count x)) as [Lt|Ge]; [|split; [exact K|lia]].
      rewrite (get_ok _ _ _ _ Sh). unfold znth. replace (i <? 0) with false by lia. rewrite Cx in Lt.
      destruct (nth_error l (Z.to_nat i)) as [p|] eqn:Ep; [|apply nth_error_None in Ep; unfold zlen in Lt; lia]. cbn [of_res rbind].
      assert (exists rr, nth_error (ledger st) (snd p) = Some rr) as [rr Hr].
      { destruct p as [a h]. destruct H as (_ & _ & C). destruct (proj1 (C a h) (nth_error_In _ _ Ep)) as (rr & Q & _). eauto. }
      rewrite (nth_hs n _ _ _ S), Hr. cbn [option_map hfn].
      assert (known (ledger st) (snd p :: running)) as R' by (intros h [<-|Ih]; [eapply nth_error_lt; eauto|auto]).
      pose proof (run_good _ (raise_good fuel) (e :: busy) (snd p :: running) (beh (sfn rr) v) st S) as R1.
      pose proof (run_keeps _ (raise_good fuel) IH (e :: busy) (snd p :: running) (beh (sfn rr) v) st (B _ _) S K R') as R2.
      destruct (run_code V U n _ (e :: busy) (snd p :: running) (beh (sfn rr) v) st) as [[st1 t1]| | | |]; cbn [rbind good_run] in *; auto.
      destruct R1 as [S1 F1], R2 as [K1 L1]. assert (known (ledger st1) running) as N1 by (intros h Ih; specialize (R h Ih); lia).
      specialize (IH busy running e (i + 1) (if rv then moved else v) rv st1 S1 Le ltac:(lia) K1 N1).
      destruct (raise_any V moved U n beh fuel busy running e (i + 1) (if rv then moved else v) rv st1) as [[st2 t2]| | | |]; cbn [rbind] in *; auto.
      destruct IH. split; [auto|lia].
    Qed.
    Lemma program_keeps fuel c u h : (forall f v, no_drop (beh f v)) -> no_drop c -> run_program V moved U n beh fuel c u <> RGone h.
    Proof.
      intros B N. pose proof (run_keeps _ (raise_good fuel) (raise_keeps fuel B) [] [] c (mkES (events n) [] u) N (sim0 n)) as H. unfold run_program. intros E. rewrite E in H. apply H.
      - intros h' r Hh. destruct h'; discriminate.
      - intros h' [].
    Qed.

    (* ---- enough fuel ---- *)
    Definition more (a b : rr (es * list (tev V))) : Prop := a = RFuel \/ a = b.
    Lemma run_more rz rz' : (forall busy running e i v rv st, more (rz busy running e i v rv st) (rz' busy running e i v rv st)) ->
      forall busy running c st, more (run_code V U n rz busy running c st) (run_code V U n rz' busy running c st).
    Proof.
      intros M busy running c. induction c as [|o k IH|e v rv k IH|k IH|u k IH]; intros st; cbn [run_code].
      - now right.
      - destruct (allowed n busy (ledger st) o); [|now right]. destruct (of_res (cstep V (world st) o)) as [[w r]| | | |]; cbn [rbind]; try (now right).
        destruct (gone _ _); [now right|]. destruct (IH r (mkES w (book (ledger st) o) (user st))) as [E|E]; rewrite E; [now left|now right].
      - destruct (Nat.ltb e n); [|now right]. destruct (M busy running e 0 v rv st) as [E|E]; rewrite E; [now left|].
        destruct (rz' busy running e 0 v rv st) as [[st1 t1]| | | |]; cbn [rbind]; try (now right). destruct (IH st1) as [E2|E2]; rewrite E2; [now left|now right].
      - apply IH.
      - apply IH.
    Qed.
    Lemma raise_more fuel : forall busy running e i v rv st, more (raise_any V moved U n beh fuel busy running e i v rv st) (raise_any V moved U n beh (S fuel) busy running e i v rv st).
    Proof.
      induction fuel as [|fuel IH]; intros busy running e i v rv st; [now left|]. remember (S fuel) as f1 eqn:Ef. rewrite Ef at 1. cbn [raise_any].
      destruct (nth_error (evs (world st)) e) as [x|]; [|now right]. destruct (i <? count x); [|now right].
      destruct (of_res (get (Z * nat) x i)) as [p| | | |]; cbn [rbind]; try (now right). destruct (nth_error (hs (world st)) (snd p)) as [r|]; [|now right].
      try rewrite <- Ef in IH. destruct (run_more _ _ IH (e :: busy) (snd p :: running) (beh (hfn r) v) st) as [E|E]; rewrite E; [now left|].
      destruct (run_code V U n (raise_any V moved U n beh f1) (e :: busy) (snd p :: running) (beh (hfn r) v) st) as [[st1 t1]| | | |]; cbn [rbind]; try (now right).
      destruct (IH busy running e (i + 1) (if rv then moved else v) rv st1) as [E2|E2]; rewrite E2; [now left|now right].
    Qed.
    Lemma raise_more_le f1 f2 : (f1 <= f2)%nat -> forall busy running e i v rv st, more (raise_any V moved U n beh f1 busy running e i v rv st) (raise_any V moved U n beh f2 busy running e i v rv st).
    Proof.
      induction 1 as [|f2 _ IH]; intros; [now right|]. destruct (IH busy running e i v rv st) as [E|E]; [left; exact E|]. rewrite E. apply raise_more.
    Qed.
    Lemma calm_run rz busy running c : calm c -> forall st, sim (world st) (ledger st) ->
      run_code V U n rz busy running c st <> RFuel /\
      (forall st' t, run_code V U n rz busy running c st = ROk (st', t) -> sim (world st') (ledger st') /\ length (ledger st') = length (ledger st)).
    Proof.
      induction c as [|o k IH|e v rv k IH|k IH|u k IH]; intros N st S; cbn [run_code]; inversion N; subst.
      - split; [discriminate|]. intros st' t E. injection E as <- <-. auto.
      - destruct (allowed n busy (ledger st) o) eqn:A; [|split; [discriminate|discriminate]]. destruct (act_ok busy _ _ _ S A) as (w' & r & E & Ks & S'). rewrite E. cbn [of_res rbind].
        destruct (gone _ _); [split; discriminate|].
        assert (length (book (ledger st) o) = length (ledger st)) as Lb.
        { destruct o as [e f a|e h|h|h|e]; cbn [book]; auto.
          - exfalso. eapply H1; reflexivity.
          - destruct (nth_error (ledger st) h) as [r0|]; [|auto]. destruct (sat r0) as [e'|]; [|auto]. destruct (Nat.eqb e e'); [|auto]. apply upd_length.
          - destruct (nth_error (ledger st) h) as [r0|]; [|auto]. apply upd_length.
          - apply map_length. }
        destruct (IH r (H2 r) (mkES w' (book (ledger st) o) (user st)) S') as [I1 I2]. cbn [ledger] in *.
        destruct (run_code V U n rz busy running (k r) _) as [[st' t]| | | |]; cbn [rbind]; split; try discriminate; try congruence.
        intros st2 t2 E2. injection E2 as <- <-. destruct (I2 st' t eq_refl). split; [auto|lia].
      - apply IH; auto.
      - apply (IH ltac:(auto) (mkES (world st) (ledger st) u)). exact S.
    Qed.
    Lemma calm_raise : (forall f v, calm (beh f v)) -> forall fuel busy running e i v rv st, sim (world st) (ledger st) -> (e < n)%nat -> 0 <= i -> (length (ledger st) - Z.to_nat i < fuel)%nat ->
      raise_any V moved U n beh fuel busy running e i v rv st <> RFuel.
    Proof.
      intros B. induction fuel as [|fuel IH]; intros busy running e i v rv st S Le Li F; cbn [raise_any]; [lia|].
      destruct (nth_error (evs (world st)) e) as [x|] eqn:Ex; [|discriminate].
      destruct (si_list n _ _ S e x Ex) as (l & Sh & H). destruct (Sh) as (Cx & _).
      pose proof (holds_length n _ _ e l S H) as Ln. rewrite (si_hs n _ _ S), map_length in Ln.
      destruct (Z.ltb_spec i (count x)) as [Lt|Ge]; [|discriminate].
      rewrite (get_ok _ _ _ _ Sh). unfold znth. replace (i <? 0) with false by lia. rewrite Cx in Lt. unfold zlen in Lt.
      destruct (nth_error l (Z.to_nat i)) as [p|] eqn:Ep; [|apply nth_error_None in Ep; lia]. cbn [of_res rbind].
      destruct (nth_error (hs (world st)) (snd p)) as [r|]; [|discriminate].
      destruct (calm_run (raise_any V moved U n beh fuel) (e :: busy) (snd p :: running) _ (B (hfn r) v) st S) as [R1 R2].
      destruct (run_code V U n _ (e :: busy) (snd p :: running) (beh (hfn r) v) st) as [[st1 t1]| | | |]; cbn [rbind] in *; try congruence.
      destruct (R2 st1 t1 eq_refl) as [S1 L1]. specialize (IH busy running e (i + 1) (if rv then moved else v) rv st1 S1 Le ltac:(lia) ltac:(lia)).
      destruct (raise_any V moved U n beh fuel busy running e (i + 1) (if rv then moved else v) rv st1) as [[st2 t2]| | | |]; cbn [rbind]; congruence.
    Qed.
    Lemma calm_code : (forall f v, calm (beh f v)) -> forall busy running c st, sim (world st) (ledger st) ->
      exists fuel, run_code V U n (raise_any V moved U n beh fuel) busy running c st <> RFuel.
    Proof.
      intros B busy running c. induction c as [|o k IH|e v rv k IH|k IH|u k IH]; intros st S; cbn [run_code].
      - exists O. discriminate.
      - destruct (allowed n busy (ledger st) o) eqn:A; [|exists O; discriminate]. destruct (act_ok busy _ _ _ S A) as (w' & r & E & Ks & S'). rewrite E. cbn [of_res rbind].
        destruct (gone _ _); [exists O; discriminate|]. destruct (IH r (mkES w' (book (ledger st) o) (user st)) S') as [fuel F]. exists fuel.
        destruct (run_code V U n _ busy running (k r) _) as [[st' t]| | | |]; cbn [rbind]; congruence.
      - destruct (Nat.ltb_spec e n) as [Le|]; [|exists O; discriminate].
        set (f1 := Datatypes.S (length (ledger st))). pose proof (calm_raise B f1 busy running e 0 v rv st S Le ltac:(lia) ltac:(lia)) as F1.
        destruct (raise_any V moved U n beh f1 busy running e 0 v rv st) as [[st1 t1]| | | |] eqn:E1.
        + pose proof (raise_good f1 busy running e 0 v rv st S Le ltac:(lia)) as G. rewrite E1 in G. destruct G as [S1 _]. destruct (IH st1 S1) as [f2 F2]. exists (f1 + f2)%nat.
          destruct (raise_more_le f1 (f1 + f2) ltac:(lia) busy running e 0 v rv st) as [E|E]; [congruence|]. rewrite <- E, E1. cbn [rbind].
          destruct (run_more _ _ (raise_more_le f2 (f1 + f2) ltac:(lia)) busy running k st1) as [E2|E2]; [congruence|]. rewrite E2 in F2.
          destruct (run_code V U n _ busy running k st1) as [[st' t]| | | |]; cbn [rbind]; congruence.
        + exists f1. rewrite E1. discriminate.
        + exists f1. rewrite E1. discriminate.
        + exists f1. rewrite E1. discriminate.
        + congruence.
      - apply IH. exact S.
      - apply IH. exact S.
    Qed.
    Lemma calm_program c u : (forall f v, calm (beh f v)) -> exists fuel, forall more, run_program V moved U n beh (fuel + more) c u <> RFuel.
    Proof.
      intros B. destruct (calm_code B [] [] c (mkES (events n) [] u) (sim0 n)) as [fuel F]. exists fuel. intros m. unfold run_program.
      destruct (run_more _ _ (raise_more_le fuel (fuel + m) ltac:(lia)) [] [] c (mkES (events n) [] u)) as [E|E]; congruence.
    Qed.
  End exec.

  (* ---- callbacks that leave e alone ---- *)
  Lemma order_ext s s' e l : attached_in_order s e l ->
    (forall h r, nth_error s h = Some r -> sat r = Some e -> exists r', nth_error s' h = Some r' /\ sat r' = Some e /\ saddr r' = saddr r) ->
    (forall h r', nth_error s' h = Some r' -> sat r' = Some e -> exists r, nth_error s h = Some r /\ sat r = Some e) ->
    attached_in_order s' e l.
  Proof.
    intros (N & M & O) F B. split; [exact N|]. split.
    - intros h. rewrite M. split; intros (r & R1 & R2); [destruct (F h r R1 R2) as (r' & ? & ? & _)|destruct (B h r R1 R2) as (r' & ? & ?)]; eauto.
    - assert (forall h, In h l -> exists r r', nth_error s h = Some r /\ nth_error s' h = Some r' /\ saddr r' = saddr r) as X.
      { intros h I. apply M in I. destruct I as (r & R1 & R2). destruct (F h r R1 R2) as (r' & ? & _ & ?). eauto. }
      clear - O X. induction O as [|a l O IH A]; [constructor|]. constructor; [apply IH; intros h I; apply X; now right|].
      rewrite Forall_forall in *. intros b Ib. destruct (A b Ib) as (ra & rb & H1 & H2 & H3).
      destruct (X a (or_introl eq_refl)) as (qa & qa' & Q1 & Q2 & Q3). destruct (X b (or_intror Ib)) as (qb & qb' & P1 & P2 & P3).
      exists qa', qb'. split; [auto|]. split; [auto|]. rewrite Q3, P3. congruence.
  Qed.
  Lemma spare_step s o s' r e l : ok_step V moved s (Do o) s' r -> spares e o -> attached_in_order s e l -> attached_in_order s' e l.
  Proof.
    intros K Sp A. inversion K; subst; cbn [spares] in Sp; auto.
    - eapply order_ext; [exact A| |].
      + intros h r0 H1 H2. exists r0. rewrite nth_error_app1 by (eapply nth_error_lt; eauto). auto.
      + intros h r0 H1 H2. destruct (Nat.lt_ge_cases h (length s)); [rewrite nth_error_app1 in H1 by lia; eauto|]. rewrite nth_error_app2 in H1 by lia.
        destruct (h - length s)%nat as [|j]; [|destruct j; discriminate]. cbn in H1. injection H1 as <-. cbn in H2. congruence.
    - match goal with E : nth_error s h = Some _ |- _ => rename E into Eh end. match goal with E : sat _ = Some _ |- _ => rename E into Es end. eapply order_ext; [exact A| |].
      + intros h' r' H1 H2. exists r'. rewrite nth_upd. destruct (Nat.eqb_spec h h'); [|auto]. subst h'. congruence.
      + intros h' r' H1 H2. rewrite nth_upd in H1. destruct (Nat.eqb_spec h h'); [|eauto]. rewrite Eh in H1. injection H1 as <-. discriminate.
    - match goal with E : nth_error s h = Some _ |- _ => rename E into Eh end. eapply order_ext; [exact A| |].
      + intros h' r' H1 H2. rewrite nth_upd. destruct (Nat.eqb_spec h h'); [|eauto]. subst h'. rewrite Eh in *. injection H1 as <-. eexists. split; [reflexivity|auto].
      + intros h' r' H1 H2. rewrite nth_upd in H1. destruct (Nat.eqb_spec h h'); [|eauto]. subst h'. rewrite Eh in H1. injection H1 as <-. cbn in H2. eauto.
    - eapply order_ext; [exact A| |].
      + intros h r0 H1 H2. exists (leave e0 r0). rewrite nth_error_map, H1. split; [reflexivity|]. cbn. rewrite H2. destruct (Nat.eqb_spec e0 e); [congruence|auto].
      + intros h r0 H1 H2. rewrite nth_error_map in H1. destruct (nth_error s h) as [r1|]; [|discriminate]. cbn in H1. injection H1 as <-. exists r1. split; [reflexivity|]. cbn in H2.
        destruct (sat r1) as [e'|]; [|discriminate]. destruct (Nat.eqb e0 e'); congruence.
  Qed.
  (* the list is determined *)
  Lemma order_unique s e l l' : attached_in_order s e l -> attached_in_order s e l' -> l = l'.
  Proof.
    intros (_ & M & O) (_ & M' & O'). assert (forall h, In h l <-> In h l') as E by (intros h; now rewrite M, M'). clear M M'.
    revert l' O' E. induction O as [|a l O IH A]; intros l' O' E.
    - destruct l' as [|b l']; [reflexivity|]. destruct (proj2 (E b) (or_introl eq_refl)).
    - destruct O' as [|b l' O' B]; [destruct (proj1 (E a) (or_introl eq_refl))|]. rewrite Forall_forall in A, B.
      assert (a = b) as ->.
      { destruct (proj1 (E a) (or_introl eq_refl)) as [->|I]; [auto|]. destruct (proj2 (E b) (or_introl eq_refl)) as [->|J]; [auto|].
        destruct (A b J) as (r1 & r2 & R1 & R2 & R3). destruct (B a I) as (q1 & q2 & Q1 & Q2 & Q3). rewrite R1 in Q2. rewrite R2 in Q1. injection Q1 as <-. injection Q2 as <-. lia. }
      f_equal. apply IH; [auto|]. assert (forall m, (forall x, In x m -> exists ra rb, nth_error s b = Some ra /\ nth_error s x = Some rb /\ saddr ra < saddr rb) -> ~ In b m) as Nb.
      { intros m Hm I. destruct (Hm b I) as (r1 & r2 & R1 & R2 & R3). rewrite R1 in R2. injection R2 as <-. lia. }
      intros h. specialize (E h). cbn [In] in E. pose proof (Nb l A). pose proof (Nb l' B). split; intros I.
      + destruct (proj1 E (or_intror I)) as [<-|]; [contradiction|auto].
      + destruct (proj2 E (or_intror I)) as [<-|]; [contradiction|auto].
  Qed.
  Lemma spared_frames e :
    (forall s t s', frame s t s' -> Forall (spared e) t -> forall l, attached_in_order s e l -> attached_in_order s' e l) /\
    (forall e0 i v rv s cs t s', raised e0 i v rv s cs t s' -> Forall (spared e) t ->
       (forall l, attached_in_order s e l -> attached_in_order s' e l) /\ (e0 = e -> forall l, attached_in_order s e l -> cs = skipn i l)).
  Proof.
    apply frame_raised_ind.
    - auto.
    - intros s o r s1 t s2 K _ IH F l A. inversion F; subst. apply IH; auto. eapply spare_step; eauto.
    - intros s e0 v rv cs t1 s1 t2 s2 _ IH1 _ IH2 F l A. apply Forall_app in F. destruct F as [F1 F2]. apply IH2; auto. now apply IH1.
    - intros e0 i v rv s l A Le F. split; [auto|]. intros -> l' A'. rewrite (order_unique _ _ _ _ A' A). now rewrite skipn_all2.
    - intros e0 i v rv s l h r t1 s1 cs t2 s2 A Ei Eh _ IH1 _ IH2 F. inversion F; subst. apply Forall_app in H2. destruct H2 as [F1 F2]. destruct (IH2 F2) as [B1 B2]. split.
      + intros l' A'. apply B1. now apply IH1.
      + intros -> l' A'. assert (l' = l) as -> by (eapply order_unique; eauto). rewrite (B2 eq_refl l (IH1 F1 l A)). clear - Ei. revert l Ei. induction i as [|i IH]; intros [|y l] E; cbn in *; try discriminate; [congruence|]. now apply IH.
  Qed.
  Lemma once e v rv s cs t s' l : raised e 0 v rv s cs t s' -> Forall (spared e) t -> attached_in_order s e l -> cs = l.
  Proof. intros R F A. destruct (proj2 (spared_frames e) _ _ _ _ _ _ _ _ R F) as [_ H]. now rewrite (H eq_refl l A). Qed.
End proofs.
