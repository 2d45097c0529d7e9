From Coq Require Import ZifyBool ZifyNat.
From Verif Require Import Base BaseFacts LstModel LstSpec LstProofs SrtModel EvtModel EvtSpec EvtProofs EvrModel EvrSpec EvrProofs EvxModel EvxSpec EvxProofs.
Open Scope Z_scope.

Section proofs.
  Context (V : Type) (moved : V) (U X : Type) (n : nat) (beh : nat -> V -> xcode V U X).
  Notation sim := (sim n).
  Notation xres := (rr (es U * list (xev V X) * option X)).
  Notation xrun := (xrun_code V U X n).
  Notation xrz := (xraise V moved U X n beh).
  Definition xmore (a b : xres) : Prop := a = RFuel \/ a = b.
  Lemma xrun_more rz rz' : (forall busy running e i v rv st, xmore (rz busy running e i v rv st) (rz' busy running e i v rv st)) ->
    forall busy running c st, xmore (xrun rz busy running c st) (xrun rz' busy running c st).
  Proof.
    intros M busy running c. induction c as [|o k IH|e v rv k IH|x|b IHb h IHh k IH|k IH|u k IH]; intros st; cbn [xrun_code].
    - now right.
    - destruct (allowed n busy (ledger st) o); [|now right]. destruct (of_res (cstep V (world st) o)) as [[w r]| | | |]; cbn [rbind]; try (now right).
      destruct (gone _ _); [now right|]. destruct (IH r (mkES w (book (ledger st) o) (user st))) as [E|E]; rewrite E; [now left|now right].
    - destruct (Nat.ltb e n); [|now right]. destruct (M busy running e 0 v rv st) as [E|E]; rewrite E; [now left|].
      destruct (rz' busy running e 0 v rv st) as [[[st1 t1] [x|]]| | | |]; cbn [rbind]; try (now right). destruct (IH st1) as [E2|E2]; rewrite E2; [now left|now right].
    - now right.
    - destruct (IHb st) as [E|E]; rewrite E; [now left|]. destruct (xrun rz' busy running b st) as [[[st1 t1] [x|]]| | | |]; cbn [rbind]; try (now right).
      + destruct (IHh x st1) as [E1|E1]; rewrite E1; [now left|]. destruct (xrun rz' busy running (h x) st1) as [[[st2 t2] [y|]]| | | |]; cbn [rbind]; try (now right).
        destruct (IH st2) as [E2|E2]; rewrite E2; [now left|now right].
      + destruct (IH st1) as [E2|E2]; rewrite E2; [now left|now right].
    - apply IH.
    - apply IH.
  Qed.
  Lemma xraise_more fuel : forall busy running e i v rv st, xmore (xrz fuel busy running e i v rv st) (xrz (S fuel) busy running e i v rv st).
  Proof.
    induction fuel as [|fuel IH]; intros busy running e i v rv st; [now left|]. remember (S fuel) as f1 eqn:Ef. rewrite Ef at 1. cbn [xraise].
    destruct (nth_error (evs (world st)) e) as [y|]; [|now right]. destruct (i <? count y); [|now right].
    destruct (of_res (get (Z * nat) y i)) as [p| | | |]; cbn [rbind]; try (now right). destruct (nth_error (hs (world st)) (snd p)) as [r|]; [|now right].
    try rewrite <- Ef in IH. destruct (xrun_more _ _ IH (e :: busy) (snd p :: running) (beh (hfn r) v) st) as [E|E]; rewrite E; [now left|].
    destruct (xrun (xrz f1) (e :: busy) (snd p :: running) (beh (hfn r) v) st) as [[[st1 t1] [x|]]| | | |]; cbn [rbind]; try (now right).
    destruct (IH busy running e (i + 1) (if rv then moved else v) rv st1) as [E2|E2]; rewrite E2; [now left|now right].
  Qed.
  Lemma xraise_more_le f1 f2 : (f1 <= f2)%nat -> forall busy running e i v rv st, xmore (xrz f1 busy running e i v rv st) (xrz f2 busy running e i v rv st).
  Proof.
    induction 1 as [|f2 _ IH]; intros; [now right|]. destruct (IH busy running e i v rv st) as [E|E]; [left; exact E|]. rewrite E. apply xraise_more.
  Qed.
  Lemma calm_book s o : (forall e f a, o <> EAdd e f a) -> length (book s o) = length s.
  Proof.
    intros N. destruct o as [e f a|e h|h|h|e]; cbn [book]; auto.
    - exfalso. eapply N; reflexivity.
    - destruct (nth_error s h) as [r0|]; [|auto]. destruct (sat r0) as [e'|]; [|auto]. destruct (Nat.eqb e e'); [|auto]. apply upd_length.
    - destruct (nth_error s h) as [r0|]; [|auto]. apply upd_length.
    - apply map_length.
  Qed.
  Definition calm_res (st : es U) (y : xres) : Prop :=
    match y with ROk (st', _, _) => sim (world st') (ledger st') /\ length (ledger st') = length (ledger st) | RFuel => False | _ => True end.
  Lemma xcalm_run rz busy running c : xcalm c -> forall st, sim (world st) (ledger st) -> calm_res st (xrun rz busy running c st).
  Proof.
    induction c as [|o k IH|e v rv k IH|x|b IHb h IHh k IH|k IH|u k IH]; intros N st S; cbn [xrun_code]; inversion N; subst.
    - split; [exact S|reflexivity].
    - destruct (allowed n busy (ledger st) o) eqn:A; [|exact I]. destruct (act_ok V moved n busy _ _ _ S A) as (w' & r & E & Ks & S'). rewrite E. cbn [of_res rbind].
      destruct (gone _ _); [exact I|]. pose proof (calm_book (ledger st) o ltac:(assumption)) as Lb.
      specialize (IH r (H2 r) (mkES w' (book (ledger st) o) (user st)) S').
      destruct (xrun rz busy running (k r) _) as [[[st' t] x]| | | |]; cbn [rbind calm_res ledger] in *; auto. destruct IH. split; [auto|lia].
    - split; [exact S|reflexivity].
    - specialize (IHb ltac:(auto) st S). destruct (xrun rz busy running b st) as [[[st1 t1] [x|]]| | | |]; cbn [rbind calm_res] in *; auto; destruct IHb as [S1 L1].
      + specialize (IHh x ltac:(auto) st1 S1). destruct (xrun rz busy running (h x) st1) as [[[st2 t2] [y|]]| | | |]; cbn [rbind calm_res] in *; auto; destruct IHh as [S2 L2]; [split; [auto|lia]|].
        specialize (IH ltac:(auto) st2 S2). destruct (xrun rz busy running k st2) as [[[st3 t3] z]| | | |]; cbn [rbind calm_res] in *; auto. destruct IH. split; [auto|lia].
      + specialize (IH ltac:(auto) st1 S1). destruct (xrun rz busy running k st1) as [[[st3 t3] z]| | | |]; cbn [rbind calm_res] in *; auto. destruct IH. split; [auto|lia].
    - apply IH; auto.
    - apply (IH ltac:(auto) (mkES (world st) (ledger st) u)). exact S.
  Qed.
  Lemma xcalm_raise : (forall f v, xcalm (beh f v)) -> forall fuel busy running e i v rv st, sim (world st) (ledger st) -> (e < n)%nat -> 0 <= i -> (length (ledger st) - Z.to_nat i < fuel)%nat ->
    xrz fuel busy running e i v rv st <> RFuel.
  Proof.
    intros B. induction fuel as [|fuel IH]; intros busy running e i v rv st S Le Li F; cbn [xraise]; [lia|].
    destruct (nth_error (evs (world st)) e) as [y|] eqn:Ex; [|discriminate].
    destruct (si_list n _ _ S e y Ex) as (l & Sh & H). destruct (Sh) as (Cx & _).
    pose proof (holds_length n _ _ e l S H) as Ln. rewrite (si_hs n _ _ S), map_length in Ln.
    destruct (Z.ltb_spec i (count y)) as [Lt|Ge]; [|discriminate].
    rewrite (get_ok _ _ _ _ Sh). unfold znth. replace (i <? 0) with false by lia. rewrite Cx in Lt. unfold zlen in Lt.
    destruct (nth_error l (Z.to_nat i)) as [p|] eqn:Ep; [|apply nth_error_None in Ep; lia]. cbn [of_res rbind].
    destruct (nth_error (hs (world st)) (snd p)) as [r|]; [|discriminate].
    pose proof (xcalm_run (xrz fuel) (e :: busy) (snd p :: running) _ (B (hfn r) v) st S) as R1.
    destruct (xrun (xrz fuel) (e :: busy) (snd p :: running) (beh (hfn r) v) st) as [[[st1 t1] [x|]]| | | |]; cbn [rbind calm_res] in *; try congruence; try contradiction.
    destruct R1 as [S1 L1]. specialize (IH busy running e (i + 1) (if rv then moved else v) rv st1 S1 Le ltac:(lia) ltac:(lia)).
    destruct (xrz fuel busy running e (i + 1) (if rv then moved else v) rv st1) as [[[st2 t2] x]| | | |]; cbn [rbind]; congruence.
  Qed.
  Lemma xcalm_code : (forall f v, xcalm (beh f v)) -> forall busy running c st, sim (world st) (ledger st) ->
    exists fuel, xrun (xrz fuel) busy running c st <> RFuel.
  Proof.
    intros B busy running c. induction c as [|o k IH|e v rv k IH|x|b IHb h IHh k IH|k IH|u k IH]; intros st S; cbn [xrun_code].
    - exists O. discriminate.
    - destruct (allowed n busy (ledger st) o) eqn:A; [|exists O; discriminate]. destruct (act_ok V moved n busy _ _ _ S A) as (w' & r & E & Ks & S'). rewrite E. cbn [of_res rbind].
      destruct (gone _ _); [exists O; discriminate|]. destruct (IH r (mkES w' (book (ledger st) o) (user st)) S') as [fuel F]. exists fuel.
      destruct (xrun (xrz fuel) busy running (k r) _) as [[[st' t] x]| | | |]; cbn [rbind]; congruence.
    - destruct (Nat.ltb_spec e n) as [Le|]; [|exists O; discriminate].
      set (f1 := Datatypes.S (length (ledger st))). pose proof (xcalm_raise B f1 busy running e 0 v rv st S Le ltac:(lia) ltac:(lia)) as F1.
      destruct (xrz f1 busy running e 0 v rv st) as [[[st1 t1] [x|]]| | | |] eqn:E1; [exists f1; rewrite E1; discriminate| |exists f1; rewrite E1; discriminate|exists f1; rewrite E1; discriminate|exists f1; rewrite E1; discriminate|congruence].
      pose proof (xraise_good V moved U X n beh f1 busy running e 0 v rv st S Le ltac:(lia)) as G. rewrite E1 in G. destruct G as [S1 _]. destruct (IH st1 S1) as [f2 F2]. exists (f1 + f2)%nat.
      destruct (xraise_more_le f1 (f1 + f2) ltac:(lia) busy running e 0 v rv st) as [E|E]; [congruence|]. rewrite <- E, E1. cbn [rbind].
      destruct (xrun_more _ _ (xraise_more_le f2 (f1 + f2) ltac:(lia)) busy running k st1) as [E2|E2]; [congruence|]. rewrite E2 in F2.
      destruct (xrun (xrz (f1 + f2)) busy running k st1) as [[[st' t] x]| | | |]; cbn [rbind]; congruence.
    - exists O. discriminate.
    - destruct (IHb st S) as [f1 F1].
      assert (forall f, (f1 <= f)%nat -> xrun (xrz f) busy running b st = xrun (xrz f1) busy running b st) as Mb.
      { intros f L. destruct (xrun_more _ _ (xraise_more_le f1 f L) busy running b st); congruence. }
      pose proof (xrun_good V moved U X n beh _ (xraise_good V moved U X n beh f1) busy running b st S) as G1.
      destruct (xrun (xrz f1) busy running b st) as [[[st1 t1] [x|]]| | | |] eqn:E1; cbn [xgood_run] in G1;
        [ | |exists f1; rewrite E1; discriminate|exists f1; rewrite E1; discriminate|exists f1; rewrite E1; discriminate|congruence]; destruct G1 as [S1 _].
      + destruct (IHh x st1 S1) as [f2 F2].
        assert (forall f, (f2 <= f)%nat -> xrun (xrz f) busy running (h x) st1 = xrun (xrz f2) busy running (h x) st1) as Mh.
        { intros f L. destruct (xrun_more _ _ (xraise_more_le f2 f L) busy running (h x) st1); congruence. }
        pose proof (xrun_good V moved U X n beh _ (xraise_good V moved U X n beh f2) busy running (h x) st1 S1) as G2.
        destruct (xrun (xrz f2) busy running (h x) st1) as [[[st2 t2] [y|]]| | | |] eqn:E2; cbn [xgood_run] in G2;
          try (exists (f1 + f2)%nat; rewrite Mb by lia; cbn [rbind]; rewrite Mh by lia; discriminate); [|congruence]. destruct G2 as [S2 _].
        destruct (IH st2 S2) as [f3 F3].
        assert (forall f, (f3 <= f)%nat -> xrun (xrz f) busy running k st2 = xrun (xrz f3) busy running k st2) as Mk.
        { intros f L. destruct (xrun_more _ _ (xraise_more_le f3 f L) busy running k st2); congruence. }
        exists (f1 + f2 + f3)%nat. rewrite Mb by lia. cbn [rbind]. rewrite Mh by lia. cbn [rbind]. rewrite Mk by lia.
        destruct (xrun (xrz f3) busy running k st2) as [[[st3 t3] z]| | | |]; cbn [rbind]; congruence.
      + destruct (IH st1 S1) as [f3 F3].
        assert (forall f, (f3 <= f)%nat -> xrun (xrz f) busy running k st1 = xrun (xrz f3) busy running k st1) as Mk.
        { intros f L. destruct (xrun_more _ _ (xraise_more_le f3 f L) busy running k st1); congruence. }
        exists (f1 + f3)%nat. rewrite Mb by lia. cbn [rbind]. rewrite Mk by lia.
        destruct (xrun (xrz f3) busy running k st1) as [[[st3 t3] z]| | | |]; cbn [rbind]; congruence.
    - apply IH. exact S.
    - apply IH. exact S.
  Qed.
  Lemma xcalm_program c u : (forall f v, xcalm (beh f v)) -> exists fuel, forall more, xrun_program V moved U X n beh (fuel + more) c u <> RFuel.
  Proof.
    intros B. destruct (xcalm_code B [] [] c (mkES (events n) [] u) (sim0 n)) as [fuel F]. exists fuel. intros m. unfold xrun_program.
    destruct (xrun_more _ _ (xraise_more_le fuel (fuel + m) ltac:(lia)) [] [] c (mkES (events n) [] u)) as [E|E]; congruence.
  Qed.
End proofs.
