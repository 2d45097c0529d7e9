From Coq Require Import ZifyBool ZifyNat.
From Verif Require Import Base BaseFacts LstModel LstSpec LstProofs SrtModel EvtModel EvtSpec EvtProofs EvrModel EvrSpec EvrProofs EvxModel EvxSpec.
Open Scope Z_scope.

Scheme xframe_mind := Minimality for xframe Sort Prop with xraised_mind := Minimality for xraised Sort Prop.
Combined Scheme xframe_raised_ind from xframe_mind, xraised_mind.

Section proofs.
  Context (V : Type) (moved : V) (U X : Type) (n : nat).
  Notation sim := (sim n).
  Notation xcode := (xcode V U X).
  Notation es := (es U).
  Notation xframe := (xframe V moved X).
  Notation xraised := (xraised V moved X).
  Notation xres := (rr (es * list (xev V X) * option X)).

  Section exec.
    Context (beh : nat -> V -> xcode).
    Notation rz_t := (list nat -> list nat -> nat -> Z -> V -> bool -> es -> xres).
    Definition xgood_rz (rz : rz_t) : Prop := forall busy running e i v rv st, sim (world st) (ledger st) -> (e < n)%nat -> 0 <= i ->
      match rz busy running e i v rv st with
      | ROk (st', t, x) => sim (world st') (ledger st') /\ exists cs, xraised e (Z.to_nat i) v rv (ledger st) cs t x (ledger st')
      | RFault => False
      | _ => True
      end.
    Definition xgood_run (st : es) (y : xres) : Prop :=
      match y with
      | ROk (st', t, x) => sim (world st') (ledger st') /\ xframe (ledger st) t x (ledger st')
      | RFault => False
      | _ => True
      end.
    Lemma xrun_good rz : xgood_rz rz -> forall busy running c st, sim (world st) (ledger st) -> xgood_run st (xrun_code V U X n rz busy running c st).
    Proof.
      intros G busy running c. induction c as [|o k IH|e v rv k IH|x|b IHb h IHh k IH|k IH|u k IH]; intros st S; cbn [xrun_code].
      - split; [exact S|constructor].
      - destruct (allowed n busy (ledger st) o) eqn:A; [|exact I]. destruct (act_ok V moved n busy _ _ _ S A) as (w' & r & E & K & S'). rewrite E. cbn [of_res rbind].
        destruct (gone _ _); [exact I|]. specialize (IH r (mkES w' (book (ledger st) o) (user st)) S').
        destruct (xrun_code V U X n rz busy running (k r) _) as [[[st' t] x]| | | |]; cbn [rbind xgood_run] in *; auto. destruct IH as [I1 I2]. split; [exact I1|]. econstructor; eauto.
      - destruct (Nat.ltb_spec e n) as [Le|]; [|exact I]. specialize (G busy running e 0 v rv st S Le ltac:(lia)).
        destruct (rz busy running e 0 v rv st) as [[[st1 t1] [x|]]| | | |]; cbn [rbind xgood_run] in *; auto; destruct G as [G1 (cs & G2)].
        { split; [exact G1|]. eapply xf_raise; eauto. }
        specialize (IH st1 G1).
        destruct (xrun_code V U X n rz busy running k st1) as [[[st' t] x]| | | |]; cbn [rbind xgood_run] in *; auto. destruct IH as [I1 I2]. split; [exact I1|].
        eapply xf_seq; [eapply xf_raise; eauto|exact I2].
      - split; [exact S|constructor].
      - specialize (IHb st S). destruct (xrun_code V U X n rz busy running b st) as [[[st1 t1] [x|]]| | | |]; cbn [rbind xgood_run] in *; auto; destruct IHb as [B1 B2].
        + specialize (IHh x st1 B1). destruct (xrun_code V U X n rz busy running (h x) st1) as [[[st2 t2] [y|]]| | | |]; cbn [rbind xgood_run] in *; auto; destruct IHh as [H1 H2].
          * split; [exact H1|]. eapply xf_catch; eauto.
          * specialize (IH st2 H1). destruct (xrun_code V U X n rz busy running k st2) as [[[st3 t3] z]| | | |]; cbn [rbind xgood_run] in *; auto. destruct IH as [I1 I2].
            split; [exact I1|]. eapply xf_seq; [eapply xf_catch; eauto|exact I2].
        + specialize (IH st1 B1). destruct (xrun_code V U X n rz busy running k st1) as [[[st3 t3] z]| | | |]; cbn [rbind xgood_run] in *; auto. destruct IH as [I1 I2].
          split; [exact I1|]. eapply xf_seq; eauto.
      - apply IH. exact S.
      - apply (IH (mkES (world st) (ledger st) u)). exact S.
    Qed.
    Lemma xraise_good fuel : xgood_rz (xraise V moved U X n beh fuel).
    Proof.
      induction fuel as [|fuel IH]; intros busy running e i v rv st S Le Li; cbn [xraise]; [exact I|].
      destruct (nth_error (evs (world st)) e) as [y|] eqn:Ex; [|apply nth_error_None in Ex; rewrite (si_ev n _ _ S) in Ex; lia].
      destruct (si_list n _ _ S e y Ex) as (l & Sh & H). pose proof (strict n _ _ e l S H) as St. destruct (Sh) as (Cx & _).
      destruct (Z.ltb_spec i (count y)) as [Lt|Ge].
      - rewrite (get_ok _ _ _ _ Sh). unfold znth. replace (i <? 0) with false by lia. rewrite Cx in Lt.
        destruct (nth_error l (Z.to_nat i)) as [p|] eqn:Ep; [|apply nth_error_None in Ep; unfold zlen in Lt; lia]. cbn [of_res rbind].
        assert (exists rr, nth_error (ledger st) (snd p) = Some rr) as [rr Hr].
        { destruct p as [a h]. destruct H as (_ & _ & C). destruct (proj1 (C a h) (nth_error_In _ _ Ep)) as (rr & R & _). eauto. }
        rewrite (nth_hs n _ _ _ S), Hr. cbn [option_map hfn].
        assert (nth_error (map snd l) (Z.to_nat i) = Some (snd p)) as Em by (rewrite nth_error_map, Ep; reflexivity).
        pose proof (xrun_good _ IH (e :: busy) (snd p :: running) (beh (sfn rr) v) st S) as R1.
        destruct (xrun_code V U X n _ (e :: busy) (snd p :: running) (beh (sfn rr) v) st) as [[[st1 t1] [x|]]| | | |]; cbn [rbind xgood_run] in *; auto.
        + destruct R1 as [S1 F1]. split; [exact S1|]. exists [snd p]. eapply xr_throw; eauto.
        + destruct R1 as [S1 F1]. specialize (IH busy running e (i + 1) (if rv then moved else v) rv st1 S1 Le ltac:(lia)).
          destruct (xraise V moved U X n beh fuel busy running e (i + 1) (if rv then moved else v) rv st1) as [[[st2 t2] x]| | | |]; cbn [rbind] in *; auto.
          destruct IH as [S2 (cs & F2)]. split; [exact S2|]. exists (snd p :: cs). replace (Z.to_nat (i + 1)) with (Datatypes.S (Z.to_nat i)) in F2 by lia.
          eapply xr_call; eauto.
      - split; [exact S|]. exists []. eapply xr_end; [exact St|]. rewrite map_length. unfold zlen in Cx. lia.
    Qed.
    Lemma xprogram_ok fuel c u :
      match xrun_program V moved U X n beh fuel c u with
      | ROk (st, t, x) => xframe [] t x (ledger st)
      | RFault => False
      | _ => True
      end.
    Proof.
      pose proof (xrun_good _ (xraise_good fuel) [] [] c (mkES (events n) [] u) (sim0 n)) as H. unfold xrun_program.
      destruct (xrun_code V U X n _ [] [] c _) as [[[st t] x]| | | |]; cbn [xgood_run] in H; tauto.
    Qed.

    (* ---- nobody drops handlers ---- *)
    Definition keeps_res (st : es) (y : xres) : Prop :=
      match y with
      | ROk (st', _, _) => kept (ledger st') /\ (length (ledger st) <= length (ledger st'))%nat
      | RGone _ => False
      | _ => True
      end.
    Definition xkeeps_rz (rz : rz_t) : Prop := forall busy running e i v rv st, sim (world st) (ledger st) -> (e < n)%nat -> 0 <= i ->
      kept (ledger st) -> known (ledger st) running -> keeps_res st (rz busy running e i v rv st).
    Lemma known_mono s s' running : known s running -> (length s <= length s')%nat -> known s' running.
    Proof. intros K L h I. specialize (K h I). lia. Qed.
    Let BL := book_length V moved U (fun _ _ => Ret).
    Let BK := book_kept V moved U (fun _ _ => Ret).
    Let NG := not_gone V moved U (fun _ _ => Ret).
    Lemma xrun_keeps rz : xgood_rz rz -> xkeeps_rz rz -> forall busy running c st, xno_drop c -> sim (world st) (ledger st) ->
      kept (ledger st) -> known (ledger st) running -> keeps_res st (xrun_code V U X n rz busy running c st).
    Proof.
      intros G Kz busy running c. induction c as [|o k IH|e v rv k IH|x|b IHb h IHh k IH|k IH|u k IH]; intros st N S K R; cbn [xrun_code]; inversion N; subst.
      - split; [exact K|lia].
      - destruct (allowed n busy (ledger st) o) eqn:A; [|exact I]. destruct (act_ok V moved n busy _ _ _ S A) as (w' & r & E & Ks & S'). rewrite E. cbn [of_res rbind].
        pose proof (BL (ledger st) o) as Lb. pose proof (BK (ledger st) o ltac:(assumption) K) as Kb.
        pose proof (known_mono _ _ _ R Lb) as Nb. rewrite (NG _ _ Kb Nb).
        specialize (IH r (mkES w' (book (ledger st) o) (user st)) ltac:(auto) S' Kb Nb).
        destruct (xrun_code V U X n rz busy running (k r) _) as [[[st' t] x]| | | |]; cbn [rbind keeps_res ledger] in *; auto. destruct IH. split; [auto|lia].
      - destruct (Nat.ltb_spec e n) as [Le|]; [|exact I]. pose proof (G busy running e 0 v rv st S Le ltac:(lia)) as G1. pose proof (Kz busy running e 0 v rv st S Le ltac:(lia) K R) as K1.
        destruct (rz busy running e 0 v rv st) as [[[st1 t1] [x|]]| | | |]; cbn [rbind keeps_res] in *; auto. destruct G1 as [G1 _], K1 as [K1 L1].
        pose proof (known_mono _ _ _ R L1) as Nb.
        specialize (IH st1 ltac:(auto) G1 K1 Nb). destruct (xrun_code V U X n rz busy running k st1) as [[[st' t] x]| | | |]; cbn [rbind keeps_res] in *; auto. destruct IH. split; [auto|lia].
      - split; [exact K|lia].
      - pose proof (xrun_good _ G busy running b st S) as G1. specialize (IHb st ltac:(auto) S K R).
        destruct (xrun_code V U X n rz busy running b st) as [[[st1 t1] [x|]]| | | |]; cbn [rbind keeps_res xgood_run] in *; auto; destruct IHb as [K1 L1], G1 as [S1 _]; pose proof (known_mono _ _ _ R L1) as N1.
        + pose proof (xrun_good _ G busy running (h x) st1 S1) as G2. specialize (IHh x st1 ltac:(auto) S1 K1 N1).
          destruct (xrun_code V U X n rz busy running (h x) st1) as [[[st2 t2] [y|]]| | | |]; cbn [rbind keeps_res xgood_run] in *; auto; destruct IHh as [K2 L2], G2 as [S2 _]; [split; [auto|lia]|].
          pose proof (known_mono _ _ _ N1 L2) as N2. specialize (IH st2 ltac:(auto) S2 K2 N2).
          destruct (xrun_code V U X n rz busy running k st2) as [[[st3 t3] z]| | | |]; cbn [rbind keeps_res] in *; auto. destruct IH. split; [auto|lia].
        + specialize (IH st1 ltac:(auto) S1 K1 N1).
          destruct (xrun_code V U X n rz busy running k st1) as [[[st3 t3] z]| | | |]; cbn [rbind keeps_res] in *; auto. destruct IH. split; [auto|lia].
      - apply IH; auto.
      - apply (IH (mkES (world st) (ledger st) u)); auto.
    Qed.
    Lemma xraise_keeps fuel : (forall f v, xno_drop (beh f v)) -> xkeeps_rz (xraise V moved U X n beh fuel).
    Proof.
      intros B. induction fuel as [|fuel IH]; intros busy running e i v rv st S Le Li K R; cbn [xraise]; [exact I|].
      destruct (nth_error (evs (world st)) e) as [y|] eqn:Ex; [|exact I].
      destruct (si_list n _ _ S e y Ex) as (l & Sh & H). destruct (Sh) as (Cx & _).
      destruct (Z.ltb_spec i (count y)) as [Lt|Ge]; [|split; [exact K|lia]].
      rewrite (get_ok _ _ _ _ Sh). unfold znth. replace (i <? 0) with false by lia. rewrite Cx in Lt.
      destruct (nth_error l (Z.to_nat i)) as [p|] eqn:Ep; [|apply nth_error_None in Ep; unfold zlen in Lt; lia]. cbn [of_res rbind].
      assert (exists rr, nth_error (ledger st) (snd p) = Some rr) as [rr Hr].
      { destruct p as [a h]. destruct H as (_ & _ & C). destruct (proj1 (C a h) (nth_error_In _ _ Ep)) as (rr & Q & _). eauto. }
      rewrite (nth_hs n _ _ _ S), Hr. cbn [option_map hfn].
      assert (known (ledger st) (snd p :: running)) as R' by (intros h [<-|Ih]; [eapply nth_error_lt; eauto|auto]).
      pose proof (xrun_good _ (xraise_good fuel) (e :: busy) (snd p :: running) (beh (sfn rr) v) st S) as R1.
      pose proof (xrun_keeps _ (xraise_good fuel) IH (e :: busy) (snd p :: running) (beh (sfn rr) v) st (B _ _) S K R') as R2.
      destruct (xrun_code V U X n _ (e :: busy) (snd p :: running) (beh (sfn rr) v) st) as [[[st1 t1] [x|]]| | | |]; cbn [rbind xgood_run keeps_res] in *; auto.
      destruct R1 as [S1 F1], R2 as [K1 L1]. pose proof (known_mono _ _ _ R L1) as N1.
      specialize (IH busy running e (i + 1) (if rv then moved else v) rv st1 S1 Le ltac:(lia) K1 N1).
      destruct (xraise V moved U X n beh fuel busy running e (i + 1) (if rv then moved else v) rv st1) as [[[st2 t2] x]| | | |]; cbn [rbind keeps_res] in *; auto.
      destruct IH. split; [auto|lia].
    Qed.
    Lemma xprogram_keeps fuel c u h : (forall f v, xno_drop (beh f v)) -> xno_drop c -> xrun_program V moved U X n beh fuel c u <> RGone h.
    Proof.
      intros B N. pose proof (xrun_keeps _ (xraise_good fuel) (xraise_keeps fuel B) [] [] c (mkES (events n) [] u) N (sim0 n)) as H. unfold xrun_program. intros E. rewrite E in H. apply H.
      - intros h' r Hh. destruct h'; discriminate.
      - intros h' [].
    Qed.
  End exec.

  (* ---- code that does not throw ---- *)
  Definition lift (y : rr (es * list (tev V))) : xres := rbind y (fun '(s, t) => ROk (s, map (plain_ev V X) t, None)).
  Lemma plain_run rz xrz : (forall busy running e i v rv st, xrz busy running e i v rv st = lift (rz busy running e i v rv st)) ->
    forall busy running c st, xrun_code V U X n xrz busy running (plain V U X c) st = lift (run_code V U n rz busy running c st).
  Proof.
    intros Hz busy running c. induction c as [|o k IH|e v rv k IH|k IH|u k IH]; intros st; cbn [plain xrun_code run_code].
    - reflexivity.
    - destruct (allowed n busy (ledger st) o); [|reflexivity]. destruct (of_res (cstep V (world st) o)) as [[w r]| | | |]; cbn [rbind]; try reflexivity.
      destruct (gone _ _); [reflexivity|]. rewrite IH. destruct (run_code V U n rz busy running (k r) _) as [[s t]| | | |]; reflexivity.
    - destruct (Nat.ltb e n); [|reflexivity]. rewrite Hz. destruct (rz busy running e 0 v rv st) as [[s1 t1]| | | |]; cbn [lift rbind]; try reflexivity.
      rewrite IH. destruct (run_code V U n rz busy running k s1) as [[s t]| | | |]; cbn [lift rbind]; try reflexivity. now rewrite map_app.
    - apply IH.
    - apply IH.
  Qed.
  Lemma plain_raise beh fuel : forall busy running e i v rv st,
    xraise V moved U X n (fun f v => plain V U X (beh f v)) fuel busy running e i v rv st = lift (raise_any V moved U n beh fuel busy running e i v rv st).
  Proof.
    induction fuel as [|fuel IH]; intros busy running e i v rv st; cbn [xraise raise_any]; [reflexivity|].
    destruct (nth_error (evs (world st)) e) as [y|]; [|reflexivity]. destruct (i <? count y); [|reflexivity].
    destruct (of_res (get (Z * nat) y i)) as [p| | | |]; cbn [rbind]; try reflexivity. destruct (nth_error (hs (world st)) (snd p)) as [r|]; [|reflexivity].
    rewrite (plain_run _ _ IH). destruct (run_code V U n _ (e :: busy) (snd p :: running) (beh (hfn r) v) st) as [[s1 t1]| | | |]; cbn [lift rbind]; try reflexivity.
    rewrite IH. destruct (raise_any V moved U n beh fuel busy running e (i + 1) (if rv then moved else v) rv s1) as [[s2 t2]| | | |]; cbn [lift rbind]; try reflexivity.
    cbn [map plain_ev]. now rewrite map_app.
  Qed.
  Lemma plain_program beh fuel c u :
    xrun_program V moved U X n (fun f v => plain V U X (beh f v)) fuel (plain V U X c) u =
    rbind (run_program V moved U n beh fuel c u) (fun '(s, t) => ROk (s, map (plain_ev V X) t, None)).
  Proof. unfold xrun_program, run_program. apply plain_run. apply plain_raise. Qed.
End proofs.

Section traces.
  Context (V : Type) (moved : V) (X : Type).
  Notation xframe := (xframe V moved X).
  Notation xraised := (xraised V moved X).
  Lemma nth_skipn {A} (l : list A) i h : nth_error l i = Some h -> skipn i l = h :: skipn (S i) l.
  Proof. revert l. induction i as [|i IH]; intros [|y l] E; cbn in *; try discriminate; [congruence|]. rewrite (IH l E). reflexivity. Qed.
  Lemma xspared_frames e :
    (forall s t x s', xframe s t x s' -> Forall (xspared V X e) t -> forall l, attached_in_order s e l -> attached_in_order s' e l) /\
    (forall e0 i v rv s cs t x s', xraised e0 i v rv s cs t x s' -> Forall (xspared V X e) t ->
       (forall l, attached_in_order s e l -> attached_in_order s' e l) /\
       (e0 = e -> forall l, attached_in_order s e l -> match x with None => cs = skipn i l | Some _ => exists h cs' later, cs = cs' ++ [h] /\ skipn i l = cs ++ later end)).
  Proof.
    apply xframe_raised_ind.
    - auto.
    - auto.
    - intros s o r s1 t x s2 K _ IH F l A. inversion F; subst. apply IH; auto. eapply spare_step; eauto.
    - intros s e0 v rv cs t x s1 _ IH F l A. now apply IH.
    - intros s t1 s1 t2 x s2 _ IH1 _ IH2 F l A. apply Forall_app in F. destruct F as [F1 F2]. apply IH2; auto.
    - intros s t1 x s1 t2 y s2 _ IH1 _ IH2 F l A. apply Forall_app in F. destruct F as [F1 F2]. inversion F2; subst. apply IH2; auto.
    - intros e0 i v rv s l A Le F. split; [auto|]. intros -> l' A'. rewrite (order_unique _ _ _ _ A' A). now rewrite skipn_all2.
    - intros e0 i v rv s l h r t1 s1 cs t2 x s2 A Ei Eh _ IH1 _ IH2 F. inversion F; subst. apply Forall_app in H2. destruct H2 as [F1 F2]. destruct (IH2 F2) as [B1 B2]. split.
      + intros l' A'. apply B1. now apply IH1.
      + intros -> l' A'. assert (l' = l) as -> by (eapply order_unique; eauto). specialize (B2 eq_refl l (IH1 F1 l A)). rewrite (nth_skipn _ _ _ Ei). destruct x as [x|].
        * destruct B2 as (h' & cs' & later & -> & Es). exists h', (h :: cs'), later. split; [reflexivity|]. cbn [app]. f_equal. exact Es.
        * now rewrite B2.
    - intros e0 i v rv s l h r t1 x s1 A Ei Eh _ IH1 F. inversion F; subst. apply Forall_app in H2. destruct H2 as [F1 F2]. split.
      + intros l' A'. now apply IH1.
      + intros -> l' A'. assert (l' = l) as -> by (eapply order_unique; eauto). rewrite (nth_skipn _ _ _ Ei). exists h, [], (skipn (S i) l). split; reflexivity.
  Qed.
  Lemma cut e v rv s cs t x s' l : xraised e 0 v rv s cs t (Some x) s' -> Forall (xspared V X e) t -> attached_in_order s e l ->
    attached_in_order s' e l /\ exists before h later, cs = before ++ [h] /\ l = before ++ h :: later.
  Proof.
    intros R F A. destruct (proj2 (xspared_frames e) _ _ _ _ _ _ _ _ _ R F) as [H1 H2]. split; [auto|].
    destruct (H2 eq_refl l A) as (h & cs' & later & -> & E). exists cs', h, later. split; [reflexivity|]. change (skipn 0 l) with l in E. rewrite E, <- app_assoc. reflexivity.
  Qed.
  Lemma whole e v rv s cs t s' l : xraised e 0 v rv s cs t None s' -> Forall (xspared V X e) t -> attached_in_order s e l ->
    attached_in_order s' e l /\ cs = l.
  Proof. intros R F A. destruct (proj2 (xspared_frames e) _ _ _ _ _ _ _ _ _ R F) as [H1 H2]. split; [auto|]. now apply H2. Qed.

  Lemma source_all :
    (forall s t y s', xframe s t y s' -> forall x, y = Some x -> exists t0 inner, t = t0 ++ XThrown x :: map (fun e => XLeft e x) inner) /\
    (forall e i v rv s cs t y s', xraised e i v rv s cs t y s' -> forall x, y = Some x -> exists t0 inner, t = t0 ++ XThrown x :: map (fun e => XLeft e x) (inner ++ [e])).
  Proof.
    apply xframe_raised_ind.
    - discriminate.
    - intros s x x' E. injection E as <-. exists [], []. reflexivity.
    - intros s o r s1 t y s2 _ _ IH x E. destruct (IH x E) as (t0 & inner & ->). exists (XOp o r :: t0), inner. reflexivity.
    - intros s e v rv cs t y s1 _ IH x E. destruct (IH x E) as (t0 & inner & ->). eauto.
    - intros s t1 s1 t2 y s2 _ _ _ IH x E. destruct (IH x E) as (t0 & inner & ->). exists (t1 ++ t0), inner. now rewrite <- app_assoc.
    - intros s t1 x1 s1 t2 y s2 _ _ _ IH x E. destruct (IH x E) as (t0 & inner & ->). exists (t1 ++ XCatch x1 :: t0), inner. now rewrite <- app_assoc.
    - discriminate.
    - intros e i v rv s l h r t1 s1 cs t2 y s2 _ _ _ _ _ _ IH x E. destruct (IH x E) as (t0 & inner & ->). exists (XCall e h (sfn r) v :: t1 ++ t0), inner. cbn [app]. now rewrite <- app_assoc.
    - intros e i v rv s l h r t1 x1 s1 _ _ _ _ IH x E. injection E as <-. destruct (IH x1 eq_refl) as (t0 & inner & ->). exists (XCall e h (sfn r) v :: t0), inner.
      cbn [app]. rewrite <- app_assoc. cbn [app]. now rewrite map_app.
  Qed.
  Lemma source e v rv s cs t x s' : xraised e 0 v rv s cs t (Some x) s' ->
    exists t0 inner, t = t0 ++ XThrown x :: map (fun e => XLeft e x) (inner ++ [e]).
  Proof. intros R. exact (proj2 source_all _ _ _ _ _ _ _ _ _ R x eq_refl). Qed.

  Lemma balance_all :
    (forall s t y s', xframe s t y s' -> length (throws V X t) = (length (catches V X t) + match y with Some _ => 1 | None => 0 end)%nat) /\
    (forall e i v rv s cs t y s', xraised e i v rv s cs t y s' -> length (throws V X t) = (length (catches V X t) + match y with Some _ => 1 | None => 0 end)%nat).
  Proof.
    apply xframe_raised_ind; intros; unfold throws, catches in *; cbn [filter] in *; rewrite ?filter_app, ?app_length; cbn [filter length] in *; try lia.
    all: try (rewrite ?filter_app, ?app_length in *; cbn [filter length] in *; lia).
  Qed.
  Lemma balance s t y s' : xframe s t y s' -> length (throws V X t) = (length (catches V X t) + match y with Some _ => 1 | None => 0 end)%nat.
  Proof. apply (proj1 balance_all). Qed.
End traces.
