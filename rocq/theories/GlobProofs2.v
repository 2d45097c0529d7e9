From Coq Require Import ZifyBool ZifyNat.
From Verif Require Import Base BaseFacts GlobModel GlobSpec GlobProofs.

Section throwing.
  Context (prog : bool -> nat -> list gev -> list act).
  Lemma exec_trans k w k1 w1 k2 w2 : exec prog k w k1 w1 -> exec prog k1 w1 k2 w2 -> exec prog k w k2 w2.
  Proof. induction 1; [auto|]. intros X. eapply E_step; eauto. Qed.
  Lemma fin_set_nil w : fin_set w [] = w.
  Proof.
    unfold fin_set. cbn [filter map]. rewrite app_nil_r. replace (filter (fun x => negb (mem x [])) (ini w)) with (ini w); [now destruct w|].
    symmetry. rewrite (filter_eq _ (fun _ => true)); [apply filter_all|reflexivity].
  Qed.
  Lemma fin_set_snoc w d s : ~ In s d ->
    fin_set w (d ++ [s]) = mkGW (reg w) (del s (ini (fin_set w d))) (gone w) (glog (fin_set w d) ++ (if mem s (ini w) then [EFin s] else [])) /\
    mem s (ini (fin_set w d)) = mem s (ini w).
  Proof.
    intros Nd. assert (mem s d = false) as Md by (destruct (mem s d) eqn:M; [apply mem_in in M; tauto|auto]). split.
    - unfold fin_set. cbn [ini glog]. f_equal.
      + unfold del. rewrite filter_filter. apply filter_eq. intros x _. rewrite mem_app. cbn. rewrite Bool.orb_false_r, Bool.negb_orb. f_equal. f_equal. apply Nat.eqb_sym.
      + rewrite filter_app, map_app. cbn [filter]. rewrite <- app_assoc. f_equal. f_equal. destruct (mem s (ini w)); reflexivity.
    - cbn [fin_set ini]. apply Bool.eq_true_iff_eq. rewrite !mem_in, filter_In, Md. cbn. tauto.
  Qed.
  Lemma nodup_mid (d r : list nat) s : NoDup (d ++ s :: r) -> ~ In s d.
  Proof. intros ND. apply NoDup_remove in ND. intros H. apply (proj2 ND). apply in_app_iff. now left. Qed.
  Lemma fin_set_skip w d s : mem s (ini w) = false -> ~ In s d -> fin_set w (d ++ [s]) = fin_set w d.
  Proof.
    intros M Nd. destruct (fin_set_snoc w d s Nd) as [E F]. rewrite E, M, app_nil_r. transitivity (mkGW (reg w) (ini (fin_set w d)) (gone w) (glog (fin_set w d))); [|reflexivity]. f_equal.
    unfold del. rewrite (filter_eq _ (fun _ => true)); [apply filter_all|]. intros x Ix. destruct (Nat.eqb_spec s x); [|reflexivity].
    subst x. apply mem_in in Ix. congruence.
  Qed.
  Lemma walk_part k w : NoDup (reg w) -> (forall s, In s (reg w) -> mem s (gone w) = false) -> forall r d rest, reg w = d ++ r ++ rest ->
    (forall s l, In s r -> mem s (ini w) = true -> prog false s l = []) ->
    exec prog (Walk (length d) :: k) (fin_set w d) (Walk (length d + length r) :: k) (fin_set w (d ++ r)).
  Proof.
    intros ND D. induction r as [|s r IH]; intros d rest E Q.
    - rewrite app_nil_r. cbn [length]. rewrite Nat.add_0_r. apply E_here.
    - specialize (IH (d ++ [s]) rest). rewrite <- !app_assoc in IH. specialize (IH E). rewrite app_length in IH. cbn [length app] in IH.
      assert (~ In s d) as Nd by (apply (nodup_mid d (r ++ rest)); rewrite E in ND; exact ND).
      destruct (fin_set_snoc w d s Nd) as [FS MI].
      eapply E_step; [|cbn [length]; replace (length d + S (length r))%nat with (length d + 1 + length r)%nat by lia; apply IH; intros; apply Q; [now right|auto]].
      cbn [gstep]. replace (nth_error (reg (fin_set w d)) (length d)) with (Some s).
      + replace (mem s (gone (fin_set w d))) with false.
        * unfold ensure_fin. rewrite MI. replace (length d + 1)%nat with (S (length d)) by lia. destruct (mem s (ini w)) eqn:E1.
          -- rewrite FS. rewrite Q by (auto; now left). reflexivity.
          -- rewrite (fin_set_skip w d s E1 Nd). reflexivity.
        * symmetry. apply D. rewrite E. apply in_app_iff. right. now left.
      + symmetry. cbn [fin_set reg]. rewrite E, nth_error_app2 by lia. now rewrite Nat.sub_diag.
  Qed.
  Lemma walk_end w d k : reg w = d -> exec prog (Walk (length d) :: k) w k w.
  Proof.
    intros <-. eapply E_step; [|apply E_here]. cbn [gstep].
    replace (nth_error (reg w) (length (reg w))) with (@None nat); [reflexivity|]. symmetry. apply nth_error_None. lia.
  Qed.
  Lemma throwing_finaliser t : one_throws prog t -> forall w d r, reach prog w -> (forall s, In s (reg w) -> mem s (gone w) = false) ->
    reg w = d ++ t :: r -> initialised w t ->
    exists k1 w1 w2, exec prog [FinalizeAll] w (Throw :: k1) w1 /\ gstep prog Throw k1 w1 = Thrown w1 /\
      glog w1 = glog w ++ map EFin (inits w (d ++ [t])) /\ (forall s, initialised w1 s <-> initialised w s /\ In s r) /\
      exec prog [FinalizeAll] w1 [] w2 /\ (forall s, ~ initialised w2 s) /\ glog w2 = glog w1 ++ map EFin (inits w r).
  Proof.
    intros Q w d r R D E It. pose proof (winv_reach prog w R) as I. pose proof (wi_reg w I) as ND.
    assert (~ In t d /\ ~ In t r) as [Nd Nr].
    { rewrite E in ND. split; [now apply (nodup_mid d r)|]. apply NoDup_remove in ND. intros H. apply (proj2 ND). apply in_app_iff. now right. }
    set (w1 := fin_set w (d ++ [t])). set (k1 := [Walk (S (length d))]).
    assert (X1 : exec prog [FinalizeAll] w (Throw :: k1) w1).
    { eapply E_step; [reflexivity|]. pose proof (walk_part [] w ND D d [] (t :: r) E) as WP. rewrite fin_set_nil in WP. eapply exec_trans.
      - apply WP. intros s l Hs _. rewrite Q. destruct (Nat.eqb_spec s t); [subst; contradiction|reflexivity].
      - cbn [length app]. rewrite Nat.add_0_l. eapply E_step; [|apply E_here]. cbn [gstep]. replace (nth_error (reg (fin_set w d)) (length d)) with (Some t).
        + replace (mem t (gone (fin_set w d))) with false by (symmetry; apply D; rewrite E; apply in_app_iff; right; now left).
          destruct (fin_set_snoc w d t Nd) as [FS MI]. unfold ensure_fin. rewrite MI. unfold initialised in It. rewrite It. rewrite Q, Nat.eqb_refl. unfold w1. rewrite FS, It. reflexivity.
        + symmetry. cbn [fin_set reg]. rewrite E, nth_error_app2 by lia. now rewrite Nat.sub_diag. }
    assert (S1 : gstep prog Throw k1 w1 = Thrown w1) by reflexivity.
    assert (R1 : reach prog w1) by (eapply R_thrown; eauto).
    pose proof (winv_reach prog w1 R1) as I1.
    assert (Hi : forall s, initialised w1 s <-> initialised w s /\ In s r).
    { intros s. unfold initialised, w1. cbn [fin_set ini]. rewrite mem_in, filter_In, <- mem_in. split; intros [A B]; (split; [exact A|]).
      - pose proof (wi_ini w I s A) as M. apply mem_in in M. rewrite E in M. apply in_app_iff in M.
        destruct (mem s (d ++ [t])) eqn:Ms; [discriminate|]. rewrite mem_app in Ms. apply Bool.orb_false_iff in Ms. destruct Ms as [M1 M2].
        destruct M as [M|[M|M]]; [apply mem_in in M; congruence| |exact M]. subst. cbn in M2. rewrite Nat.eqb_refl in M2. discriminate.
      - destruct (mem s (d ++ [t])) eqn:Ms; [|reflexivity]. apply mem_in in Ms. exfalso. rewrite E in ND.
        apply in_app_iff in Ms. destruct Ms as [Ms|[->|[]]]; [|contradiction].
        apply in_split in Ms. destruct Ms as (d1 & d2 & ->). rewrite <- app_assoc in ND. apply NoDup_remove in ND. apply (proj2 ND).
        rewrite !in_app_iff. right. right. now right. }
    assert (F1 : forall l, NoDup l -> (forall s, In s l -> In s (d ++ [t])) -> inits w1 l = []).
    { intros l _ H. unfold inits. transitivity (filter (fun _ : nat => false) l); [apply filter_eq; intros s Hs|clear; induction l; auto].
      destruct (mem s (ini w1)) eqn:M; [|reflexivity]. exfalso. apply (Hi s) in M. destruct M as [_ M]. apply H in Hs.
      rewrite E in ND. apply in_app_iff in Hs. destruct Hs as [Hs|[->|[]]]; [|contradiction].
      apply in_split in Hs. destruct Hs as (d1 & d2 & ->). rewrite <- app_assoc in ND. apply NoDup_remove in ND. apply (proj2 ND).
      rewrite !in_app_iff. right. right. now right. }
    exists k1, w1, (fin_set w1 (reg w1)). split; [exact X1|]. split; [exact S1|]. split; [reflexivity|]. split; [exact Hi|]. split; [|split].
    - eapply E_step; [reflexivity|]. pose proof (walk_part [] w1 (wi_reg w1 I1) D (reg w1) [] [] ltac:(now rewrite app_nil_r)) as WP.
      rewrite fin_set_nil in WP. eapply exec_trans.
      + apply WP. intros s l Hs M. rewrite Q. destruct (Nat.eqb_spec s t); [|reflexivity]. subst s. apply Hi in M. tauto.
      + cbn [length app]. rewrite Nat.add_0_l. apply walk_end. reflexivity.
    - intros s H. unfold initialised in H. cbn [fin_set ini] in H. apply mem_in in H. apply filter_In in H.
      destruct H as [H1 H2]. apply mem_in in H1. rewrite (wi_ini w1 I1 s H1) in H2. discriminate.
    - cbn [fin_set glog]. f_equal. f_equal. change (filter (fun s => mem s (ini w1)) (reg w1)) with (inits w1 (reg w1)).
      change (reg w1) with (reg w). rewrite E. change (d ++ t :: r) with (d ++ [t] ++ r). rewrite app_assoc. unfold inits at 1. rewrite filter_app.
      change (filter (fun s => mem s (ini w1)) (d ++ [t])) with (inits w1 (d ++ [t])). rewrite F1; [cbn [app]| |auto].
      + apply filter_eq. intros s Hs. apply Bool.eq_true_iff_eq. pose proof (Hi s) as H. unfold initialised in H. tauto.
      + rewrite E in ND. change (d ++ t :: r) with (d ++ [t] ++ r) in ND. rewrite app_assoc in ND. clear - ND.
        induction (d ++ [t]) as [|x l IH]; [constructor|]. cbn [app] in ND. inversion ND; subst. constructor; [|auto]. intros H. apply H1. apply in_app_iff. now left.
  Qed.

  (* exit *)
  Lemma exit_part k l : forall r d w, NoDup (reg w) -> reg w = l ++ r ++ d -> (forall x, In x d -> mem x (gone w) = true) ->
    (forall x, In x (l ++ r) -> mem x (gone w) = false) -> (forall s l, In s r -> prog false s l = []) ->
    exists w', exec prog (AtExit :: k) w (AtExit :: k) w' /\ reg w' = reg w /\ (forall s, mem s (ini w') = mem s (ini w) && negb (mem s r)) /\
      (forall x, In x (r ++ d) -> mem x (gone w') = true) /\ (forall x, In x l -> mem x (gone w') = false) /\
      glog w' = glog w ++ map EFin (inits w (rev r)).
  Proof.
    induction r as [|s r IH] using rev_ind; intros d w I E G1 G2 Q.
    - exists w. split; [apply E_here|]. split; [reflexivity|]. split; [intros s; now rewrite Bool.andb_true_r|]. split; [exact G1|]. split; [intros x Hx; apply G2; now rewrite app_nil_r|].
      cbn. now rewrite app_nil_r.
    - rewrite <- app_assoc in E. cbn [app] in E.
      assert (mem s (gone w) = false) as Gs by (apply G2; rewrite !in_app_iff; right; right; now left).
      assert (last_alive (reg w) (gone w) = Some s) as La.
      { rewrite E. change (l ++ r ++ s :: d) with (l ++ r ++ [s] ++ d). rewrite !app_assoc, last_alive_gone by auto. now apply last_alive_app. }
      assert (~ In s (l ++ r)) as Ns by (apply (nodup_mid (l ++ r) d); rewrite E, app_assoc in I; exact I).
      set (w1 := if mem s (ini w) then mkGW (reg w) (del s (ini w)) (gone w) (glog w ++ [EFin s]) else w).
      assert (gstep prog AtExit k w = Next (Gone s :: AtExit :: k) w1) as S1.
      { cbn [gstep]. rewrite La. unfold ensure_fin, w1. destruct (mem s (ini w)); [rewrite Q by (apply in_app_iff; right; now left)|]; reflexivity. }
      set (w2 := mkGW (reg w1) (ini w1) (s :: gone w1) (glog w1)).
      assert (gstep prog (Gone s) (AtExit :: k) w1 = Next (AtExit :: k) w2) as S2 by reflexivity.
      assert (reg w1 = reg w /\ gone w1 = gone w) as [R1 R2] by (unfold w1; destruct (mem s (ini w)); auto).
      destruct (IH (s :: d) w2) as (w' & X1 & X2 & X3 & X4 & X5 & X6).
      + cbn [w2 reg]. now rewrite R1.
      + cbn [w2 reg]. now rewrite R1, E.
      + intros x [->|H]; cbn [w2 gone]; rewrite mem_cons, ?R2, ?(G1 _ H); [rewrite Nat.eqb_refl; reflexivity|apply Bool.orb_true_r].
      + intros x H. cbn [w2 gone]. rewrite mem_cons, R2, G2 by (rewrite in_app_iff in *; rewrite in_app_iff; tauto). rewrite Bool.orb_false_r. apply Nat.eqb_neq. intros ->. auto.
      + intros x m Hx. apply Q. apply in_app_iff. now left.
      + exists w'. split; [eapply E_step; [exact S1|]; eapply E_step; [exact S2|exact X1]|]. split; [cbn [w2 reg] in X2; congruence|]. split; [|split; [|split; [exact X5|]]].
        * intros x. rewrite X3, mem_app. cbn [w2 ini]. cbn [mem existsb]. rewrite Bool.orb_false_r, Bool.negb_orb. unfold w1.
          destruct (mem s (ini w)) eqn:Es; cbn [ini].
          -- rewrite mem_del, (Nat.eqb_sym x s). destruct (mem x (ini w)), (mem x r), (Nat.eqb s x); reflexivity.
          -- destruct (Nat.eqb_spec x s); [subst; now rewrite Es|]. cbn [negb]. now rewrite Bool.andb_true_r.
        * intros x Hx. apply X4. rewrite <- app_assoc in Hx. exact Hx.
        * rewrite X6. cbn [w2 glog]. unfold inits. rewrite rev_app_distr. cbn [rev app filter]. cbn [w2 ini].
          assert (filter (fun s0 => mem s0 (ini w1)) (rev r) = filter (fun s0 => mem s0 (ini w)) (rev r)) as F.
          { apply filter_eq. intros x Hx. unfold w1. destruct (mem s (ini w)); [|reflexivity]. cbn [ini]. rewrite mem_del.
            destruct (Nat.eqb_spec s x); [subst; apply in_rev in Hx; exfalso; apply Ns; apply in_app_iff; now right|now rewrite Bool.andb_true_r]. }
          rewrite F. unfold w1. destruct (mem s (ini w)); cbn [map glog]; [now rewrite <- app_assoc|reflexivity].
  Qed.
  Lemma throwing_at_exit t : one_throws prog t -> forall w l r, reach prog w -> gone w = [] -> reg w = l ++ t :: r -> initialised w t ->
    exists k1 w1, exec prog [AtExit] w (Throw :: k1) w1 /\ gstep prog Throw k1 w1 = Bad Err /\
      glog w1 = glog w ++ map EFin (inits w (rev r ++ [t])) /\ (forall s, In s l -> initialised w s -> initialised w1 s).
  Proof.
    intros Q w l r R G E It. pose proof (winv_reach prog w R) as I. pose proof (wi_reg w I) as ND.
    assert (~ In t l /\ ~ In t r) as [Nd Nr].
    { rewrite E in ND. split; [now apply (nodup_mid l r)|]. apply NoDup_remove in ND. intros H. apply (proj2 ND). apply in_app_iff. now right. }
    destruct (exit_part [] (l ++ [t]) r [] w) as (w' & X1 & X2 & X3 & X4 & X5 & X6).
    - exact ND.
    - now rewrite app_nil_r, <- app_assoc.
    - intros x [].
    - now rewrite G.
    - intros s m Hs. rewrite Q. destruct (Nat.eqb_spec s t); [subst; contradiction|reflexivity].
    - assert (Mt : mem t (ini w') = true).
      { rewrite X3. unfold initialised in It. rewrite It. destruct (mem t r) eqn:M; [apply mem_in in M; contradiction|reflexivity]. }
      exists [Gone t; AtExit], (mkGW (reg w') (del t (ini w')) (gone w') (glog w' ++ [EFin t])). split; [|split; [reflexivity|split]].
      + eapply exec_trans; [exact X1|]. eapply E_step; [|apply E_here]. cbn [gstep].
        replace (last_alive (reg w') (gone w')) with (Some t).
        * unfold ensure_fin. rewrite Mt. rewrite Q, Nat.eqb_refl. reflexivity.
        * symmetry. rewrite X2, E. change (l ++ t :: r) with (l ++ [t] ++ r). rewrite app_assoc, last_alive_gone.
          -- apply last_alive_app. apply X5. apply in_app_iff. right. now left.
          -- intros x Hx. apply X4. now rewrite app_nil_r.
      + cbn [glog]. rewrite X6. unfold inits. rewrite filter_app, map_app. cbn [filter]. unfold initialised in It. rewrite It. now rewrite <- app_assoc.
      + intros s Hs Is. unfold initialised. cbn [ini]. rewrite mem_del, X3. unfold initialised in Is. rewrite Is.
        assert (t <> s) as Nts by (intros ->; contradiction). destruct (Nat.eqb_spec t s); [contradiction|].
        destruct (mem s r) eqn:M; [|reflexivity]. exfalso. apply mem_in in M. rewrite E in ND. apply in_split in Hs. destruct Hs as (d1 & d2 & ->).
        rewrite <- app_assoc in ND. apply NoDup_remove in ND. apply (proj2 ND). rewrite !in_app_iff. right. right. now right.
  Qed.
  Lemma throwing_initialiser s w : reach prog w -> mem s (gone w) = false -> ~ initialised w s -> prog true s (glog w ++ [EInit s]) = [Throw] ->
    exists w1, exec prog [Get s] w [Throw] w1 /\ gstep prog Throw [] w1 = Thrown w1 /\ initialised w1 s /\ glog w1 = glog w ++ [EInit s] /\
      forall k, gstep prog (Get s) k w1 = Next k w1.
  Proof.
    intros R G Ns P. exists (mkGW (reg (construct s w)) (s :: ini w) (gone w) (glog w ++ [EInit s])).
    assert (ini (construct s w) = ini w /\ gone (construct s w) = gone w /\ glog (construct s w) = glog w /\ mem s (reg (construct s w)) = true) as (E1 & E2 & E3 & E4).
    { unfold construct. destruct (mem s (reg w)) eqn:M; cbn [reg ini gone glog]; repeat split; auto. rewrite mem_app. cbn. now rewrite Nat.eqb_refl, Bool.orb_true_r. }
    split; [|split; [reflexivity|split; [|split; [reflexivity|]]]].
    - eapply E_step; [|apply E_here]. cbn [gstep]. rewrite G. unfold ensure_init. rewrite E1, E2, E3. unfold initialised in Ns. destruct (mem s (ini w)); [congruence|].
      cbn [glog]. rewrite P. reflexivity.
    - unfold initialised. cbn [ini]. rewrite mem_cons, Nat.eqb_refl. reflexivity.
    - intros k. cbn [gstep gone]. rewrite G. set (w1 := mkGW _ _ _ _). assert (construct s w1 = w1) as -> by (unfold construct; cbn [w1 reg]; now rewrite E4).
      unfold ensure_init. cbn [w1 ini]. rewrite mem_cons, Nat.eqb_refl. reflexivity.
  Qed.
End throwing.

Definition prog_bad (t : nat) (b : bool) (s : nat) (l : list gev) : list act := if b then [] else if Nat.eqb s t then [Throw] else [].
Lemma bad_case : exists w, one_throws (prog_bad 1) 1 /\ reach (prog_bad 1) w /\ gone w = [] /\ reg w = [0; 1; 2]%nat /\
  (forall s, In s (reg w) -> initialised w s).
Proof.
  exists (mkGW [0; 1; 2]%nat [2; 1; 0]%nat [] [EInit 0; EInit 1; EInit 2]). split; [intros s l; reflexivity|]. split.
  - eapply (reach_run _ 5 (Get 2)); [eapply (reach_run _ 5 (Get 1)); [eapply (reach_run _ 5 (Get 0)); [apply R_start|reflexivity]|reflexivity]|reflexivity].
  - split; [reflexivity|]. split; [reflexivity|]. intros s [<-|[<-|[<-|[]]]]; reflexivity.
Qed.
