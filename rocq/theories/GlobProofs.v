From Coq Require Import ZifyBool ZifyNat Permutation.
From Verif Require Import Base BaseFacts GlobModel GlobSpec.

Lemma mem_in s l : mem s l = true <-> In s l.
Proof.
  unfold mem. rewrite existsb_exists. split.
  - intros (x & I & E). apply Nat.eqb_eq in E. now subst.
  - intros I. exists s. split; [auto|apply Nat.eqb_refl].
Qed.
Lemma mem_del s x l : mem s (del x l) = mem s l && negb (Nat.eqb x s).
Proof.
  apply Bool.eq_true_iff_eq. rewrite mem_in. unfold del. rewrite filter_In, Bool.andb_true_iff, mem_in. reflexivity.
Qed.
Lemma mem_cons s x l : mem s (x :: l) = Nat.eqb s x || mem s l.
Proof. reflexivity. Qed.
Lemma mem_app s a b : mem s (a ++ b) = mem s a || mem s b.
Proof. unfold mem. apply existsb_app. Qed.
Section proofs.
  Context (prog : bool -> nat -> list gev -> list act).

  (* ---- alternation ---- *)
  Lemma alternate_snoc l : forall b x, alternate b (l ++ [x]) <-> alternate b l /\ x = (if Nat.even (length l) then b else negb b).
  Proof.
    induction l as [|y l IH]; intros b x; cbn [app alternate length].
    - cbn. tauto.
    - rewrite IH. rewrite Nat.even_succ, <- Nat.negb_even, Bool.negb_involutive. destruct (Nat.even (length l)); cbn [negb]; tauto.
  Qed.
  Record winv (w : gw) : Prop := mkWinv {
    wi_alt : forall s, alternate true (runs s (glog w)) /\ mem s (ini w) = negb (Nat.even (length (runs s (glog w))));
    wi_reg : NoDup (reg w);
    wi_ini : forall s, mem s (ini w) = true -> mem s (reg w) = true;
    wi_log : forall e, In e (glog w) -> mem (match e with EInit s | EFin s => s end) (reg w) = true }.
  Lemma runs_app s a b : runs s (a ++ b) = runs s a ++ runs s b.
  Proof. unfold runs. now rewrite filter_app, map_app. Qed.
  Lemma winv0 : winv gw0.
  Proof. constructor; cbn [gw0 reg ini glog]; [intros s; split; [exact I|reflexivity]|constructor|discriminate|intros e []]. Qed.
  Lemma winv_construct s w : winv w -> winv (construct s w) /\ mem s (reg (construct s w)) = true.
  Proof.
    intros I. unfold construct. destruct (mem s (reg w)) eqn:E; [auto|]. destruct I as [A R N G]. split.
    - constructor; cbn [reg ini glog]; [exact A| | |].
      + apply (Permutation_NoDup (Permutation_app_comm [s] (reg w))). cbn [app]. constructor; [|exact R].
        intros H. apply mem_in in H. congruence.
      + intros x H. rewrite mem_app, (N _ H). reflexivity.
      + intros e H. rewrite mem_app, (G _ H). reflexivity.
    - cbn [reg]. rewrite mem_app. cbn. rewrite Nat.eqb_refl. now rewrite Bool.orb_true_r.
  Qed.
  Lemma winv_event w s (b : bool) : winv w -> mem s (reg w) = true -> mem s (ini w) = negb b ->
    winv (mkGW (reg w) (if b then s :: ini w else del s (ini w)) (gone w) (glog w ++ [if b then EInit s else EFin s])).
  Proof.
    intros [A R N G] M E. constructor; cbn [reg ini glog]; [|exact R| |].
    - intros x. destruct (A x) as [A1 A2]. rewrite runs_app. unfold runs at 2 4. cbn [filter].
      replace (ev_of x (if b then EInit s else EFin s)) with (Nat.eqb x s) by now destruct b.
      destruct (Nat.eqb_spec x s).
      + subst x. cbn [map]. replace (is_init (if b then EInit s else EFin s)) with b by now destruct b. rewrite alternate_snoc, app_length. cbn [length].
        rewrite Nat.add_1_r, Nat.even_succ, <- Nat.negb_even. rewrite E in A2. destruct (Nat.even (length (runs s (glog w)))); destruct b; cbn in A2; try discriminate.
        * split; [auto|]. rewrite mem_cons, Nat.eqb_refl. reflexivity.
        * split; [auto|]. rewrite mem_del, Nat.eqb_refl. apply Bool.andb_false_r.
      + cbn [map]. rewrite !app_nil_r. split; [exact A1|]. rewrite <- A2. destruct b.
        * rewrite mem_cons. replace (Nat.eqb x s) with false; [reflexivity|]. symmetry. now apply Nat.eqb_neq.
        * rewrite mem_del. replace (Nat.eqb s x) with false; [now rewrite Bool.andb_true_r|]. symmetry. apply Nat.eqb_neq. auto.
    - intros x H. destruct b.
      + rewrite mem_cons in H. destruct (Nat.eqb_spec x s); [now subst|]. now apply N.
      + rewrite mem_del in H. apply andb_prop in H. now apply N.
    - intros e H. apply in_app_iff in H. destruct H as [H|[H|[]]]; [now apply G|]. subst e. destruct b; exact M.
  Qed.
  Lemma nth_mem w i s : nth_error (reg w) i = Some s -> mem s (reg w) = true.
  Proof. intros H. apply mem_in. eapply nth_error_In. exact H. Qed.
  Lemma last_alive_in l g s : last_alive l g = Some s -> In s l /\ mem s g = false.
  Proof.
    induction l as [|x l IH]; cbn [last_alive]; [discriminate|]. destruct (last_alive l g).
    - intros H. destruct (IH H). split; [right|]; auto.
    - destruct (mem x g) eqn:E; [discriminate|]. intros H. inversion H; subst. split; [left|]; auto.
  Qed.
  Lemma winv_fin s k w k1 w1 : winv w -> mem s (reg w) = true -> ensure_fin prog s k w = Next k1 w1 -> winv w1.
  Proof.
    intros I M. unfold ensure_fin. destruct (mem s (ini w)) eqn:E; intros H; inversion H; subst; [|auto].
    exact (winv_event w s false I M E).
  Qed.
  Lemma winv_step a k w k1 w1 : winv w -> gstep prog a k w = Next k1 w1 -> winv w1.
  Proof.
    intros I. destruct a; cbn [gstep].
    - destruct (mem s (gone w)); [discriminate|]. destruct (winv_construct s w I) as [J M]. unfold ensure_init.
      destruct (mem s (ini (construct s w))) eqn:E; intros H; inversion H; subst; [auto|].
      exact (winv_event (construct s w) s true J M E).
    - intros H; inversion H; now subst.
    - destruct (in_exit k); discriminate.
    - destruct (last_alive (reg w) (gone w)) eqn:E; [|intros H; inversion H; now subst].
      apply winv_fin; [auto|]. apply mem_in. now apply last_alive_in in E.
    - destruct (nth_error (reg w) i) eqn:E; [|intros H; inversion H; now subst].
      destruct (mem n (gone w)); [discriminate|]. apply winv_fin; [auto|]. eapply nth_mem; eauto.
    - intros H; inversion H; subst. destruct I as [A R N G]. now constructor.
  Qed.
  Lemma winv_exec k w k' w' : exec prog k w k' w' -> winv w -> winv w'.
  Proof. induction 1; [auto|]. intros I. apply IHexec. eapply winv_step; eauto. Qed.
  Lemma thrown_same a k w w' : gstep prog a k w = Thrown w' -> w' = w.
  Proof.
    destruct a; cbn [gstep]; unfold ensure_init, ensure_fin;
      repeat match goal with |- context [match ?x with _ => _ end] => destruct x end; intros H; inversion H; auto.
  Qed.
  Lemma winv_reach w : reach prog w -> winv w.
  Proof.
    induction 1.
    - apply winv0.
    - eapply winv_exec; eauto.
    - apply thrown_same in H1. subst. eapply winv_exec; eauto.
  Qed.
  Lemma alternation w s : reach prog w -> alternate true (runs s (glog w)) /\
    (initialised w s <-> last (runs s (glog w)) false = true).
  Proof.
    intros R. destruct (winv_reach w R) as [A _ _ _]. destruct (A s) as [A1 A2]. split; [exact A1|]. unfold initialised. rewrite A2.
    clear A2. revert A1. generalize (runs s (glog w)) as l. intros l. induction l as [|x l IH] using rev_ind; intros A1.
    - cbn. split; discriminate.
    - rewrite last_last, app_length, Nat.add_1_r, Nat.even_succ, <- Nat.negb_even, Bool.negb_involutive.
      apply alternate_snoc in A1. destruct A1 as [_ ->]. destruct (Nat.even (length l)); cbn; split; auto; discriminate.
  Qed.

  (* ---- FinalizeGlobalStorage with quiet finalisers ---- *)
  Definition fin_set (w : gw) (l : list nat) : gw :=
    mkGW (reg w) (filter (fun x => negb (mem x l)) (ini w)) (gone w) (glog w ++ map EFin (filter (fun s => mem s (ini w)) l)).
  Lemma filter_filter {A} (f g : A -> bool) l : filter f (filter g l) = filter (fun x => g x && f x) l.
  Proof. induction l as [|x l IH]; [reflexivity|]. cbn [filter]. destruct (g x) eqn:E; cbn [filter andb]; rewrite IH; reflexivity. Qed.
  Lemma filter_eq {A} (f g : A -> bool) l : (forall x, In x l -> f x = g x) -> filter f l = filter g l.
  Proof.
    induction l as [|x l IH]; intros H; [reflexivity|]. cbn [filter]. rewrite (H x) by (left; auto). rewrite IH; [reflexivity|].
    intros y I. apply H. now right.
  Qed.
  Lemma filter_all {A} (l : list A) : filter (fun _ => true) l = l.
  Proof. induction l as [|x l IH]; [reflexivity|]. cbn. now rewrite IH. Qed.
  Lemma walk_quiet (Q : quiet_finalisers prog) k w : winv w -> (forall s, In s (reg w) -> mem s (gone w) = false) ->
    exec prog (FinalizeAll :: k) w k (fin_set w (reg w)).
  Proof.
    intros I D. eapply E_step; [reflexivity|].
    assert (forall r d, reg w = d ++ r -> exec prog (Walk (length d) :: k) (fin_set w d) k (fin_set w (reg w))) as G.
    { induction r as [|s r IH]; intros d E.
      - rewrite app_nil_r in E. subst d. eapply E_step; [|apply E_here]. cbn [gstep fin_set reg]. replace (nth_error (reg w) (length (reg w))) with (@None nat); [reflexivity|]. symmetry. apply nth_error_None. lia.
      - specialize (IH (d ++ [s])). rewrite <- app_assoc in IH. specialize (IH E).
        rewrite app_length, Nat.add_1_r in IH.
        assert (~ In s d) as Nd.
        { pose proof (wi_reg w I) as ND. rewrite E in ND. apply NoDup_remove in ND. intros H. apply (proj2 ND). apply in_app_iff. now left. }
        assert (mem s d = false) as Md by (destruct (mem s d) eqn:M; [apply mem_in in M; tauto|auto]).
        assert (fin_set w (d ++ [s]) = mkGW (reg w) (del s (ini (fin_set w d))) (gone w) (glog (fin_set w d) ++ (if mem s (ini w) then [EFin s] else []))) as FS.
        { unfold fin_set. cbn [ini glog]. f_equal.
          - unfold del. rewrite filter_filter. apply filter_eq. intros x _. rewrite mem_app. cbn. rewrite Bool.orb_false_r, Bool.negb_orb. f_equal. f_equal. apply Nat.eqb_sym.
          - rewrite filter_app, map_app. cbn [filter]. rewrite <- app_assoc. f_equal. f_equal. destruct (mem s (ini w)); reflexivity. }
        assert (mem s (ini (fin_set w d)) = mem s (ini w)) as MI.
        { cbn [fin_set ini]. apply Bool.eq_true_iff_eq. rewrite !mem_in, filter_In, Md. cbn. tauto. }
        eapply E_step; [|exact IH]. cbn [gstep]. replace (nth_error (reg (fin_set w d)) (length d)) with (Some s).
        + replace (mem s (gone (fin_set w d))) with false.
          * unfold ensure_fin. rewrite MI, FS. destruct (mem s (ini w)) eqn:E1.
            -- rewrite Q. reflexivity.
            -- rewrite app_nil_r. f_equal. unfold fin_set. cbn [glog ini]. f_equal.
               unfold del. rewrite filter_filter. apply filter_eq. intros x Ix. destruct (Nat.eqb_spec s x); [|now rewrite Bool.andb_true_r].
               subst x. apply mem_in in Ix. congruence.
          * symmetry. apply D. rewrite E. apply in_app_iff. right. now left.
        + symmetry. cbn [fin_set reg]. rewrite E, nth_error_app2 by lia. now rewrite Nat.sub_diag. }
    specialize (G (reg w) [] eq_refl). cbn [length] in G. replace (fin_set w []) with w in G; [exact G|].
    unfold fin_set. cbn [filter map]. rewrite app_nil_r. replace (filter (fun x => negb (mem x [])) (ini w)) with (ini w); [now destruct w|].
    symmetry. rewrite (filter_eq _ (fun _ => true)); [apply filter_all|reflexivity].
  Qed.
  Lemma finalize_quiet (Q : quiet_finalisers prog) k w : reach prog w -> (forall s, In s (reg w) -> mem s (gone w) = false) ->
    exists w', exec prog (FinalizeAll :: k) w k w' /\ reg w' = reg w /\ gone w' = gone w /\ (forall s, ~ initialised w' s) /\
    glog w' = glog w ++ map EFin (filter (fun s => mem s (ini w)) (reg w)).
  Proof.
    intros R D. pose proof (winv_reach w R) as I. exists (fin_set w (reg w)). split; [apply walk_quiet; auto|].
    split; [reflexivity|]. split; [reflexivity|]. split; [|reflexivity]. intros s H. unfold initialised in H. cbn [fin_set ini] in H. apply mem_in in H. apply filter_In in H.
    destruct H as [H1 H2]. apply mem_in in H1. rewrite (wi_ini w I s H1) in H2. discriminate.
  Qed.
  Lemma finalize_twice (Q : quiet_finalisers prog) k w : reach prog w -> (forall s, In s (reg w) -> mem s (gone w) = false) -> (forall s, ~ initialised w s) ->
    exec prog (FinalizeAll :: k) w k w.
  Proof.
    intros R D U. pose proof (walk_quiet Q k w (winv_reach w R) D) as E. replace (fin_set w (reg w)) with w in E; [exact E|].
    assert (ini w = []) as Z.
    { destruct (ini w) as [|s r] eqn:Ei; [reflexivity|]. exfalso. apply (U s). unfold initialised. rewrite Ei. cbn. now rewrite Nat.eqb_refl. }
    destruct w as [r i g l]. cbn [ini] in Z. subst i. unfold fin_set. cbn [ini reg gone glog filter]. f_equal.
    rewrite (filter_eq _ (fun _ => false)) by reflexivity. replace (filter (fun _ : nat => false) r) with (@nil nat); [now rewrite app_nil_r|].
    clear. induction r; auto.
  Qed.

  (* ---- FinalizeGlobalStorage when finalisers use storages that are registered later ---- *)
  Section later.
    Context (dep : nat -> nat -> Prop) (P : deps prog dep).
    Definition late (w : gw) (i : nat) (v : nat) : Prop := forall u, u = v \/ dep v u -> exists j, (i <= j)%nat /\ nth_error (reg w) j = Some u.
    Definition walking (r : list nat) (k : list act) (w : gw) : Prop := reg w = r /\ winv w /\
      exists acts i, k = acts ++ [Walk i] /\ (forall j s, (j < i)%nat -> nth_error r j = Some s -> mem s (ini w) = false) /\
        Forall (fun a => a = Throw \/ exists v, a = Get v /\ late w i v) acts.
    Lemma nth_inj (r : list nat) i j s : NoDup r -> nth_error r i = Some s -> nth_error r j = Some s -> i = j.
    Proof. intros N A B. rewrite NoDup_nth_error in N. apply N; [eapply nth_error_lt; eauto|congruence]. Qed.
    Lemma walking_step r (U : forall i s v, nth_error r i = Some s -> dep s v -> exists j, (i < j)%nat /\ nth_error r j = Some v)
      a k w k1 w1 : walking r (a :: k) w -> gstep prog a k w = Next k1 w1 ->
      walking r k1 w1 \/ (k1 = [] /\ forall s, mem s (ini w1) = false).
    Proof.
      intros (E & I & acts & i & K & F & L) S. pose proof (winv_step _ _ _ _ _ I S) as I1. destruct acts as [|x acts]; cbn [app] in K; inversion K; subst; clear K.
      - cbn [gstep] in S. destruct (nth_error (reg w) i) as [s|] eqn:Es.
        + destruct (mem s (gone w)); [discriminate|]. unfold ensure_fin in S. left. destruct (mem s (ini w)) eqn:Ei; inversion S; subst; clear S.
          * split; [reflexivity|]. split; [exact I1|]. exists (prog false s (glog w ++ [EFin s])), (Datatypes.S i). split; [reflexivity|]. split.
            -- intros j t Lj Nt. cbn [ini]. rewrite mem_del. destruct (Nat.eq_dec j i).
               ++ subst j. assert (t = s) by congruence. subst t. rewrite Nat.eqb_refl. apply Bool.andb_false_r.
               ++ rewrite (F j t) by (auto; lia). reflexivity.
            -- apply Forall_forall. intros a Ha. apply (dp_prog _ _ P) in Ha. destruct Ha as [Ha|(v & -> & Dv)]; [auto|right].
               exists v. split; [reflexivity|]. intros u [->|Du].
               ++ destruct (U i s v Es Dv) as (j & Lj & Nj). exists j. split; [lia|exact Nj].
               ++ destruct (U i s u Es) as (j & Lj & Nj); [eapply (dp_trans _ _ P); eauto|]. exists j. split; [lia|exact Nj].
          * split; [reflexivity|]. split; [exact I1|]. exists [], (Datatypes.S i). split; [reflexivity|]. split; [|constructor].
            intros j t Lj Nt. destruct (Nat.eq_dec j i); [subst j; assert (t = s) by congruence; now subst t|]. apply (F j t); [lia|auto].
        + inversion S; subst; clear S. right. split; [reflexivity|]. intros s. destruct (mem s (ini w1)) eqn:M; [|reflexivity]. exfalso.
          pose proof (wi_ini _ I s M) as R. apply mem_in in R. apply In_nth_error in R. destruct R as [j R].
          rewrite (F j s) in M; [discriminate| |exact R]. apply nth_error_None in Es. apply nth_error_lt in R. lia.
      - apply Forall_inv in L as Lh. apply Forall_inv_tail in L. destruct Lh as [->|(v & -> & Lv)].
        { cbn [gstep] in S. destruct (in_exit _); discriminate. }
        cbn [gstep] in S. destruct (mem v (gone w)); [discriminate|].
        assert (construct v w = w) as C.
        { destruct (Lv v (or_introl eq_refl)) as (j & _ & Nj). unfold construct. now rewrite (nth_mem _ _ _ Nj). }
        rewrite C in S. unfold ensure_init in S. left. destruct (mem v (ini w)) eqn:Ev; inversion S; subst; clear S.
        + split; [reflexivity|]. split; [exact I1|]. exists acts, i. auto.
        + split; [reflexivity|]. split; [exact I1|]. exists (prog true v (glog w ++ [EInit v]) ++ acts), i. cbn [glog]. split; [now rewrite app_assoc|]. split.
          * intros j s Lj Ns. cbn [ini]. rewrite mem_cons, (F j s Lj Ns), Bool.orb_false_r. apply Nat.eqb_neq. intros ->.
            destruct (Lv v (or_introl eq_refl)) as (j' & Lj' & Nj'). pose proof (nth_inj _ _ _ _ (wi_reg _ I) Ns Nj'). lia.
          * apply Forall_app. split; [|exact L]. apply Forall_forall. intros a Ha. apply (dp_prog _ _ P) in Ha. destruct Ha as [Ha|(x & -> & Dx)]; [auto|right].
            exists x. split; [reflexivity|]. intros u [->|Du]; cbn [reg]; apply Lv; right; [auto|]. eapply (dp_trans _ _ P); eauto.
    Qed.
    Lemma walking_exec r (U : forall i s v, nth_error r i = Some s -> dep s v -> exists j, (i < j)%nat /\ nth_error r j = Some v)
      k w k' w' : exec prog k w k' w' -> walking r k w \/ (k = [] /\ forall s, mem s (ini w) = false) ->
      walking r k' w' \/ (k' = [] /\ forall s, mem s (ini w') = false).
    Proof.
      induction 1; [auto|]. intros [W|[W _]]; [|discriminate]. apply IHexec. eapply walking_step; eauto.
    Qed.
    Lemma finalize_later w w' : reach prog w -> uses_later dep w -> exec prog [FinalizeAll] w [] w' -> forall s, ~ initialised w' s.
    Proof.
      intros R U E s H. inversion E as [|a k w0 k1 w1 k2 w2 S X]; subst. cbn [gstep] in S. inversion S; subst.
      destruct (walking_exec (reg w1) U _ _ _ _ X) as [(_ & _ & acts & i & K & _)|[_ F]].
      - left. split; [reflexivity|]. split; [now apply winv_reach|]. exists [], 0%nat. split; [reflexivity|]. split; [intros; lia|constructor].
      - destruct acts; discriminate.
      - unfold initialised in H. rewrite F in H. discriminate.
    Qed.
  End later.
  (* ---- exit with quiet finalisers: reverse order of construction ---- *)
  Lemma last_alive_app l s g : mem s g = false -> last_alive (l ++ [s]) g = Some s.
  Proof. intros H. induction l as [|x l IH]; cbn [app last_alive]; [now rewrite H|now rewrite IH]. Qed.
  Lemma last_alive_gone l d g : (forall x, In x d -> mem x g = true) -> last_alive (l ++ d) g = last_alive l g.
  Proof.
    intros H. induction l as [|x l IH]; cbn [app last_alive].
    - induction d as [|y d IHd]; [reflexivity|]. cbn [last_alive]. rewrite IHd by (intros; apply H; now right). cbn [last_alive]. now rewrite (H y) by now left.
    - now rewrite IH.
  Qed.
  Definition exit_log (w : gw) (l : list nat) : list gev := map EFin (filter (fun s => mem s (ini w)) (rev l)).
  Lemma exit_quiet (Q : quiet_finalisers prog) k : forall l d w, winv w -> reg w = l ++ d -> (forall x, In x d -> mem x (gone w) = true) ->
    (forall x, In x l -> mem x (gone w) = false) ->
    exists w', exec prog (AtExit :: k) w k w' /\ reg w' = reg w /\ (forall s, mem s (ini w') = mem s (ini w) && negb (mem s l)) /\ (forall s, In s (reg w') -> mem s (gone w') = true) /\
      glog w' = glog w ++ exit_log w l.
  Proof.
    induction l as [|s l IH] using rev_ind; intros d w I E G1 G2.
    - exists w. split; [|split; [reflexivity|split; [intros s; now rewrite Bool.andb_true_r|split; [now rewrite E|unfold exit_log; cbn; now rewrite app_nil_r]]]].
      eapply E_step; [|apply E_here]. cbn [gstep]. rewrite E, last_alive_gone by auto. reflexivity.
    - assert (mem s (gone w) = false) as Gs by (apply G2; apply in_app_iff; right; now left).
      assert (last_alive (reg w) (gone w) = Some s) as La by (rewrite E, last_alive_gone by auto; now apply last_alive_app).
      assert (mem s (reg w) = true) as Mr by (rewrite E, !mem_app; cbn; now rewrite Nat.eqb_refl, Bool.orb_true_r).
      assert (~ In s l) as Ns.
      { pose proof (wi_reg w I) as ND. rewrite E, <- app_assoc in ND. apply NoDup_remove in ND. intros H. apply (proj2 ND). apply in_app_iff. now left. }
      set (w1 := if mem s (ini w) then mkGW (reg w) (del s (ini w)) (gone w) (glog w ++ [EFin s]) else w).
      assert (gstep prog AtExit k w = Next (Gone s :: AtExit :: k) w1) as S1.
      { cbn [gstep]. rewrite La. unfold ensure_fin, w1. destruct (mem s (ini w)); [rewrite Q|]; reflexivity. }
      pose proof (winv_step _ _ _ _ _ I S1) as I1.
      set (w2 := mkGW (reg w1) (ini w1) (s :: gone w1) (glog w1)).
      assert (gstep prog (Gone s) (AtExit :: k) w1 = Next (AtExit :: k) w2) as S2 by reflexivity.
      pose proof (winv_step _ _ _ _ _ I1 S2) as I2.
      assert (reg w1 = reg w /\ gone w1 = gone w) as [R1 R2] by (unfold w1; destruct (mem s (ini w)); auto).
      destruct (IH (s :: d) w2 I2) as (w' & X1 & X2 & X3 & X4 & X5).
      + cbn [w2 reg]. rewrite R1, E, <- app_assoc. reflexivity.
      + intros x [->|H]; cbn [w2 gone]; rewrite mem_cons, ?R2, ?(G1 _ H); [rewrite Nat.eqb_refl; reflexivity|apply Bool.orb_true_r].
      + intros x H. cbn [w2 gone]. rewrite mem_cons, R2, G2 by (apply in_app_iff; auto). rewrite Bool.orb_false_r. apply Nat.eqb_neq. intros ->. auto.
      + exists w'. split; [eapply E_step; [exact S1|]; eapply E_step; [exact S2|exact X1]|]. split; [cbn [w2 reg] in X2; congruence|]. split; [|split; [exact X4|]].
        * intros x. rewrite X3, mem_app. cbn [w2 ini]. cbn [mem existsb]. rewrite Bool.orb_false_r, Bool.negb_orb. unfold w1.
          destruct (mem s (ini w)) eqn:Es; cbn [ini].
          -- rewrite mem_del, (Nat.eqb_sym x s). destruct (mem x (ini w)), (mem x l), (Nat.eqb s x); reflexivity.
          -- destruct (Nat.eqb_spec x s); [subst; now rewrite Es|]. cbn [negb]. now rewrite Bool.andb_true_r.
        * rewrite X5. cbn [w2 glog]. unfold exit_log. rewrite rev_app_distr. cbn [rev app filter]. cbn [w2 ini].
          assert (filter (fun s0 => mem s0 (ini w1)) (rev l) = filter (fun s0 => mem s0 (ini w)) (rev l)) as F.
          { apply filter_eq. intros x Hx. unfold w1. destruct (mem s (ini w)); [|reflexivity]. cbn [ini]. rewrite mem_del.
            destruct (Nat.eqb_spec s x); [subst; apply in_rev in Hx; contradiction|now rewrite Bool.andb_true_r]. }
          rewrite F. unfold w1. destruct (mem s (ini w)); cbn [map glog]; [now rewrite <- app_assoc|reflexivity].
  Qed.
  Lemma at_exit_quiet (Q : quiet_finalisers prog) w : reach prog w -> gone w = [] ->
    exists w', exec prog [AtExit] w [] w' /\ (forall s, ~ initialised w' s) /\
      glog w' = glog w ++ map EFin (filter (fun s => mem s (ini w)) (rev (reg w))).
  Proof.
    intros R G. pose proof (winv_reach w R) as I. destruct (exit_quiet Q [] (reg w) [] w I) as (w' & X1 & _ & X3 & _ & X5).
    - now rewrite app_nil_r.
    - intros x [].
    - now rewrite G.
    - exists w'. split; [exact X1|]. split; [|exact X5]. intros s. unfold initialised. rewrite X3. destruct (mem s (ini w)) eqn:E; [|discriminate].
      rewrite (wi_ini w I s E). discriminate.
  Qed.
End proofs.

(* ---- executions for the examples ---- *)
Fixpoint grun (prog : bool -> nat -> list gev -> list act) (n : nat) (k : list act) (w : gw) : option (list act * gw) :=
  match n, k with
  | _, [] => Some (k, w)
  | O, _ => None
  | S n, a :: k => match gstep prog a k w with Next k w => grun prog n k w | _ => Some (a :: k, w) end
  end.
Lemma grun_exec prog n : forall k w k' w', grun prog n k w = Some (k', w') -> exec prog k w k' w'.
Proof.
  induction n as [|n IH]; intros k w k' w' H; destruct k as [|a k]; cbn [grun] in H; try discriminate; try (inversion H; subst; apply E_here).
  destruct (gstep prog a k w) eqn:E; [|inversion H; subst; apply E_here|inversion H; subst; apply E_here].
  eapply E_step; [exact E|]. now apply IH.
Qed.
(* the finaliser of 1 uses 0, which is registered before it *)
Definition prog_back (b : bool) (s : nat) (l : list gev) : list act := if negb b && Nat.eqb s 1 then [Get 0] else [].
(* the initialiser and the finaliser of 0 use 1, which is registered after it *)
Definition prog_later (b : bool) (s : nat) (l : list gev) : list act := if Nat.eqb s 0 then [Get 1] else [].
Definition dep_later (a b : nat) : Prop := a = 0%nat /\ b = 1%nat.
Lemma later_deps : deps prog_later dep_later.
Proof.
  constructor.
  - intros b s l a H. unfold prog_later in H. destruct (Nat.eqb_spec s 0); [|destruct H]. destruct H as [<-|[]]. right. exists 1%nat. split; [reflexivity|split; auto].
  - intros a b c [-> ->] [? _]. discriminate.
Qed.
Definition prog_self (b : bool) (s : nat) (l : list gev) : list act := if b then [] else [Get s].
Lemma reach_run prog n a w k' w' : reach prog w -> grun prog n [a] w = Some (k', w') -> reach prog w'.
Proof. intros R H. eapply R_call; [exact R|]. eapply grun_exec. exact H. Qed.
Lemma back_refuted : exists w w1 w2, reach prog_back w /\ exec prog_back [FinalizeAll] w [] w1 /\ initialised w1 0 /\
  exec prog_back [FinalizeAll] w1 [] w2 /\ glog w2 = glog w1 ++ [EFin 0].
Proof.
  exists (mkGW [0; 1]%nat [1; 0]%nat [] [EInit 0; EInit 1]), (mkGW [0; 1]%nat [0]%nat [] [EInit 0; EInit 1; EFin 0; EFin 1; EInit 0]),
    (mkGW [0; 1]%nat [] [] [EInit 0; EInit 1; EFin 0; EFin 1; EInit 0; EFin 0]).
  split.
  - eapply (reach_run _ 5 (Get 1)); [eapply (reach_run _ 5 (Get 0)); [apply R_start|reflexivity]|reflexivity].
  - split; [apply (grun_exec _ 9); reflexivity|]. split; [reflexivity|]. split; [apply (grun_exec _ 9); reflexivity|reflexivity].
Qed.
Lemma self_refuted : exists w w1, reach prog_self w /\ exec prog_self [FinalizeAll] w [] w1 /\ initialised w1 0 /\ glog w1 = glog w ++ [EFin 0; EInit 0].
Proof.
  exists (mkGW [0]%nat [0]%nat [] [EInit 0]), (mkGW [0]%nat [0]%nat [] [EInit 0; EFin 0; EInit 0]).
  split; [eapply (reach_run _ 5 (Get 0)); [apply R_start|reflexivity]|]. split; [apply (grun_exec _ 9); reflexivity|]. split; reflexivity.
Qed.
Lemma exit_refuted : exists w k w1, reach prog_later w /\ exec prog_later [AtExit] w (Get 1 :: k) w1 /\ gstep prog_later (Get 1) k w1 = Bad UB.
Proof.
  exists (mkGW [0; 1]%nat [1; 0]%nat [] [EInit 0; EInit 1]), [Gone 0; AtExit]%nat, (mkGW [0; 1]%nat [] [1]%nat [EInit 0; EInit 1; EFin 1; EFin 0]).
  split; [eapply (reach_run _ 5 (Get 0)); [apply R_start|reflexivity]|]. split; [apply (grun_exec _ 9); reflexivity|reflexivity].
Qed.
