(* Proofs about programs of OmModel. *)
From Verif Require Import Base BaseFacts StrModel StrSpec StrProofs OmModel OmSpec OmProofs.
From Coq Require Import ZifyBool ZifyNat Permutation.
Open Scope Z_scope.

Definition Held (s : ostate) (vs : values) (nb nc : nat) : Prop :=
  exists t mp LB LC, Rel t vs /\ Sim mp LB LC s t /\ length LB = nb /\ length LC = nc.

Lemma sim_init n : Sim [(0%nat, None)] [] [] (oinit n) (init n).
Proof.
  split.
  - constructor; cbn [oinit bufs cnts init hp init_heap].
    + reflexivity.
    + reflexivity.
    + intros [|[|b]] p q E; cbn in E; try discriminate. injection E as <- <-. cbn. auto.
    + intros [|[|b]] [|[|b']] p q q' E E'; cbn in E, E'; try discriminate. reflexivity.
    + intros [|[|b]] b' p p' c E E'; cbn in E; try discriminate.
    + intros [|[|p]] cs E; cbn in E; discriminate.
    + intros [|c] n0 E; cbn in E; discriminate.
    + intros p cs [].
    + intros c [].
    + constructor.
    + constructor.
  - cbn [oinit ovars init vars]. induction n; cbn; constructor; cbn; auto.
Qed.
Lemma held_init n : Held (oinit n) (repeat None n) 0 0.
Proof. exists (init n), [(0%nat, None)], [], []. split; [apply rel_init|]. split; [apply sim_init|auto]. Qed.

Lemma sim_shows mp LB LC s t vs : Sim mp LB LC s t -> shows t vs -> oshows s vs.
Proof.
  intros [H V] W. unfold shows in W. unfold oshows. revert vs W.
  induction V as [|x y xs ys Hxy V IH]; intros vs W; inversion W as [|a b c d W1 W2]; subst; constructor; auto.
  destruct x as [x|], y as [y|]; cbn in Hxy; try tauto. destruct b as [l|]; [|tauto].
  destruct W1 as [C L]. unfold content in C. unfold ocontent. destruct (srel_fields _ _ _ Hxy) as (-> & -> & _).
  destruct (cells_cases (hp t) (buf y)) as [[cs E]|E]; rewrite E in C; cbn [bind] in C; [|discriminate].
  rewrite (ocells_ok _ _ _ _ _ _ _ H Hxy _ E). cbn [bind]. auto.
Qed.
Lemma held_shows s vs nb nc : Held s vs nb nc -> oshows s vs.
Proof. intros (t & mp & LB & LC & R & S & _). eapply sim_shows; [exact S|]. now apply rel_shows. Qed.

Definition lost1 (which : bool) (o : op) (f : oracle) : nat :=
  match f with Some 1%nat => if Bool.eqb (copies o) which then 1%nat else 0%nat | _ => 0%nat end.

Lemma held_step s vs nb nc o f vs' y : Held s vs nb nc -> sstep vs o = Ok (vs', y) -> tolerated o f = true ->
  exists s' x, ostep s o f = Ok (s', x) /\
    match x with
    | RNoMemory => (f = Some 0%nat \/ f = Some 1%nat) /\ Held s' vs (nb + lost1 true o f) (nc + lost1 false o f)
    | ROut r => out_ok r y /\ Held s' vs' nb nc
    end.
Proof.
  intros (t & mp & LB & LC & R & S & <- & <-) E Ht.
  destruct (step_refines _ _ _ _ _ R E) as (t' & x & Es & R' & Ho).
  pose proof (step_raw_sim f mp LB LC s t o S Ht) as Q. unfold step in Es. unfold ostep.
  destruct (step_raw t o) as [[t1 y1]| | |] eqn:Er; try discriminate.
  - injection Es as -> ->. destruct Q as [(s' & mp2 & -> & S')|(s' & LB' & LC' & -> & S' & C)].
    + eexists _, _. split; [reflexivity|]. split; [exact Ho|]. exists t', (mp ++ mp2), LB, LC. auto.
    + eexists _, _. split; [reflexivity|]. unfold lost1.
      destruct C as [(-> & -> & ->)|[(-> & C1 & C2 & ->)|(-> & C1 & -> & C2)]]; (split; [tauto|]); exists t, mp; eexists _, _;
        (split; [exact R|]); (split; [exact S'|]); try rewrite C1; cbn [Bool.eqb]; lia.
  - injection Es as <- <-. rewrite Q. eexists _, _. split; [reflexivity|]. split; [exact Ho|]. exists t, mp, LB, LC. auto.
Qed.

Lemma held_run p : forall s vs nb nc s' xs vs', Held s vs nb nc ->
  Forall (fun q => tolerated (fst q) (snd q) = true) p ->
  orun s p = Ok (s', xs) -> after vs (history p xs) = Ok vs' ->
  Held s' vs' (nb + lost_buffers p xs) (nc + lost_counters p xs).
Proof.
  unfold lost_buffers, lost_counters.
  induction p as [|[o f] p IH]; intros s vs nb nc s' xs vs' HH Ht Hr Ha.
  - injection Hr as <- <-. injection Ha as <-. cbn [lost]. rewrite !Nat.add_0_r. exact HH.
  - inversion Ht as [|? ? T1 T2]; subst. cbn [orun] in Hr.
    destruct (ostep s o f) as [[s1 x]| | |] eqn:Es; cbn [bind] in Hr; try discriminate.
    destruct (orun s1 p) as [[s2 ys]| | |] eqn:Er; cbn [bind] in Hr; try discriminate. injection Hr as <- <-.
    unfold history in Ha. cbn [map fst combine] in Ha. fold (history p ys) in Ha. cbn [after] in Ha.
    assert (exists vs1 y, sstep vs o = Ok (vs1, y)) as (vs1 & y & Ey).
    { destruct (failed x), (sstep vs o) as [[vs1 y]| | |]; cbn [bind] in Ha; try discriminate; eauto. }
    rewrite Ey in Ha. cbn [bind] in Ha.
    destruct (held_step _ _ _ _ _ _ _ _ HH Ey T1) as (s1' & x' & Es' & Q). cbn [fst snd] in Es'. rewrite Es in Es'. injection Es' as <- <-.
    destruct x as [r|]; cbn [failed] in Ha.
    + destruct Q as [_ Q]. specialize (IH _ _ _ _ _ _ _ Q T2 Er Ha). cbn [lost]. destruct f as [[|[|f]]|]; exact IH.
    + destruct Q as [_ Q]. specialize (IH _ _ _ _ _ _ _ Q T2 Er Ha). cbn [lost]. unfold lost1 in IH.
      rewrite <- !Nat.add_assoc in IH. destruct f as [[|[|f]]|]; exact IH.
Qed.

Definition reached (n : nat) (p : list (op * oracle)) (s : ostate) (xs : list oout) (vs : values) : Prop :=
  Forall (fun q => tolerated (fst q) (snd q) = true) p /\
  orun (oinit n) p = Ok (s, xs) /\ after (repeat None n) (history p xs) = Ok vs.
Lemma reached_held n p s xs vs : reached n p s xs vs -> Held s vs (lost_buffers p xs) (lost_counters p xs).
Proof. intros (H1 & H2 & H3). exact (held_run p _ _ _ _ _ _ _ (held_init n) H1 H2 H3). Qed.

Lemma survives n p s xs vs :
  Forall (fun q => tolerated (fst q) (snd q) = true) p ->
  orun (oinit n) p = Ok (s, xs) -> after (repeat None n) (history p xs) = Ok vs ->
  oshows s vs /\
  forall o f vs' y, sstep vs o = Ok (vs', y) -> tolerated o f = true ->
    exists s' x, ostep s o f = Ok (s', x) /\
      match x with
      | RNoMemory => (f = Some 0%nat \/ f = Some 1%nat) /\ oshows s' vs
      | ROut r => out_ok r y /\ oshows s' vs'
      end.
Proof.
  intros H1 H2 H3. pose proof (reached_held n p s xs vs (conj H1 (conj H2 H3))) as HH.
  split; [eapply held_shows; exact HH|]. intros o f vs' y E T.
  destruct (held_step _ _ _ _ _ _ _ _ HH E T) as (s' & x & Es & Q). exists s', x. split; [exact Es|].
  destruct x; destruct Q as [Q1 Q2]; split; auto; eapply held_shows; exact Q2.
Qed.

(* ---- counters ---------------------------------------------------------------------- *)
Lemma users_refs mp LB LC s h xs ys b p c : HSim mp LB LC s h -> Forall2 (vrel mp) xs ys -> nth_error mp b = Some (p, Some c) ->
  users c xs = refs b ys.
Proof.
  intros H V E. unfold users, refs. induction V as [|x y xs ys Hxy V IH]; [reflexivity|].
  destruct x as [x|], y as [y|]; cbn in Hxy; try tauto; cbn [filter]; try exact IH.
  assert (Q : match octr x with Some c' => Nat.eqb c' c | None => false end = managed y && Nat.eqb (buf y) b).
  { destruct Hxy as (p' & q' & E' & _ & M & _). destruct (managed y); cbn [andb].
    - destruct M as [N ->]. destruct q' as [c'|]; [|congruence]. destruct (Nat.eqb_spec (buf y) b) as [Eb|Nb].
      + rewrite Eb, E in E'. injection E' as <- <-. apply Nat.eqb_refl.
      + apply Nat.eqb_neq. intros ->. apply Nb. exact (hs_injc _ _ _ _ _ H _ _ _ _ _ E' E).
    - rewrite M. reflexivity. }
  rewrite Q. destruct (_ && _); cbn [length]; [f_equal; exact IH|exact IH].
Qed.
Lemma users_lost mp LB LC s h xs ys c : HSim mp LB LC s h -> Forall2 (vrel mp) xs ys -> In c LC -> users c xs = 0%nat.
Proof.
  intros H V E. destruct (hs_lc _ _ _ _ _ H _ E) as [_ E2]. unfold users. induction V as [|x y xs ys Hxy V IH]; [reflexivity|].
  destruct x as [x|], y as [y|]; cbn in Hxy; try tauto; cbn [filter]; try exact IH.
  replace (match octr x with Some c' => Nat.eqb c' c | None => false end) with false; [exact IH|].
  destruct Hxy as (p' & q' & E' & _ & M & _). destruct (managed y).
  - destruct M as [_ ->]. destruct q' as [c'|]; [|reflexivity]. symmetry. apply Nat.eqb_neq. intros ->. exact (E2 _ _ E').
  - rewrite M. reflexivity.
Qed.

Lemma counter_values n p s xs vs :
  Forall (fun q => tolerated (fst q) (snd q) = true) p ->
  orun (oinit n) p = Ok (s, xs) -> after (repeat None n) (history p xs) = Ok vs ->
  exists LC, NoDup LC /\ length LC = lost_counters p xs /\
  forall c k, nth_error (cnts s) c = Some (Some k) ->
    (In c LC /\ users c (ovars s) = 0%nat /\ k = 1) \/
    (~ In c LC /\ k = Z.of_nat (users c (ovars s)) /\ 0 < k).
Proof.
  intros H1 H2 H3. destruct (reached_held n p s xs vs (conj H1 (conj H2 H3))) as (t & mp & LB & LC & R & [H V] & Lb & Lc).
  exists LC. split; [apply H|]. split; [exact Lc|]. intros c k E.
  destruct (in_dec Nat.eq_dec c LC) as [I|I].
  - left. split; [exact I|]. split; [eapply users_lost; eassumption|]. destruct (hs_lc _ _ _ _ _ H _ I). congruence.
  - right. split; [exact I|]. destruct (hs_covc _ _ _ _ _ H _ _ E) as [?|(b & q & Eb)]; [contradiction|].
    rewrite (users_refs _ _ _ _ _ _ _ _ _ _ H V Eb). pose proof (hs_blk _ _ _ _ _ H _ _ _ Eb) as B.
    destruct (nth_error (hp t) b) as [[cs|cs k'|]|] eqn:Eh; cbn in B; try tauto.
    + destruct B; discriminate.
    + destruct B as (_ & c' & Ec & B). injection Ec as <-. assert (k = k') as -> by congruence. eapply rel_counts; eassumption.
    + destruct B as (_ & c' & Ec & B). injection Ec as <-. congruence.
Qed.

(* ---- leaks ------------------------------------------------------------------------- *)
Lemma count_indices {A} (P : A -> bool) (l : list A) :
  length (filter P l) = length (filter (fun i => match nth_error l i with Some x => P x | None => false end) (seq 0 (length l))).
Proof.
  induction l as [|x l IH] using rev_ind; [reflexivity|].
  rewrite app_length, Nat.add_1_r, seq_S, !filter_app, !app_length. cbn [filter Nat.add].
  rewrite nth_app_last. f_equal.
  - rewrite IH. f_equal. apply filter_ext_in. intros i Hi. apply in_seq in Hi. rewrite nth_error_app1 by lia. reflexivity.
  - destruct (P x); reflexivity.
Qed.
Lemma count_set {A} (P : A -> bool) (l : list A) (L : list nat) : NoDup L ->
  (forall i, In i L <-> exists x, nth_error l i = Some x /\ P x = true) -> length (filter P l) = length L.
Proof.
  intros N H. rewrite count_indices. apply Permutation_length. apply NoDup_Permutation; [|exact N|].
  - apply NoDup_filter. apply seq_NoDup.
  - intros i. rewrite filter_In, H, in_seq. split.
    + intros [_ E]. destruct (nth_error l i) as [x|]; [eauto|discriminate].
    + intros (x & E & Px). rewrite E. split; [|exact Px]. pose proof (nth_lt _ _ _ E). lia.
Qed.

Lemma all_dead mp xs ys : Forall2 (vrel mp) xs ys -> Forall (fun x => x = None) xs -> Forall (fun x => x = None) ys.
Proof. induction 1 as [|x y xs ys Hxy V IH]; intros D; inversion D; subst; constructor; auto. destruct y; [destruct Hxy|reflexivity]. Qed.

Lemma leaks n p s xs vs :
  Forall (fun q => tolerated (fst q) (snd q) = true) p ->
  orun (oinit n) p = Ok (s, xs) -> after (repeat None n) (history p xs) = Ok vs ->
  Forall (fun x => x = None) (ovars s) ->
  live_buffers s = lost_buffers p xs /\ live_counters s = lost_counters p xs.
Proof.
  intros H1 H2 H3 D. destruct (reached_held n p s xs vs (conj H1 (conj H2 H3))) as (t & mp & LB & LC & R & [H V] & Lb & Lc).
  pose proof (no_leak _ _ R (all_dead _ _ _ V D)) as NL. split.
  - rewrite <- Lb, <- (map_length fst LB). unfold live_buffers. apply count_set; [apply H|]. intros i. split.
    + intros E. apply in_map_iff in E as ([i' cs] & <- & E). exists (BNew cs). split; [|reflexivity]. exact (proj1 (hs_lb _ _ _ _ _ H _ _ E)).
    + intros (x & E & Px). destruct x as [|cs|]; try discriminate. destruct (hs_covb _ _ _ _ _ H _ _ E) as [?|(b & q & Eb)]; [assumption|].
      exfalso. pose proof (hs_blk _ _ _ _ _ H _ _ _ Eb) as B. destruct (nth_error (hp t) b) as [[cs'|cs' k|]|] eqn:Eh; cbn in B; try tauto.
      * destruct B. congruence.
      * exact (NL _ _ _ Eh).
      * destruct B. congruence.
  - rewrite <- Lc. unfold live_counters. apply count_set; [apply H|]. intros i. split.
    + intros E. exists (Some 1). split; [|reflexivity]. exact (proj1 (hs_lc _ _ _ _ _ H _ E)).
    + intros (x & E & Px). destruct x as [k|]; try discriminate. destruct (hs_covc _ _ _ _ _ H _ _ E) as [?|(b & q & Eb)]; [assumption|].
      exfalso. pose proof (hs_blk _ _ _ _ _ H _ _ _ Eb) as B. destruct (nth_error (hp t) b) as [[cs'|cs' k'|]|] eqn:Eh; cbn in B; try tauto.
      * destruct B. congruence.
      * exact (NL _ _ _ Eh).
      * destruct B as (_ & c & Ec & B). injection Ec as <-. congruence.
Qed.

Lemma lost_first which p : forall xs, Forall (fun q => snd q <> Some 1%nat) p -> lost which p xs = 0%nat.
Proof.
  induction p as [|[o f] p IH]; intros xs H; [reflexivity|]. inversion H; subst. cbn [snd] in *. destruct xs as [|x xs]; cbn [lost].
  - destruct f as [[|[|f]]|]; reflexivity.
  - destruct f as [[|[|f]]|]; try congruence; auto.
Qed.
Lemma tolerated_first o f : f <> Some 1%nat -> tolerated o f = true.
Proof. destruct f as [[|[|f]]|]; try congruence; reflexivity. Qed.

Lemma first_no_leak n p s xs vs :
  Forall (fun q => snd q <> Some 1%nat) p ->
  orun (oinit n) p = Ok (s, xs) -> after (repeat None n) (history p xs) = Ok vs ->
  Forall (fun x => x = None) (ovars s) ->
  live_buffers s = 0%nat /\ live_counters s = 0%nat.
Proof.
  intros H1 H2 H3 D.
  assert (T : Forall (fun q => tolerated (fst q) (snd q) = true) p) by (eapply Forall_impl; [|exact H1]; intros q; apply tolerated_first).
  destruct (leaks n p s xs vs T H2 H3 D) as [-> ->]. split; now apply lost_first.
Qed.

(* ---- without failures ---------------------------------------------------------------- *)
Lemma no_failure n os vs ys : srun (repeat None n) os = Ok (vs, ys) ->
  exists s t xs, orun (oinit n) (map (fun o => (o, None)) os) = Ok (s, map ROut xs) /\
    run (init n) os = Ok (t, xs) /\ oshows s vs /\ shows t vs /\ Forall2 out_ok xs ys.
Proof.
  assert (G : forall os s t mp vs0 vs ys, Rel t vs0 -> Sim mp [] [] s t -> srun vs0 os = Ok (vs, ys) ->
    exists s' t' mp' xs, orun s (map (fun o => (o, None)) os) = Ok (s', map ROut xs) /\ run t os = Ok (t', xs) /\
      Rel t' vs /\ Sim mp' [] [] s' t' /\ Forall2 out_ok xs ys).
  { clear. induction os as [|o os IH]; intros s t mp vs0 vs ys R S E; cbn [srun] in E.
    - injection E as <- <-. exists s, t, mp, []. split; [reflexivity|]. split; [reflexivity|]. split; [exact R|]. split; [exact S|constructor].
    - destruct (sstep vs0 o) as [[vs1 y]| | |] eqn:E1; cbn [bind] in E; try discriminate.
      destruct (srun vs1 os) as [[vs2 ys']| | |] eqn:E2; cbn [bind] in E; try discriminate. injection E as <- <-.
      destruct (step_refines _ _ _ _ _ R E1) as (t1 & x & Et & R1 & Ho).
      assert (exists s1 mp1, ostep s o None = Ok (s1, ROut x) /\ Sim mp1 [] [] s1 t1) as (s1 & mp1 & Es & S1).
      { pose proof (step_raw_sim None mp [] [] s t o S (tolerated_first o None ltac:(discriminate))) as Q. unfold step in Et. unfold ostep.
        destruct (step_raw t o) as [[t2 y2]| | |]; try discriminate.
        - injection Et as -> ->. destruct Q as [(s' & mp2 & -> & S')|(s' & LB' & LC' & _ & _ & C)]; [eauto|].
          exfalso. destruct C as [[C _]|[[C _]|[C _]]]; discriminate.
        - injection Et as <- <-. rewrite Q. eauto. }
      destruct (IH _ _ _ _ _ _ R1 S1 E2) as (s' & t' & mp' & xs & A & B & C & D & F).
      exists s', t', mp', (x :: xs). cbn [map orun run]. rewrite Es, Et. cbn [bind]. rewrite A, B. cbn [bind map].
      split; [reflexivity|]. split; [reflexivity|]. split; [exact C|]. split; [exact D|]. constructor; assumption. }
  intros E.
  destruct (G os (oinit n) (init n) [(0%nat, None)] (repeat None n) vs ys) as (s' & t' & mp' & xs & A & B & C & D & F); auto.
  - apply rel_init.
  - apply sim_init.
  - exists s', t', xs. repeat (split; [assumption|]). split; [eapply sim_shows; [exact D|now apply rel_shows]|]. split; [now apply rel_shows|exact F].
Qed.

(* ---- the second allocation of operator+ ------------------------------------------------ *)
Lemma shows_var s vs v l : oshows s vs -> nth_error vs v = Some (Some l) ->
  exists x, ovar s v = Ok x /\ olen x = zlen l.
Proof.
  intros W. unfold oshows in W. unfold ovar. revert v. induction W as [|x y xs ys Hxy W IH]; intros [|v] E; cbn in *; try discriminate; auto.
  injection E as ->. destruct x as [x|]; [|tauto]. destruct Hxy. eauto.
Qed.
Lemma shows_dead s vs v : oshows s vs -> nth_error vs v = Some None -> nth_error (ovars s) v = Some None.
Proof.
  intros W. unfold oshows in W. revert v. induction W as [|x y xs ys Hxy W IH]; intros [|v] E; cbn in *; try discriminate; auto.
  injection E as ->. destruct x as [x|]; tauto.
Qed.
Lemma join_second_ub n p s xs vs v w x l m :
  Forall (fun q => tolerated (fst q) (snd q) = true) p ->
  orun (oinit n) p = Ok (s, xs) -> after (repeat None n) (history p xs) = Ok vs ->
  nth_error vs v = Some None -> nth_error vs w = Some (Some l) -> nth_error vs x = Some (Some m) ->
  l <> [] -> m <> [] ->
  ostep s (OInit v (EConcat w x)) (Some 1%nat) = UB.
Proof.
  intros H1 H2 H3 Ev Ew Ex Nl Nm. pose proof (reached_held n p s xs vs (conj H1 (conj H2 H3))) as HH.
  pose proof (held_shows _ _ _ _ HH) as W.
  destruct (shows_var _ _ _ _ W Ew) as (a & Ea & La). destruct (shows_var _ _ _ _ W Ex) as (b & Eb & Lb).
  pose proof (shows_dead _ _ _ W Ev) as Ed. unfold ostep. cbn [ostep_raw oeval]. rewrite Ed, Ea, Eb. cbn [bind].
  unfold o_concat, o_replace. rewrite La, Lb.
  assert (Pl : 0 < zlen l) by (destruct l; [congruence|unfold zlen; cbn [length]; lia]).
  assert (Pm : 0 < zlen m) by (destruct m; [congruence|unfold zlen; cbn [length]; lia]).
  replace (zlen m =? 0) with false by lia. replace (zlen l =? 0) with false by lia. cbn [andb fails next new_counter].
  unfold odec. cbn [octr obuf cnts]. rewrite nth_app_last. cbn [Z.sub Z.opp Z.add Z.pos_sub Z.eqb]. unfold delete_buffer. cbn [bufs].
  destruct HH as (t & mp & LB & LC & R & [H V] & _). pose proof (hs_blk _ _ _ _ _ H _ _ _ (hs_zero _ _ _ _ _ H)) as B.
  destruct (nth_error (hp t) 0) as [[cs|cs k|]|]; cbn [blk_rel] in B; try tauto.
  - destruct B as [-> _]. reflexivity.
  - destruct B as (_ & c & Ec & _). discriminate.
  - destruct B as (_ & c & Ec & _). discriminate.
Qed.

Lemma torn_buffer :
  (exists s xs x, orun (oinit 2) torn = Ok (s, xs) /\ failed (last xs (ROut RNone)) = true /\
     after (repeat None 2) (history torn xs) = Ok [Some [97; 98; 99]; Some [98]] /\
     nth_error (ovars s) 1 = Some (Some x) /\ ocontent s x = Ok [0]) /\
  orun (oinit 2) (torn ++ [(ODestroy 1, None); (ODestroy 0, None)]) = UB /\
  orun (oinit 2) (torn ++ [(ODestroy 0, None); (ODestroy 1, None)]) = UB.
Proof.
  split; [|split; vm_compute; reflexivity]. eexists _, _, _. split; [vm_compute; reflexivity|].
  split; [reflexivity|]. split; [vm_compute; reflexivity|]. split; vm_compute; reflexivity.
Qed.

Lemma loses_memory :
  (exists s, orun (oinit 1) [(OInit 0 (ELit (Some abc)), Some 1%nat)] = Ok (s, [RNoMemory]) /\ live_counters s = 1%nat /\
     Forall (fun x => x = None) (ovars s)) /\
  (exists s, orun (oinit 1) [(OInit 0 (ECopyFrom abc 2), Some 1%nat)] = Ok (s, [RNoMemory]) /\ live_buffers s = 1%nat /\
     Forall (fun x => x = None) (ovars s)).
Proof. split; eexists; (split; [vm_compute; reflexivity|]); split; try reflexivity; repeat constructor. Qed.
