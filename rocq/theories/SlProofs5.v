From Coq Require Import ZifyBool ZifyNat Permutation.
From Verif Require Import Base BaseFacts StrModel StrSpec StrProofs SlModel SlSpec SlProofs SlProofs2 SlProofs3 SlProofs4.
From Verif Require LstModel LstSpec LstProofs.
Open Scope Z_scope.

Lemma step_wsim w t o t' y : WRel w t -> pstep t o = Ok (t', y) ->
  exists w' x, SlModel.step w o = Ok (w', x) /\ WRel w' t' /\ tout_ok x y.
Proof.
  intros W H. pose proof (step_raw_wsim w t o W) as K. unfold pstep in H. unfold SlModel.step.
  destruct (pstep_raw t o) as [[t1 y1]| | |]; cbn [wsim] in K; try discriminate.
  - injection H as <- <-. destruct K as (w' & x & -> & W' & O). eauto.
  - injection H as <- <-. rewrite K. do 2 eexists. split; [reflexivity|]. split; [exact W|exact I].
Qed.
Lemma run_wsim os : forall w t t' rs, WRel w t -> prun t os = Ok (t', rs) ->
  exists w' xs, SlModel.run w os = Ok (w', xs) /\ WRel w' t' /\ Forall2 tout_ok xs rs.
Proof.
  induction os as [|o os IH]; intros w t t' rs W H; cbn [prun SlModel.run] in *.
  - injection H as <- <-. do 2 eexists. split; [reflexivity|]. split; [exact W|constructor].
  - destruct (pstep t o) as [[t1 y]| | |] eqn:E; try discriminate. cbn [bind] in H.
    destruct (prun t1 os) as [[t2 ys]| | |] eqn:E2; try discriminate. cbn [bind] in H. injection H as <- <-.
    destruct (step_wsim _ _ _ _ _ W E) as (w1 & x & -> & W1 & O). cbn [bind].
    destruct (IH _ _ _ _ W1 E2) as (w2 & xs & -> & W2 & Os). cbn [bind].
    do 2 eexists. split; [reflexivity|]. split; [exact W2|]. constructor; assumption.
Qed.
Lemma wrel_start n m : WRel (start_world n m) (pstart n m).
Proof.
  exists (repeat None n), (repeat None m). split; [apply rel_init|]. split.
  - assert (NS : forall l a, ~ spans (repeat None m) l a).
    { intros l a H. unfold spans in H. destruct (nth_error (repeat None m) l) as [o|] eqn:E; [|exact H].
      apply nth_error_In, repeat_spec in E. subst o. exact H. }
    cbn [start_world nv lists pvars pstart]. split.
    + apply repeat_length.
    + rewrite repeat_length. lia.
    + reflexivity.
    + now rewrite !repeat_length.
    + intros l o p Ho Hp. apply nth_error_In, repeat_spec in Ho. apply nth_error_In, repeat_spec in Hp. subst. exact I.
    + intros l a H. now apply NS in H.
    + intros l k a H. now apply NS in H.
    + intros a Ha. rewrite repeat_length in Ha. lia.
  - split; [apply LstProofs.shows_none|]. intros p. cbn. split; [contradiction|]. intros (l & x & E & _).
    apply nth_error_In, repeat_spec in E. discriminate.
Qed.

(* ---- what a world shows ------------------------------------------------------------------- *)
Lemma rel_string s vs a c : Rel s vs -> nth_error vs a = Some (Some c) -> string_at s a c.
Proof.
  intros R H. pose proof (rel_shows _ _ R) as K. unfold StrSpec.shows in K.
  pose proof (LstProofs.Forall2_nth _ _ _ a K) as Q. rewrite H in Q.
  destruct (nth_error (vars s) a) as [[x|]|] eqn:E; try contradiction. destruct Q as [Q1 Q2]. exists x. auto.
Qed.
Lemma lrep_raw vs x y xs i : lrep vs x y -> lst_shows y xs -> cnt x <= i < room x -> nth_error vs (adr (base x) i) = Some None.
Proof.
  intros (H1 & H2 & H3 & Rp) (C & L & k & B) Hi. change (@None (list Z)) with (valof LstModel.Raw). apply Rp. rewrite B.
  pose proof (zlen_nonneg xs). unfold aget. rewrite znth_z by lia. rewrite nth_error_app2 by (rewrite map_length; unfold zlen in C; lia).
  rewrite map_length. rewrite nth_error_repeat; [reflexivity|]. rewrite B in H3. rewrite zlen_app, zlen_map, zlen_repeat in H3. unfold zlen in *. lia.
Qed.
Lemma wrel_lrep w t vs ys : Rel (strs w) vs -> Geo (nv w) (lists w) vs (pvars t) ys -> shows ys (plists t) ->
  forall l o, nth_error (lists w) l = Some o -> exists q, nth_error (plists t) l = Some q /\
    match o, q with
    | Some x, Some xs => exists y, nth_error ys l = Some (Some y) /\ lrep vs x y /\ lst_shows y xs
    | None, None => True
    | _, _ => False
    end.
Proof.
  intros R G S l o Ho. destruct (nth_error ys l) as [p|] eqn:Ep.
  2:{ apply nth_error_None in Ep. apply nth_error_lt in Ho. pose proof (g_len _ _ _ _ _ G). lia. }
  pose proof (g_rep _ _ _ _ _ G _ _ _ Ho Ep) as K. pose proof (LstProofs.Forall2_nth _ _ _ l S) as Q. rewrite Ep in Q.
  destruct (nth_error (plists t) l) as [q|]; [|contradiction]. exists q. split; [reflexivity|].
  destruct o as [x|], p as [y|], q as [xs|]; cbn in *; try tauto. exists y. auto.
Qed.
Lemma Forall2_of_nth {B C} (P : B -> C -> Prop) s : forall t, length s = length t ->
  (forall n x y, nth_error s n = Some x -> nth_error t n = Some y -> P x y) -> Forall2 P s t.
Proof.
  induction s as [|b s IH]; intros [|c t] L H; try discriminate; constructor.
  - exact (H 0%nat _ _ eq_refl eq_refl).
  - apply IH; [now injection L|]. intros n. exact (H (S n)).
Qed.
Lemma lrep_shows s vs x y xs : Rel s vs -> lrep vs x y -> lst_shows y xs -> list_shows s x xs.
Proof.
  intros R LR LS. pose proof LR as (H1 & H2 & H3 & _). pose proof LS as (C & L & k & B).
  split; [congruence|]. split; [rewrite H1, C, H2, <- H3, B, zlen_app, zlen_map, zlen_repeat; lia|]. split.
  - intros i c Hc. eapply rel_string; [exact R|]. exact (proj1 (elem_at vs x y xs i c LR LS Hc)).
  - intros i Hi. eapply rel_none; [exact R|]. eapply lrep_raw; eauto.
Qed.
Lemma wrel_shows w t : WRel w t -> world_shows w t.
Proof.
  intros (vs & ys & R & G & S & Lv). split; [symmetry; exact (g_nv _ _ _ _ _ G)|]. split.
  - intros v. destruct (nth_error (pvars t) v) as [[c|]|] eqn:E; auto.
    + pose proof (nth_error_lt _ _ _ E) as Hv. rewrite (g_nv _ _ _ _ _ G) in Hv.
      eapply rel_string; [exact R|]. now rewrite (g_pv _ _ _ _ _ G).
    + pose proof (nth_error_lt _ _ _ E) as Hv. rewrite (g_nv _ _ _ _ _ G) in Hv.
      eapply rel_none; [exact R|]. now rewrite (g_pv _ _ _ _ _ G).
  - apply Forall2_of_nth.
    + pose proof (g_len _ _ _ _ _ G). pose proof (LstProofs.Forall2_len _ _ _ S). congruence.
    + intros l o q Ho Hq. destruct (wrel_lrep w t vs ys R G S l o Ho) as (q' & Hq' & K). assert (q' = q) by congruence. subst q'.
      destruct o as [x|], q as [xs|]; auto. destruct K as (y & _ & LR & LS). eapply lrep_shows; eauto.
Qed.

(* ---- counting ------------------------------------------------------------------------------ *)
(* the addresses a program can name *)
Definition list_addrs (o : option slist) : list nat :=
  match o with Some x => seq (base x) (Z.to_nat (cnt x)) | None => [] end.
Definition addrs (w : world) : list nat := seq 0 (nv w) ++ flat_map list_addrs (lists w).

Definition shares (b : nat) (xs : list (option str)) (a : nat) : bool :=
  match nth_error xs a with Some (Some x) => managed x && Nat.eqb (buf x) b | _ => false end.

Lemma refs_filter b xs : refs b xs = length (filter (shares b xs) (seq 0 (length xs))).
Proof.
  induction xs as [|x xs IH] using rev_ind; [reflexivity|].
  rewrite app_length. cbn [length]. rewrite Nat.add_1_r, seq_S, filter_app, app_length. cbn [Nat.add].
  assert (E : filter (shares b (xs ++ [x])) (seq 0 (length xs)) = filter (shares b xs) (seq 0 (length xs))).
  { apply filter_ext_in. intros a Ha. apply in_seq in Ha. unfold shares. now rewrite nth_error_app1 by lia. }
  rewrite E, <- IH. unfold refs. rewrite filter_app, app_length. f_equal. cbn [filter]. unfold shares.
  rewrite nth_error_app2, Nat.sub_diag by lia. cbn [nth_error]. destruct x as [x|]; [|reflexivity].
  destruct (Nat.eqb (buf x) b) eqn:E1; destruct (managed x) eqn:E2; cbn; rewrite ?E1, ?E2; reflexivity.
Qed.
Lemma refs_app b xs zs : refs b (xs ++ zs) = (refs b xs + refs b zs)%nat.
Proof. unfold refs. now rewrite filter_app, app_length. Qed.
Lemma refs_seg b xs n0 : forall n, (n0 + n <= length xs)%nat ->
  refs b (firstn n (skipn n0 xs)) = length (filter (shares b xs) (seq n0 n)).
Proof.
  induction n as [|n IH]; intros H; [reflexivity|].
  destruct (nth_error xs (n0 + n)) as [x|] eqn:E; [|apply nth_error_None in E; lia].
  assert (E2 : firstn (S n) (skipn n0 xs) = firstn n (skipn n0 xs) ++ [x]).
  { apply nth_error_ext. intros i. rewrite nth_error_firstn. pose proof (firstn_length n (skipn n0 xs)) as Ln. rewrite skipn_length in Ln.
    destruct (Nat.lt_ge_cases i n) as [Hi|Hi].
    - replace (i <? S n)%nat with true by lia. rewrite nth_error_app1 by lia. rewrite nth_error_firstn. now replace (i <? n)%nat with true by lia.
    - rewrite nth_error_app2 by lia. destruct (Nat.eq_dec i n) as [->|N].
      + replace (n <? S n)%nat with true by lia. rewrite nth_error_skipn, E. replace (n - length (firstn n (skipn n0 xs)))%nat with 0%nat by lia. reflexivity.
      + replace (i <? S n)%nat with false by lia. symmetry. apply nth_error_None. cbn [length]. lia. }
  rewrite E2, refs_app, IH by lia. rewrite seq_S, filter_app, app_length. f_equal.
  unfold refs, shares. cbn [filter]. rewrite E. destruct x as [x|]; [|reflexivity]. now destruct (managed x && Nat.eqb (buf x) b).
Qed.

Lemma NoDup_app' {A} (l r : list A) : NoDup l -> NoDup r -> (forall a, In a l -> ~ In a r) -> NoDup (l ++ r).
Proof.
  intros H1 H2 H3. induction H1 as [|a l Ha H1 IH]; cbn [app]; [exact H2|]. constructor.
  - intros X. apply in_app_iff in X. destruct X as [X|X]; [exact (Ha X)|]. apply (H3 a); [now left|exact X].
  - apply IH. intros c Hc. apply H3. now right.
Qed.
Lemma NoDup_flat {A B} (f : A -> list B) xs :
  (forall l o, nth_error xs l = Some o -> NoDup (f o)) ->
  (forall l m o p a, nth_error xs l = Some o -> nth_error xs m = Some p -> In a (f o) -> In a (f p) -> l = m) ->
  NoDup (flat_map f xs).
Proof.
  induction xs as [|o xs IH]; intros H1 H2; cbn [flat_map]; [constructor|].
  apply NoDup_app'.
  - exact (H1 0%nat o eq_refl).
  - apply IH.
    + intros l p Hp. exact (H1 (S l) p Hp).
    + intros l m p q a Hp Hq Ip Iq. assert (S l = S m) by (eapply H2; [exact Hp|exact Hq|exact Ip|exact Iq]). congruence.
  - intros a Ha X. apply in_flat_map in X. destruct X as (p & Hp & Ip). apply In_nth_error in Hp. destruct Hp as (m & Hm).
    assert (0%nat = S m) by (eapply (H2 0%nat (S m)); [reflexivity|exact Hm|exact Ha|exact Ip]). discriminate.
Qed.

Lemma refs_named w t b : WRel w t -> refs b (vars (strs w)) = refs b (named w).
Proof.
  intros (vs & ys & R & G & S & Lv). pose proof (rel_len _ _ R) as RL. pose proof (g_le _ _ _ _ _ G) as Le.
  set (xs := vars (strs w)) in *.
  assert (Sub : forall l o, nth_error (lists w) l = Some o -> forall a, In a (list_addrs o) -> spans (lists w) l a).
  { intros l o Ho a Ha. destruct (wrel_lrep w t vs ys R G S l o Ho) as (q & Hq & K). destruct o as [x|]; [|contradiction].
    destruct q as [zs|]; [|contradiction]. destruct K as (y & Hy & LR & LS). unfold spans. rewrite Ho. cbn [ospan list_addrs] in *.
    apply in_seq in Ha. destruct (lrep_shows _ _ _ _ _ R LR LS) as (C1 & C2 & _). unfold span, at_span. pose proof (zlen_nonneg zs). lia. }
  assert (E : refs b (named w) = length (filter (shares b xs) (addrs w))).
  { unfold named, addrs. rewrite refs_app, filter_app, app_length. f_equal.
    - exact (refs_seg b xs 0 (nv w) ltac:(rewrite RL; exact Le)).
    - fold xs. assert (B : forall o, In o (lists w) -> match o with Some x => (base x + Z.to_nat (cnt x) <= length xs)%nat \/ cnt x = 0 | None => True end).
      { intros o Ho. apply In_nth_error in Ho. destruct Ho as (l & Hl). destruct o as [x|]; [|exact I].
        destruct (wrel_lrep w t vs ys R G S l _ Hl) as (q & Hq & K). destruct q as [zs|]; [|contradiction]. destruct K as (y & Hy & LR & LS).
        destruct (lrep_shows _ _ _ _ _ R LR LS) as (C1 & C2 & _). pose proof (zlen_nonneg zs).
        destruct (Z.eq_dec (cnt x) 0) as [Z0|NZ]; [now right|left].
        assert (span x (base x + Z.to_nat (cnt x - 1))%nat) by (unfold span, at_span; lia).
        pose proof (lrep_span vs x y _ LR H0). lia. }
      revert B. generalize (lists w). induction l as [|o l IH]; intros B; cbn [flat_map]; [reflexivity|].
      rewrite refs_app, filter_app, app_length, IH by (intros p Hp; apply B; now right). f_equal.
      specialize (B o (or_introl eq_refl)). destruct o as [x|]; cbn [list_addrs]; [|reflexivity]. unfold elements. fold xs.
      destruct B as [B|B]; [now apply refs_seg|]. rewrite B. reflexivity. }
  rewrite E, refs_filter. fold xs. apply Permutation_length. apply NoDup_Permutation.
  - apply NoDup_filter, seq_NoDup.
  - apply NoDup_filter. unfold addrs. apply NoDup_app'.
    + apply seq_NoDup.
    + apply NoDup_flat.
      * intros l [x|] _; cbn [list_addrs]; [apply seq_NoDup|constructor].
      * intros l m o p a Ho Hp Io Ip. exact (g_dis _ _ _ _ _ G _ _ _ (Sub _ _ Ho _ Io) (Sub _ _ Hp _ Ip)).
    + intros a Ha X. apply in_seq in Ha. apply in_flat_map in X. destruct X as (o & Ho & Io). apply In_nth_error in Ho. destruct Ho as (l & Hl).
      pose proof (g_low _ _ _ _ _ G _ _ (Sub _ _ Hl _ Io)). lia.
  - intros a. rewrite !filter_In. split; intros [H1 H2]; (split; [|exact H2]).
    + unfold shares in H2. destruct (nth_error xs a) as [[x|]|] eqn:Ea; try discriminate.
      pose proof (shape_nth _ _ a (proj1 R)) as Q. fold xs in Q. rewrite Ea in Q. destruct (nth_error vs a) as [[c|]|] eqn:Ev; try contradiction.
      apply in_app_iff. destruct (Nat.lt_ge_cases a (nv w)) as [Hl|Hg]; [left; apply in_seq; lia|right].
      assert (Dec : (exists l, spans (lists w) l a) \/ (forall l, ~ spans (lists w) l a)).
      { clear. generalize (lists w). induction l as [|o l IH].
        - right. intros [|k] H; exact H.
        - destruct (ospan_dec o a) as [H|H]; [left; now exists 0%nat|]. destruct IH as [(k & Hk)|IH]; [left; now exists (S k)|].
          right. intros [|k]; [exact H|exact (IH k)]. }
      destruct Dec as [(l & Hl)|Hn].
      * unfold spans in Hl. destruct (nth_error (lists w) l) as [o|] eqn:El; [|contradiction]. destruct o as [x'|]; [|contradiction]. cbn [ospan] in Hl.
        apply in_flat_map. exists (Some x'). split; [exact (nth_error_In _ _ El)|]. cbn [list_addrs]. apply in_seq.
        destruct (wrel_lrep w t vs ys R G S l _ El) as (q & Hq & K). destruct q as [zs|]; [|contradiction]. destruct K as (y & Hy & LR & LS).
        destruct (span_adr _ _ _ Hl) as (i & Hi & Ea'). destruct (Z.lt_ge_cases i (cnt x')) as [Hc|Hc]; [unfold adr in Ea'; lia|].
        rewrite Ea', (lrep_raw vs x' y zs i LR LS) in Ev by lia. discriminate.
      * rewrite (g_none _ _ _ _ _ G a) in Ev; [discriminate| |exact Hn]. apply nth_error_lt in Ev. lia.
    + apply in_seq. unfold shares in H2. destruct (nth_error xs a) as [[x|]|] eqn:Ea; try discriminate. apply nth_error_lt in Ea. lia.
Qed.

Lemma wrel_counters w t b cs k : WRel w t -> nth_error (hp (strs w)) b = Some (Counted cs k) ->
  k = Z.of_nat (refs b (named w)) /\ 0 < k.
Proof.
  intros W H. rewrite <- (refs_named w t b W). destruct W as (vs & ys & R & _). exact (rel_counts _ _ R _ _ _ H).
Qed.
Lemma wrel_no_leak w t : WRel w t -> Forall (fun v => v = None) (pvars t) -> Forall (fun l => l = None) (plists t) ->
  forall b cs k, nth_error (hp (strs w)) b <> Some (Counted cs k).
Proof.
  intros W H1 H2 b cs k Hb. destruct (wrel_counters w t b cs k W Hb) as [E P].
  assert (refs b (named w) = 0%nat); [|lia]. destruct W as (vs & ys & R & G & S & Lv).
  unfold named. rewrite refs_app.
  assert (L : forall o, In o (lists w) -> o = None).
  { intros o Ho. apply In_nth_error in Ho. destruct Ho as (l & Hl). destruct (wrel_lrep w t vs ys R G S l o Hl) as (q & Hq & K).
    rewrite Forall_forall in H2. assert (q = None) by (apply H2; exact (nth_error_In _ _ Hq)). subst q. destruct o; [contradiction|reflexivity]. }
  assert (F : flat_map (fun x => match x with Some x => elements (strs w) x | None => [] end) (lists w) = []).
  { revert L. generalize (lists w). induction l as [|o l IH]; intros L; cbn [flat_map]; [reflexivity|].
    rewrite (L o (or_introl eq_refl)). cbn [app]. apply IH. intros p Hp. apply L. now right. }
  rewrite F, Nat.add_0_r. apply refs_none. apply Forall_forall. intros x Hx. apply In_nth_error in Hx. destruct Hx as (v & Hv).
  rewrite nth_error_firstn in Hv. destruct (v <? nv w)%nat eqn:Ev; [|discriminate].
  pose proof (shape_nth _ _ v (proj1 R)) as Q. rewrite Hv in Q. rewrite (g_pv _ _ _ _ _ G) in Q by lia.
  destruct (nth_error (pvars t) v) as [q|] eqn:Ep; [|destruct x; contradiction].
  rewrite Forall_forall in H1. assert (q = None) by (apply H1; exact (nth_error_In _ _ Ep)). subst q. destruct x; [contradiction|reflexivity].
Qed.

(* ---- the theorems ------------------------------------------------------------------------------ *)
Lemma strings_in_lists n m os t rs : prun (pstart n m) os = Ok (t, rs) ->
  exists w xs, SlModel.run (start_world n m) os = Ok (w, xs) /\ world_shows w t /\ Forall2 tout_ok xs rs.
Proof.
  intros H. destruct (run_wsim os _ _ _ _ (wrel_start n m) H) as (w & xs & E & W & O).
  exists w, xs. split; [exact E|]. split; [now apply wrel_shows|exact O].
Qed.
Lemma reached n m os t rs w xs : prun (pstart n m) os = Ok (t, rs) -> SlModel.run (start_world n m) os = Ok (w, xs) -> WRel w t.
Proof.
  intros H E. destruct (run_wsim os _ _ _ _ (wrel_start n m) H) as (w' & xs' & E' & W & _). congruence.
Qed.
Lemma list_counters n m os t rs w xs b cs k : prun (pstart n m) os = Ok (t, rs) -> SlModel.run (start_world n m) os = Ok (w, xs) ->
  nth_error (hp (strs w)) b = Some (Counted cs k) -> k = Z.of_nat (refs b (named w)) /\ 0 < k.
Proof. intros H E. apply wrel_counters with (t := t). exact (reached _ _ _ _ _ _ _ H E). Qed.
Lemma list_buffers n m os t rs w xs : prun (pstart n m) os = Ok (t, rs) -> SlModel.run (start_world n m) os = Ok (w, xs) ->
  forall p, In p (live (mem w)) <-> exists l x, nth_error (lists w) l = Some (Some x) /\ room x <> 0 /\ p = (base x, room x).
Proof. intros H E. destruct (reached _ _ _ _ _ _ _ H E) as (vs & ys & _ & _ & _ & Lv). exact Lv. Qed.
Lemma list_no_leak n m os t rs w xs : prun (pstart n m) os = Ok (t, rs) -> SlModel.run (start_world n m) os = Ok (w, xs) ->
  Forall (fun v => v = None) (pvars t) -> Forall (fun l => l = None) (plists t) ->
  live (mem w) = [] /\ forall b cs k, nth_error (hp (strs w)) b <> Some (Counted cs k).
Proof.
  intros H E H1 H2. split; [|exact (wrel_no_leak w t (reached _ _ _ _ _ _ _ H E) H1 H2)].
  destruct (live (mem w)) as [|p L] eqn:EL; [reflexivity|exfalso].
  destruct (proj1 (list_buffers _ _ _ _ _ _ _ H E p)) as (l & x & Ex & _); [rewrite EL; now left|].
  pose proof (wrel_shows _ _ (reached _ _ _ _ _ _ _ H E)) as (_ & _ & F). pose proof (LstProofs.Forall2_nth _ _ _ l F) as K.
  rewrite Ex in K. destruct (nth_error (plists t) l) as [q|] eqn:Eq; [|contradiction].
  rewrite Forall_forall in H2. rewrite (H2 q (nth_error_In _ _ Eq)) in K. exact K.
Qed.
