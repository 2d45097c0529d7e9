From Coq Require Import ZifyBool ZifyNat.
From Verif Require Import Base BaseFacts PgrModel PgrSpec PgrProofs PgrProofs2 PgrProofs3.
Open Scope nat_scope.

Lemma take_sums t p y r : work t = [] -> fin t = RNone -> y < length (vars t) ->
  (forall q, fref q r = 0) -> let t' := mkT (upd (vars t) y None) p (dec_of (getv (vars t) y)) r in
  (forall o, hv o t' = hv o t) /\ same_tasks t t' /\ free_slot t' y.
Proof.
  intros Ew Ef Hy Hr. destruct (nth_error (vars t) y) as [v|] eqn:E; [|apply nth_error_None in E; lia].
  cbv zeta. split; [|split].
  - intros o. unfold hv. cbn [vars work fin]. rewrite Hr, Ew, Ef, sum_nil. destruct (dec_of_sums o (getv (vars t) y)) as (-> & _).
    pose proof (occ_upd o _ _ _ None E) as Q. rewrite (getv_nth _ _ _ E). cbn [one fref] in *. lia.
  - intros o. unfold tc, td, tf. cbn [work]. rewrite Ew, !sum_nil. destruct (dec_of_sums o (getv (vars t) y)) as (_ & -> & -> & ->). auto.
  - unfold free_slot. cbn [vars]. now apply upd_same.
Qed.
Lemma no_self_tl s p : no_self (s :: p) -> no_self p.
Proof. intros H x f. destruct (H x f) as [A B]. cbn [In] in *. tauto. Qed.
Lemma existsb_nth {A} (g : A -> bool) l j x : existsb g l = false -> nth_error l j = Some x -> g x = false.
Proof.
  intros H E. destruct (g x) eqn:Eg; auto. exfalso. assert (existsb g l = true); [|congruence].
  apply existsb_exists. exists x. split; auto. eapply nth_error_In; eauto.
Qed.
Lemma existsb_nth_ex {A} (g : A -> bool) l : existsb g l = true -> exists j x, nth_error l j = Some x /\ g x = true.
Proof. intros H. apply existsb_exists in H. destruct H as (x & H & K). apply In_nth_error in H. destruct H as [j H]. eauto. Qed.
Lemma in_upd_other (l : list (option nat)) x y v o : x <> y -> getv l x = Some o -> In (Some o) (upd l y v).
Proof. intros N E. apply getv_some in E. eapply nth_error_In with (n := x). now rewrite upd_other by auto. Qed.

Lemma stmt_ok w i t s p : inv w -> nth_error (ths w) i = Some t -> work t = [] -> fin t = RNone -> prog t = s :: p ->
  (exists w', do_stmt w i t s p = Ok w' /\ inv w') \/ (do_stmt w i t s p = Err /\ race w i).
Proof.
  intros I Et Ew Ef Ep. pose proof (i_self w I _ _ Et) as Sf. rewrite Ep in Sf. pose proof (no_self_tl _ _ Sf) as Sp.
  assert (forall o f, uses_cell o f t = false) as Nu by (intros; unfold uses_cell; now rewrite Ef).
  assert (forall r, (forall q, fref q r = 0) -> forall o, hv o (mkT (vars t) p [] r) = hv o t) as HV.
  { intros r Hr o. unfold hv. cbn [vars work fin]. rewrite Hr, Ew, Ef. reflexivity. }
  assert (forall v r, same_tasks t (mkT v p [] r)) as ST by (intros v r o; unfold tc, td, tf; cbn [work]; rewrite Ew; auto).
  assert (exists w', Ok (sett w i (mkT (vars t) p [] RNone)) = Ok w' /\ inv w') as Sk.
  { eexists. split; [reflexivity|]. apply same_step with (t := t); auto. exact Logic.I. apply excl_none. reflexivity. }
  assert (forall j u g, nth_error (ths w) j = Some u -> g u = true -> (forall o f, uses_cell o f t = false) -> (g u = true -> exists o f, uses_cell o f u = true) -> i <> j) as Ne.
  { intros j u g Eu Hg _ Hx ->. destruct (Hx Hg) as (o & f & K). rewrite Et in Eu. injection Eu as ->. now rewrite Nu in K. }
  destruct s as [y ms|y x|y x|y|y x f|x f y|y x f|x]; unfold do_stmt.
  - left. destruct (Nat.ltb_spec y (length (vars t))) as [Hy|Hy]; [|exact Sk]. eexists. split; [reflexivity|]. apply same_step with (t := t); auto.
    apply excl_none. reflexivity.
  - left. destruct (Nat.ltb_spec y (length (vars t))) as [Hy|Hy]; [|exact Sk]. destruct (Nat.eqb_spec y x) as [->|N]; [exact Sk|]. cbn [andb negb].
    destruct (take_sums t p y (RCopy y x) Ew Ef Hy (fun _ => eq_refl)) as (A & B & C). eexists. split; [reflexivity|].
    apply same_step with (t := t); auto. apply excl_none. reflexivity.
  - left. destruct (Nat.ltb_spec y (length (vars t))) as [Hy|Hy]; [|exact Sk]. destruct (Nat.eqb_spec y x) as [->|N]; [exact Sk|]. cbn [andb negb].
    destruct (take_sums t p y (RMove y x) Ew Ef Hy (fun _ => eq_refl)) as (A & B & C). eexists. split; [reflexivity|].
    apply same_step with (t := t); auto. { split; auto. } apply excl_none. reflexivity.
  - left. destruct (Nat.ltb_spec y (length (vars t))) as [Hy|Hy]; [|exact Sk].
    destruct (take_sums t p y RNone Ew Ef Hy (fun _ => eq_refl)) as (A & B & C). eexists. split; [reflexivity|].
    apply same_step with (t := t); auto. { exact Logic.I. } apply excl_none. reflexivity.
  - destruct (getv (vars t) x) as [o|] eqn:Ex; [|left; exact Sk].
    destruct (held_obj w i t o I Et (hv_held _ _ (getv_in _ _ _ Ex))) as (n & c & E0). unfold deref. rewrite E0. cbn [lf bind cells].
    destruct (Nat.ltb_spec y (length (vars t))) as [Hy|Hy]; [|left; exact Sk]. destruct (Nat.ltb_spec f (length c)) as [Hf|Hf]; [|left; exact Sk]. cbn [andb].
    destruct (existsb (writes_cell o f) (ths w)) eqn:R.
    + right. split; [reflexivity|]. apply existsb_nth_ex in R. destruct R as (j & u & Eu & Ru).
      exists j, t, u, (Load y x f), p, o, f, false. cbn [access]. rewrite Ex. pose proof (writes_uses _ _ _ Ru).
      split; [|repeat split; auto]. apply (Ne j u (writes_cell o f)); eauto.
    + left. destruct (take_sums t p y (RRead y o f) Ew Ef Hy (fun _ => eq_refl)) as (A & B & C). eexists. split; [reflexivity|].
      apply same_step with (t := t); auto.
      * split; [exact C|]. cbn [vars]. apply in_upd_other with (x := x); auto. intros ->. destruct (Sf y f) as [X _]. apply X. now left.
      * intros j u o' f' Nj Eu. unfold writes_cell at 1, uses_cell at 2. cbn [fin]. split; [discriminate|].
        intros K. apply andb_true_iff in K. destruct K as [K1 K2]. apply Nat.eqb_eq in K1, K2. subst. eapply existsb_nth; eauto.
  - destruct (getv (vars t) x) as [o|] eqn:Ex; [|left; exact Sk].
    destruct (held_obj w i t o I Et (hv_held _ _ (getv_in _ _ _ Ex))) as (n & c & E0). unfold deref. rewrite E0. cbn [lf bind cells].
    destruct (Nat.ltb_spec y (length (vars t))) as [Hy|Hy]; [|left; exact Sk]. destruct (Nat.ltb_spec f (length c)) as [Hf|Hf]; [|left; exact Sk]. cbn [andb].
    destruct (existsb (uses_cell o f) (ths w)) eqn:R.
    + right. split; [reflexivity|]. apply existsb_nth_ex in R. destruct R as (j & u & Eu & Ru).
      exists j, t, u, (Store x f y), p, o, f, true. cbn [access]. rewrite Ex.
      split; [|repeat split; auto]. apply (Ne j u (uses_cell o f)); eauto.
    + left. eexists. split; [reflexivity|].
      destruct (nth_error c f) as [v|] eqn:Ec; [|apply nth_error_None in Ec; lia].
      apply cell_step with (t := t) (v := v); auto.
      * intros q. unfold hv. cbn [vars work fin]. rewrite Ew, Ef, sum_nil. destruct (dec_of_sums q (getv c f)) as (-> & _).
        rewrite (getv_nth _ _ _ Ec). cbn [one fref]. lia.
      * intros q. unfold tc, td, tf. cbn [work]. rewrite Ew, !sum_nil. destruct (dec_of_sums q (getv c f)) as (_ & -> & -> & ->). auto.
      * intros j u Nj Eu. eapply existsb_nth; eauto.
      * unfold good. cbn [fin vars]. split; [eapply getv_in; eauto|]. unfold seto. cbn [heap]. rewrite upd_same by (eapply nth_error_lt; eauto).
        eexists. split; [reflexivity|]. cbn [setcell cells]. now apply upd_same.
      * intros j u o' f' Nj Eu. unfold writes_cell at 1, uses_cell at 2. cbn [fin].
        split; intros K; apply andb_true_iff in K; destruct K as [K1 K2]; apply Nat.eqb_eq in K1, K2; subst.
        -- eapply existsb_nth; eauto.
        -- destruct (writes_cell o f u) eqn:E; auto. apply writes_uses in E. rewrite (existsb_nth _ _ _ _ R Eu) in E. discriminate.
  - destruct (getv (vars t) x) as [o|] eqn:Ex; [|left; exact Sk].
    destruct (held_obj w i t o I Et (hv_held _ _ (getv_in _ _ _ Ex))) as (n & c & E0). unfold deref. rewrite E0. cbn [lf bind cells].
    destruct (Nat.ltb_spec y (length (vars t))) as [Hy|Hy]; [|left; exact Sk]. destruct (Nat.ltb_spec f (length c)) as [Hf|Hf]; [|left; exact Sk]. cbn [andb].
    destruct (existsb (uses_cell o f) (ths w)) eqn:R.
    + right. split; [reflexivity|]. apply existsb_nth_ex in R. destruct R as (j & u & Eu & Ru).
      exists j, t, u, (Take y x f), p, o, f, true. cbn [access]. rewrite Ex.
      split; [|repeat split; auto]. apply (Ne j u (uses_cell o f)); eauto.
    + left. destruct (take_sums t p y (RTake y o f) Ew Ef Hy (fun _ => eq_refl)) as (A & B & C). eexists. split; [reflexivity|].
      destruct (nth_error c f) as [v|] eqn:Ec; [|apply nth_error_None in Ec; lia].
      apply same_step with (t := t); auto.
      * split; [exact C|]. cbn [vars]. split; [apply in_upd_other with (x := x); auto; intros ->; destruct (Sf y f) as [_ X]; apply X; now left|].
        eexists. split; [exact E0|]. eauto.
      * intros j u o' f' Nj Eu. unfold writes_cell at 1, uses_cell at 2. cbn [fin].
        split; intros K; apply andb_true_iff in K; destruct K as [K1 K2]; apply Nat.eqb_eq in K1, K2; subst.
        -- eapply existsb_nth; eauto.
        -- destruct (writes_cell o f u) eqn:E; auto. apply writes_uses in E. rewrite (existsb_nth _ _ _ _ R Eu) in E. discriminate.
  - destruct (getv (vars t) x) as [o|] eqn:Ex; [|left; exact Sk].
    destruct (held_obj w i t o I Et (hv_held _ _ (getv_in _ _ _ Ex))) as (n & c & E0). unfold deref. rewrite E0. cbn [lf bind]. left. exact Sk.
Qed.
Lemma step_ok w i : inv w -> (exists w', tstep w i = Ok w' /\ inv w') \/ (tstep w i = Err /\ race w i).
Proof.
  intros I. unfold tstep. destruct (nth_error (ths w) i) as [t|] eqn:Et; [|eauto].
  destruct (work t) as [|a k] eqn:Ew; [|left; eapply task_ok; eauto].
  destruct (fin t) eqn:Ef; try (left; eapply rest_ok; eauto).
  destruct (prog t) as [|s p] eqn:Ep; [eauto|]. eapply stmt_ok; eauto.
Qed.
Lemma run_ok sched : forall w, inv w ->
  (exists w', prun w sched = Ok w' /\ inv w') \/
  (prun w sched = Err /\ exists a i b w', sched = a ++ i :: b /\ prun w a = Ok w' /\ inv w' /\ race w' i).
Proof.
  induction sched as [|i sched IH]; intros w I; cbn [prun]; [eauto|].
  destruct (step_ok w i I) as [(w' & E1 & I')|(E1 & R)]; rewrite E1; cbn [bind].
  - destruct (IH w' I') as [H|(E & a & j & b & w2 & -> & H & I2 & R)]; [auto|]. right. split; [exact E|].
    exists (i :: a), j, b, w2. split; [reflexivity|]. cbn [prun]. rewrite E1. cbn [bind]. auto.
  - right. split; [reflexivity|]. exists [], i, sched, w. auto.
Qed.

(* ---- where a run starts ---- *)
Lemma combine_nth {A} (g : list A) : forall k o, nth_error (combine (seq k (length g)) g) o =
  match nth_error g o with Some c => Some (k + o, c) | None => None end.
Proof.
  induction g as [|c g IH]; intros k [|o]; cbn [length seq combine nth_error]; auto.
  - now rewrite Nat.add_0_r.
  - rewrite IH. destruct (nth_error g o); auto. do 2 f_equal. lia.
Qed.
Lemma sum_map {A B} (f : B -> nat) (g : A -> B) l : sum f (map g l) = sum (fun x => f (g x)) l.
Proof. unfold sum. induction l as [|x l IH]; cbn [map fold_right]; congruence. Qed.
Lemma sum_ext {A} (f g : A -> nat) l : (forall x, f x = g x) -> sum f l = sum g l.
Proof. intros H. unfold sum. induction l as [|x l IH]; cbn [fold_right]; congruence. Qed.
Lemma sum_zero {A} (f : A -> nat) l : (forall x, In x l -> f x = 0) -> sum f l = 0.
Proof. intros H. unfold sum. induction l as [|x l IH]; cbn [fold_right]; auto. rewrite H, IH; auto; [|now left]. intros; apply H; now right. Qed.
Lemma sum_pos {A} (f : A -> nat) l : 1 <= sum f l -> exists x, In x l /\ 1 <= f x.
Proof.
  unfold sum. induction l as [|x l IH]; cbn [fold_right]; [lia|]. intros H. destruct (f x) eqn:E; [|exists x; split; [now left|lia]].
  destruct (IH H) as (y & A1 & A2). exists y. split; [now right|auto].
Qed.
Lemma sum_In {A} (f : A -> nat) l x : In x l -> f x <= sum f l.
Proof. intros H. apply In_nth_error in H. destruct H as [i H]. eapply sum_in; eauto. Qed.
Lemma sum_combine {A} (f : A -> nat) g : forall k, sum (fun p => f (snd p)) (combine (seq k (length g)) g) = sum f g.
Proof. unfold sum. induction g as [|c g IH]; intros k; cbn [length seq combine fold_right snd]; auto. Qed.

Lemma start_heap g l o : nth_error (heap (start g l)) o =
  match nth_error g o with
  | Some c => Some (mkO (Some (Z.of_nat (sum (fun c => occ o c) g + sum (fun t => occ o (fst t)) l))) Alive c)
  | None => None
  end.
Proof.
  unfold start. cbn [heap]. rewrite nth_error_map, combine_nth. destruct (nth_error g o); reflexivity.
Qed.
Lemma start_inv g l : wf g l -> Forall (fun t => no_self (snd t)) l -> inv (start g l).
Proof.
  intros (W1 & W2 & W3) Ns. constructor.
  - intros o. rewrite start_heap. unfold start. cbn [heap ths log]. unfold ce. rewrite !sum_map.
    rewrite (sum_ext (fun x => occ o (cells _)) (fun p => occ o (snd p))) by reflexivity.
    rewrite (sum_combine (fun c => occ o c) g 0).
    rewrite (sum_ext (fun x => hv o _) (fun t => occ o (fst t))) by (intros; unfold hv; cbn [vars work fin fref]; rewrite sum_nil; lia).
    rewrite (sum_zero (fun x => tc o _)), (sum_zero (fun x => td o _)), (sum_zero (fun x => tf o _)) by reflexivity.
    destruct (nth_error g o) as [c|] eqn:E; cbn [okb lf cnt].
    + assert (o < length g) as Lo by (eapply nth_error_lt; eauto). cbn [lc count_occ].
      assert (1 <= sum (fun c => occ o c) g + sum (fun t => occ o (fst t)) l) as P.
      { destruct (W3 o Lo) as [(c' & A & B)|(t & A & B)]; apply occ_in in B.
        - pose proof (sum_In (fun c => occ o c) _ _ A). cbv beta in *. lia.
        - pose proof (sum_In (fun t => occ o (fst t)) _ _ A). cbv beta in *. lia. }
      unfold lc. cbn [count_occ]. lia.
    + apply nth_error_None in E. unfold lc. cbn [count_occ].
      enough (sum (fun t => occ o (fst t)) l = 0 /\ sum (fun c => occ o c) g = 0) by lia.
      split; apply sum_zero; intros x Hx; destruct (Nat.eq_dec (occ o (fst x)) 0) as [?|N] || destruct (Nat.eq_dec (occ o x) 0) as [?|N]; auto; exfalso.
      * assert (In (Some o) (fst x)) as K by (apply occ_in; lia). specialize (W2 _ _ Hx K). lia.
      * assert (In (Some o) x) as K by (apply occ_in; lia). specialize (W1 _ _ Hx K). lia.
  - intros i t E. unfold start in E. cbn [ths] in E. rewrite nth_error_map in E. destruct (nth_error l i); [|discriminate]. injection E as <-. exact Logic.I.
  - intros i j s t o f N Es _. unfold start in Es. cbn [ths] in Es. rewrite nth_error_map in Es. destruct (nth_error l i); [|discriminate]. injection Es as <-. discriminate.
  - intros i t E. unfold start in E. cbn [ths] in E. rewrite nth_error_map in E. destruct (nth_error l i) eqn:El; [|discriminate]. injection E as <-. cbn [prog].
    rewrite Forall_forall in Ns. apply Ns. eapply nth_error_In; eauto.
Qed.

(* ---- the claims ---- *)
Lemma inv_intact w : inv w -> intact w.
Proof.
  intros I. repeat split.
  - intros t o Ht Ho. apply In_nth_error in Ht. destruct Ht as [i Ht].
    destruct (held_obj w i t o I Ht (hv_held _ _ Ho)) as (n & c & E). eexists. split; [exact E|reflexivity].
  - intros b o Hb Ho. apply In_nth_error in Hb. destruct Hb as [i Hb].
    destruct (held_cell w i b o I Hb Ho) as (n & c & E). eexists. split; [exact E|reflexivity].
  - apply (NoDup_count_occ Nat.eq_dec). intros o. pose proof (i_obj w I o) as K. unfold lc in K.
    destruct (nth_error (heap w) o) as [[[n|] [] c]|]; cbn [okb lf cnt] in K; lia.
  - intros H. apply (count_occ_In Nat.eq_dec) in H. pose proof (i_obj w I o) as K. unfold lc in K.
    destruct (nth_error (heap w) o) as [[[n|] [] c]|]; cbn [okb lf cnt] in K; try lia. eexists. split; reflexivity.
  - intros (b & E & L). apply (count_occ_In Nat.eq_dec). pose proof (i_obj w I o) as K. unfold lc in K. rewrite E in K.
    destruct b as [[n|] lb c]; cbn [lf] in L; subst; cbn [okb lf cnt] in K; lia.
Qed.
Lemma pgr_safe g l sched : wf g l -> Forall (fun t => no_self (snd t)) l ->
  (exists w, prun (start g l) sched = Ok w /\ intact w) \/
  (prun (start g l) sched = Err /\ exists a i b w, sched = a ++ i :: b /\ prun (start g l) a = Ok w /\ race w i).
Proof.
  intros W N. destruct (run_ok sched _ (start_inv g l W N)) as [(w & E & I)|(E & a & i & b & w & H1 & H2 & _ & H3)].
  - left. exists w. split; [exact E|]. now apply inv_intact.
  - right. split; [exact E|]. eauto 8.
Qed.
Lemma quiet_sums w o : quiet w -> sum (hv o) (ths w) = sum (fun t => occ o (vars t)) (ths w) /\
  sum (tc o) (ths w) = 0 /\ sum (td o) (ths w) = 0 /\ sum (tf o) (ths w) = 0.
Proof.
  unfold quiet. rewrite Forall_forall. intros Q. repeat split.
  - unfold sum. induction (ths w) as [|t l IH]; cbn [fold_right]; auto. rewrite IH by (intros; apply Q; now right).
    destruct (Q t (or_introl eq_refl)) as [Q1 Q2]. unfold hv at 1. rewrite Q1, Q2, sum_nil. cbn [fref]. lia.
  - apply sum_zero. intros t Ht. unfold tc. now rewrite (proj1 (Q t Ht)).
  - apply sum_zero. intros t Ht. unfold td. now rewrite (proj1 (Q t Ht)).
  - apply sum_zero. intros t Ht. unfold tf. now rewrite (proj1 (Q t Ht)).
Qed.
Lemma inv_quiet w o : inv w -> quiet w -> o < length (heap w) ->
  (exists_now w o /\ counter_is w o (pointers w o) /\ 1 <= pointers w o) \/ (In o (log w) /\ pointers w o = 0).
Proof.
  intros I Q Lo. destruct (quiet_sums w o Q) as (Q1 & Q2 & Q3 & Q4). pose proof (i_obj w I o) as K. rewrite Q1, Q2, Q3, Q4 in K. fold (pointers w o) in K.
  change (sum (fun t => occ o (vars t)) (ths w) + ce (heap w) o) with (pointers w o) in K.
  destruct (nth_error (heap w) o) as [[[n|] [] c]|] eqn:E; cbn [okb lf cnt] in K; try contradiction; try lia.
  - left. split; [eexists; split; [exact E|reflexivity]|]. split; [|lia]. eexists. split; [exact E|]. cbn [cnt]. f_equal. lia.
  - right. split; [|lia]. apply (count_occ_In Nat.eq_dec). unfold lc in K. lia.
  - apply nth_error_None in E. lia.
Qed.
Lemma run_inv g l sched w : wf g l -> Forall (fun t => no_self (snd t)) l -> prun (start g l) sched = Ok w -> inv w.
Proof.
  intros W N E. destruct (run_ok sched _ (start_inv g l W N)) as [(w' & E' & I)|(E' & _)]; [|congruence].
  rewrite E in E'. now injection E' as ->.
Qed.
Lemma pgr_quiet g l sched w o : wf g l -> Forall (fun t => no_self (snd t)) l -> prun (start g l) sched = Ok w -> quiet w -> o < length (heap w) ->
  (exists_now w o /\ counter_is w o (pointers w o) /\ 1 <= pointers w o) \/ (In o (log w) /\ pointers w o = 0).
Proof. intros W N E. eapply inv_quiet. eapply run_inv; eauto. Qed.
