From Verif Require Import Base BaseFacts SrtSpec LzyModel LzySpec LzyProofs LzeModel LzeSpec LzeProofs.
Open Scope Z_scope.

Section Build.
Context {V St : Type}.
Notation process := (proc V St).
Notation enum := (LzeModel.enum V St).
Notation pipe := (LzeModel.pipe V St).

Lemma pipe_ind2 (P : pipe -> Prop)
  (H1 : P PEmpty) (H2 : forall l, P (PList l)) (H3 : forall l, P (POnce l))
  (H4 : forall p, P p -> forall f, P (PSelect p f)) (H5 : forall p, P p -> forall q, P (PWhere p q))
  (H6 : forall p1, P p1 -> forall p2, P p2 -> P (PConcat p1 p2)) (H7 : forall p, P p -> forall n, P (PTake p n))
  (H8 : forall p, P p -> forall n, P (PSkip p n)) (H9 : forall p, P p -> forall n, P (PRepeat p n))
  (H10 : forall c p, P p -> P (PDistinct c p)) (H11 : forall p, P p -> P (PReverse p))
  (H12 : forall j p1, P p1 -> forall p2, P p2 -> P (PPairwise j p1 p2))
  (H13 : forall c p1, P p1 -> forall p2, P p2 -> P (PIntersect c p1 p2))
  (H14 : forall c p1, P p1 -> forall p2, P p2 -> P (PExcept c p1 p2))
  (H15 : forall c p1, P p1 -> forall p2, P p2 -> P (PUnion c p1 p2)) (H16 : forall p, P p -> forall b, P (PEvaluate p b))
  (H17 : forall p, P p -> forall f, (forall v s, match f v s with (_, Some q) => P q | (_, None) => True end) -> P (PMany p f)) :
  forall p, P p.
Proof.
  fix IH 1. intros [| | | | | | | | | | | | | | | |]; [apply H1|apply H2|apply H3|apply H4|apply H5|apply H6|apply H7|apply H8|apply H9|apply H10|apply H11|apply H12|apply H13|apply H14|apply H15|apply H16|apply H17]; try apply IH.
  intros v s. destruct (f v s) as [s1 [q|]]; [apply IH|exact I].
Qed.

(* ---- lists that can be read without calling functions ----------------------------------- *)
Lemma of_and l m : and_then (of_list l) (of_list m) = of_list (l ++ m) :> process.
Proof. induction l as [|v l IH]; cbn [of_list and_then app]; congruence. Qed.
Lemma of_take l : forall n, taking n (of_list l) = of_list (firstn n l) :> process.
Proof. induction l as [|v l IH]; intros [|n]; cbn [of_list taking firstn]; congruence. Qed.
Lemma of_skip l : forall n, skipping n (of_list l) = of_list (skipn n l) :> process.
Proof. induction l as [|v l IH]; intros [|n]; cbn [of_list skipping skipn]; congruence. Qed.
Lemma of_again l n : again n (of_list l) = of_list (concat (repeat l n)) :> process.
Proof. induction n as [|n IH]; cbn [again repeat concat of_list]; auto. now rewrite IH, of_and. Qed.
Lemma of_pair j l : forall m, pairing j (of_list l) (of_list m) = of_list (map (fun vw => j (fst vw) (snd vw)) (combine l m)) :> process.
Proof. induction l as [|v l IH]; intros [|w m]; cbn [of_list pairing combine map fst snd]; congruence. Qed.
Lemma of_collect l (s : St) : collect (of_list l) s = (s, Some (l : list V)).
Proof. induction l as [|v l IH]; cbn [of_list collect]; auto. now rewrite IH. Qed.

Definition goes (a : process) (rw pl : Prop) (e : enum) : Prop :=
  exists i0 rs, tracks a i0 rs e /\ (pl -> i0 = -1) /\ (rw -> rs = true) /\ (evaluated e = true -> exists l, a = of_list l).
Definition good (p : pipe) (s : St) : Prop :=
  match meaning p s with
  | (s', Some a) => exists e, yields (fun f => build f p s) (Some e, s') /\ goes a (rewinds p) (plain p = true) e
  | (s', None) => yields (fun f => build f p s) (None, s')
  end.
Lemma y_built (F : nat -> built V St) (K : nat -> enum -> St -> built V St) o s r :
  yields F (o, s) -> yields (fun f => match o with Some e => K f e s | None => Ok (None, s) end) r -> yields (fun f => on_built (F f) (K f)) r.
Proof. intros HF HK. unfold on_built. eapply y_bind; [exact HF|]. exact HK. Qed.
Lemma y_list (F : nat -> res (option (list V) * St)) (K : nat -> list V -> St -> built V St) o s r :
  yields F (o, s) -> yields (fun f => match o with Some l => K f l s | None => Ok (None, s) end) r -> yields (fun f => on_list (F f) (K f)) r.
Proof. intros HF HK. unfold on_list. eapply y_bind; [exact HF|]. exact HK. Qed.
Lemma drain_tracks (a : process) i0 rs e s : tracks a i0 rs e -> yields (fun f => drain f e s) (snd (collect a s), fst (collect a s)).
Proof. intros (P & HS & H). eapply drain_sim; eauto. Qed.
Lemma filter_same (g h : V -> bool) (p : process) i0 rs e : (forall v, g v = h v) -> tracks (filtering g p) i0 rs e -> tracks (filtering h p) i0 rs e.
Proof.
  intros E (P & HS & H).
  assert (PE : forall q : process, forall s, match pull (filtering h q) s with (Value v r, s') => exists q', r = filtering h q' /\ pull (filtering g q) s = (Value v (filtering g q'), s') | x => pull (filtering g q) s = x end).
  { intros q. induction q as [|v q IH|X c k IH]; intros s; cbn [filtering pull]; auto.
    - rewrite E. destruct (h v); cbn [pull]; eauto. apply IH.
    - destruct (c s) as [s1 [x|]]; auto. apply IH. }
  exists (fun o e => match o with Some (k, q) => exists q', q = filtering h q' /\ P (Some (k, filtering g q')) e | None => P None e end). split; [constructor|].
  - exact (s_start _ _ _ _ HS).
  - intros k q e' s (q' & -> & HP). pose proof (s_next _ _ _ _ HS k _ e' s HP) as N. specialize (PE q' s). destruct (pull (filtering h q') s) as [[|v r|] s1].
    + now rewrite PE in N.
    + destruct PE as (q2 & -> & PE). rewrite PE in N. destruct N as (e1 & Y & C & HP1). exists e1. eauto 6.
    + now rewrite PE in N.
  - intros k q e' (q' & -> & HP). exact (s_idx _ _ _ _ HS _ _ _ HP).
  - intros R o e' HP. assert (X : exists o, P o e') by (destruct o as [[k q]|]; [destruct HP as (q' & _ & HP)|]; eauto). destruct X as (o' & HP').
    destruct (s_reset _ _ _ _ HS R _ _ HP') as (e1 & E1 & HP1). eauto 6.
  - eauto.
Qed.

(* ---- SelectMany --------------------------------------------------------------------------- *)
Lemma pull_parts f (p : process) : forall s, parts f p s =
  match pull p s with
  | (Ended, s1) => (s1, Some [])
  | (Value v p', s1) => bindm (f v s1) (fun a s => bindm (parts f p' s) (fun l => ret (a :: l)))
  | (Thrown, s1) => (s1, None)
  end.
Proof. induction p as [|v p IH|X c k IH]; intros s; cbn [parts pull]; auto. destruct (c s) as [s1 [x|]]; cbn [bindm]; auto. Qed.
Definition yields2 {X : Type} (F : nat -> nat -> res X) (r : X) : Prop := exists N, forall n m, (N <= n)%nat -> (N <= m)%nat -> F n m = Ok r.
Lemma y2_step X (F G : nat -> nat -> res X) r : (forall n m, F (S n) m = G n m) -> yields2 G r -> yields2 F r.
Proof. intros E [N H]. exists (S N). intros [|n] m Hn Hm; [lia|]. rewrite E. apply H; lia. Qed.
Lemma y2_left X Y (F : nat -> res X) (G : nat -> nat -> X -> res Y) a b : yields F a -> yields2 (fun n m => G n m a) b -> yields2 (fun n m => bind (F n) (G n m)) b.
Proof. intros [N H] [M K]. exists (Nat.max N M). intros n m Hn Hm. rewrite H by lia. cbn [bind]. apply K; lia. Qed.
Lemma y2_right X Y (F : nat -> res X) (G : nat -> nat -> X -> res Y) a b : yields F a -> yields2 (fun n m => G n m a) b -> yields2 (fun n m => bind (F m) (G n m)) b.
Proof. intros [N H] [M K]. exists (Nat.max N M). intros n m Hn Hm. rewrite H by lia. cbn [bind]. apply K; lia. Qed.
Lemma y2_ret X (r : X) : yields2 (fun _ _ => Ok r) r.
Proof. exists 0%nat. auto. Qed.
Lemma y2_same X (F : nat -> nat -> res X) r : yields2 F r -> yields (fun f => F f f) r.
Proof. intros [N H]. exists N. intros f Hf. apply H; lia. Qed.

Section Gather.
Context (mk : V -> St -> St * option process) (MK : nat -> V -> St -> built V St) (rw : Prop).
Context (MKOK : forall v s, match mk v s with
  | (s', Some b) => exists e, yields (fun f => MK f v s) (Some e, s') /\ goes b rw False e
  | (s', None) => yields (fun f => MK f v s) (None, s') end).
Lemma gather_sim p0 i0 rs0 P (HS : sim (V:=V) (St:=St) p0 i0 rs0 P) p : forall k e s a acc, P (Some (k, p)) e -> goes a rw True acc ->
  match parts mk p s with
  | (s', Some l) => exists e', yields2 (fun n m => gather n (MK m) acc e s) (Some e', s') /\ goes (fold_left and_then l a) rw True e'
  | (s', None) => yields2 (fun n m => gather n (MK m) acc e s) (None, s')
  end.
Proof.
  induction p as [p IH] using (well_founded_induction later_wf). intros k e s a acc HP HA. rewrite pull_parts.
  pose proof (s_next _ _ _ _ HS k p e s HP) as N. destruct (pull p s) as [[|v p'|] s1] eqn:EP.
  - destruct N as (e1 & Y & _). exists acc. split; [|exact HA]. eapply y2_step; [intros n m; cbn [gather]; reflexivity|]. eapply y2_left; [exact Y|]. apply y2_ret.
  - destruct N as (e1 & Y & C & HP1). pose proof (MKOK v s1) as M. destruct (mk v s1) as [s2 [b|]]; cbn [bindm].
    + destruct M as (e2 & YM & i2 & r2 & T2 & _ & R2 & E2). destruct HA as (i1 & r1 & T1 & I1 & R1 & E1).
      specialize (IH p' (ex_intro _ s (ex_intro _ v (ex_intro _ s1 EP))) (S k) e1 s2 (and_then a b) (EConcat acc e2 (-1) false) HP1).
      assert (G : goes (and_then a b) rw True (EConcat acc e2 (-1) false)).
      { exists (-1), (r1 && r2). split; [eapply t_concat; eauto|]. split; [auto|]. split; [intros R; now rewrite R1, R2|]. cbn [evaluated]. intros EV. apply andb_prop in EV.
        destruct EV as [EA EB]. destruct (E1 EA) as (la & ->). destruct (E2 EB) as (lb & ->). exists (la ++ lb). apply of_and. }
      specialize (IH G). assert (ST : forall r, yields2 (fun n m => gather n (MK m) (EConcat acc e2 (-1) false) e1 s2) r -> yields2 (fun n m => gather n (MK m) acc e s) r).
      { intros r Hr. eapply y2_step; [intros n m; cbn [gather]; reflexivity|]. eapply y2_left; [exact Y|]. cbv beta iota. rewrite C. cbn [bind]. unfold on_built. eapply y2_right; [exact YM|]. exact Hr. }
      destruct (parts mk p' s2) as [s3 [l|]]; cbn [bindm ret].
      * destruct IH as (e' & Y' & G'). exists e'. split; auto.
      * auto.
    + eapply y2_step; [intros n m; cbn [gather]; reflexivity|]. eapply y2_left; [exact Y|]. cbv beta iota. rewrite C. cbn [bind]. unfold on_built. eapply y2_right; [exact M|]. apply y2_ret.
  - destruct N as (e1 & Y). eapply y2_step; [intros n m; cbn [gather]; reflexivity|]. eapply y2_left; [exact Y|]. apply y2_ret.
Qed.
End Gather.

Lemma goes_weaken a (rw rw' pl pl' : Prop) e : (rw' -> rw) -> (pl' -> pl) -> goes a rw pl e -> goes a rw' pl' e.
Proof. intros R L (i0 & rs & T & I & K & E). exists i0, rs. split; auto. Qed.
Lemma goes_ev a (rw pl : Prop) e i0 rs : evaluated e = false -> tracks a i0 rs e -> (pl -> i0 = -1) -> (rw -> rs = true) -> goes a rw pl e.
Proof. intros E T I R. exists i0, rs. split; auto. split; auto. split; auto. congruence. Qed.

Ltac under IH SO s s1 a e Y := specialize (IH SO s); unfold good in IH; destruct (meaning _ s) as [s1 [a|]]; cbn [bindm ret]; [destruct IH as (e & Y & IH)|eapply y_built; [exact IH|apply y_ret]].
Ltac under2 IH SO s s1 a e Y Y1 := specialize (IH SO s); unfold good in IH; destruct (meaning _ s) as [s1 [a|]]; cbn [bindm ret]; [destruct IH as (e & Y & IH)|eapply y_built; [exact Y1|eapply y_built; [exact IH|apply y_ret]]].

Lemma build_ok p : sound p -> forall s, good p s.
Proof.
  induction p using pipe_ind2; intros SO s; cbn [sound] in SO; unfold good; cbn [meaning rewinds plain].
  - exists EEmpty. split; [apply y_ret|]. exists (-1), true. split; [apply t_empty|]. split; auto. split; auto. intros _. now exists [].
  - exists (ECont l (-1)). split; [apply y_ret|]. exists (-1), true. split; [exact (t_list l false)|]. eauto.
  - exists (EOnce l (-1)). split; [apply y_ret|]. exists (-1), false. split; [exact (t_list l true)|]. split; auto. split; [intros []|eauto].
  - under IHp SO s s1 a e Y. destruct IHp as (i0 & rs & T & I & R & E). exists (ESelect e f None). split; [eapply y_built; [exact Y|apply y_ret]|].
    eapply goes_ev; eauto using t_select.
  - under IHp SO s s1 a e Y. destruct IHp as (i0 & rs & T & I & R & E). exists (EWhere e q (-1)). split; [eapply y_built; [exact Y|apply y_ret]|].
    eapply goes_ev; eauto using t_where.
  - destruct SO as [S1 S2]. under IHp1 S1 s s1 a e Y. under2 IHp2 S2 s1 s2 b e2 Y2 Y. destruct IHp1 as (i0 & rs & T & I & R & E). destruct IHp2 as (i2 & rs2 & T2 & I2 & R2 & E2).
    exists (EConcat e e2 (-1) false). split; [eapply y_built; [exact Y|eapply y_built; [exact Y2|apply y_ret]]|].
    exists (-1), (rs && rs2). split; [eapply t_concat; eauto|]. split; auto. split; [intros [RA RB]; now rewrite R, R2|]. cbn [evaluated]. intros EV. apply andb_prop in EV.
    destruct EV as [EA EB]. destruct (E EA) as (la & ->). destruct (E2 EB) as (lb & ->). exists (la ++ lb). apply of_and.
  - destruct SO as [SO HN]. under IHp SO s s1 a e Y. destruct IHp as (i0 & rs & T & I & R & E). exists (ETake e n). split; [eapply y_built; [exact Y|apply y_ret]|].
    exists i0, rs. split; [apply t_take; auto; tauto|]. split; auto. split; auto. cbn [evaluated]. intros EV. destruct (E EV) as (l & ->). rewrite of_take. eauto.
  - destruct SO as [SO HN]. under IHp SO s s1 a e Y. destruct IHp as (i0 & rs & T & I & R & E). exists (ESkip e n false). split; [eapply y_built; [exact Y|apply y_ret]|].
    exists (i0 - n), rs. split; [apply t_skip; auto|]. split; [intros PL; apply andb_prop in PL; destruct PL as [PL1 PL2]; rewrite (I PL2); lia|]. split; auto.
    cbn [evaluated]. intros EV. destruct (E EV) as (l & ->). rewrite of_skip. eauto.
  - destruct SO as [SO HN]. under IHp SO s s1 a e Y. destruct IHp as (i0 & rs & T & I & R & E). exists (ERepeat e n (-1) 0). split; [eapply y_built; [exact Y|apply y_ret]|].
    exists (-1), rs. split; [eapply t_repeat; eauto; destruct HN; auto|]. split; auto. split; auto. cbn [evaluated]. intros EV. destruct (E EV) as (l & ->). rewrite of_again. eauto.
  - destruct SO as [SO HN]. under IHp SO s s1 a e Y. destruct IHp as (i0 & rs & T & I & R & E). exists (EDistinct e c [] None). split; [eapply y_built; [exact Y|apply y_ret]|].
    eapply goes_ev; eauto using t_distinct.
  - under IHp SO s s1 a e Y. destruct IHp as (i0 & rs & T & I & R & E). pose proof (drain_tracks _ _ _ _ s1 T) as D. destruct (collect a s1) as [s2 [l|]]; cbn [bindm ret fst snd] in *.
    + exists (EReverse l (-1)). split; [eapply y_built; [exact Y|]; eapply y_list; [exact D|apply y_ret]|]. exists (-1), true. split; [apply t_reverse|]. eauto.
    + eapply y_built; [exact Y|]. eapply y_list; [exact D|apply y_ret].
  - destruct SO as [S1 S2]. under IHp1 S1 s s1 a e Y. under2 IHp2 S2 s1 s2 b e2 Y2 Y. destruct IHp1 as (i0 & rs & T & I & R & E). destruct IHp2 as (i2 & rs2 & T2 & I2 & R2 & E2).
    exists (EPair e e2 j None). split; [eapply y_built; [exact Y|eapply y_built; [exact Y2|apply y_ret]]|].
    exists i0, (rs && rs2). split; [eapply t_pair; eauto|]. split; auto. split; [intros [RA RB]; now rewrite R, R2|]. cbn [evaluated]. intros EV. apply andb_prop in EV.
    destruct EV as [EA EB]. destruct (E EA) as (la & ->). destruct (E2 EB) as (lb & ->). rewrite of_pair. eauto.
  - destruct SO as (S1 & S2 & _). under IHp1 S1 s s1 a e Y. under2 IHp2 S2 s1 s2 b e2 Y2 Y. destruct IHp1 as (i0 & rs & T & I & R & E). destruct IHp2 as (i2 & rs2 & T2 & I2 & R2 & E2).
    pose proof (drain_tracks _ _ _ _ s2 T2) as D. destruct (collect b s2) as [s3 [l|]]; cbn [bindm ret fst snd] in *.
    + eexists. split; [eapply y_built; [exact Y|]; eapply y_built; [exact Y2|]; eapply y_list; [exact D|apply y_ret]|].
      eapply goes_ev; [reflexivity| |reflexivity|exact R]. eapply t_distinct. eapply filter_same; [|eapply t_intexc; exact T]. intros v. cbv beta. now destruct (contains c l v).
    + eapply y_built; [exact Y|]. eapply y_built; [exact Y2|]. eapply y_list; [exact D|apply y_ret].
  - destruct SO as (S1 & S2 & _). under IHp1 S1 s s1 a e Y. under2 IHp2 S2 s1 s2 b e2 Y2 Y. destruct IHp1 as (i0 & rs & T & I & R & E). destruct IHp2 as (i2 & rs2 & T2 & I2 & R2 & E2).
    pose proof (drain_tracks _ _ _ _ s2 T2) as D. destruct (collect b s2) as [s3 [l|]]; cbn [bindm ret fst snd] in *.
    + eexists. split; [eapply y_built; [exact Y|]; eapply y_built; [exact Y2|]; eapply y_list; [exact D|apply y_ret]|].
      eapply goes_ev; [reflexivity| |reflexivity|exact R]. eapply t_distinct. eapply filter_same; [|eapply t_intexc; exact T]. intros v. cbv beta. now destruct (contains c l v).
    + eapply y_built; [exact Y|]. eapply y_built; [exact Y2|]. eapply y_list; [exact D|apply y_ret].
  - destruct SO as (S1 & S2 & _). under IHp1 S1 s s1 a e Y. under2 IHp2 S2 s1 s2 b e2 Y2 Y. destruct IHp1 as (i0 & rs & T & I & R & E). destruct IHp2 as (i2 & rs2 & T2 & I2 & R2 & E2).
    eexists. split; [eapply y_built; [exact Y|]; eapply y_built; [exact Y2|apply y_ret]|].
    eapply goes_ev; [reflexivity|eapply t_distinct; eapply t_concat; eauto|reflexivity|]. intros [RA RB]. now rewrite R, R2.
  - under IHp SO s s1 a e Y. destruct (negb b && evaluated e) eqn:F.
    + apply andb_prop in F. destruct F as [F1 F2]. destruct IHp as (i0 & rs & T & I & R & E). destruct (E F2) as (l & ->). rewrite of_collect. cbn [bindm ret].
      exists e. split; [eapply y_built; [exact Y|]; cbv beta iota; rewrite F1, F2; apply y_ret|]. destruct b; [discriminate|]. exists i0, rs. split; auto. split; auto. split; [intros [?|?]; [discriminate|auto]|eauto].
    + destruct IHp as (i0 & rs & T & I & R & E). pose proof (drain_tracks _ _ _ _ s1 T) as D. destruct (collect a s1) as [s2 [l|]]; cbn [bindm ret fst snd] in *.
      * exists (ECont l (-1)). split; [eapply y_built; [exact Y|]; cbv beta iota; rewrite F; eapply y_list; [exact D|apply y_ret]|].
        exists (-1), true. split; [exact (t_list l false)|]. eauto.
      * eapply y_built; [exact Y|]. cbv beta iota. rewrite F. eapply y_list; [exact D|apply y_ret].
  - destruct SO as [SO SF]. under IHp SO s s1 a e Y. destruct IHp as (i0 & rs & (P & HS & HP) & I & R & E).
    pose (mk := fun v s => match f v s with (s, Some q) => meaning q s | (s, None) => (s, None) end).
    pose (MK := fun k v s => match f v s with (s, Some q) => build k q s | (s, None) => Ok (None, s) end).
    pose (rw := forall v s, match f v s with (_, Some q) => rewinds q | (_, None) => True end).
    assert (MKOK : forall v s, match mk v s with (s', Some b) => exists e, yields (fun f => MK f v s) (Some e, s') /\ goes b rw False e | (s', None) => yields (fun f => MK f v s) (None, s') end).
    { intros v s2. unfold mk, MK. specialize (H v s2). specialize (SF v s2). assert (W : rw -> match f v s2 with (_, Some q) => rewinds q | (_, None) => True end) by (intros W; exact (W v s2)).
      destruct (f v s2) as [s3 [q|]]; [|apply y_ret]. specialize (H SF s3). unfold good in H. destruct (meaning q s3) as [s4 [b|]]; auto.
      destruct H as (e2 & Y2 & G2). exists e2. split; auto. eapply goes_weaken; [| |exact G2]; auto; tauto. }
    assert (G0 : goes Stop rw True (EEmpty : enum)) by (exists (-1), true; split; [apply t_empty|]; split; auto; split; auto; intros _; now exists []).
    pose proof (gather_sim mk MK rw MKOK _ _ _ _ HS _ _ _ s1 Stop EEmpty HP G0) as GS.
    change (parts (fun (v : V) (s : St) => let (s0, o) := f v s in match o with Some q => meaning q s0 | None => (s0, None) end) a s1) with (parts mk a s1).
    destruct (parts mk a s1) as [s2 [l|]]; cbn [bindm ret].
    + destruct GS as (e' & YG & GG). exists e'. split; [eapply y_built; [exact Y|]; exact (y2_same _ _ _ YG)|]. eapply goes_weaken; [| |exact GG]; auto.
    + eapply y_built; [exact Y|]. exact (y2_same _ _ _ GS).
Qed.

(* ---- the loops -------------------------------------------------------------------------- *)
Lemma on_ok R (esc : R) (k : nat -> enum -> St -> res (R * St)) p s (h : process -> St -> R * St) : sound p ->
  (forall a i0 rs e s, tracks a i0 rs e -> yields (fun f => k f e s) (h a s)) ->
  yields (fun f => on_pipe esc (k f) (build f p s)) (match meaning p s with (s1, Some a) => h a s1 | (s1, None) => (esc, s1) end).
Proof.
  intros SO K. pose proof (build_ok p SO s) as B. unfold good in B. destruct (meaning p s) as [s1 [a|]].
  - destruct B as (e & Y & i0 & rs & T & _). unfold on_pipe. eapply y_bind; [exact Y|]. eapply K; eauto.
  - unfold on_pipe. eapply y_bind; [exact B|]. apply y_ret.
Qed.
Lemma for_each_ok (p : pipe) body s : sound p -> yields (fun f => for_each f p body s) (looping p body s).
Proof. intros SO. unfold for_each, looping. apply on_ok; auto. intros a i0 rs e s1 (P & HS & H). eapply loop_sim; eauto. Qed.

Lemma elements_ok (p : pipe) s : sound p -> yields (fun f => elements f p s) (result (bindm (meaning p s) collect)).
Proof.
  intros SO. pose proof (on_ok _ None drain p s (fun a s => (snd (collect a s), fst (collect a s))) SO) as H. cbv beta in H. specialize (H ltac:(intros; eapply drain_tracks; eauto)).
  unfold elements. destruct (meaning p s) as [s1 [a|]]; exact H.
Qed.
Lemma first_ok (p : pipe) s : sound p -> yields (fun f => first f p s) (result (bindm (meaning p s) head)).
Proof.
  intros SO. unfold first. pose proof (on_ok (option (option V)) None (fun f e s =>
    do (be, s) <- next f e s; let (b, e) := (be : pulled * enum) in
    match b with Yes => do x <- current e; Ok (Some (Some x), s) | No => Ok (Some None, s) | Threw => Ok (None, s) end) p s (fun a s => (snd (head a s), fst (head a s))) SO) as H.
  destruct (meaning p s) as [s1 [a|]]; (apply H; intros b i0 rs e s2 (P & HS & HP); rewrite pull_head; pose proof (s_next _ _ _ _ HS _ _ _ s2 HP) as N;
    destruct (pull b s2) as [[|v p'|] s3]; [destruct N as (e1 & Y & _)|destruct N as (e1 & Y & C & _)|destruct N as (e1 & Y)]; (eapply y_bind; [exact Y|]); cbv beta iota; rewrite ?C; apply y_ret).
Qed.
Lemma is_empty_ok (p : pipe) s : sound p ->
  yields (fun f => is_empty f p s) (result (bindm (meaning p s) (fun a s => bindm (head a s) (fun o => ret (match o with Some _ => false | None => true end))))).
Proof.
  intros SO. unfold is_empty. pose proof (on_ok (option bool) None (fun f e s =>
    do (be, s) <- next f e s; let (b, e) := (be : pulled * enum) in
    match b with Yes => Ok (Some false, s) | No => Ok (Some true, s) | Threw => Ok (None, s) end) p s (fun a s => result (bindm (head a s) (fun o => ret (match o with Some _ => false | None => true end)))) SO) as H.
  destruct (meaning p s) as [s1 [a|]]; (apply H; intros b i0 rs e s2 (P & HS & HP); rewrite pull_head; pose proof (s_next _ _ _ _ HS _ _ _ s2 HP) as N;
    destruct (pull b s2) as [[|v p'|] s3]; [destruct N as (e1 & Y & _)|destruct N as (e1 & Y & C & _)|destruct N as (e1 & Y)]; (eapply y_bind; [exact Y|]); cbv beta iota; apply y_ret).
Qed.
Lemma count_ok (p : pipe) s : sound p -> yields (fun f => count f p s) (result (bindm (meaning p s) (fun a s => bindm (collect a s) (fun l => ret (zlen l))))).
Proof.
  intros SO. unfold count. pose proof (on_ok (option Z) None (fun f => count_loop f 0) p s (fun a s => result (bindm (collect a s) (fun l => ret (zlen l)))) SO) as H.
  destruct (meaning p s) as [s1 [a|]]; (apply H; intros b i0 rs e s2 (P & HS & HP); pose proof (count_sim _ _ _ _ HS _ _ _ s2 0 HP) as N; destruct (collect b s2) as [s3 [l|]]; exact N).
Qed.
Lemma ask_ok op q acc (p : pipe) s : sound p ->
  yields (fun f => on_pipe None (ask f op q acc) (build f p s)) (result (bindm (meaning p s) (fun a s => bindm (answers q a s) (fun l => ret (fold_left op l acc))))).
Proof.
  intros SO. pose proof (on_ok (option bool) None (fun f => ask f op q acc) p s (fun a s => result (bindm (answers q a s) (fun l => ret (fold_left op l acc)))) SO) as H.
  destruct (meaning p s) as [s1 [a|]]; (apply H; intros b i0 rs e s2 (P & HS & HP); pose proof (ask_sim _ _ _ _ HS op q _ _ _ s2 acc HP) as N; destruct (answers q b s2) as [s3 [l|]]; exact N).
Qed.

(* ---- an array reads twice ----------------------------------------------------------------- *)
Lemma upd_split (a : list V) i v : (i < length a)%nat -> upd a i v = firstn i a ++ v :: skipn (S i) a.
Proof. revert i. induction a as [|x a IH]; intros [|i] L; cbn [length upd firstn skipn app] in *; try lia; auto. f_equal. apply IH. lia. Qed.
Lemma fill_sim p0 i0 rs P (HS : sim (V:=V) (St:=St) p0 i0 rs P) p : forall k e s a i s2 l, P (Some (k, p)) e -> collect p s = (s2, Some l) -> (i <= length a)%nat ->
  ((i + length l <= length a)%nat -> yields (fun f => fill f a (Z.of_nat i) e s) (true, firstn i a ++ l ++ skipn (i + length l) a, s2)) /\
  ((length a < i + length l)%nat -> raises (fun f => fill f a (Z.of_nat i) e s)).
Proof.
  induction p as [p IH] using (well_founded_induction later_wf). intros k e s a i s2 l HP HC HI. rewrite pull_collect in HC.
  pose proof (s_next _ _ _ _ HS k p e s HP) as N. destruct (pull p s) as [[|v p'|] s1] eqn:EP; [| |discriminate].
  - injection HC as <- <-. destruct N as (e1 & Y & _). cbn [length]. split; [|lia]. intros _. rewrite Nat.add_0_r. cbn [app]. rewrite firstn_skipn.
    eapply y_step; [intros z; cbn [fill]; reflexivity|]. eapply y_bind; [exact Y|]. apply y_ret.
  - destruct N as (e1 & Y & C & HP1). destruct (collect p' s1) as [s3 [l'|]] eqn:HC'; [|discriminate]. injection HC as <- <-. cbn [length].
    destruct (Nat.lt_ge_cases i (length a)) as [L|L].
    + assert (LU : length (upd a i v) = length a) by (rewrite upd_split by auto; rewrite app_length, firstn_length; cbn [length]; rewrite skipn_length; lia).
      destruct (IH p' (ex_intro _ s (ex_intro _ v (ex_intro _ s1 EP))) (S k) e1 s1 (upd a i v) (S i) s3 l' HP1 HC' ltac:(lia)) as [I1 I2].
      assert (ST : forall f, fill (S f) a (Z.of_nat i) e s = bind (next f e s) (fun '(be, s) => let (b, e) := (be : pulled * enum) in
         match b with Yes => do x <- current e; if (0 <=? Z.of_nat i) && (Z.of_nat i <? zlen a) then fill f (upd a (Z.to_nat (Z.of_nat i)) x) (Z.of_nat i + 1) e s else Err
         | No => Ok (true, a, s) | Threw => Ok (false, a, s) end)) by reflexivity.
      assert (GO : forall f, (do x <- current e1; if (0 <=? Z.of_nat i) && (Z.of_nat i <? zlen a) then fill f (upd a (Z.to_nat (Z.of_nat i)) x) (Z.of_nat i + 1) e1 s1 else Err)
         = fill f (upd a i v) (Z.of_nat (S i)) e1 s1).
      { intros f. rewrite C. cbn [bind]. replace ((0 <=? Z.of_nat i) && (Z.of_nat i <? zlen a)) with true by (unfold zlen; lia). rewrite Nat2Z.id. f_equal. lia. }
      split.
      * intros HL. specialize (I1 ltac:(lia)). replace (firstn i a ++ (v :: l') ++ skipn (i + S (length l')) a) with (firstn (S i) (upd a i v) ++ l' ++ skipn (S i + length l') (upd a i v)).
        -- eapply y_step; [exact ST|]. eapply y_bind; [exact Y|]. cbv beta iota. eapply y_ext; [exact GO|exact I1].
        -- rewrite upd_split by auto. assert (LF : length (firstn i a) = i) by (rewrite firstn_length; lia).
           replace (S i) with (i + 1)%nat at 1 by lia. rewrite firstn_app, LF, firstn_all2 by lia. replace (i + 1 - i)%nat with 1%nat by lia. cbn [firstn].
           rewrite <- app_assoc. cbn [app]. do 3 f_equal. rewrite skipn_app, LF, skipn_all2 by lia. cbn [app]. replace (S i + length l' - i)%nat with (S (length l')) by lia. change (skipn (S (length l')) (v :: skipn (S i) a)) with (skipn (length l') (skipn (S i) a)).
           rewrite skipn_skipn. f_equal. lia.
      * intros HL. destruct (I2 ltac:(lia)) as [M HM]. destruct Y as [M1 HM1]. exists (S (Nat.max M M1)). intros [|f] Hf; [lia|]. rewrite ST, HM1 by lia. cbn [bind]. cbv beta iota. rewrite GO. apply HM. lia.
    + split; [lia|]. intros _. destruct Y as [M1 HM1]. exists (S M1). intros [|f] Hf; [lia|]. cbn [fill]. rewrite HM1 by lia. cbn [bind]. rewrite C. cbn [bind].
      replace ((0 <=? Z.of_nat i) && (Z.of_nat i <? zlen a)) with false by (unfold zlen; lia). reflexivity.
Qed.
Lemma array_ok d old (p : pipe) s s0 s1 s2 a l1 l2 : sound p -> meaning p s = (s0, Some a) -> collect a s0 = (s1, Some l1) -> collect a s1 = (s2, Some l2) ->
  ((length l2 <= length l1)%nat -> yields (fun f => copy_to_array f d old p s) (true, l2 ++ skipn (length l2) (resize d old (length l1)), s2)) /\
  ((length l1 < length l2)%nat -> raises (fun f => copy_to_array f d old p s)).
Proof.
  intros SO M C1 C2. pose proof (build_ok p SO s) as B. unfold good in B. rewrite M in B. destruct B as (e & Y & i0 & rs & (P & HS & HP) & _).
  pose proof (count_sim _ _ _ _ HS _ _ _ s0 0 HP) as N. rewrite C1 in N. cbn [fst snd] in N. rewrite Z.add_0_l in N.
  assert (LR : length (resize d old (length l1)) = length l1) by (unfold resize; rewrite app_length, firstn_length, repeat_length; lia).
  destruct (fill_sim _ _ _ _ HS a 0%nat e s1 (resize d old (length l1)) 0%nat s2 l2 HP C2 ltac:(lia)) as [F1 F2].
  assert (ZL : Z.to_nat (zlen l1) = length l1) by (unfold zlen; lia).
  split; intros L.
  - unfold copy_to_array, on_pipe. eapply y_bind; [exact Y|]. cbv beta iota. eapply y_bind; [exact N|]. cbv beta iota. rewrite ZL. apply F1. lia.
  - destruct (F2 ltac:(lia)) as [K HK]. destruct Y as [K1 HK1]. destruct N as [K2 HK2]. exists (Nat.max K (Nat.max K1 K2)). intros f Hf. unfold copy_to_array, on_pipe.
    rewrite HK1 by lia. cbn [bind]. rewrite HK2 by lia. cbn [bind]. rewrite ZL. apply HK. lia.
Qed.

(* ---- functions whose results do not depend on the state ------------------------------------ *)
Inductive emits : process -> list V -> Prop :=
| E_stop : emits Stop []
| E_emit v p l : emits p l -> emits (Emit v p) (v :: l)
| E_do X (c : St -> St * option X) k x l : (forall s, snd (c s) = Some x) -> emits (k x) l -> emits (Do c k) l.
Lemma em_list l : emits (of_list l) l.
Proof. induction l; constructor; auto. Qed.
Lemma em_collect p l : emits p l -> forall s, exists s', collect p s = (s', Some l).
Proof.
  induction 1 as [|v p l H IH|X c k x l E H IH]; intros s; cbn [collect]; eauto.
  - destruct (IH s) as (s' & ->). eauto.
  - specialize (E s). destruct (c s) as [s1 o]. cbn [snd] in E. subst o. apply IH.
Qed.
Lemma em_select f g p l : computes f g -> emits p l -> emits (selecting f p) (map g l).
Proof.
  intros F. induction 1 as [|v p l H IH|X c k x l E H IH]; cbn [selecting map]; [constructor| |econstructor; eauto].
  apply E_do with (g v); [exact (F v)|]. now constructor.
Qed.
Lemma em_where f g p l : computes f g -> emits p l -> emits (those f p) (filter g l).
Proof.
  intros F. induction 1 as [|v p l H IH|X c k x l E H IH]; cbn [those filter]; [constructor| |econstructor; eauto].
  apply E_do with (g v); [exact (F v)|]. destruct (g v); auto. now constructor.
Qed.
Lemma em_filter g p l : emits p l -> emits (filtering g p) (filter g l).
Proof. induction 1 as [|v p l H IH|X c k x l E H IH]; cbn [filtering filter]; [constructor| |econstructor; eauto]. destruct (g v); auto. now constructor. Qed.
Lemma em_and p r l m : emits p l -> emits r m -> emits (and_then p r) (l ++ m).
Proof. intros H HR. induction H as [|v p l H IH|X c k x l E H IH]; cbn [and_then app]; auto; [now constructor|econstructor; eauto]. Qed.
Lemma em_take p l : emits p l -> forall n, emits (taking n p) (firstn n l).
Proof.
  induction 1 as [|v p l H IH|X c k x l E H IH]; intros [|n]; try (rewrite take_0; exact E_stop); cbn [taking firstn].
  - constructor.
  - constructor. apply IH.
  - apply E_do with x; auto. exact (IH (S n)).
Qed.
Lemma em_skip p l : emits p l -> forall n, emits (skipping n p) (skipn n l).
Proof.
  induction 1 as [|v p l H IH|X c k x l E H IH]; intros [|n]; rewrite ?skip_0; cbn [skipping skipn]; auto.
  - constructor.
  - constructor.
  - now constructor.
  - now apply E_do with x.
  - apply E_do with x; auto. exact (IH (S n)).
Qed.
Lemma em_again n p l : emits p l -> emits (again n p) (concat (repeat l n)).
Proof. intros H. induction n as [|n IH]; cbn [again repeat concat]; [constructor|now apply em_and]. Qed.
Lemma em_pair j p l : emits p l -> forall r m, emits r m -> emits (pairing j p r) (map (fun vw => j (fst vw) (snd vw)) (combine l m)).
Proof.
  induction 1 as [|v p l H IH|X c k x l E H IH]; intros r m HR; cbn [pairing]; [constructor| |econstructor; eauto].
  induction HR as [|w r m H2 IH2|X c k x m E H2 IH2]; cbn [combine map fst snd]; [constructor|constructor; auto|econstructor; eauto].
Qed.
Fixpoint lfresh (c : V -> V -> comparison) (seen l : list V) : list V :=
  match l with [] => [] | v :: l => if contains c seen v then lfresh c seen l else v :: lfresh c (v :: seen) l end.
Lemma em_fresh c p l : emits p l -> forall seen, emits (fresh c seen p) (lfresh c seen l).
Proof. induction 1 as [|v p l H IH|X a k x l E H IH]; intros seen; cbn [fresh lfresh]; [constructor| |econstructor; eauto]. destruct (contains c seen v); auto. now constructor. Qed.
Lemma lfresh_distinct c (TO : total_order c) l : forall pre seen, (forall x, contains c seen x = contains c (distinct c pre) x) -> distinct c (pre ++ l) = distinct c pre ++ lfresh c seen l.
Proof.
  induction l as [|v l IH]; intros pre seen E; cbn [lfresh]; [now rewrite !app_nil_r|].
  replace (pre ++ v :: l) with ((pre ++ [v]) ++ l) by (rewrite <- app_assoc; reflexivity). pose proof (distinct_snoc _ c TO pre v) as D. rewrite E. destruct (contains c (distinct c pre) v) eqn:CV.
  - rewrite (IH _ seen), D; auto. intros x. rewrite E, D. reflexivity.
  - rewrite (IH _ (v :: seen)), D; [now rewrite <- app_assoc|]. intros x. rewrite D. unfold contains in *. rewrite existsb_app. cbn [existsb]. rewrite E, orb_false_r. apply orb_comm.
Qed.
Lemma em_distinct c p l : total_order c -> emits p l -> emits (fresh c [] p) (distinct c l).
Proof. intros TO H. pose proof (lfresh_distinct c TO l [] [] ltac:(reflexivity)) as E. cbn [app distinct] in E. rewrite E. now apply em_fresh. Qed.

Lemma acts_ok p q : acts_as p q -> sound p -> forall s, exists s' a, meaning p s = (s', Some a) /\ emits a (denote q).
Proof.
  induction 1; cbn [sound meaning denote]; intros SO s.
  - exists s, Stop. split; auto. constructor.
  - exists s, (of_list l). split; auto. apply em_list.
  - exists s, (of_list l). split; auto. apply em_list.
  - destruct (IHacts_as SO s) as (s1 & a & -> & H1). cbn [bindm ret]. eexists _, _. split; [reflexivity|]. now apply em_select.
  - destruct (IHacts_as SO s) as (s1 & a & -> & H1). cbn [bindm ret]. eexists _, _. split; [reflexivity|]. now apply em_where.
  - destruct SO as [S1 S2]. destruct (IHacts_as1 S1 s) as (s1 & a & -> & H1). cbn [bindm ret]. destruct (IHacts_as2 S2 s1) as (s2 & b & -> & H2). cbn [bindm ret].
    eexists _, _. split; [reflexivity|]. now apply em_and.
  - destruct SO as [SO _]. destruct (IHacts_as SO s) as (s1 & a & -> & H1). cbn [bindm ret]. eexists _, _. split; [reflexivity|]. now apply em_take.
  - destruct SO as [SO _]. destruct (IHacts_as SO s) as (s1 & a & -> & H1). cbn [bindm ret]. eexists _, _. split; [reflexivity|]. now apply em_skip.
  - destruct SO as [SO _]. destruct (IHacts_as SO s) as (s1 & a & -> & H1). cbn [bindm ret]. eexists _, _. split; [reflexivity|]. now apply em_again.
  - destruct SO as [SO TO]. destruct (IHacts_as SO s) as (s1 & a & -> & H1). cbn [bindm ret]. eexists _, _. split; [reflexivity|]. now apply em_distinct.
  - destruct (IHacts_as SO s) as (s1 & a & -> & H1). cbn [bindm ret]. destruct (em_collect _ _ H1 s1) as (s2 & ->). cbn [bindm ret]. eexists _, _. split; [reflexivity|]. apply em_list.
  - destruct SO as [S1 S2]. destruct (IHacts_as1 S1 s) as (s1 & a & -> & H1). cbn [bindm ret]. destruct (IHacts_as2 S2 s1) as (s2 & b & -> & H2). cbn [bindm ret].
    eexists _, _. split; [reflexivity|]. now apply em_pair.
  - destruct SO as (S1 & S2 & TO). destruct (IHacts_as1 S1 s) as (s1 & a & -> & H1). cbn [bindm ret]. destruct (IHacts_as2 S2 s1) as (s2 & b & -> & H2). cbn [bindm ret].
    destruct (em_collect _ _ H2 s2) as (s3 & ->). cbn [bindm ret]. eexists _, _. split; [reflexivity|]. apply em_distinct; auto. now apply em_filter.
  - destruct SO as (S1 & S2 & TO). destruct (IHacts_as1 S1 s) as (s1 & a & -> & H1). cbn [bindm ret]. destruct (IHacts_as2 S2 s1) as (s2 & b & -> & H2). cbn [bindm ret].
    destruct (em_collect _ _ H2 s2) as (s3 & ->). cbn [bindm ret]. eexists _, _. split; [reflexivity|]. apply em_distinct; auto. now apply em_filter.
  - destruct SO as (S1 & S2 & TO). destruct (IHacts_as1 S1 s) as (s1 & a & -> & H1). cbn [bindm ret]. destruct (IHacts_as2 S2 s1) as (s2 & c2 & -> & H2). cbn [bindm ret].
    eexists _, _. split; [reflexivity|]. apply em_distinct; auto. now apply em_and.
  - destruct (IHacts_as SO s) as (s1 & a & -> & H1). cbn [bindm ret].
    destruct (em_collect _ _ H1 s1) as (s2 & ->). cbn [bindm ret]. eexists _, _. split; [reflexivity|]. apply em_list.
Qed.
Lemma pure_ok (p : pipe) q s : acts_as p q -> sound p -> exists s', yields (fun f => elements f p s) (Some (denote q), s').
Proof.
  intros A SO. pose proof (elements_ok p s SO) as E. destruct (acts_ok p q A SO s) as (s1 & a & M & H). rewrite M in E. cbn [bindm] in E. destruct (em_collect _ _ H s1) as (s2 & C). rewrite C in E. eauto.
Qed.

(* ---- what is called -------------------------------------------------------------------------- *)
Lemma sel_collect (f : selector V St) g l : computes f g -> forall s, collect (selecting f (of_list l)) s = (called f l s, Some (map g l)).
Proof.
  intros F. induction l as [|v l IH]; intros s; cbn [of_list selecting collect map]; auto. pose proof (F v s) as E. unfold called. cbn [fold_left].
  destruct (f v s) as [s1 o]. cbn [snd fst] in *. subst o. cbn [collect]. rewrite IH. reflexivity.
Qed.
Lemma take_collect (f : selector V St) g : computes f g -> forall l n s, collect (taking n (selecting f (of_list l))) s = (called f (firstn n l) s, Some (map g (firstn n l))).
Proof.
  intros F. induction l as [|v l IH]; intros [|n] s; cbn [of_list selecting taking collect firstn map]; auto. pose proof (F v s) as E. unfold called. cbn [fold_left].
  destruct (f v s) as [s1 o]. cbn [snd fst] in *. subst o. cbn [taking collect]. rewrite IH. reflexivity.
Qed.
Lemma take_calls (f : selector V St) g l n s : computes f g -> yields (fun k => elements k (PTake (PSelect (PList l) f) n) s) (Some (map g (firstn (Z.to_nat n) l)), called f (firstn (Z.to_nat n) l) s).
Proof.
  intros F. pose proof (elements_ok (PTake (PSelect (PList l) f) n) s ltac:(cbn; auto)) as E. cbn [meaning bindm ret] in E. rewrite (take_collect f g F) in E. exact E.
Qed.
Lemma ask_collect (q : predicate V St) g : computes q g -> forall l s, answers q (of_list l) s = (called q l s, Some (map g l)).
Proof.
  intros F. induction l as [|v l IH]; intros s; cbn [of_list answers map]; auto. pose proof (F v s) as E. unfold called. cbn [fold_left].
  destruct (q v s) as [s1 o]. cbn [snd fst] in *. subst o. cbn [bindm]. rewrite IH. reflexivity.
Qed.
Lemma all_any (q : predicate V St) g l s : computes q g -> yields (fun k => all k q (PList l) s) (Some (forallb g l), called q l s) /\ yields (fun k => any k q (PList l) s) (Some (existsb g l), called q l s).
Proof.
  intros F. split.
  - pose proof (ask_ok andb q true (PList l) s I) as E. cbn [meaning bindm ret] in E. rewrite (ask_collect q g F) in E. cbn [bindm ret] in E. rewrite fold_and in E. exact E.
  - pose proof (ask_ok orb q false (PList l) s I) as E. cbn [meaning bindm ret] in E. rewrite (ask_collect q g F) in E. cbn [bindm ret] in E. rewrite fold_or in E. exact E.
Qed.
Lemma called_app X (f : V -> St -> St * option X) l m s : called f (l ++ m) s = called f m (called f l s).
Proof. unfold called. now rewrite fold_left_app. Qed.
Lemma array_calls (f : selector V St) g d old l s : computes f g -> yields (fun k => copy_to_array k d old (PSelect (PList l) f) s) (true, map g l, called f (l ++ l) s).
Proof.
  intros F. destruct (array_ok d old (PSelect (PList l) f) s s _ _ _ _ _ ltac:(cbn; auto) eq_refl (sel_collect f g l F s) (sel_collect f g l F _)) as [H _].
  specialize (H ltac:(lia)). rewrite skipn_all2, app_nil_r in H; [now rewrite called_app|]. unfold resize. rewrite app_length, firstn_length, repeat_length. lia.
Qed.

(* ---- going on after an exception ---------------------------------------------------------------- *)
Lemma cont_next (l : list V) i (s : St) x : 0 <= i + 1 -> znth l (i + 1) = Some x -> yields (fun k => next k (ECont l i) s) (Yes, ECont l (i + 1), s).
Proof.
  intros H Z. exists 1%nat. intros [|k] Hk; [lia|]. cbn [next]. assert (i + 1 < zlen l).
  { rewrite znth_z in Z by lia. assert (Z.to_nat (i + 1) < length l)%nat by (apply nth_error_Some; congruence). unfold zlen. lia. }
  replace ((i + 1 >=? 0) && (i + 1 <? zlen l)) with true by lia. reflexivity.
Qed.
Lemma sel_yes (f : selector V St) (l : list V) i o s s1 x w : 0 <= i + 1 -> znth l (i + 1) = Some x -> f x s = (s1, Some w) ->
  yields (fun k => next k (ESelect (ECont l i) f o) s) (Yes, ESelect (ECont l (i + 1)) f (Some w), s1).
Proof.
  intros H Z F. eapply y_step; [intros z; cbn [next]; reflexivity|]. eapply y_on; [eapply cont_next; eauto|]. cbv beta iota. cbn [current]. unfold cget. rewrite Z. cbn [bind]. rewrite F. apply y_ret.
Qed.
Lemma sel_threw (f : selector V St) (l : list V) i o s s1 x : 0 <= i + 1 -> znth l (i + 1) = Some x -> f x s = (s1, None) ->
  yields (fun k => next k (ESelect (ECont l i) f o) s) (Threw, ESelect (ECont l (i + 1)) f o, s1).
Proof.
  intros H Z F. eapply y_step; [intros z; cbn [next]; reflexivity|]. eapply y_on; [eapply cont_next; eauto|]. cbv beta iota. cbn [current]. unfold cget. rewrite Z. cbn [bind]. rewrite F. apply y_ret.
Qed.
Lemma skip_after (f : selector V St) n x y l s s1 s2 w : 2 <= n -> f x s = (s1, None) -> f y s1 = (s2, Some w) ->
  exists e0 e1 e2, yields (fun k => build k (PSkip (PSelect (PList (x :: y :: l)) f) n) s) (Some e0, s) /\
    yields (fun k => next k e0 s) (Threw, e1, s1) /\ yields (fun k => next k e1 s1) (Yes, e2, s2) /\ current e2 = Ok w.
Proof.
  intros HN F1 F2. exists (ESkip (ESelect (ECont (x :: y :: l) (-1)) f None) n false), (ESkip (ESelect (ECont (x :: y :: l) 0) f None) n true), (ESkip (ESelect (ECont (x :: y :: l) 1) f (Some w)) n true).
  split; [apply y_ret|]. split; [|split; [|reflexivity]].
  - eapply y_step; [intros z; cbn [next]; reflexivity|]. replace (Z.to_nat n) with (S (Z.to_nat (n - 1))) by lia. cbn [skip_loop].
    eapply y_on with (b := Threw); [|apply y_ret]. eapply y_on; [exact (sel_threw f (x :: y :: l) (-1) None s s1 x ltac:(lia) eq_refl F1)|apply y_ret].
  - eapply y_step; [intros z; cbn [next]; reflexivity|]. eapply y_on; [exact (sel_yes f (x :: y :: l) 0 None s1 s2 y w ltac:(lia) eq_refl F2)|apply y_ret].
Qed.
Lemma pair_after (f : selector V St) j x y l u m s s1 s2 w : f x s = (s1, None) -> f y s1 = (s2, Some w) ->
  exists e0 e1 e2, yields (fun k => build k (PPairwise j (PSelect (PList (x :: y :: l)) f) (PList (u :: m))) s) (Some e0, s) /\
    yields (fun k => next k e0 s) (Threw, e1, s1) /\ yields (fun k => next k e1 s1) (Yes, e2, s2) /\ current e2 = Ok (j w u).
Proof.
  intros F1 F2. exists (EPair (ESelect (ECont (x :: y :: l) (-1)) f None) (ECont (u :: m) (-1)) j None), (EPair (ESelect (ECont (x :: y :: l) 0) f None) (ECont (u :: m) (-1)) j None),
    (EPair (ESelect (ECont (x :: y :: l) 1) f (Some w)) (ECont (u :: m) 0) j (Some (j w u))).
  split; [apply y_ret|]. split; [|split; [|reflexivity]].
  - eapply y_step; [intros z; cbn [next]; reflexivity|]. eapply y_on; [exact (sel_threw f (x :: y :: l) (-1) None s s1 x ltac:(lia) eq_refl F1)|apply y_ret].
  - eapply y_step; [intros z; cbn [next]; reflexivity|]. eapply y_on; [exact (sel_yes f (x :: y :: l) 0 None s1 s2 y w ltac:(lia) eq_refl F2)|].
    eapply y_on; [exact (cont_next (u :: m) (-1) s2 u ltac:(lia) eq_refl)|apply y_ret].
Qed.
Lemma stale (f : selector V St) x y l s s1 s2 v : f x s = (s1, Some v) -> f y s1 = (s2, None) ->
  exists e0 e1 e2, yields (fun k => build k (PSelect (PList (x :: y :: l)) f) s) (Some e0, s) /\
    yields (fun k => next k e0 s) (Yes, e1, s1) /\ yields (fun k => next k e1 s1) (Threw, e2, s2) /\ current e2 = Ok v.
Proof.
  intros F1 F2. exists (ESelect (ECont (x :: y :: l) (-1)) f None), (ESelect (ECont (x :: y :: l) 0) f (Some v)), (ESelect (ECont (x :: y :: l) 1) f (Some v)).
  split; [apply y_ret|]. split; [exact (sel_yes f (x :: y :: l) (-1) None s s1 x v ltac:(lia) eq_refl F1)|]. split; [|reflexivity].
  exact (sel_threw f (x :: y :: l) 0 (Some v) s1 s2 y ltac:(lia) eq_refl F2).
Qed.
End Build.

(* ---- a predicate that counts its calls -------------------------------------------------------------- *)
Lemma array_error : exists (q : predicate nat nat), let p := PWhere (PList [7; 8]%nat) q in
  sound p /\ (forall v s, exists b, snd (q v s) = Some b) /\ yields (fun k => elements k p 0%nat) (Some [], 2%nat) /\ forall d old, raises (fun k => copy_to_array k d old p 0%nat).
Proof.
  exists (fun v s => (S s, Some (2 <=? s)%nat)). cbv zeta. split; [exact I|]. split; [intros v s; eexists; reflexivity|]. split; [exists 10%nat; intros f Hf|].
  - do 10 (destruct f as [|f]; [exfalso; lia|]). vm_compute. reflexivity.
  - intros d old. pose (q := fun (v s : nat) => (S s, Some (2 <=? s)%nat)).
    destruct (array_ok d old (PWhere (PList [7; 8]%nat) q) 0%nat 0%nat 2%nat 4%nat (those q (of_list [7; 8]%nat)) [] [7; 8]%nat I eq_refl eq_refl eq_refl) as [_ R]. apply R. cbn. lia.
Qed.
