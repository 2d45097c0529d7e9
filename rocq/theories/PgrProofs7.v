From Coq Require Import ZifyBool ZifyNat.
From Verif Require Import Base BaseFacts PgrModel PgrSpec PgrProofs PgrProofs2 PgrProofs3 PgrProofs4 PgrProofs5 PgrProofs6.
Open Scope nat_scope.

Lemma sum_two {A} (f : A -> nat) l i j x y : i <> j -> nth_error l i = Some x -> nth_error l j = Some y -> f x + f y <= sum f l.
Proof.
  unfold sum. revert i j. induction l as [|z l IH]; intros [|i] [|j] N Ei Ej; cbn [nth_error fold_right] in *; try discriminate; try lia.
  - inversion Ei; subst. pose proof (sum_in f _ _ _ Ej) as Q. unfold sum in Q. lia.
  - inversion Ej; subst. pose proof (sum_in f _ _ _ Ei) as Q. unfold sum in Q. lia.
  - specialize (IH i j). lia.
Qed.
Lemma alive_no_del w o n c : inv w -> nth_error (heap w) o = Some (mkO (Some n) Alive c) -> 1 <= sum (hv o) (ths w) + ce (heap w) o ->
  sum (tc o) (ths w) = 0 /\ sum (td o) (ths w) = 0 /\ sum (tf o) (ths w) = 0.
Proof. intros I E H. pose proof (i_obj w I o) as K. rewrite E in K. cbn [okb lf cnt] in K. lia. Qed.
(* a member in use by a thread keeps its value *)
Lemma member_keep w i j t w' o f : inv w -> nth_error (ths w) i = Some t -> uses_cell o f t = true -> tstep w j = Ok w' ->
  j <> i \/ work t <> [] -> member w' o f = member w o f.
Proof.
  intros I Et U E Hj. pose proof (uses_held _ _ _ (i_good w I _ _ Et) (uses_obj_of _ _ _ U)) as Ho.
  pose proof (hv_held _ _ Ho) as Hh. destruct (held_obj w i t o I Et Hh) as (n & c & E0).
  pose proof (sum_in (hv o) _ _ _ Et) as Hs. destruct (alive_no_del w o n c I E0) as (Z1 & Z2 & Z3); [lia|].
  destruct (nth_error (ths w) j) as [s|] eqn:Es; [|rewrite step_none in E by auto; now injection E as <-].
  destruct (step_shape w j s w' Es E) as [(-> & _)|(t' & _ & _ & H)]; [reflexivity|]. pose proof (nth_error_lt _ _ _ E0) as Lo.
  unfold member. destruct H as [H _|q x c' Eq _ H _|q k x Hw Eq Lx H _|q k c' l Hw Eq H _|y acc Hw Hf H _|w1 q x f' v Hw Eq Lx Hx Hf H _]; rewrite H.
  - reflexivity.
  - destruct (Nat.eq_dec q o) as [->|N]; [|now rewrite upd_other by auto]. rewrite upd_same by auto. now rewrite Eq.
  - destruct (Nat.eq_dec q o) as [->|N]; [|now rewrite upd_other by auto].
    pose proof (sum_in (td o) _ _ _ Es) as Q. unfold td in Q at 1. rewrite Hw, sum_cons in Q. cbn [is_destroy] in Q. rewrite Nat.eqb_refl in Q. lia.
  - destruct (Nat.eq_dec q o) as [->|N]; [|now rewrite upd_other by auto]. rewrite upd_same by auto. now rewrite Eq.
  - now rewrite nth_error_app1 by auto.
  - assert (exists b1, nth_error (heap w1) o = Some b1 /\ cells b1 = c) as (b1 & B1 & B2).
    { destruct Hx as [->|(q' & x' & c' & Eq' & _ & ->)]; [rewrite E0; eauto|].
      destruct (Nat.eq_dec q' o) as [->|N]; [rewrite upd_same by auto|rewrite upd_other by auto]; [|rewrite E0; eauto].
      eexists. split; [reflexivity|]. cbn [cells]. rewrite E0 in Eq'. injection Eq' as <-. reflexivity. }
    rewrite E0. cbn [cells]. destruct (Nat.eq_dec q o) as [->|N]; [|rewrite upd_other by auto; now rewrite B1, B2].
    rewrite upd_same by (eapply nth_error_lt; eauto). rewrite B1 in Eq. injection Eq as <-. unfold setcell. cbn [cells]. rewrite B2.
    destruct (Nat.eq_dec f' f) as [->|Nf]; [|now rewrite upd_other by auto]. exfalso.
    destruct (Nat.eq_dec j i) as [->|Nj]. { rewrite Et in Es. injection Es as ->. destruct Hj; congruence. }
    assert (uses_cell o f t = false); [|congruence].
    destruct Hf as [(x1 & Q)|[(y1 & Q)|(x1 & y1 & p1 & _ & _ & _ & Q)]].
    + eapply (i_excl w I j i s t); eauto. unfold writes_cell. rewrite Q. now rewrite !Nat.eqb_refl.
    + eapply (i_excl w I j i s t); eauto. unfold writes_cell. rewrite Q. now rewrite !Nat.eqb_refl.
    + eapply existsb_nth; eauto.
Qed.
(* an object nobody else refers to stays as it is *)
Lemma private_keep w i j t w' o c : inv w -> nth_error (ths w) i = Some t -> nth_error (heap w) o = Some (mkO (Some 1%Z) Alive c) ->
  fref o (fin t) = 1 -> tstep w j = Ok w' -> j <> i \/ work t <> [] ->
  nth_error (heap w') o = Some (mkO (Some 1%Z) Alive c).
Proof.
  intros I Et E0 Hf E Hj. pose proof (i_obj w I o) as K. rewrite E0 in K. cbn [okb lf cnt] in K.
  assert (hv o t = 1 /\ ce (heap w) o = 0 /\ occ o (vars t) = 0 /\ sum (is_dec o) (work t) = 0) as (H1 & H2 & H3 & H4).
  { pose proof (sum_in (hv o) _ _ _ Et) as Q. unfold hv in Q at 1. unfold hv at 1. lia. }
  pose proof (sum_in (hv o) _ _ _ Et) as Hs.
  assert (sum (tc o) (ths w) = 0 /\ sum (td o) (ths w) = 0 /\ sum (tf o) (ths w) = 0) as (Z1 & Z2 & Z3) by lia.
  destruct (Nat.eq_dec j i) as [->|Nj].
  { unfold tstep in E. rewrite Et in E. destruct (work t) as [|a k] eqn:Ew; [destruct Hj; congruence|]. destruct a as [p|p|p|p]; cbn [do_task] in E.
    - assert (p <> o) as Np by (intros ->; rewrite sum_cons in H4; cbn [is_dec] in H4; rewrite Nat.eqb_refl in H4; lia).
      destruct (nth_error (heap w) p) as [[[n|] l' c2]|]; try discriminate. injection E as <-. cbn. now rewrite upd_other by auto.
    - assert (p <> o) as Np.
      { intros ->. pose proof (sum_in (tc o) _ _ _ Et) as Q. unfold tc in Q at 1. rewrite Ew, sum_cons in Q. cbn [is_counter] in Q. rewrite Nat.eqb_refl in Q. lia. }
      destruct (nth_error (heap w) p) as [[[n|] l' c2]|]; try discriminate. injection E as <-. cbn. now rewrite upd_other by auto.
    - assert (p <> o) as Np.
      { intros ->. pose proof (sum_in (td o) _ _ _ Et) as Q. unfold td in Q at 1. rewrite Ew, sum_cons in Q. cbn [is_destroy] in Q. rewrite Nat.eqb_refl in Q. lia. }
      destruct (existsb (uses_obj p) (ths w)); [discriminate|]. destruct (deref w p); try discriminate. cbn [bind] in E. injection E as <-. cbn. now rewrite upd_other by auto.
    - assert (p <> o) as Np.
      { intros ->. pose proof (sum_in (tf o) _ _ _ Et) as Q. unfold tf in Q at 1. rewrite Ew, sum_cons in Q. cbn [is_free] in Q. rewrite Nat.eqb_refl in Q. lia. }
      destruct (nth_error (heap w) p) as [[c2 [] l']|]; try discriminate. injection E as <-. cbn. now rewrite upd_other by auto. }
  destruct (nth_error (ths w) j) as [s|] eqn:Es; [|rewrite step_none in E by auto; injection E as <-; auto].
  destruct (step_shape w j s w' Es E) as [(-> & _)|(t' & _ & _ & H)]; [auto|]. pose proof (nth_error_lt _ _ _ E0) as Lo.
  assert (hv o s = 0) as Hj0. { pose proof (sum_two (hv o) _ i j t s (not_eq_sym Nj) Et Es). lia. }
  assert (~ In (Some o) (vars s)) as Nv. { intros X. apply hv_held in X. lia. }
  pose proof (i_good w I _ _ Es) as G.
  destruct H as [H _|q x c' Eq Hq H _|q k x Hw Eq Lx H _|q k c' l Hw Eq H _|y acc Hw Hf' H _|w1 q x f' v Hw Eq Lx Hx Hf' H _]; rewrite H.
  - auto.
  - destruct (Nat.eq_dec q o) as [->|N]; [|now rewrite upd_other by auto]. exfalso. destruct Hq as [Hq|[Hq|(y & q & f & Hq)]]; [lia| |].
    + pose proof (sum_in (tc o) _ _ _ Es). lia.
    + unfold good in G. rewrite Hq in G. destruct G as (_ & _ & b & Eb & Ec). apply nth_error_In, occ_in in Ec.
      pose proof (sum_in (fun b => occ o (cells b)) _ _ _ Eb) as Q. cbv beta in Q. unfold ce in H2. lia.
  - destruct (Nat.eq_dec q o) as [->|N]; [|now rewrite upd_other by auto].
    pose proof (sum_in (td o) _ _ _ Es) as Q. unfold td in Q at 1. rewrite Hw, sum_cons in Q. cbn [is_destroy] in Q. rewrite Nat.eqb_refl in Q. lia.
  - destruct (Nat.eq_dec q o) as [->|N]; [|now rewrite upd_other by auto]. rewrite E0 in Eq. discriminate.
  - now rewrite nth_error_app1 by auto.
  - destruct (Nat.eq_dec q o) as [->|N].
    + exfalso. apply Nv. destruct Hf' as [(x1 & Q)|[(y1 & Q)|(x1 & y1 & p1 & _ & _ & Q & _)]]; [| |eapply getv_in; eauto]; unfold good in G; rewrite Q in G; tauto.
    + rewrite upd_other by auto. destruct Hx as [->|(q' & x' & c' & Eq' & Hq' & ->)]; [auto|].
      destruct (Nat.eq_dec q' o) as [->|N']; [lia|now rewrite upd_other by auto].
Qed.

(* thread t in the middle of statement s, begun in w0 with the variables v *)
Definition doing (w0 : pg) (v : list (option nat)) (s : stmt) (p : list stmt) (w : pg) (t : thread) : Prop :=
  prog t = p /\
  match s with
  | New y ms => (exists ms2 done, work t = [] /\ vars t = v /\ y < length v /\ ms = done ++ ms2 /\ fin t = RBuild y ms2 (map (getv v) done) /\ length (heap w0) <= length (heap w)) \/
                (exists o, vars t = upd v y None /\ fin t = RSet y o /\ length (heap w0) <= o /\ nth_error (heap w) o = Some (mkO (Some 1%Z) Alive (map (getv v) ms)))
  | Copy y x => y <> x /\ y < length v /\ vars t = upd v y None /\ fin t = RCopy y x
  | Move y x => y <> x /\ y < length v /\ vars t = upd v y None /\ fin t = RMove y x
  | Reset y => vars t = upd v y None /\ fin t = RNone
  | Load y x f => exists o m, y <> x /\ y < length v /\ getv v x = Some o /\ vars t = upd v y None /\ member w0 o f = Some m /\ member w o f = Some m /\
                  (fin t = RRead y o f \/ exists q, m = Some q /\ work t = [] /\ fin t = RInc y o f q)
  | Store x f y => exists o, getv v x = Some o /\ vars t = v /\ member w o f = Some None /\ fin t = RStore o f y
  | Take y x f => exists o m, getv v x = Some o /\ y < length v /\ vars t = upd v y None /\ member w0 o f = Some m /\ member w o f = Some m /\ fin t = RTake y o f
  | Use x => False
  end.
Lemma heap_grows w j w' : tstep w j = Ok w' -> length (heap w) <= length (heap w').
Proof.
  intros E. destruct (nth_error (ths w) j) as [s|] eqn:Es; [|rewrite step_none in E by auto; injection E as <-; auto].
  destruct (step_shape w j s w' Es E) as [(-> & _)|(t' & _ & _ & H)]; [auto|].
  destruct H as [H _|q x c' Eq Hq H _|q k x Hw Eq Lx H _|q k c' l Hw Eq H _|y acc Hw Hf' H _|w1 q x f' v Hw Eq Lx Hx Hf' H _]; rewrite H, ?upd_length, ?app_length; try lia.
  destruct Hx as [->|(q' & x' & c' & Eq' & Hq' & ->)]; rewrite ?upd_length; lia.
Qed.
Lemma task_thread w i t a k w' : nth_error (ths w) i = Some t -> work t = a :: k -> tstep w i = Ok w' ->
  exists k', nth_error (ths w') i = Some (mkT (vars t) (prog t) k' (fin t)).
Proof.
  intros Et Ew E. pose proof (nth_error_lt _ _ _ Et) as Li. unfold tstep in E. rewrite Et, Ew in E. destruct a as [p|p|p|p]; cbn [do_task] in E.
  - destruct (nth_error (heap w) p) as [[[n|] l' c2]|]; try discriminate. injection E as <-. eexists. cbn. now apply upd_same.
  - destruct (nth_error (heap w) p) as [[[n|] l' c2]|]; try discriminate. injection E as <-. eexists. cbn. now apply upd_same.
  - destruct (existsb (uses_obj p) (ths w)); [discriminate|]. destruct (deref w p); try discriminate. cbn [bind] in E. injection E as <-. eexists. cbn. now apply upd_same.
  - destruct (nth_error (heap w) p) as [[c2 [] l']|]; try discriminate. injection E as <-. eexists. cbn. now apply upd_same.
Qed.
Lemma other_thread w i j t w' : nth_error (ths w) i = Some t -> j <> i -> tstep w j = Ok w' -> nth_error (ths w') i = Some t.
Proof.
  intros Et N E. destruct (nth_error (ths w) j) as [s|] eqn:Es; [|rewrite step_none in E by auto; injection E as <-; auto].
  destruct (step_shape w j s w' Es E) as [(-> & _)|(t' & H & _)]; [auto|]. rewrite H. now rewrite upd_other by auto.
Qed.
(* a step of another thread, or of a deletion *)
Lemma doing_keep w0 v s p w t i j w' t' : inv w -> nth_error (ths w) i = Some t -> doing w0 v s p w t -> tstep w j = Ok w' ->
  j <> i \/ work t <> [] -> (t' = t \/ (work t <> [] /\ exists k', t' = mkT (vars t) (prog t) k' (fin t))) -> doing w0 v s p w' t'.
Proof.
  intros I Et D E Hj Ht. pose proof (heap_grows _ _ _ E) as Hg.
  assert (vars t' = vars t /\ prog t' = prog t /\ fin t' = fin t /\ (work t = [] -> work t' = [])) as (V1 & V2 & V3 & V4).
  { destruct Ht as [->|(N & k' & ->)]; auto. repeat split. intros; contradiction. }
  pose proof (fun o f U => member_keep w i j t w' o f I Et U E Hj) as MK.
  unfold doing in *. rewrite V1, V2, V3. destruct D as [D0 D]. split; [exact D0|].
  destruct s as [y ms|y x|y x|y|y x f|x f y|y x f|x]; auto.
  - destruct D as [(ms2 & dn & D1 & D2 & D3 & D4 & D5 & D6)|(o & D1 & D2 & D3 & D4)].
    + left. exists ms2, dn. repeat split; auto. lia.
    + right. exists o. repeat split; auto. apply (private_keep w i j t w' o (map (getv v) ms)); auto. rewrite D2. cbn [fref one]. now rewrite Nat.eqb_refl.
  - destruct D as (o & m & D1 & D1' & D2 & D3 & D4 & D5 & D6). exists o, m. repeat split; auto.
    + rewrite MK; auto. unfold uses_cell. destruct D6 as [->|(q & _ & _ & ->)]; now rewrite !Nat.eqb_refl.
    + destruct D6 as [D6|(q & A & B & C)]; [auto|right; exists q; auto].
  - destruct D as (o & D1 & D2 & D3 & D4). exists o. repeat split; auto. rewrite MK; auto. unfold uses_cell. rewrite D4. now rewrite !Nat.eqb_refl.
  - destruct D as (o & m & D1 & D2 & D3 & D4 & D5 & D6). exists o, m. repeat split; auto. rewrite MK; auto. unfold uses_cell. rewrite D6. now rewrite !Nat.eqb_refl.
Qed.
Lemma member_inc w p w1 o f : inc w p = Ok w1 -> member w1 o f = member w o f.
Proof.
  intros E. apply inc_shape in E. destruct E as (n & l & c & E & ->). unfold member, seto. cbn [heap].
  destruct (Nat.eq_dec p o) as [->|N]; [rewrite upd_same by (eapply nth_error_lt; eauto); now rewrite E|now rewrite upd_other by auto].
Qed.
Lemma inc_ths w p w1 : inc w p = Ok w1 -> ths w1 = ths w.
Proof. intros E. apply inc_shape in E. now destruct E as (n & l & c & E & ->). Qed.
Lemma getv_upd_other l x y v : x <> y -> getv (upd l y v) x = getv l x.
Proof. intros N. unfold getv. now rewrite upd_other by auto. Qed.
Definition outcome (w0 : pg) (v : list (option nat)) (s : stmt) (p : list stmt) (w : pg) (t : thread) : Prop :=
  (between t = false /\ doing w0 v s p w t) \/ (between t = true /\ prog t = p /\ effect w0 v s w (vars t)).
(* the last part of a statement *)
Lemma doing_rest w0 v s p w t i w' : inv w -> nth_error (ths w) i = Some t -> work t = [] -> between t = false -> doing w0 v s p w t -> tstep w i = Ok w' ->
  exists t', nth_error (ths w') i = Some t' /\ outcome w0 v s p w' t'.
Proof.
  intros I Et Ew Nb [D0 D] E. pose proof (nth_error_lt _ _ _ Et) as Li. unfold between in Nb. rewrite Ew in Nb.
  assert (do_rest w i t = Ok w') as R by (unfold tstep in E; rewrite Et, Ew in E; destruct (fin t); auto; discriminate).
  clear E. unfold do_rest in R.
  assert (forall w1 t1, ths w1 = ths w -> nth_error (ths (sett w1 i t1)) i = Some t1) as T1.
  { intros w1 t1 E1. unfold sett. cbn [ths]. apply upd_same. now rewrite E1. }
  destruct s as [y ms|y x|y x|y|y x f|x f y|y x f|x].
  - destruct D as [(ms2 & dn & _ & D2 & D3 & D4 & D5 & D6)|(o & D1 & D2 & D3 & D4)].
    + rewrite D5 in R. destruct ms2 as [|m ms2].
      * injection R as <-. eexists. split; [apply T1; reflexivity|]. left. split; [unfold between; cbn [work fin]; destruct (dec_of _); reflexivity|].
        split; [exact D0|]. cbn [heap]. right. exists (length (heap w)). cbn [vars fin]. rewrite D2. repeat split; auto.
        unfold sett. cbn [heap]. rewrite nth_error_app2, Nat.sub_diag by lia. cbn [nth_error]. subst ms. now rewrite app_nil_r.
      * assert (forall w1 a, ths w1 = ths w -> length (heap w) <= length (heap w1) -> a = getv (vars t) m ->
          Ok (sett w1 i (mkT (vars t) (prog t) [] (RBuild y ms2 (map (getv v) dn ++ [a])))) = Ok w' -> exists t', nth_error (ths w') i = Some t' /\ outcome w0 v (New y ms) p w' t') as Go.
        { intros w1 a E1 L1 Ea X. injection X as <-. eexists. split; [apply T1; exact E1|]. left. split; [reflexivity|]. split; [exact D0|].
          left. exists ms2, (dn ++ [m]). cbn [vars work fin]. rewrite map_app. cbn [map]. subst a. rewrite D2. repeat split; auto.
          - subst ms. now rewrite <- app_assoc.
          - unfold sett. cbn [heap]. lia. }
        destruct (getv (vars t) m) as [q|] eqn:Em; [|eapply Go; [| |reflexivity|exact R]; auto].
        destruct (inc w q) as [w1| | |] eqn:Ei; try discriminate. cbn [bind] in R. eapply Go; [| |reflexivity|exact R]; [eapply inc_ths; eauto|].
        apply inc_shape in Ei. destruct Ei as (n & l & c & _ & ->). unfold seto. cbn [heap]. now rewrite upd_length.
    + rewrite D2 in R. injection R as <-. eexists. split; [apply T1; reflexivity|]. right. split; [reflexivity|]. split; [exact D0|]. cbn [vars effect]. intros Hy.
      exists o. eexists. split; [exact D3|]. rewrite D1, upd_upd. split; [reflexivity|]. unfold sett. cbn [heap]. split; [exact D4|]. auto.
  - destruct D as (N & Hy & D1 & D2). rewrite D2 in R. rewrite D1 in R. rewrite getv_upd_other in R by auto. destruct (getv v x) as [o|] eqn:Ex.
    + destruct (inc w o) as [w1| | |] eqn:Ei; try discriminate. cbn [bind] in R. injection R as <-. eexists. split; [apply T1; eapply inc_ths; eauto|].
      right. split; [reflexivity|]. split; [exact D0|]. cbn [vars effect]. now rewrite upd_upd, Ex.
    + injection R as <-. eexists. split; [apply T1; reflexivity|]. right. split; [reflexivity|]. split; [exact D0|]. cbn [vars effect]. now rewrite Ex.
  - destruct D as (N & Hy & D1 & D2). rewrite D2 in R. rewrite D1 in R. rewrite getv_upd_other in R by auto. injection R as <-.
    eexists. split; [apply T1; reflexivity|]. right. split; [reflexivity|]. split; [exact D0|]. cbn [vars effect]. intros _ _. now rewrite upd_upd.
  - destruct D as [D1 D2]. rewrite D2 in Nb. discriminate.
  - destruct D as (o & m & N & Hy & Ex & D1 & D2 & D3 & [D4|(q & -> & _ & D4)]); rewrite D4 in R.
    + destruct (deref w o) as [b| | |] eqn:Eb; try discriminate. cbn [bind] in R. apply deref_shape in Eb. destruct Eb as [Eb _].
      unfold member in D3. rewrite Eb in D3. rewrite (getv_nth _ _ _ D3) in R. injection R as <-. eexists. split; [apply T1; reflexivity|]. destruct m as [q|].
      * left. split; [reflexivity|]. split; [exact D0|]. exists o, (Some q). cbn [vars fin work]. repeat split; auto; [|right; exists q; auto].
        unfold member, sett. cbn [heap]. now rewrite Eb.
      * right. split; [reflexivity|]. split; [exact D0|]. cbn [vars effect]. intros o' m' X1 X2. rewrite Ex in X1. injection X1 as <-. rewrite D2 in X2. injection X2 as <-. exact D1.
    + destruct (inc w q) as [w1| | |] eqn:Ei; try discriminate. cbn [bind] in R. injection R as <-. eexists. split; [apply T1; eapply inc_ths; eauto|].
      right. split; [reflexivity|]. split; [exact D0|]. cbn [vars effect]. intros o' m' X1 X2. rewrite Ex in X1. injection X1 as <-. rewrite D2 in X2. injection X2 as <-. now rewrite D1, upd_upd.
  - destruct D as (o & Ex & D1 & D2 & D3). rewrite D3 in R. rewrite D1 in R. destruct (getv v y) as [q|] eqn:Ey.
    + destruct (inc w q) as [w1| | |] eqn:Ei; try discriminate. cbn [bind] in R. destruct (deref w1 o) as [b| | |] eqn:Eb; try discriminate. cbn [bind] in R.
      apply deref_shape in Eb. destruct Eb as [Eb _]. injection R as <-. eexists. split; [apply T1; unfold seto; cbn [ths]; eapply inc_ths; eauto|].
      right. split; [reflexivity|]. split; [exact D0|]. cbn [vars effect]. split; [reflexivity|]. intros o' m' _ X1 _. rewrite Ex in X1. injection X1 as <-.
      rewrite <- (member_inc _ _ _ o f Ei) in D2. unfold member in *. rewrite Eb in D2. unfold sett, seto. cbn [heap]. rewrite upd_same by (eapply nth_error_lt; eauto).
      unfold setcell. cbn [cells]. rewrite Ey. apply upd_same. eapply nth_error_lt; eauto.
    + injection R as <-. eexists. split; [apply T1; reflexivity|]. right. split; [reflexivity|]. split; [exact D0|]. cbn [vars effect]. split; [reflexivity|].
      intros o' m' _ X1 _. rewrite Ex in X1. injection X1 as <-. rewrite Ey. exact D2.
  - destruct D as (o & m & Ex & Hy & D1 & D2 & D3 & D4). rewrite D4 in R. destruct (deref w o) as [b| | |] eqn:Eb; try discriminate. cbn [bind] in R.
    apply deref_shape in Eb. destruct Eb as [Eb _]. injection R as <-. eexists. split; [apply T1; reflexivity|]. right. split; [reflexivity|]. split; [exact D0|].
    cbn [vars effect]. intros o' m' _ X1 X2. rewrite Ex in X1. injection X1 as <-. rewrite D2 in X2. injection X2 as <-. unfold member in D3. rewrite Eb in D3.
    split; [rewrite D1, upd_upd; now rewrite (getv_nth _ _ _ D3)|]. unfold member, sett, seto. cbn [heap]. rewrite upd_same by (eapply nth_error_lt; eauto).
    unfold setcell. cbn [cells]. apply upd_same. eapply nth_error_lt; eauto.
  - destruct D.
Qed.
(* the first step of a statement *)
Lemma doing_start w i t s p w' : inv w -> nth_error (ths w) i = Some t -> between t = true -> prog t = s :: p -> tstep w i = Ok w' ->
  exists t', nth_error (ths w') i = Some t' /\ outcome w (vars t) s p w' t'.
Proof.
  intros I Et B Ep E. pose proof (nth_error_lt _ _ _ Et) as Li. pose proof (i_self w I _ _ Et) as Sf. rewrite Ep in Sf.
  unfold between in B. destruct (work t) eqn:Ew; [|discriminate]. destruct (fin t) eqn:Ef; try discriminate.
  unfold tstep in E. rewrite Et, Ew, Ef, Ep in E.
  assert (forall w1 t1, ths w1 = ths w -> nth_error (ths (sett w1 i t1)) i = Some t1) as T1.
  { intros w1 t1 E1. unfold sett. cbn [ths]. apply upd_same. now rewrite E1. }
  assert (forall y v, length (vars t) <= y -> upd (vars t) y v = vars t) as UO.
  { intros y v. generalize (vars t). clear. intros l. revert y. induction l as [|z l IH]; intros [|y] H; cbn [upd length] in *; try lia; auto. f_equal. apply IH. lia. }
  assert (effect w (vars t) s (sett w i (mkT (vars t) p [] RNone)) (vars t) -> Ok (sett w i (mkT (vars t) p [] RNone)) = Ok w' ->
    exists t', nth_error (ths w') i = Some t' /\ outcome w (vars t) s p w' t') as Sk.
  { intros He X. injection X as <-. eexists. split; [apply T1; reflexivity|]. right. auto. }
  assert (forall k r, r <> RNone -> between (mkT k p (dec_of (getv (vars t) 0)) r) = false) as _. { intros. unfold between. cbn [work fin]. destruct (dec_of _); destruct r; congruence. }
  assert (forall v k r, r <> RNone -> between (mkT v p k r) = false) as Bf. { intros. unfold between. cbn [work fin]. destruct k; destruct r; congruence. }
  assert (forall o b f m, nth_error (heap w) o = Some b -> member w o f = Some m -> f < length (cells b)) as ML.
  { intros o b f m X Y. unfold member in Y. rewrite X in Y. eapply nth_error_lt; eauto. }
  assert (forall o b f, nth_error (heap w) o = Some b -> f < length (cells b) -> exists m, member w o f = Some m) as MX.
  { intros o b f X Y. unfold member. rewrite X. destruct (nth_error (cells b) f) eqn:Z; eauto. apply nth_error_None in Z. lia. }
  destruct s as [y ms|y x|y x|y|y x f|x f y|y x f|x]; unfold do_stmt in E.
  - destruct (Nat.ltb_spec y (length (vars t))) as [Hy|Hy]; [|apply Sk in E; [auto|cbn [effect]; intros; lia]].
    injection E as <-. eexists. split; [apply T1; reflexivity|]. left. split; [reflexivity|]. split; [reflexivity|]. left. exists ms, []. cbn [vars work fin]. repeat split; auto.
  - destruct (Nat.ltb_spec y (length (vars t))) as [Hy|Hy]; [|apply Sk in E; [auto|cbn [effect]; now rewrite UO]].
    destruct (Nat.eqb_spec y x) as [->|N]; [apply Sk in E; [auto|cbn [effect]]|].
    { unfold getv. destruct (nth_error (vars t) x) eqn:X; [symmetry; now apply upd_id|apply nth_error_None in X; lia]. }
    cbn [andb negb] in E. injection E as <-. eexists. split; [apply T1; reflexivity|]. left. split; [apply Bf; discriminate|]. split; [reflexivity|]. cbn [vars fin]. auto.
  - destruct (Nat.ltb_spec y (length (vars t))) as [Hy|Hy]; [|apply Sk in E; [auto|cbn [effect]; intros; lia]].
    destruct (Nat.eqb_spec y x) as [->|N]; [apply Sk in E; [auto|cbn [effect]; intros; congruence]|].
    cbn [andb negb] in E. injection E as <-. eexists. split; [apply T1; reflexivity|]. left. split; [apply Bf; discriminate|]. split; [reflexivity|]. cbn [vars fin]. auto.
  - destruct (Nat.ltb_spec y (length (vars t))) as [Hy|Hy]; [|apply Sk in E; [auto|cbn [effect]; now rewrite UO]].
    injection E as <-. eexists. split; [apply T1; reflexivity|]. destruct (dec_of (getv (vars t) y)) as [|a k] eqn:Ed.
    + right. split; [reflexivity|]. split; [reflexivity|]. reflexivity.
    + left. split; [reflexivity|]. split; [reflexivity|]. cbn [vars fin]. auto.
  - destruct (getv (vars t) x) as [o|] eqn:Ex; [|apply Sk in E; [auto|cbn [effect]; intros; congruence]].
    destruct (deref w o) as [b| | |] eqn:Eb; try discriminate. cbn [bind] in E. apply deref_shape in Eb. destruct Eb as [Eb _].
    destruct (Nat.ltb_spec y (length (vars t))) as [Hy|Hy]; [|apply Sk in E; [auto|cbn [effect]; intros; now rewrite UO]].
    destruct (Nat.ltb_spec f (length (cells b))) as [Hf|Hf].
    2:{ apply Sk in E; [auto|cbn [effect]]. intros o' m X1 X2. rewrite Ex in X1. injection X1 as <-. pose proof (ML _ _ _ _ Eb X2). lia. }
    cbn [andb] in E. destruct (existsb _ _); [discriminate|]. injection E as <-. eexists. split; [apply T1; reflexivity|].
    left. split; [apply Bf; discriminate|]. split; [reflexivity|]. cbn [vars fin]. destruct (MX _ _ _ Eb Hf) as [m Em]. exists o, m. repeat split; auto.
    intros ->. destruct (Sf x f) as [X _]. apply X. now left.
  - destruct (getv (vars t) x) as [o|] eqn:Ex; [|apply Sk in E; [auto|cbn [effect]; split; [auto|intros; congruence]]].
    destruct (deref w o) as [b| | |] eqn:Eb; try discriminate. cbn [bind] in E. apply deref_shape in Eb. destruct Eb as [Eb _].
    destruct (Nat.ltb_spec y (length (vars t))) as [Hy|Hy]; [|apply Sk in E; [auto|cbn [effect]; split; [auto|intros; lia]]].
    destruct (Nat.ltb_spec f (length (cells b))) as [Hf|Hf].
    2:{ apply Sk in E; [auto|cbn [effect]]. split; [auto|]. intros o' m _ X1 X2. rewrite Ex in X1. injection X1 as <-. pose proof (ML _ _ _ _ Eb X2). lia. }
    cbn [andb] in E. destruct (existsb _ _); [discriminate|]. injection E as <-. eexists. split; [apply T1; reflexivity|].
    left. split; [apply Bf; discriminate|]. split; [reflexivity|]. cbn [vars fin]. exists o. repeat split; auto.
    unfold member, sett, seto. cbn [heap]. rewrite upd_same by (eapply nth_error_lt; eauto). unfold setcell. cbn [cells]. now apply upd_same.
  - destruct (getv (vars t) x) as [o|] eqn:Ex; [|apply Sk in E; [auto|cbn [effect]; intros; congruence]].
    destruct (deref w o) as [b| | |] eqn:Eb; try discriminate. cbn [bind] in E. apply deref_shape in Eb. destruct Eb as [Eb _].
    destruct (Nat.ltb_spec y (length (vars t))) as [Hy|Hy]; [|apply Sk in E; [auto|cbn [effect]; intros; lia]].
    destruct (Nat.ltb_spec f (length (cells b))) as [Hf|Hf].
    2:{ apply Sk in E; [auto|cbn [effect]]. intros o' m _ X1 X2. rewrite Ex in X1. injection X1 as <-. pose proof (ML _ _ _ _ Eb X2). lia. }
    cbn [andb] in E. destruct (existsb _ _); [discriminate|]. injection E as <-. eexists. split; [apply T1; reflexivity|].
    left. split; [apply Bf; discriminate|]. split; [reflexivity|]. cbn [vars fin]. destruct (MX _ _ _ Eb Hf) as [m Em]. exists o, m. repeat split; auto.
  - destruct (getv (vars t) x) as [o|] eqn:Ex; [|apply Sk in E; [auto|reflexivity]].
    destruct (deref w o) as [b| | |] eqn:Eb; try discriminate. cbn [bind] in E. apply Sk in E; [auto|reflexivity].
Qed.
Lemma outcome_end w0 v s p i w w2 : meanwhile i w w2 -> inv w -> forall t, nth_error (ths w) i = Some t -> outcome w0 v s p w t ->
  exists t2, nth_error (ths w2) i = Some t2 /\ between t2 = true /\ prog t2 = p /\ effect w0 v s w2 (vars t2).
Proof.
  induction 1 as [w t1 Et1 B|w t1 j w1 w2 Et1 B E M IH]; intros I t Et O; rewrite Et in Et1; injection Et1 as <-.
  - destruct O as [(B' & _)|O]; [congruence|eauto].
  - destruct O as [(_ & D)|(B' & _)]; [|congruence].
    assert (inv w1) as I1. { destruct (step_ok w j I) as [(w3 & E3 & I3)|(E3 & _)]; [|congruence]. rewrite E in E3. now injection E3 as ->. }
    destruct (Nat.eq_dec j i) as [->|N].
    + destruct (work t) as [|a k] eqn:Ew.
      * destruct (doing_rest w0 v s p w t i w1 I Et Ew B D E) as (t' & Et' & O'). eauto.
      * destruct (task_thread w i t a k w1 Et Ew E) as (k' & Et'). apply (IH I1 _ Et').
        assert (doing w0 v s p w1 (mkT (vars t) (prog t) k' (fin t))) as D'.
        { apply (doing_keep w0 v s p w t i i w1); auto; [right; rewrite Ew; discriminate|right; split; [rewrite Ew; discriminate|eauto]]. }
        destruct (between (mkT (vars t) (prog t) k' (fin t))) eqn:B'; [|left; auto]. right. split; [auto|].
        unfold between in B'. cbn [work fin] in B'. destruct k'; [|discriminate]. destruct (fin t) eqn:Ef; try discriminate.
        destruct D' as [D0 D']. cbn [vars fin work] in D'. split; [exact D0|]. cbn [vars].
        destruct s; cbn [effect]; try (exfalso; clear - D'; repeat (match goal with H : exists _, _ |- _ => destruct H | H : _ /\ _ |- _ => destruct H | H : _ \/ _ |- _ => destruct H end); congruence).
        tauto.
    + apply (IH I1 t (other_thread _ _ _ _ _ Et N E)). left. split; [exact B|]. apply (doing_keep w0 v s p w t i j w1); auto.
Qed.
Lemma pgr_effect g l sched w i t s p w1 w2 : wf g l -> Forall (fun t => no_self (snd t)) l -> prun (start g l) sched = Ok w ->
  nth_error (ths w) i = Some t -> between t = true -> prog t = s :: p -> tstep w i = Ok w1 -> meanwhile i w1 w2 ->
  exists t2, nth_error (ths w2) i = Some t2 /\ prog t2 = p /\ effect w (vars t) s w2 (vars t2).
Proof.
  intros W N E Et B Ep E1 M. assert (inv w) as I by (eapply run_inv; eauto).
  destruct (doing_start w i t s p w1 I Et B Ep E1) as (t' & Et' & O).
  assert (inv w1) as I1. { destruct (step_ok w i I) as [(w3 & E3 & I3)|(E3 & _)]; [|congruence]. rewrite E1 in E3. now injection E3 as ->. }
  destruct (outcome_end _ _ _ _ _ _ _ M I1 _ Et' O) as (t2 & A & _ & C). eauto.
Qed.
Lemma effect_case : exists w1 w2, tstep (start two walkers) 0 = Ok w1 /\ meanwhile 0 w1 w2 /\
  effect (start two walkers) [Some 1; None] (Load 1 0 1) w2 [Some 1; Some 0].
Proof.
  eexists. eexists. split; [reflexivity|]. split.
  - eapply (m_step 0 _ _ 1); [reflexivity|reflexivity|reflexivity|]. eapply (m_step 0 _ _ 0); [reflexivity|reflexivity|reflexivity|].
    eapply (m_step 0 _ _ 1); [reflexivity|reflexivity|reflexivity|]. eapply (m_step 0 _ _ 0); [reflexivity|reflexivity|reflexivity|].
    eapply m_end; reflexivity.
  - cbn [effect]. intros o m H1 H2. injection H1 as <-. injection H2 as <-. reflexivity.
Qed.
