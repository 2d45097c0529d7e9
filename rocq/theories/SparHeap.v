(* Who owns what: chunks of the heap held by the threads. *)
From Coq Require Import ZifyBool ZifyNat Permutation.
From Verif Require Import Base BaseFacts SparModel.
Open Scope Z_scope.

(* a block or a counter that belongs to one thread; a reference to a counter with its block *)
Inductive chunk := PB (b : nat) (l : list (option Z)) | PC (c : nat) (n : Z) | RF (c b : nat) (l : list Z).
Definition is_rf (c : nat) (x : chunk) : bool := match x with RF c' _ _ => Nat.eqb c c' | _ => false end.
Definition rfc (c : nat) (l : list chunk) : nat := length (filter (is_rf c) l).
Definition pbs (l : list chunk) : list nat := flat_map (fun x => match x with PB b _ => [b] | _ => [] end) l.
Definition pcs (l : list chunk) : list nat := flat_map (fun x => match x with PC c _ => [c] | _ => [] end) l.
Definition pub := list (nat * nat * list Z).
Definition pub_b (p : pub) : list nat := map (fun p => snd (fst p)) p.
Definition pub_c (p : pub) : list nat := map (fun p => fst (fst p)) p.

Record hinv (m : mem) (l : list chunk) (p : pub) : Prop := mkHinv {
  h_nb : NoDup (pub_b p ++ pbs l);
  h_nc : NoDup (pub_c p ++ pcs l);
  h_rf : forall c b t, In (RF c b t) l -> In (c, b, t) p;
  h_pub : forall c b t, In (c, b, t) p -> nth_error (bufs m) b = Some (Some (map Some t)) /\
            nth_error (cnts m) c = Some (Some (Z.of_nat (rfc c l))) /\ (1 <= rfc c l)%nat;
  h_pb : forall b t, In (PB b t) l -> nth_error (bufs m) b = Some (Some t);
  h_pc : forall c n, In (PC c n) l -> nth_error (cnts m) c = Some (Some n);
  h_lb : forall b t, nth_error (bufs m) b = Some (Some t) -> In b (pub_b p ++ pbs l);
  h_lc : forall c n, nth_error (cnts m) c = Some (Some n) -> In c (pub_c p ++ pcs l) }.

Lemma perm_filter {A} (f : A -> bool) l l' : Permutation l l' -> Permutation (filter f l) (filter f l').
Proof.
  induction 1; cbn; auto.
  - destruct (f x); auto.
  - destruct (f x), (f y); auto. apply perm_swap.
  - etransitivity; eauto.
Qed.
Lemma rfc_perm c l l' : Permutation l l' -> rfc c l = rfc c l'.
Proof. intros P. apply Permutation_length, perm_filter, P. Qed.
Lemma pbs_perm l l' : Permutation l l' -> Permutation (pbs l) (pbs l').
Proof. apply Permutation_flat_map. Qed.
Lemma pcs_perm l l' : Permutation l l' -> Permutation (pcs l) (pcs l').
Proof. apply Permutation_flat_map. Qed.
Lemma hinv_perm m l l' p : Permutation l l' -> hinv m l p -> hinv m l' p.
Proof.
  intros P [H1 H2 H3 H4 H5 H6 H7 H8]. pose proof (Permutation_sym P) as P'. constructor.
  - eapply Permutation_NoDup; [|exact H1]. apply Permutation_app_head, pbs_perm, P.
  - eapply Permutation_NoDup; [|exact H2]. apply Permutation_app_head, pcs_perm, P.
  - intros c b t I. apply H3. eapply Permutation_in; eauto.
  - intros c b t I. rewrite <- (rfc_perm c _ _ P). auto.
  - intros b t I. apply H5. eapply Permutation_in; eauto.
  - intros c n I. apply H6. eapply Permutation_in; eauto.
  - intros b t I. eapply Permutation_in; [|eapply H7; eauto]. apply Permutation_app_head, pbs_perm, P.
  - intros b t I. eapply Permutation_in; [|eapply H8; eauto]. apply Permutation_app_head, pcs_perm, P.
Qed.
Lemma in_pbs b t l : In (PB b t) l -> In b (pbs l).
Proof. intros I. apply in_flat_map. exists (PB b t). split; [auto|now left]. Qed.
Lemma in_pcs c n l : In (PC c n) l -> In c (pcs l).
Proof. intros I. apply in_flat_map. exists (PC c n). split; [auto|now left]. Qed.
Lemma in_pub_b c b t p : In (c, b, t) p -> In b (pub_b p).
Proof. intros I. apply in_map_iff. exists (c, b, t). auto. Qed.
Lemma in_pub_c c b t p : In (c, b, t) p -> In c (pub_c p).
Proof. intros I. apply in_map_iff. exists (c, b, t). auto. Qed.
Lemma nodup_app_not {A} (a b : list A) x : NoDup (a ++ b) -> In x a -> In x b -> False.
Proof.
  induction a as [|y a IH]; cbn; intros N I J; [auto|]. inversion N; subst. destruct I as [->|I]; [|auto].
  apply H1. apply in_or_app. auto.
Qed.
Lemma pub_fun c b t b' t' p l : NoDup (pub_c p ++ l) -> In (c, b, t) p -> In (c, b', t') p -> b = b' /\ t = t'.
Proof.
  induction p as [|[[c0 b0] t0] p IH]; cbn; intros N I J; [tauto|]. inversion N; subst.
  destruct I as [I|I], J as [J|J].
  - split; congruence.
  - exfalso. apply H1. apply in_or_app. left. assert (c0 = c) as -> by congruence. eapply in_pub_c; eauto.
  - exfalso. apply H1. apply in_or_app. left. assert (c0 = c) as -> by congruence. eapply in_pub_c; eauto.
  - auto.
Qed.
Lemma pub_inj_b c b t c' t' p l : NoDup (pub_b p ++ l) -> In (c, b, t) p -> In (c', b, t') p -> c = c'.
Proof.
  induction p as [|[[c0 b0] t0] p IH]; cbn; intros N I J; [tauto|]. inversion N; subst.
  destruct I as [I|I], J as [J|J].
  - congruence.
  - exfalso. apply H1. apply in_or_app. left. assert (b0 = b) as -> by congruence. eapply in_pub_b; eauto.
  - exfalso. apply H1. apply in_or_app. left. assert (b0 = b) as -> by congruence. eapply in_pub_b; eauto.
  - eauto.
Qed.
Lemma nth_upd {A} (l : list A) i j x : nth_error (upd l i x) j = if Nat.eqb i j then match nth_error l j with Some _ => Some x | None => None end else nth_error l j.
Proof.
  revert i j. induction l as [|y l IH]; intros [|i] [|j]; cbn; auto; try (now destruct (Nat.eqb i j)).
Qed.
Lemma rfc_cons c x l : rfc c (x :: l) = ((if is_rf c x then 1 else 0) + rfc c l)%nat.
Proof. unfold rfc. cbn [filter]. now destruct (is_rf c x). Qed.

Section steps.
  Context (m : mem) (l : list chunk) (p : pub).
  Lemma hv_inc c b t : hinv m l p -> In (RF c b t) l ->
    nth_error (cnts m) c = Some (Some (Z.of_nat (rfc c l))) /\
    hinv (mkMem (bufs m) (upd (cnts m) c (Some (Z.of_nat (rfc c l) + 1))) (shr m)) (RF c b t :: l) p.
  Proof.
    intros H I. destruct H as [H1 H2 H3 H4 H5 H6 H7 H8]. pose proof (H3 _ _ _ I) as Ip. destruct (H4 _ _ _ Ip) as (_ & C & _). split; [exact C|].
    constructor; cbn [bufs cnts]; auto.
    - intros c' b' t' [E|E]; [injection E as <- <- <-; auto|auto].
    - intros c' b' t' J. destruct (H4 _ _ _ J) as (B' & C' & L'). split; [exact B'|]. rewrite nth_upd, rfc_cons. cbn [is_rf]. rewrite (Nat.eqb_sym c' c).
      destruct (Nat.eqb_spec c c') as [<-|N]; [|cbn; auto]. rewrite C. split; [do 2 f_equal|]; lia.
    - intros b' t' [E|E]; [discriminate|auto].
    - intros c' n [E|E]; [discriminate|]. rewrite nth_upd. destruct (Nat.eqb_spec c c') as [<-|N]; [|auto].
      exfalso. eapply nodup_app_not; [exact H2|eapply in_pub_c; eauto|eapply in_pcs; eauto].
    - intros c' n E. rewrite nth_upd in E. destruct (Nat.eqb_spec c c') as [<-|N]; [|eapply H8; eauto]. apply in_or_app. left. eapply in_pub_c; eauto.
  Qed.
  Lemma hv_dec c b t : hinv m (RF c b t :: l) p ->
    nth_error (cnts m) c = Some (Some (Z.of_nat (rfc c l) + 1)) /\
    let m' := mkMem (bufs m) (upd (cnts m) c (Some (Z.of_nat (rfc c l)))) (shr m) in
    ((1 <= rfc c l)%nat -> hinv m' l p) /\
    (rfc c l = 0%nat -> exists p', hinv m' (PB b (map Some t) :: PC c 0 :: l) p').
  Proof.
    intros [H1 H2 H3 H4 H5 H6 H7 H8]. pose proof (H3 _ _ _ (or_introl eq_refl)) as Ip. destruct (H4 _ _ _ Ip) as (B & C & _).
    rewrite rfc_cons in C. cbn [is_rf] in C. rewrite Nat.eqb_refl in C.
    assert (nth_error (cnts m) c = Some (Some (Z.of_nat (rfc c l) + 1))) as C1 by (rewrite C; do 2 f_equal; lia).
    split; [exact C1|]. cbv zeta. cbn [pbs pcs flat_map app] in *. split.
    - intros P. constructor; cbn [bufs cnts]; auto.
      + intros c' b' t' J. apply H3. now right.
      + intros c' b' t' J. destruct (H4 _ _ _ J) as (B' & C' & L'). rewrite rfc_cons in C', L'. cbn [is_rf] in C', L'. split; [exact B'|]. rewrite nth_upd.
        rewrite (Nat.eqb_sym c' c) in *. destruct (Nat.eqb_spec c c') as [<-|N]; [rewrite C1|]; auto.
      + intros b' t' J. apply H5. now right.
      + intros c' n J. rewrite nth_upd. destruct (Nat.eqb_spec c c') as [<-|N]; [|apply H6; now right].
        exfalso. eapply nodup_app_not; [exact H2|eapply in_pub_c; eauto|eapply in_pcs; eauto].
      + intros c' n E. rewrite nth_upd in E. destruct (Nat.eqb_spec c c') as [<-|N]; [|eapply H8; eauto]. apply in_or_app. left. eapply in_pub_c; eauto.
    - intros Z0. destruct (in_split _ _ Ip) as (p1 & p2 & ->). exists (p1 ++ p2).
      assert (pub_b (p1 ++ (c, b, t) :: p2) = pub_b p1 ++ b :: pub_b p2) as Eb by (unfold pub_b; now rewrite map_app).
      assert (pub_c (p1 ++ (c, b, t) :: p2) = pub_c p1 ++ c :: pub_c p2) as Ec by (unfold pub_c; now rewrite map_app).
      assert (pub_b (p1 ++ p2) = pub_b p1 ++ pub_b p2) as Eb' by (unfold pub_b; now rewrite map_app).
      assert (pub_c (p1 ++ p2) = pub_c p1 ++ pub_c p2) as Ec' by (unfold pub_c; now rewrite map_app).
      assert (Permutation (pub_b (p1 ++ (c, b, t) :: p2) ++ pbs l) (pub_b (p1 ++ p2) ++ b :: pbs l)) as Pb.
      { rewrite Eb, Eb', <- !app_assoc. cbn [app]. apply Permutation_app_head. apply Permutation_middle. }
      assert (Permutation (pub_c (p1 ++ (c, b, t) :: p2) ++ pcs l) (pub_c (p1 ++ p2) ++ c :: pcs l)) as Pc.
      { rewrite Ec, Ec', <- !app_assoc. cbn [app]. apply Permutation_app_head. apply Permutation_middle. }
      assert (forall c' b' t', In (c', b', t') (p1 ++ p2) -> c' <> c /\ b' <> b) as Ne.
      { intros c' b' t' J. split; intros ->.
        - rewrite Ec, <- app_assoc in H2. cbn [app] in H2. apply NoDup_remove_2 in H2. apply H2. apply in_app_or in J. destruct J as [J|J]; apply in_or_app; [left|right; apply in_or_app; left]; eapply in_pub_c; eauto.
        - rewrite Eb, <- app_assoc in H1. cbn [app] in H1. apply NoDup_remove_2 in H1. apply H1. apply in_app_or in J. destruct J as [J|J]; apply in_or_app; [left|right; apply in_or_app; left]; eapply in_pub_b; eauto. }
      assert (forall c' b' t', In (c', b', t') (p1 ++ (c, b, t) :: p2) -> c' <> c -> In (c', b', t') (p1 ++ p2)) as Rm.
      { intros c' b' t' J N. apply in_app_or in J. apply in_or_app. destruct J as [J|[J|J]]; [auto|congruence|auto]. }
      constructor; cbn [bufs cnts pbs pcs flat_map app].
      + eapply Permutation_NoDup; [exact Pb|exact H1].
      + eapply Permutation_NoDup; [exact Pc|exact H2].
      + intros c' b' t' [E|[E|J]]; [discriminate|discriminate|]. apply Rm; [apply H3; now right|]. intros ->.
        assert (1 <= rfc c l)%nat; [|lia]. unfold rfc. assert (In (RF c b' t') (filter (is_rf c) l)) as K by (apply filter_In; split; [auto|cbn; apply Nat.eqb_refl]).
        destruct (filter (is_rf c) l); [destruct K|cbn; lia].
      + intros c' b' t' J. destruct (Ne _ _ _ J) as [N _]. assert (In (c', b', t') (p1 ++ (c, b, t) :: p2)) as J' by (apply in_app_or in J; apply in_or_app; cbn; tauto).
        destruct (H4 _ _ _ J') as (B' & C' & L'). split; [exact B'|]. rewrite nth_upd. destruct (Nat.eqb_spec c c') as [->|_]; [now elim N|].
        rewrite !rfc_cons in *. cbn [is_rf] in *. destruct (Nat.eqb_spec c' c) as [->|_]; [now elim N|]. auto.
      + intros b' t' [E|[E|J]]; [injection E as <- <-; auto|discriminate|apply H5; now right].
      + intros c' n [E|[E|J]]; [discriminate| |].
        * injection E as <- <-. rewrite nth_upd, Nat.eqb_refl, C1. do 2 f_equal. lia.
        * rewrite nth_upd. destruct (Nat.eqb_spec c c') as [<-|N]; [|apply H6; now right].
          exfalso. eapply nodup_app_not; [exact H2|eapply in_pub_c; eauto|eapply in_pcs; eauto].
      + intros b' t' E. eapply Permutation_in; [exact Pb|eapply H7; eauto].
      + intros c' n E. rewrite nth_upd in E. eapply Permutation_in; [exact Pc|]. destruct (Nat.eqb_spec c c') as [<-|N]; [|eapply H8; eauto].
        apply in_or_app. left. eapply in_pub_c; eauto.
  Qed.
  Lemma hv_newb n : hinv m l p -> hinv (mkMem (bufs m ++ [Some (repeat None n)]) (cnts m) (shr m)) (PB (length (bufs m)) (repeat None n) :: l) p.
  Proof.
    intros [H1 H2 H3 H4 H5 H6 H7 H8]. constructor; cbn [bufs cnts pbs pcs flat_map app]; auto.
    - eapply Permutation_NoDup; [apply Permutation_middle|]. constructor; [|exact H1]. intros I.
      apply in_app_or in I. destruct I as [I|I].
      + apply in_map_iff in I. destruct I as ([[c b] t] & Eq & I). cbn [fst snd] in Eq. subst. destruct (H4 _ _ _ I) as (B & _). apply nth_error_lt in B. lia.
      + apply in_flat_map in I. destruct I as (x & I & J). destruct x; cbn in J; try tauto. destruct J as [J|[]]. subst. apply H5 in I. apply nth_error_lt in I. lia.
    - intros c b t [E|J]; [discriminate|auto].
    - intros c b t J. destruct (H4 _ _ _ J) as (B & C & L). split; [|auto]. rewrite nth_error_app1; [exact B|]. now apply nth_error_lt in B.
    - intros b t [E|J]; [injection E as <- <-; rewrite nth_error_app2, Nat.sub_diag; auto|]. apply H5 in J. rewrite nth_error_app1; [exact J|]. now apply nth_error_lt in J.
    - intros c z [E|J]; [discriminate|auto].
    - intros b t E. apply in_or_app. destruct (Nat.eq_dec b (length (bufs m))) as [->|N]; [right; now left|].
      rewrite nth_error_app1 in E. 2:{ apply nth_error_lt in E. rewrite app_length in E. cbn in E. lia. }
      apply H7 in E. apply in_app_or in E. destruct E; [auto|right; now right].
  Qed.
  Lemma hv_newc z : hinv m l p -> hinv (mkMem (bufs m) (cnts m ++ [Some z]) (shr m)) (PC (length (cnts m)) z :: l) p.
  Proof.
    intros [H1 H2 H3 H4 H5 H6 H7 H8]. constructor; cbn [bufs cnts pbs pcs flat_map app]; auto.
    - eapply Permutation_NoDup; [apply Permutation_middle|]. constructor; [|exact H2]. intros I.
      apply in_app_or in I. destruct I as [I|I].
      + apply in_map_iff in I. destruct I as ([[c b] t] & Eq & I). cbn [fst snd] in Eq. subst. destruct (H4 _ _ _ I) as (_ & B & _). apply nth_error_lt in B. lia.
      + apply in_flat_map in I. destruct I as (x & I & J). destruct x; cbn in J; try tauto. destruct J as [J|[]]. subst. apply H6 in I. apply nth_error_lt in I. lia.
    - intros c b t [E|J]; [discriminate|auto].
    - intros c b t J. destruct (H4 _ _ _ J) as (B & C & L). split; [auto|]. split; [|auto]. rewrite nth_error_app1; [exact C|]. now apply nth_error_lt in C.
    - intros b t [E|J]; [discriminate|auto].
    - intros c n [E|J]; [injection E as <- <-; rewrite nth_error_app2, Nat.sub_diag; auto|]. apply H6 in J. rewrite nth_error_app1; [exact J|]. now apply nth_error_lt in J.
    - intros c n E. apply in_or_app. destruct (Nat.eq_dec c (length (cnts m))) as [->|N]; [right; now left|].
      rewrite nth_error_app1 in E. 2:{ apply nth_error_lt in E. rewrite app_length in E. cbn in E. lia. }
      apply H8 in E. apply in_app_or in E. destruct E; [auto|right; now right].
  Qed.
  Lemma pb_alone b t : hinv m (PB b t :: l) p -> ~ In b (pub_b p ++ pbs l).
  Proof. intros [H1 _ _ _ _ _ _ _] I. cbn in H1. apply NoDup_remove_2 in H1. auto. Qed.
  Lemma pc_alone c n : hinv m (PC c n :: l) p -> ~ In c (pub_c p ++ pcs l).
  Proof. intros [_ H1 _ _ _ _ _ _] I. cbn in H1. apply NoDup_remove_2 in H1. auto. Qed.
  Lemma hv_wr b t t' : hinv m (PB b t :: l) p -> hinv (mkMem (upd (bufs m) b (Some t')) (cnts m) (shr m)) (PB b t' :: l) p.
  Proof.
    intros H. pose proof (pb_alone _ _ H) as A. destruct H as [H1 H2 H3 H4 H5 H6 H7 H8]. constructor; cbn [bufs cnts pbs pcs flat_map app]; auto.
    - intros c b' s [E|J]; [discriminate|]. apply H3. now right.
    - intros c b' s J. destruct (H4 _ _ _ J) as (B & C & L). split; [|exact (conj C L)]. rewrite nth_upd. destruct (Nat.eqb_spec b b') as [<-|N]; [|exact B].
      exfalso. apply A. apply in_or_app. left. eapply in_pub_b; eauto.
    - intros b' s [E|J].
      + injection E as <- <-. rewrite nth_upd, Nat.eqb_refl, (H5 _ _ (or_introl eq_refl)). reflexivity.
      + rewrite nth_upd. destruct (Nat.eqb_spec b b') as [<-|N]; [|apply H5; now right]. exfalso. apply A. apply in_or_app. right. eapply in_pbs; eauto.
    - intros c n [E|J]; [discriminate|]. apply H6. now right.
    - intros b' s E. rewrite nth_upd in E. destruct (Nat.eqb_spec b b') as [<-|N]; [|eapply H7; eauto]. apply in_or_app. right. now left.
  Qed.
  Lemma hv_delb b t : hinv m (PB b t :: l) p -> hinv (mkMem (upd (bufs m) b None) (cnts m) (shr m)) l p.
  Proof.
    intros H. pose proof (pb_alone _ _ H) as A. destruct H as [H1 H2 H3 H4 H5 H6 H7 H8]. cbn [pbs pcs flat_map app] in *. constructor; cbn [bufs cnts]; auto.
    - now apply NoDup_remove_1 in H1.
    - intros c b' s J. apply H3. now right.
    - intros c b' s J. destruct (H4 _ _ _ J) as (B & C & L). split; [|exact (conj C L)]. rewrite nth_upd. destruct (Nat.eqb_spec b b') as [<-|N]; [|exact B].
      exfalso. apply A. apply in_or_app. left. eapply in_pub_b; eauto.
    - intros b' s J. rewrite nth_upd. destruct (Nat.eqb_spec b b') as [<-|N]; [|apply H5; now right]. exfalso. apply A. apply in_or_app. right. eapply in_pbs; eauto.
    - intros c n J. apply H6. now right.
    - intros b' s E. rewrite nth_upd in E. destruct (Nat.eqb_spec b b') as [<-|N].
      + destruct (nth_error (bufs m) b); discriminate.
      + pose proof (H7 _ _ E) as K. apply in_app_or in K. apply in_or_app. destruct K as [K|[K|K]]; [auto|congruence|auto].
  Qed.
  Lemma hv_delc c z : hinv m (PC c z :: l) p -> hinv (mkMem (bufs m) (upd (cnts m) c None) (shr m)) l p.
  Proof.
    intros H. pose proof (pc_alone _ _ H) as A. destruct H as [H1 H2 H3 H4 H5 H6 H7 H8]. cbn [pbs pcs flat_map app] in *. constructor; cbn [bufs cnts]; auto.
    - now apply NoDup_remove_1 in H2.
    - intros c' b' s J. apply H3. now right.
    - intros c' b' s J. destruct (H4 _ _ _ J) as (B & C & L). split; [exact B|]. split; [|exact L]. rewrite nth_upd. destruct (Nat.eqb_spec c c') as [<-|N]; [|exact C].
      exfalso. apply A. apply in_or_app. left. eapply in_pub_c; eauto.
    - intros b' s J. apply H5. now right.
    - intros c' n J. rewrite nth_upd. destruct (Nat.eqb_spec c c') as [<-|N]; [|apply H6; now right]. exfalso. apply A. apply in_or_app. right. eapply in_pcs; eauto.
    - intros c' n E. rewrite nth_upd in E. destruct (Nat.eqb_spec c c') as [<-|N].
      + destruct (nth_error (cnts m) c); discriminate.
      + pose proof (H8 _ _ E) as K. apply in_app_or in K. apply in_or_app. destruct K as [K|[K|K]]; [auto|congruence|auto].
  Qed.
  Lemma hv_publish b c t : hinv m (PB b (map Some t) :: PC c 1 :: l) p -> hinv m (RF c b t :: l) ((c, b, t) :: p).
  Proof.
    intros [H1 H2 H3 H4 H5 H6 H7 H8]. cbn [pbs pcs flat_map app] in *.
    assert (~ In c (pub_c p ++ pcs l)) as Ac by (now apply NoDup_remove_2 in H2).
    assert (rfc c l = 0%nat) as R0.
    { unfold rfc. destruct (filter (is_rf c) l) as [|x r] eqn:E; [reflexivity|]. exfalso. assert (In x (filter (is_rf c) l)) as I by (rewrite E; now left).
      apply filter_In in I. destruct I as [I J]. destruct x; try discriminate. cbn in J. apply Nat.eqb_eq in J. subst.
      apply Ac. apply in_or_app. left. eapply in_pub_c. apply H3. right. right. exact I. }
    constructor; cbn [pub_b pub_c map fst snd pbs pcs flat_map app].
    - eapply Permutation_NoDup; [|exact H1]. symmetry. apply Permutation_middle.
    - eapply Permutation_NoDup; [|exact H2]. symmetry. apply Permutation_middle.
    - intros c' b' s [E|J]; [injection E as <- <- <-; now left|right; apply H3; right; now right].
    - intros c' b' s [E|J].
      + injection E as <- <- <-. rewrite rfc_cons. cbn [is_rf]. rewrite Nat.eqb_refl, R0. split; [apply H5; now left|]. split; [apply H6; right; now left|lia].
      + destruct (H4 _ _ _ J) as (B & C & L). rewrite !rfc_cons in *. cbn [is_rf] in *. destruct (Nat.eqb_spec c' c) as [->|N]; [|auto].
        exfalso. apply Ac. apply in_or_app. left. eapply in_pub_c; eauto.
    - intros b' s [E|J]; [discriminate|]. apply H5. right. now right.
    - intros c' n [E|J]; [discriminate|]. apply H6. right. now right.
    - intros b' s E. eapply Permutation_in; [|eapply H7; eauto]. symmetry. apply Permutation_middle.
    - intros c' n E. eapply Permutation_in; [|eapply H8; eauto]. symmetry. apply Permutation_middle.
  Qed.
End steps.
