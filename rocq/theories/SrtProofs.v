From Coq Require Import ZifyBool ZifyNat Permutation.
From Verif Require Import Base BaseFacts LstModel LstSpec LstProofs SrtModel SrtSpec.
Open Scope Z_scope.

Section Any.
  Variable A : Type.
  Notation shows := (lst_shows A).

  Lemma read_ok x l i : shows x l -> 0 <= i < zlen l -> exists a, read A (buf x) i = Ok a /\ znth l i = Some a.
  Proof.
    intros (C & Z & k & B) H. destruct (zsplit1 l i H) as (l1 & a & l2 & E & L & N & _).
    exists a. split; auto. rewrite B, E. now apply read_live.
  Qed.
  Lemma mid_range s e : s <= e -> s <= s + Z.quot (e - s) 2 <= e.
  Proof. intros H. rewrite Z.quot_div_nonneg by lia. pose proof (Z.div_mod (e - s) 2). pose proof (Z.mod_pos_bound (e - s) 2). lia. Qed.

  Lemma s_insert_at x l i a : shows x l -> 0 <= i <= zlen l ->
    exists y, s_insert A x i a = Ok y /\ shows y (ztake A i l ++ a :: zdrop A i l).
  Proof.
    intros H Hi. destruct (insert_at A x l i a H Hi) as (y & E & S'). unfold insert in E. destruct (H) as (C & _).
    rewrite C in E. replace ((i >=? 0) && (i <=? zlen l)) with true in E by lia. exists y. split; auto.
  Qed.
  Variable cmp : A -> A -> option comparison.
  (* for any comparator the search terminates within the list *)
  Lemma search_safe x l key : shows x l -> forall fuel s e index,
    0 <= s -> e < zlen l -> (Z.to_nat (e - s + 1) < fuel)%nat ->
    search A cmp x key s e index fuel = Err \/
    exists r oi, search A cmp x key s e index fuel = Ok (r, oi) /\
      (r = -1 \/ 0 <= r < zlen l) /\ (oi = index \/ 0 <= oi < zlen l) /\ (s <= e -> 0 <= oi < zlen l).
  Proof.
    intros H. induction fuel as [|fuel IH]; intros s e index Hs He Hf; [lia|]. cbn [search].
    destruct (s <=? e) eqn:E.
    - pose proof (mid_range s e) as M. set (i := s + Z.quot (e - s) 2) in *. cbv zeta.
      destruct (read_ok x l i H) as (a & R & N); [lia|]. rewrite R. cbn [bind].
      destruct (cmp a key) as [[| |]|]; auto.
      + right. exists i, i. repeat split; auto; lia.
      + destruct (IH (i + 1) e i) as [Er|(r & oi & Er & Hr & Ho & _)]; try lia; auto.
        right. exists r, oi. rewrite Er. repeat split; auto; lia.
      + destruct (IH s (i - 1) i) as [Er|(r & oi & Er & Hr & Ho & _)]; try lia; auto.
        right. exists r, oi. rewrite Er. repeat split; auto; lia.
    - right. exists (-1), index. repeat split; auto; lia.
  Qed.
  Lemma internal_safe x l key : shows x l ->
    index_of_internal A cmp x key = Err \/
    exists r oi, index_of_internal A cmp x key = Ok (r, oi) /\ (r = -1 \/ 0 <= r < zlen l) /\
      (0 < zlen l -> 0 <= oi < zlen l).
  Proof.
    intros H. unfold index_of_internal. destruct (H) as (C & _). rewrite C. pose proof (zlen_nonneg l).
    destruct (search_safe x l key H (Z.to_nat (zlen l + 1)) 0 (zlen l - 1) (-1)) as [E|(r & oi & E & Hr & _ & Ho)]; try lia; auto.
    right. exists r, oi. repeat split; auto; intros; apply Ho; lia.
  Qed.
  Lemma s_add_safe x l a : shows x l ->
    s_add A cmp x a = Err \/
    exists y i, s_add A cmp x a = Ok (y, i) /\ 0 <= i <= zlen l /\ shows y (ztake A i l ++ a :: zdrop A i l).
  Proof.
    intros H. unfold s_add. destruct (H) as (C & _). rewrite C. pose proof (zlen_nonneg l).
    destruct (zlen l =? 0) eqn:E0.
    - right. destruct (s_insert_at x l 0 a H) as (y & E & S'); [lia|]. rewrite E. cbn [bind]. exists y, 0. repeat split; auto; lia || apply S'.
    - destruct (internal_safe x l a H) as [E|(r & oi & E & Hr & Ho)]; rewrite E; cbn [bind]; auto.
      replace ((oi >=? 0) && (oi <? zlen l)) with true by lia.
      destruct (read_ok x l oi H) as (b & R & N); [lia|]. rewrite R. cbn [bind]. cbv zeta.
      set (p := match cmp b a with Some Lt => oi + 1 | _ => oi end).
      assert (Hp : 0 <= p <= zlen l) by (unfold p; destruct (cmp b a) as [[| |]|]; lia).
      destruct (s_insert_at x l p a H Hp) as (y & Ey & S'). rewrite Ey. cbn [bind]. right. exists y, p. auto.
  Qed.
  Lemma s_step_safe x l o : shows x l -> client_ok A o ->
    exists y l' r, s_step A cmp x o = Ok (y, r) /\ shows y l'.
  Proof.
    intros H Co. unfold s_step.
    assert (Case : forall r : res (lst A * out A), (r = Err \/ exists y l' z, r = Ok (y, z) /\ shows y l') ->
      exists y l' z, (match r with Ok a => Ok a | Err => Ok (x, RError) | UB => UB | NoFuel => NoFuel end) = Ok (y, z) /\ shows y l').
    { intros r [->|(y & l' & z & -> & S')]; eauto 6. }
    apply Case. clear Case. destruct o; cbn [s_step_raw].
    - destruct (s_add_safe x l a H) as [E|(y & i & E & _ & S')]; rewrite E; cbn [bind]; eauto 6.
    - unfold s_remove, s_index_of. destruct (internal_safe x l a H) as [E|(r & oi & E & Hr & _)]; rewrite E; cbn [bind]; auto.
      destruct (H) as (C & _). rewrite C. destruct ((r >=? 0) && (r <? zlen l)) eqn:Er; cbn [bind]; [|eauto 6].
      destruct (remove_at_at A x l r H) as (y & E' & S'); [lia|]. rewrite E'. cbn [bind]. eauto 6.
    - destruct (Z_lt_dec i 0); [left; replace (remove_at A x i) with (@Err (lst A)); auto; symmetry; apply (remove_at_err A x l i H); lia|].
      destruct (Z_lt_dec i (zlen l)); [|left; replace (remove_at A x i) with (@Err (lst A)); auto; symmetry; apply (remove_at_err A x l i H); lia].
      destruct (remove_at_at A x l i H) as (y & E' & S'); [lia|]. rewrite E'. cbn [bind]. eauto 6.
    - cbn in Co. destruct (Z_le_dec 0 i) as [Hi|Hi]; [destruct (Z_le_dec (i + n) (zlen l)) as [Hn|Hn]|].
      + destruct (remove_range_at A x l i n H) as (y & E' & S'); try lia. rewrite E'. cbn [bind]. eauto 6.
      + left. replace (remove_range A x i n) with (@Err (lst A)); auto. symmetry. apply (remove_range_err A x l i n H); lia.
      + left. replace (remove_range A x i n) with (@Err (lst A)); auto. symmetry. apply (remove_range_err A x l i n H); lia.
    - destruct (clear_ok A x l H) as (y & E & S'). rewrite E. cbn [bind]. eauto 6.
    - rewrite (get_ok A x l i H). destruct (znth l i); cbn [bind]; eauto 6.
    - eauto 6.
    - unfold s_index_of. destruct (internal_safe x l a H) as [E|(r & oi & E & Hr & _)]; rewrite E; cbn [bind]; eauto 6.
    - unfold s_index_of. destruct (internal_safe x l a H) as [E|(r & oi & E & Hr & _)]; rewrite E; cbn [bind]; eauto 6.
  Qed.
  Lemma s_run_safe os : forall x l, shows x l -> Forall (client_ok A) os ->
    exists y rs l', s_run A cmp x os = Ok (y, rs) /\ shows y l'.
  Proof.
    induction os as [|o os IH]; intros x l H F; cbn [s_run]; [eauto|]. inversion F; subst.
    destruct (s_step_safe x l o H H2) as (y & l' & r & E & S'). rewrite E. cbn [bind].
    destruct (IH y l' S' H3) as (z & rs & l'' & E' & S''). rewrite E'. cbn [bind]. eauto.
  Qed.
  Lemma any_comparator os : Forall (client_ok A) os ->
    exists y rs l', s_run A cmp empty_lst os = Ok (y, rs) /\ shows y l'.
  Proof. apply s_run_safe with []. apply empty_shows. Qed.
End Any.

Section Total.
  Variable A : Type.
  Variable c : A -> A -> comparison.
  Hypothesis TO : total_order c.
  Notation cmp := (fun a b => Some (c a b)).
  Notation shows := (lst_shows A).
  Notation asc := (ascending A c).

  Lemma c_refl a : c a a = Eq.
  Proof. pose proof (to_opp c TO a a) as H. destruct (c a a); cbn in H; congruence. Qed.
  Lemma le_total a b : le A c a b \/ le A c b a.
  Proof. unfold le. rewrite (to_opp c TO a b). destruct (c a b); cbn; [left|left|right]; congruence. Qed.
  Lemma lt_le_trans a b d : c a b = Lt -> c b d <> Gt -> c a d = Lt.
  Proof.
    intros H1 H2. pose proof (to_trans c TO b d a) as T. rewrite (to_opp c TO a d), (to_opp c TO a b), H1 in T.
    pose proof (to_trans c TO a b d) as T2. rewrite H1 in T2.
    destruct (c a d) eqn:E; auto; cbn in T.
    - exfalso. apply T; congruence.
    - exfalso. apply T; congruence.
  Qed.
  Lemma le_lt_trans a b d : c a b <> Gt -> c b d = Lt -> c a d = Lt.
  Proof.
    intros H1 H2. pose proof (to_trans c TO d a b) as T. rewrite (to_opp c TO a d), (to_opp c TO b d), H2 in T. 
    destruct (c a d) eqn:E; auto; cbn in T; exfalso; apply T; congruence.
  Qed.
  Lemma gt_lt a b : c a b = Gt <-> c b a = Lt.
  Proof. rewrite (to_opp c TO a b). destruct (c a b); cbn; split; congruence. Qed.
  Lemma eq_sym_c a b : c a b = Eq -> c b a = Eq.
  Proof. intros H. now rewrite (to_opp c TO a b), H. Qed.

  Lemma asc_nth l : asc l <-> forall i j a b, 0 <= i < j -> znth l i = Some a -> znth l j = Some b -> le A c a b.
  Proof.
    unfold ascending. induction l as [|x l IH].
    - split; [|constructor]. intros _ i j a b H E. unfold znth in E. destruct (i <? 0); [discriminate|]. destruct (Z.to_nat i); discriminate.
    - split.
      + intros H i j a b Hij Ei Ej. inversion H; subst. rewrite znth_z in * by lia.
        destruct (Z.to_nat j) as [|j'] eqn:Tj; [lia|]. cbn [nth_error] in Ej.
        destruct (Z.to_nat i) as [|i'] eqn:Ti; cbn [nth_error] in Ei.
        * replace a with x by congruence. rewrite Forall_forall in H3. apply H3. eapply nth_error_In; eauto.
        * apply (proj1 IH H2 (Z.of_nat i') (Z.of_nat j')); try lia; now rewrite znth_nat.
      + intros H. constructor.
        * apply IH. intros i j a b Hij Ei Ej. apply (H (i + 1) (j + 1)); try lia; rewrite znth_z in * by lia.
          -- replace (Z.to_nat (i + 1)) with (S (Z.to_nat i)) by lia. exact Ei.
          -- replace (Z.to_nat (j + 1)) with (S (Z.to_nat j)) by lia. exact Ej.
        * apply Forall_forall. intros b Hb. apply In_nth_error in Hb. destruct Hb as (n & Hn).
          apply (H 0 (Z.of_nat (S n))); try lia; [reflexivity|]. now rewrite znth_nat.
  Qed.
  Lemma asc_app l1 l2 : asc (l1 ++ l2) <-> asc l1 /\ asc l2 /\ forall a b, In a l1 -> In b l2 -> le A c a b.
  Proof.
    unfold ascending. induction l1 as [|x l1 IH]; cbn [app].
    - split; [|tauto]. intros H. split; [constructor|]. split; [exact H|]. intros a b [].
    - split.
      + intros H. inversion H; subst. apply IH in H2. destruct H2 as (H4 & H5 & H6). apply Forall_app in H3.
        destruct H3 as [H7 H8]. split; [constructor; auto|]. split; auto. intros a b [<-|Ha] Hb; auto.
        rewrite Forall_forall in H8. auto.
      + intros (H1 & H2 & H3). inversion H1; subst. constructor.
        * apply IH. split; auto. split; auto. intros; apply H3; auto. now right.
        * apply Forall_app. split; auto. apply Forall_forall. intros b Hb. apply H3; auto. now left.
  Qed.
  Lemma asc_drop_mid l1 l2 l3 : asc (l1 ++ l2 ++ l3) -> asc (l1 ++ l3).
  Proof.
    rewrite !asc_app. intros (H1 & (H2 & H3 & H4) & H5). repeat split; auto. intros a b Ha Hb. apply H5; auto.
    apply in_or_app. now right.
  Qed.

  Definition below (l : list A) (key : A) (n : Z) := forall i a, 0 <= i < n -> znth l i = Some a -> c a key = Lt.
  Definition above (l : list A) (key : A) (n : Z) := forall i a, n <= i -> 0 <= i -> znth l i = Some a -> c a key = Gt.

  Lemma search_ok x l key : shows x l -> asc l -> forall fuel s e index,
    0 <= s -> s <= e + 1 -> e < zlen l -> (Z.to_nat (e - s + 1) < fuel)%nat -> below l key s -> above l key (e + 1) ->
    (s <= e \/ (0 <= index < zlen l /\ (index = s - 1 \/ index = e + 1)) \/ zlen l = 0) ->
    exists r oi, search A cmp x key s e index fuel = Ok (r, oi) /\
      ((0 <= r < zlen l /\ r = oi /\ exists a, znth l r = Some a /\ c a key = Eq) \/
       (r = -1 /\ exists p, 0 <= p <= zlen l /\ below l key p /\ above l key p /\
          (zlen l = 0 \/ (0 <= oi < zlen l /\ (oi = p - 1 \/ oi = p))))).
  Proof.
    intros H Hasc. rewrite asc_nth in Hasc.
    induction fuel as [|fuel IH]; intros s e index Hs Hse He Hf Hb Ha Hi; [lia|]. cbn [search].
    destruct (s <=? e) eqn:E.
    - pose proof (mid_range s e) as M. set (i := s + Z.quot (e - s) 2) in *. cbv zeta.
      destruct (read_ok A x l i H) as (a & R & N); [lia|]. rewrite R. cbn [bind].
      destruct (c a key) eqn:Ca.
      + exists i, i. split; [reflexivity|]. left. split; [lia|]. split; [reflexivity|]. eauto.
      + apply IH; try lia; auto. intros j b Hj Nj. destruct (Z.eq_dec j i) as [->|Hne]; [congruence|].
        apply (le_lt_trans b a key); auto. apply (Hasc j i); auto; lia.
      + apply IH; try lia; auto. intros j b Hj Hj0 Nj. destruct (Z.eq_dec j i) as [->|Hne]; [congruence|].
        apply gt_lt. apply gt_lt in Ca. apply (lt_le_trans key a b); auto. apply (Hasc i j); auto; lia.
    - exists (-1), index. split; [reflexivity|]. right. split; [reflexivity|]. exists s. split; [lia|]. split; [exact Hb|].
      split; [replace s with (e + 1) by lia; exact Ha|]. lia.
  Qed.
  Lemma internal_ok x l key : shows x l -> asc l ->
    exists r oi, index_of_internal A cmp x key = Ok (r, oi) /\
      ((0 <= r < zlen l /\ r = oi /\ exists a, znth l r = Some a /\ c a key = Eq) \/
       (r = -1 /\ exists p, 0 <= p <= zlen l /\ below l key p /\ above l key p /\
          (zlen l = 0 \/ (0 <= oi < zlen l /\ (oi = p - 1 \/ oi = p))))).
  Proof.
    intros H Hasc. unfold index_of_internal. destruct (H) as (C & _). rewrite C. pose proof (zlen_nonneg l).
    apply search_ok; auto; try lia.
    - intros i a Hi. lia.
    - intros i a Hi _ N. unfold znth in N. destruct (i <? 0) eqn:E; [lia|]. apply nth_error_lt in N. unfold zlen in *. lia.
  Qed.
  Lemma split_below l key p : 0 <= p <= zlen l -> below l key p -> above l key p ->
    (forall b, In b (ztake A p l) -> c b key = Lt) /\ (forall b, In b (zdrop A p l) -> c b key = Gt).
  Proof.
    intros Hp Hb Ha. split; intros b Hin; apply In_nth_error in Hin; destruct Hin as (n & Hn).
    - unfold ztake in Hn. rewrite nth_error_firstn in Hn. destruct (Nat.ltb n (Z.to_nat p)) eqn:E; [|discriminate].
      apply (Hb (Z.of_nat n)); [lia|]. now rewrite znth_nat.
    - unfold zdrop in Hn. rewrite nth_error_skipn in Hn. apply (Ha (p + Z.of_nat n)); try lia.
      rewrite znth_z by lia. rewrite <- Hn. f_equal. lia.
  Qed.
  (* IndexOf in terms of a split of the list *)
  Lemma s_index_ok x l key : shows x l -> asc l ->
    (exists l1 b l2, l = l1 ++ b :: l2 /\ c b key = Eq /\ s_index_of A cmp x key = Ok (zlen l1)) \/
    (exists l1 l2, l = l1 ++ l2 /\ (forall b, In b l1 -> c b key = Lt) /\ (forall b, In b l2 -> c b key = Gt) /\
       s_index_of A cmp x key = Ok (-1)).
  Proof.
    intros H Hasc. unfold s_index_of. destruct (internal_ok x l key H Hasc) as (r & oi & E & K). rewrite E. cbn [bind].
    destruct K as [(Hr & _ & a & N & Ca)|(-> & p & Hp & Hb & Ha & _)].
    - left. destruct (zsplit1 l r Hr) as (l1 & b & l2 & El & L & N' & _). exists l1, b, l2. rewrite L.
      repeat split; auto. congruence.
    - right. destruct (split_below l key p Hp Hb Ha) as [B1 B2]. exists (ztake A p l), (zdrop A p l).
      repeat split; auto. unfold ztake, zdrop. now rewrite firstn_skipn.
  Qed.
  Lemma s_add_ok x l a : shows x l -> asc l ->
    exists y l1 l2, l = l1 ++ l2 /\ s_add A cmp x a = Ok (y, zlen l1) /\ shows y (l1 ++ a :: l2) /\ asc (l1 ++ a :: l2) /\
      ((exists b, In b l /\ c b a = Eq) \/ (forall b, In b l1 -> c b a = Lt) /\ (forall b, In b l2 -> c b a = Gt)).
  Proof.
    intros H Hasc. unfold s_add. destruct (H) as (C & _). rewrite C. pose proof (zlen_nonneg l).
    destruct (zlen l =? 0) eqn:E0.
    - assert (l = []) by (destruct l; auto; rewrite zlen_cons in *; pose proof (zlen_nonneg l); lia). subst l.
      destruct (s_insert_at A x [] 0 a H) as (y & E & S'); [unfold zlen; cbn; lia|]. rewrite E. cbn [bind].
      exists y, [], []. split; [reflexivity|]. split; [reflexivity|]. split; [exact S'|]. split; [repeat constructor|].
      right. split; intros b [].
    - destruct (internal_ok x l a H Hasc) as (r & oi & E & K). rewrite E. cbn [bind].
      assert (Ho : 0 <= oi < zlen l).
      { destruct K as [(? & <- & _)|(_ & p & _ & _ & _ & [?|(? & _)])]; lia. }
      replace ((oi >=? 0) && (oi <? zlen l)) with true by lia.
      destruct (read_ok A x l oi H Ho) as (b & R & N). rewrite R. cbn [bind]. cbv zeta.
      destruct K as [(Hr & <- & a' & N' & Ca)|(-> & p & Hp & Hb & Ha & Hoi)].
      + assert (a' = b) by congruence. subst a'. rewrite Ca.
        destruct (s_insert_at A x l r a H) as (y & Ey & S'); [lia|]. rewrite Ey. cbn [bind].
        destruct (zsplit1 l r Hr) as (l1 & b' & l2 & El & L & N2 & E1 & E2). assert (b' = b) by congruence. subst b'.
        exists y, l1, (b :: l2). rewrite L. split; [exact El|]. split; [reflexivity|].
        assert (Ed : zdrop A r l = b :: l2).
        { rewrite El. unfold zdrop. rewrite <- L, zlen_to_nat, skipn_app, skipn_all, Nat.sub_diag. reflexivity. }
        unfold ztake in S'. rewrite <- E1, Ed in S'. split; [exact S'|].
        rewrite El in Hasc. apply asc_app in Hasc. destruct Hasc as (A1 & A2 & A3). inversion A2; subst.
        split.
        * apply asc_app. split; [exact A1|]. split.
          -- constructor; [exact A2|]. constructor; [unfold le; rewrite (eq_sym_c _ _ Ca); discriminate|].
             eapply Forall_impl; [|exact H4]. intros d Hd. unfold le in *.
             apply (to_trans c TO a b d); auto. rewrite (eq_sym_c _ _ Ca). discriminate.
          -- intros d f Hd [<-|Hf]; [|apply A3; auto].
             unfold le. apply (to_trans c TO d b a); [apply A3; auto; now left|]. rewrite Ca. discriminate.
        * left. exists b. split; [apply in_or_app; right; now left|exact Ca].
      + assert (Ep : match c b a with Lt => oi + 1 | _ => oi end = p).
        { destruct Hoi as [?|(_ & [Hoi|Hoi])]; [lia| |].
          - rewrite (Hb oi b) by (lia || auto). lia.
          - rewrite (Ha oi b) by (lia || auto). lia. }
        replace (match Some (c b a) with Some Lt => oi + 1 | _ => oi end) with p by (rewrite <- Ep; destruct (c b a); reflexivity).
        destruct (s_insert_at A x l p a H Hp) as (y & Ey & S'). rewrite Ey. cbn [bind].
        destruct (split_below l a p Hp Hb Ha) as [B1 B2].
        exists y, (ztake A p l), (zdrop A p l).
        assert (El : l = ztake A p l ++ zdrop A p l) by (unfold ztake, zdrop; now rewrite firstn_skipn).
        split; [exact El|]. split.
        { do 2 f_equal. unfold ztake, zlen in *. rewrite firstn_length. lia. }
        split; [exact S'|]. rewrite El in Hasc. apply asc_app in Hasc. destruct Hasc as (A1 & A2 & A3). split.
        * apply asc_app. split; [exact A1|]. split.
          -- constructor; [exact A2|]. apply Forall_forall. intros d Hd. unfold le. specialize (B2 d Hd). apply gt_lt in B2. congruence.
          -- intros d f Hd [<-|Hf]; [|apply A3; auto]. unfold le. rewrite (B1 d Hd). discriminate.
        * right. auto.
  Qed.
  Lemma not_eq_split l1 l2 key : (forall b, In b l1 -> c b key = Lt) -> (forall b, In b l2 -> c b key = Gt) ->
    forall b, In b (l1 ++ l2) -> ~ same A c b key.
  Proof. intros H1 H2 b Hb. unfold same. apply in_app_or in Hb. destruct Hb as [Hb|Hb]; [rewrite (H1 _ Hb)|rewrite (H2 _ Hb)]; discriminate. Qed.

  Lemma s_step_ok x l o : shows x l -> asc l -> client_ok A o ->
    exists y l' r, s_step A cmp x o = Ok (y, r) /\ shows y l' /\ asc l' /\ ok_step A c l o l' r.
  Proof.
    intros H Hasc Co. unfold s_step. destruct o; cbn [s_step_raw].
    - destruct (s_add_ok x l a H Hasc) as (y & l1 & l2 & -> & E & S' & As & _). rewrite E. cbn [bind].
      do 3 eexists. split; [reflexivity|]. split; [exact S'|]. split; [exact As|]. constructor.
    - unfold s_remove. destruct (s_index_ok x l a H Hasc) as [(l1 & b & l2 & El & Cb & E)|(l1 & l2 & El & B1 & B2 & E)]; rewrite E; cbn [bind].
      + destruct (H) as (C & _). rewrite C. pose proof (zlen_nonneg l1). pose proof (zlen_nonneg l2).
        assert (Hr : 0 <= zlen l1 < zlen l) by (rewrite El, zlen_app, zlen_cons; lia).
        replace ((zlen l1 >=? 0) && (zlen l1 <? zlen l)) with true by lia.
        destruct (remove_at_at A x l (zlen l1) H Hr) as (y & E' & S'). rewrite E'. cbn [bind].
        assert (Er : ztake A (zlen l1) l ++ zdrop A (zlen l1 + 1) l = l1 ++ l2).
        { rewrite El. unfold ztake, zdrop. rewrite zlen_to_nat, firstn_app, firstn_all, Nat.sub_diag. cbn [firstn]. rewrite app_nil_r.
          rewrite skipn_app, skipn_all2 by (unfold zlen; lia). replace (Z.to_nat (zlen l1 + 1) - length l1)%nat with 1%nat by (unfold zlen; lia). reflexivity. }
        rewrite Er in S'. do 3 eexists. split; [reflexivity|]. split; [exact S'|]. subst l. split.
        * apply (asc_drop_mid l1 [b] l2). exact Hasc.
        * now constructor.
      + replace (-1 >=? 0) with false by lia. cbn [andb bind]. do 3 eexists. split; [reflexivity|]. split; [exact H|]. split; [exact Hasc|].
        constructor. subst l. now apply not_eq_split.
    - destruct (Z_lt_dec i 0) as [Hi|Hi].
      { rewrite (proj2 (remove_at_err A x l i H)) by lia. cbn [bind]. do 3 eexists. split; [reflexivity|]. split; [exact H|]. split; [exact Hasc|]. constructor; lia. }
      destruct (Z_lt_dec i (zlen l)) as [Hi2|Hi2].
      2:{ rewrite (proj2 (remove_at_err A x l i H)) by lia. cbn [bind]. do 3 eexists. split; [reflexivity|]. split; [exact H|]. split; [exact Hasc|]. constructor; lia. }
      destruct (remove_at_at A x l i H) as (y & E' & S'); [lia|]. rewrite E'. cbn [bind].
      destruct (zsplit1 l i) as (l1 & b & l2 & El & L & N & E1 & E2); [lia|].
      unfold ztake, zdrop in S'. rewrite <- E1, <- E2 in S'. rewrite <- L.
      do 3 eexists. split; [reflexivity|]. split; [exact S'|]. rewrite El in Hasc |- *. split.
      + apply (asc_drop_mid l1 [b] l2). exact Hasc.
      + constructor.
    - cbn in Co. destruct (Z_le_dec 0 i) as [Hi|Hi]; [destruct (Z_le_dec (i + n) (zlen l)) as [Hn|Hn]|].
      2,3: rewrite (proj2 (remove_range_err A x l i n H ltac:(lia) ltac:(lia))) by lia; cbn [bind]; do 3 eexists; (split; [reflexivity|]); (split; [exact H|]); (split; [exact Hasc|]); constructor; lia.
      destruct (remove_range_at A x l i n H) as (y & E' & S'); try lia. rewrite E'. cbn [bind].
      destruct (zsplit l i) as (l1 & r & El & L & E1 & E2); [lia|].
      destruct (zsplit r n) as (l2 & l3 & Er & L2 & E3 & E4). { rewrite El, zlen_app in Hn. lia. }
      assert (E5 : zdrop A (i + n) l = l3). { rewrite E4, E2. unfold zdrop. rewrite skipn_skipn. f_equal. lia. }
      rewrite E5 in S'. unfold ztake in S'. rewrite <- E1 in S'. rewrite <- L, <- L2.
      do 3 eexists. split; [reflexivity|]. split; [exact S'|]. rewrite El, Er in Hasc |- *. split.
      + now apply (asc_drop_mid l1 l2 l3).
      + constructor.
    - destruct (clear_ok A x l H) as (y & E & S'). rewrite E. cbn [bind]. do 3 eexists. split; [reflexivity|]. split; [exact S'|]. split; constructor.
    - rewrite (get_ok A x l i H). destruct (znth l i) as [a|] eqn:N; cbn [bind]; do 3 eexists; (split; [reflexivity|]); (split; [exact H|]); (split; [exact Hasc|]).
      + assert (Hi : 0 <= i < zlen l).
        { unfold znth in N. destruct (i <? 0) eqn:E; [discriminate|]. apply nth_error_lt in N. unfold zlen. lia. }
        destruct (zsplit1 l i Hi) as (l1 & b & l2 & El & L & N2 & _). assert (b = a) by congruence. subst b. rewrite El, <- L. constructor.
      + constructor. intros Hi. destruct (zsplit1 l i Hi) as (l1 & b & l2 & El & L & N2 & _). congruence.
    - do 3 eexists. split; [reflexivity|]. split; [exact H|]. split; [exact Hasc|]. destruct H as (C & _). rewrite C. constructor.
    - destruct (s_index_ok x l a H Hasc) as [(l1 & b & l2 & El & Cb & E)|(l1 & l2 & El & B1 & B2 & E)]; rewrite E; cbn [bind];
      do 3 eexists; (split; [reflexivity|]); (split; [exact H|]); (split; [exact Hasc|]); subst l; constructor; auto.
      now apply not_eq_split.
    - destruct (s_index_ok x l a H Hasc) as [(l1 & b & l2 & El & Cb & E)|(l1 & l2 & El & B1 & B2 & E)]; rewrite E; cbn [bind];
      do 3 eexists; (split; [reflexivity|]); (split; [exact H|]); (split; [exact Hasc|]).
      + pose proof (zlen_nonneg l1). replace (zlen l1 =? -1) with false by lia. cbn [negb]. apply ok_contains with b; auto.
        subst l. apply in_or_app. right. now left.
      + cbn. constructor. subst l. now apply not_eq_split.
  Qed.
  Lemma s_run_ok os : forall x l, shows x l -> asc l -> Forall (client_ok A) os ->
    exists y rs l', s_run A cmp x os = Ok (y, rs) /\ shows y l' /\ ok_run A c l os l' rs.
  Proof.
    induction os as [|o os IH]; intros x l H Ha F; cbn [s_run].
    - do 3 eexists. split; [reflexivity|]. split; [exact H|]. constructor.
    - inversion F; subst. destruct (s_step_ok x l o H Ha H2) as (y & l' & r & E & S' & A' & O). rewrite E. cbn [bind].
      destruct (IH y l' S' A' H3) as (z & rs & l'' & E' & S'' & O'). rewrite E'. cbn [bind].
      do 3 eexists. split; [reflexivity|]. split; [exact S''|]. econstructor; eauto.
  Qed.
  Lemma sorted_history os : Forall (client_ok A) os ->
    exists y rs l', s_run A cmp empty_lst os = Ok (y, rs) /\ shows y l' /\ ok_run A c [] os l' rs.
  Proof. intros F. apply s_run_ok; auto; [apply empty_shows|constructor]. Qed.
End Total.
Lemma copy_steals A (x : lst A) l : lst_shows A x l ->
  lst_shows A (fst (s_copy A x)) l /\ lst_shows A (snd (s_copy A x)) [].
Proof. intros H. split; [exact H|apply empty_shows]. Qed.
Lemma ok_step_multiset A (c : A -> A -> comparison) l o l' r : ok_step A c l o l' r ->
  match o with
  | SAdd a => Permutation l' (a :: l)
  | SRemove a => r = RBool true /\ (exists b, same A c b a /\ Permutation l (b :: l')) \/
                 r = RBool false /\ l' = l /\ forall b, In b l -> ~ same A c b a
  | SClear => l' = []
  | SRemoveAt _ | SRemoveRange _ _ => exists gone, Permutation l (gone ++ l')
  | _ => l' = l
  end.
Proof.
  destruct 1; cbn; auto.
  - symmetry. apply Permutation_middle.
  - left. split; auto. exists b. split; auto. symmetry. apply Permutation_middle.
  - exists [b]. symmetry. apply (Permutation_middle l1 l2 b).
  - now exists [].
  - exists l2. rewrite !app_assoc. apply Permutation_app_tail, Permutation_app_comm.
  - now exists [].
Qed.

