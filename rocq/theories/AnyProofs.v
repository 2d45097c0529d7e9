From Coq Require Import ZifyBool ZifyNat.
From Verif Require Import Base BaseFacts LstModel LstSpec LstProofs SrtModel SrtSpec SrtProofs DctModel DctProofs AnyModel AnySpec.
Open Scope Z_scope.

Lemma znth_none {B} (l : list B) i : ~ 0 <= i < zlen l -> znth l i = None.
Proof. intros H. unfold znth. destruct (i <? 0) eqn:E; auto. apply nth_error_None. unfold zlen in H. lia. Qed.

Section Any.
  Context (A V St : Type) (cmp : St -> A -> A -> St * option comparison) (less : St -> A -> A -> St * option bool).
  Notation shows := (lst_shows A).
  Notation eqv := (called_equal A St cmp). Notation fails := (can_fail A St cmp less).

  Lemma asearch_ok x l key : shows x l -> forall fuel s e index st,
    0 <= s -> e < zlen l -> (Z.to_nat (e - s + 1) < fuel)%nat ->
    exists st', (exists b, In b l /\ fails b key /\ asearch A St cmp x key s e index fuel st = Ok (st', None)) \/
    exists r oi, asearch A St cmp x key s e index fuel st = Ok (st', Some (r, oi)) /\
      (r = -1 \/ exists l1 b l2, l = l1 ++ b :: l2 /\ r = zlen l1 /\ eqv b key) /\
      (oi = index \/ 0 <= oi < zlen l) /\ (s <= e -> 0 <= oi < zlen l).
  Proof.
    intros H. induction fuel as [|fuel IH]; intros s e index st Hs He Hf; [lia|]. cbn [asearch].
    destruct (s <=? e) eqn:E.
    - pose proof (mid_range s e) as M. set (i := s + Z.quot (e - s) 2) in *. cbv zeta.
      destruct (read_ok A x l i H) as (a & R & N); [lia|]. rewrite R. cbn [bind].
      destruct (zsplit1 l i) as (l1 & a' & l2 & El & L & N' & _); [lia|]. rewrite N in N'. injection N' as <-.
      destruct (cmp st a key) as [st1 [[| |]|]] eqn:Ec.
      + exists st1. right. exists i, i. split; [reflexivity|]. split; [right; exists l1, a, l2; repeat split; auto; now exists st, st1|]. split; lia.
      + destruct (IH (i + 1) e i st1) as (st' & [(b & Hb & Fb & Er)|(r & oi & Er & Hr & Ho & _)]); try lia; exists st'; [left; eauto|].
        right. exists r, oi. rewrite Er. repeat split; auto; lia.
      + destruct (IH s (i - 1) i st1) as (st' & [(b & Hb & Fb & Er)|(r & oi & Er & Hr & Ho & _)]); try lia; exists st'; [left; eauto|].
        right. exists r, oi. rewrite Er. repeat split; auto; lia.
      + exists st1. left. exists a. split; [rewrite El; apply in_elt|]. split; [exists st, st1; now left|reflexivity].
    - exists st. right. exists (-1), index. repeat split; auto; lia.
  Qed.
  Lemma ainternal_ok x l key st : shows x l ->
    exists st', (exists b, In b l /\ fails b key /\ ainternal A St cmp x key st = Ok (st', None)) \/
    exists r oi, ainternal A St cmp x key st = Ok (st', Some (r, oi)) /\
      (r = -1 \/ exists l1 b l2, l = l1 ++ b :: l2 /\ r = zlen l1 /\ eqv b key) /\ (0 < zlen l -> 0 <= oi < zlen l).
  Proof.
    intros H. unfold ainternal. destruct (H) as (C & _). rewrite C. pose proof (zlen_nonneg l).
    destruct (asearch_ok x l key H (Z.to_nat (zlen l + 1)) 0 (zlen l - 1) (-1) st) as (st' & [E|(r & oi & E & Hr & _ & Ho)]); try lia; exists st'; auto.
    right. exists r, oi. repeat split; auto; intros; apply Ho; lia.
  Qed.
  Lemma insert_split x l i a : shows x l -> 0 <= i <= zlen l ->
    exists y l1 l2, s_insert A x i a = Ok y /\ l = l1 ++ l2 /\ i = zlen l1 /\ shows y (l1 ++ a :: l2).
  Proof.
    intros H Hi. destruct (s_insert_at A x l i a H Hi) as (y & E & S'). exists y, (ztake A i l), (zdrop A i l).
    split; [exact E|]. split; [unfold ztake, zdrop; now rewrite firstn_skipn|]. split; [|exact S'].
    unfold ztake, zlen in *. rewrite firstn_length. lia.
  Qed.
  Lemma aadd_ok x l a st : shows x l ->
    exists st', (exists b, In b l /\ fails b a /\ aadd A St cmp less x a st = Ok (st', None)) \/
    exists y l1 l2, aadd A St cmp less x a st = Ok (st', Some (y, zlen l1)) /\ l = l1 ++ l2 /\ shows y (l1 ++ a :: l2).
  Proof.
    intros H. unfold aadd. destruct (H) as (C & _). rewrite C. pose proof (zlen_nonneg l).
    destruct (zlen l =? 0) eqn:E0.
    - exists st. right. destruct (insert_split x l 0 a H) as (y & l1 & l2 & E & El & Ei & S'); [lia|]. rewrite E. cbn [bind]. exists y, l1, l2. rewrite Ei. auto.
    - destruct (ainternal_ok x l a st H) as (st1 & [(b & Hb & Fb & E)|(r & oi & E & Hr & Ho)]); rewrite E; cbn [bind]; [exists st1; left; eauto|].
      replace ((oi >=? 0) && (oi <? zlen l)) with true by lia.
      destruct (read_ok A x l oi H) as (b & R & N); [lia|]. rewrite R. cbn [bind].
      destruct (zsplit1 l oi) as (l1 & b' & l2 & El & L & N' & _); [lia|]. rewrite N in N'. injection N' as <-.
      destruct (less st1 b a) as [st2 [c|]] eqn:Ec; exists st2.
      + cbv zeta. set (p := if c then oi + 1 else oi). assert (Hp : 0 <= p <= zlen l) by (unfold p; destruct c; lia).
        destruct (insert_split x l p a H Hp) as (y & n1 & n2 & Ey & En & Ei & S'). rewrite Ey. cbn [bind]. right. exists y, n1, n2. rewrite Ei. auto.
      + left. exists b. split; [rewrite El; apply in_elt|]. split; [exists st1, st2; now right|reflexivity].
  Qed.
  Lemma astep_ok x l o st : shows x l -> client_ok A o ->
    exists y st' r l', astep A St cmp less x st o = Ok (y, st', r) /\ shows y l' /\ any_step A St cmp less l o l' r.
  Proof.
    intros H Co. destruct (H) as (C & _). destruct o; cbn [astep].
    - destruct (aadd_ok x l a st H) as (st' & [(b & Hb & Fb & E)|(y & l1 & l2 & E & -> & S')]); rewrite E; cbn [bind]; do 4 eexists; (split; [reflexivity|]);
        (split; [eassumption|]); econstructor; eauto.
    - destruct (ainternal_ok x l a st H) as (st' & [(b & Hb & Fb & E)|(r & oi & E & Hr & _)]); rewrite E; cbn [bind].
      + do 4 eexists; (split; [reflexivity|]); (split; [eassumption|]). eapply an_remove_err; eauto.
      + rewrite C. destruct Hr as [->|(l1 & b & l2 & -> & -> & Q)].
        * cbn [Z.geb Z.compare andb]. do 4 eexists; (split; [reflexivity|]); (split; [eassumption|]). apply an_remove_none.
        * pose proof (zlen_nonneg l1). pose proof (zlen_nonneg l2). replace ((zlen l1 >=? 0) && (zlen l1 <? zlen (l1 ++ b :: l2))) with true by (rewrite zlen_app, zlen_cons; lia).
          destruct (remove_mid A x l1 b l2 H) as (y & E' & S'). rewrite E'. cbn [bind]. do 4 eexists; (split; [reflexivity|]); (split; [eassumption|]). now constructor.
    - unfold catch. destruct (Z_lt_dec i 0); [|destruct (Z_lt_dec i (zlen l))].
      1,3: replace (remove_at A x i) with (@Err (lst A)) by (symmetry; apply (remove_at_err A x l i H); lia); cbn [bind];
        do 4 eexists; (split; [reflexivity|]); (split; [eassumption|]); apply an_remove_at_err; lia.
      destruct (zsplit1 l i) as (l1 & b & l2 & -> & <- & _ & _); [lia|].
      destruct (remove_mid A x l1 b l2 H) as (y & E' & S'). rewrite E'. cbn [bind]. do 4 eexists; (split; [reflexivity|]); (split; [eassumption|]). constructor.
    - unfold catch. cbn in Co. destruct (Z_le_dec 0 i) as [Hi|Hi]; [destruct (Z_le_dec (i + n) (zlen l)) as [Hn|Hn]|].
      2,3: replace (remove_range A x i n) with (@Err (lst A)) by (symmetry; apply (remove_range_err A x l i n H); lia); cbn [bind];
        do 4 eexists; (split; [reflexivity|]); (split; [eassumption|]); apply an_remove_range_err; lia.
      destruct (remove_range_at A x l i n H) as (y & E' & S'); try lia. rewrite E'. cbn [bind]. do 4 eexists; (split; [reflexivity|]); (split; [eassumption|]).
      assert (El : l = ztake A i l ++ firstn (Z.to_nat n) (zdrop A i l) ++ zdrop A (i + n) l).
      { unfold ztake, zdrop. replace (Z.to_nat (i + n)) with (Z.to_nat n + Z.to_nat i)%nat by lia. rewrite <- (firstn_skipn (Z.to_nat i) l) at 1. f_equal.
        rewrite <- (firstn_skipn (Z.to_nat n) (skipn (Z.to_nat i) l)) at 1. f_equal. rewrite skipn_skipn. f_equal; lia. }
      assert (L1 : i = zlen (ztake A i l)) by (unfold ztake, zlen in *; rewrite firstn_length; lia).
      assert (L2 : n = zlen (firstn (Z.to_nat n) (zdrop A i l))) by (unfold zdrop, zlen in *; rewrite firstn_length, skipn_length; lia).
      revert El L1 L2. generalize (ztake A i l), (firstn (Z.to_nat n) (zdrop A i l)), (zdrop A (i + n) l). intros a b d -> -> ->. constructor.
    - destruct (clear_ok A x l H) as (y & E & S'). rewrite E. cbn [bind catch]. do 4 eexists; (split; [reflexivity|]); (split; [eassumption|]). constructor.
    - unfold catch. destruct (Z_lt_dec i 0); [|destruct (Z_lt_dec i (zlen l))].
      1,3: rewrite (get_ok A x l i H); replace (znth l i) with (@None A) by (symmetry; apply znth_none; lia); cbn [bind];
        do 4 eexists; (split; [reflexivity|]); (split; [eassumption|]); apply an_get_err; lia.
      rewrite (get_ok A x l i H). destruct (zsplit1 l i) as (l1 & b & l2 & -> & <- & N & _); [lia|]. rewrite N. cbn [bind]. do 4 eexists; (split; [reflexivity|]); (split; [eassumption|]). constructor.
    - rewrite C. do 4 eexists; (split; [reflexivity|]); (split; [eassumption|]). constructor.
    - destruct (ainternal_ok x l a st H) as (st' & [(b & Hb & Fb & E)|(r & oi & E & [->|(l1 & b & l2 & -> & -> & Q)] & _)]); rewrite E; cbn [bind];
        do 4 eexists; (split; [reflexivity|]); (split; [eassumption|]); [eapply an_index_err|apply an_index_none|apply an_index]; eauto.
    - destruct (ainternal_ok x l a st H) as (st' & [(b & Hb & Fb & E)|(r & oi & E & [->|(l1 & b & l2 & -> & -> & Q)] & _)]); rewrite E; cbn [bind];
        do 4 eexists; (split; [reflexivity|]); (split; [eassumption|]).
      + eapply an_contains_err; eauto.
      + apply an_contains_none.
      + pose proof (zlen_nonneg l1). replace (zlen l1 =? -1) with false by lia. eapply an_contains; [apply in_elt|exact Q].
  Qed.
  Lemma arun_ok os : forall x l st, shows x l -> Forall (client_ok A) os ->
    exists y st' rs l', arun A St cmp less x st os = Ok (y, st', rs) /\ shows y l' /\ any_run A St cmp less l os l' rs.
  Proof.
    induction os as [|o os IH]; intros x l st H F; cbn [arun].
    - do 4 eexists; (split; [reflexivity|]); (split; [eassumption|]). constructor.
    - inversion F; subst. destruct (astep_ok x l o st H H2) as (y & st1 & r & l1 & E & S1 & R1). rewrite E. cbn [bind].
      destruct (IH y l1 st1 S1 H3) as (z & st2 & rs & l2 & E2 & S2 & R2). rewrite E2. cbn [bind].
      do 4 eexists; (split; [reflexivity|]); (split; [eassumption|]). econstructor; eauto.
  Qed.

  Definition dshows (d : dict A V) (m : list (A * V)) : Prop := lst_shows A (keys d) (map fst m) /\ lst_shows V (vals d) (map snd m).
  Lemma split_pair (m : list (A * V)) l1 b l2 : map fst m = l1 ++ b :: l2 -> exists m1 (w : V) m2, m = m1 ++ (b, w) :: m2 /\ zlen l1 = zlen m1 /\ l1 = map fst m1 /\ l2 = map fst m2.
  Proof.
    intros E. destruct (map_split fst m l1 (b :: l2) E) as (m1 & m2 & -> & <- & E2). destruct m2 as [|[b' w] m2]; cbn in E2; [easy|].
    injection E2 as -> <-. exists m1, w, m2. repeat split; auto. now rewrite zlen_map.
  Qed.
  Lemma in_pair (m : list (A * V)) b : In b (map fst m) -> exists w : V, In (b, w) m.
  Proof. intros H. apply in_map_iff in H. destruct H as ([b' w] & <- & H). eauto. Qed.
  Lemma adinsert_ok d m k v st : dshows d m ->
    exists d' st', (exists b w, In (b, w) m /\ fails b k /\ adinsert A V St cmp less d k v st = Ok (d', st', OError) /\ d' = d) \/
    exists m1 m2, m = m1 ++ m2 /\ adinsert A V St cmp less d k v st = Ok (d', st', OBool true) /\ dshows d' (m1 ++ (k, v) :: m2).
  Proof.
    intros (HK & HV). unfold adinsert. destruct (aadd_ok _ _ k st HK) as (st' & [(b & Hb & Fb & E)|(y & l1 & l2 & E & El & S')]); rewrite E; cbn [bind].
    - destruct (in_pair m b Hb) as (w & Hw). exists d, st'. left. exists b, w. auto.
    - destruct (map_split fst m l1 l2 El) as (m1 & m2 & -> & <- & <-). rewrite map_app in HV. destruct (insert_mid V _ _ _ v HV) as (z & Ez & Sz).
      rewrite zlen_map in Ez. rewrite zlen_map, (late_ok z _ Ez). cbn [bind]. do 2 eexists. right. exists m1, m2. split; [reflexivity|]. split; [reflexivity|].
      unfold dshows. rewrite !map_app. auto.
  Qed.
  Lemma adstep_ok d m o st : dshows d m ->
    exists d' st' r m', adstep A V St cmp less d st o = Ok (d', st', r) /\ dshows d' m' /\ pair_step A V St cmp less m o m' r.
  Proof.
    intros H. pose proof H as (HK & HV). destruct (HK) as (C & _). rewrite zlen_map in C.
    assert (Find : forall k, about A V o = Some k -> forall f : St -> Z -> res (dict A V * St * dout A V),
      (forall st, exists d' st' r m', f st (-1) = Ok (d', st', r) /\ dshows d' m' /\ pair_step A V St cmp less m o m' r) ->
      (forall st m1 b w m2, m = m1 ++ (b, w) :: m2 -> eqv b k -> exists d' st' r m', f st (zlen m1) = Ok (d', st', r) /\ dshows d' m' /\ pair_step A V St cmp less m o m' r) ->
      exists d' st' r m', (do (st, r) <- ainternal A St cmp (keys d) k st; match r with Some (i, _) => f st i | None => Ok (d, st, OError) end) = Ok (d', st', r) /\
        dshows d' m' /\ pair_step A V St cmp less m o m' r).
    { intros k Ho f F1 F2. destruct (ainternal_ok _ _ k st HK) as (st' & [(b & Hb & Fb & E)|(r & oi & E & [->|(l1 & b & l2 & El & -> & Q)] & _)]); rewrite E; cbn [bind]; auto.
      - destruct (in_pair m b Hb) as (w & Hw). exists d, st', OError, m. split; [reflexivity|]. split; [exact H|]. eapply ps_fail; eauto.
      - destruct (split_pair m l1 b l2 El) as (m1 & w & m2 & Em & -> & _). eapply F2; eauto. }
    assert (Ins : forall k v st, about A V o = Some k -> (forall m1 m2, m = m1 ++ m2 -> pair_step A V St cmp less m o (m1 ++ (k, v) :: m2) (OBool true)) ->
      exists d' st' r m', adinsert A V St cmp less d k v st = Ok (d', st', r) /\ dshows d' m' /\ pair_step A V St cmp less m o m' r).
    { intros k v st0 Ho P. destruct (adinsert_ok d m k v st0 H) as (d' & st' & [(b & w & Hb & Fb & E & ->)|(m1 & m2 & Em & E & S')]).
      - exists d, st', OError, m. split; [exact E|]. split; [exact H|]. eapply ps_fail; eauto.
      - do 4 eexists. split; [exact E|]. split; [exact S'|]. now apply P. }
    destruct o as [k v|k v|k| |k|k| |i|i]; cbn [adstep].
    - apply (Find k); [reflexivity| |].
      + intros st0. cbn [Z.eqb Pos.eqb negb]. apply Ins; [reflexivity|]. intros m1 m2 ->. constructor.
      + intros st0 m1 b w m2 -> Q. pose proof (zlen_nonneg m1). replace (zlen m1 =? -1) with false by lia. cbn [negb].
        do 4 eexists. split; [reflexivity|]. split; [exact H|]. eapply ps_add_dup; [apply in_elt|exact Q].
    - apply (Find k); [reflexivity| |].
      + intros st0. cbn [Z.eqb Pos.eqb]. apply Ins; [reflexivity|]. intros m1 m2 ->. constructor.
      + intros st0 m1 b w m2 -> Q. pose proof (zlen_nonneg m1). replace (zlen m1 =? -1) with false by lia.
        rewrite map_app in HV, HK. cbn [map fst snd] in HV, HK. destruct (set_mid V _ _ _ _ v HV) as (z & Ez & Sz). rewrite zlen_map in Ez. rewrite (late_ok z _ Ez). cbn [bind].
        do 4 eexists. split; [reflexivity|]. split; [|eapply ps_set_old; exact Q]. unfold dshows. rewrite !map_app. auto.
    - apply (Find k); [reflexivity| |].
      + intros st0. cbn [Z.eqb Pos.eqb negb]. do 4 eexists. split; [reflexivity|]. split; [exact H|]. constructor.
      + intros st0 m1 b w m2 -> Q. pose proof (zlen_nonneg m1). replace (zlen m1 =? -1) with false by lia. cbn [negb].
        rewrite map_app in HV, HK. cbn [map fst snd] in HV, HK. destruct (remove_mid A _ _ _ _ HK) as (y & Ey & Sy). destruct (remove_mid V _ _ _ _ HV) as (z & Ez & Sz).
        rewrite zlen_map in Ey. rewrite zlen_map in Ez. rewrite (late_ok y _ Ey). cbn [bind]. rewrite (late_ok z _ Ez). cbn [bind].
        do 4 eexists. split; [reflexivity|]. split; [|eapply ps_remove; exact Q]. unfold dshows. rewrite !map_app. auto.
    - destruct (clear_ok A _ _ HK) as (y & Ey & Sy). destruct (clear_ok V _ _ HV) as (z & Ez & Sz). rewrite Ey. cbn [bind]. rewrite (late_ok z _ Ez). cbn [bind].
      do 4 eexists. split; [reflexivity|]. split; [|apply ps_clear]. split; auto.
    - apply (Find k); [reflexivity| |].
      + intros st0. rewrite (get_neg V _ _ HV). do 4 eexists. split; [reflexivity|]. split; [exact H|]. apply ps_get_none.
      + intros st0 m1 b w m2 -> Q. rewrite map_app in HV. cbn [map snd] in HV. pose proof (get_mid V _ _ _ _ HV) as G. rewrite zlen_map in G. rewrite G.
        do 4 eexists. split; [reflexivity|]. split; [exact H|]. eapply ps_get; [apply in_elt|exact Q].
    - apply (Find k); [reflexivity| |].
      + intros st0. do 4 eexists. split; [reflexivity|]. split; [exact H|]. apply ps_contains_none.
      + intros st0 m1 b w m2 -> Q. pose proof (zlen_nonneg m1). replace (zlen m1 =? -1) with false by lia.
        do 4 eexists. split; [reflexivity|]. split; [exact H|]. eapply ps_contains; [apply in_elt|exact Q].
    - rewrite C. do 4 eexists. split; [reflexivity|]. split; [exact H|]. constructor.
    - rewrite (get_ok A _ _ i HK), znth_map. destruct (Z_lt_dec i 0); [|destruct (Z_lt_dec i (zlen m))].
      1,3: rewrite znth_none by lia; do 4 eexists; (split; [reflexivity|]); (split; [exact H|]); apply ps_key_err; lia.
      destruct (zsplit1 m i) as (m1 & [b w] & m2 & -> & <- & N & _); [lia|]. rewrite N. do 4 eexists. split; [reflexivity|]. split; [exact H|]. constructor.
    - rewrite (get_ok V _ _ i HV), znth_map. destruct (Z_lt_dec i 0); [|destruct (Z_lt_dec i (zlen m))].
      1,3: rewrite znth_none by lia; do 4 eexists; (split; [reflexivity|]); (split; [exact H|]); apply ps_value_err; lia.
      destruct (zsplit1 m i) as (m1 & [b w] & m2 & -> & <- & N & _); [lia|]. rewrite N. do 4 eexists. split; [reflexivity|]. split; [exact H|]. constructor.
  Qed.
  Lemma adrun_ok os : forall d m st, dshows d m ->
    exists d' st' rs m', adrun A V St cmp less d st os = Ok (d', st', rs) /\ dshows d' m' /\ pair_run A V St cmp less m os m' rs.
  Proof.
    induction os as [|o os IH]; intros d m st H; cbn [adrun].
    - do 4 eexists. split; [reflexivity|]. split; [exact H|]. constructor.
    - destruct (adstep_ok d m o st H) as (d1 & st1 & r & m1 & E & S1 & R1). rewrite E. cbn [bind].
      destruct (IH d1 m1 st1 S1) as (d2 & st2 & rs & m2 & E2 & S2 & R2). rewrite E2. cbn [bind].
      do 4 eexists. split; [reflexivity|]. split; [exact S2|]. econstructor; eauto.
  Qed.
End Any.
