From Coq Require Import ZifyBool ZifyNat.
From Verif Require Import Base BaseFacts LstModel LstSpec LstProofs SrtModel SrtSpec SrtProofs DctModel DctSpec DctProofs MemSpec MemProofs CstSpec.
Open Scope Z_scope.

Section Lists.
  Variable A : Type.
  Definition grown (x y : lst A) (b : Z) : Prop :=
    moves x + b <= moves y /\ moves y + slack A y <= moves x + slack A x + b + 11 /\ cap y <= Z.max (cap x) (count y * 5 / 4 + 1).
  Lemma grown_refl x : grown x x 0.
  Proof. unfold grown. lia. Qed.
  Lemma s_insert_insert x i a y : s_insert A x i a = Ok y -> 0 <= i <= count x -> insert A x i a = Ok y.
  Proof. unfold s_insert, insert. intros E H. replace ((i >=? 0) && (i <=? count x)) with true by lia. exact E. Qed.
  Lemma insert_grown x i a y : insert A x i a = Ok y -> 0 <= count x <= cap x -> grown x y (count x - i).
  Proof.
    intros E Hc. pose proof E as E'. apply (insert_moves A (fun _ _ => true)) in E'; [|lia]. destruct E' as (Q1 & Q2). unfold grown. split; [|split; [lia|exact Q2]].
    unfold insert in E. destruct ((i >=? 0) && (i <=? count x)) eqn:Ei; [|discriminate].
    apply bind_ok in E. destruct E as (z & E1 & E). apply bind_ok in E. destruct E as (m & E2 & E).
    apply uninit_moves in E1; [|lia]. assert (y = mkLst m (count z) (cap z) (moves z)) as -> by congruence. cbn [moves]. lia.
  Qed.
  Lemma release_least x k y : release A x k = Ok y -> 0 <= count x -> moves x <= moves y.
  Proof.
    unfold release. intros E Hc. assert (K : forall a b : lst A, Ok a = Ok b -> a = b) by congruence. destruct (buf x) as [|b bs]; [apply K in E; subst; lia|]. cbv zeta in E.
    match type of E with bind ?r _ = _ => destruct r as [m'| | |] end; cbn [bind] in *; try discriminate.
    destruct ((count x <=? cap x / 2) && (count x <=? 8)) eqn:E1; [|apply K in E; subst y; cbn [count cap moves]; lia].
    destruct (count x <? cap x * 5 / 8) eqn:E2; [|apply K in E; subst y; cbn [count cap moves]; lia].
    repeat (let a := fresh in let F := fresh in apply bind_ok in E; destruct E as (a & F & E); match type of a with prod _ _ => destruct a | _ => idtac end).
    apply K in E; subst y; cbn [count cap moves]. lia.
  Qed.
  Lemma remove_at_grown x i y : remove_at A x i = Ok y -> 0 <= count x <= cap x -> grown x y (count x - i - 1).
  Proof.
    intros E Hc. pose proof E as E'. apply remove_at_moves in E'; [|lia]. destruct E' as (Q1 & Q2 & Q3 & _). unfold grown. split; [|split; [lia|lia]].
    unfold remove_at in E. destruct ((i >=? 0) && (i <? count x)) eqn:Ei; [|discriminate].
    apply bind_ok in E. destruct E as (m & _ & E). apply release_least in E; cbn [count cap moves] in *; lia.
  Qed.
  Lemma remove_range_grown x i n y : remove_range A x i n = Ok y -> 0 <= n -> 0 <= count x <= cap x -> grown x y (count x - i - n).
  Proof.
    intros E Hn Hc. pose proof E as E'. apply remove_range_moves in E'; [|lia|lia]. destruct E' as (Q1 & Q2). unfold grown. split; [|split; [lia|lia]].
    unfold remove_range in E. destruct ((i >=? 0) && (i <=? count x)) eqn:Ei; [|discriminate]. destruct (negb ((- 2 ^ 63 <=? i + n) && (i + n <? 2 ^ 63))); [discriminate|]. destruct ((i + n >=? 0) && (i + n <=? count x)) eqn:E1; [|discriminate].
    apply bind_ok in E. destruct E as (m & _ & E). apply release_least in E; cbn [count cap moves] in *; lia.
  Qed.
  Lemma clear_grown x y : clear A x = Ok y -> 0 <= count x <= cap x -> grown x y 0.
  Proof. intros E Hc. apply clear_moves in E. unfold grown, slack. lia. Qed.
  Lemma set_grown x i a y : set A x i a = Ok y -> grown x y 0.
  Proof. intros E. apply set_moves in E. unfold grown, slack. lia. Qed.
End Lists.

Section Count.
  Variable A : Type.
  Variable c : A -> A -> comparison.
  Notation greater := (greater A c).
  Notation not_less := (not_less A c).
  Lemma greater_app l1 l2 a : greater (l1 ++ l2) a = greater l1 a + greater l2 a.
  Proof. unfold CstSpec.greater. now rewrite filter_app, zlen_app. Qed.
  Lemma not_less_app l1 l2 a : not_less (l1 ++ l2) a = not_less l1 a + not_less l2 a.
  Proof. unfold CstSpec.not_less. now rewrite filter_app, zlen_app. Qed.
  Lemma greater_none l a : (forall x, In x l -> c x a <> Gt) -> greater l a = 0.
  Proof.
    unfold CstSpec.greater. induction l as [|x l IH]; intros H; [reflexivity|]. cbn [filter].
    destruct (c x a) eqn:E; try (apply IH; intros y Hy; apply H; now right). now destruct (H x (or_introl eq_refl)).
  Qed.
  Lemma greater_all l a : (forall x, In x l -> c x a = Gt) -> greater l a = zlen l.
  Proof.
    unfold CstSpec.greater. induction l as [|x l IH]; intros H; [reflexivity|]. cbn [filter].
    rewrite (H x (or_introl eq_refl)), !zlen_cons, IH; [reflexivity|]. intros y Hy. apply H. now right.
  Qed.
  Lemma greater_le l a : 0 <= greater l a <= zlen l.
  Proof.
    unfold CstSpec.greater. split; [apply zlen_nonneg|]. induction l as [|x l IH]; [reflexivity|]. cbn [filter]. destruct (c x a); rewrite ?zlen_cons; lia.
  Qed.
  Lemma not_less_nonneg l a : 0 <= not_less l a.
  Proof. apply zlen_nonneg. Qed.
  Lemma not_less_all l a : (forall x, In x l -> c x a <> Lt) -> not_less l a = zlen l.
  Proof.
    unfold CstSpec.not_less. induction l as [|x l IH]; intros H; [reflexivity|]. cbn [filter].
    assert (c x a <> Lt) as N by (apply H; now left). assert (zlen (filter (fun x0 => match c x0 a with Lt => false | _ => true end) l) = zlen l) as E by (apply IH; intros y Hy; apply H; now right).
    destruct (c x a); try (now destruct N); rewrite !zlen_cons, E; reflexivity.
  Qed.
End Count.

Section Sorted.
  Variable A : Type.
  Variable c : A -> A -> comparison.
  Variable TO : total_order c.
  Notation cmp := (fun a b => Some (c a b)).
  Notation greater := (greater A c).
  Notation not_less := (not_less A c).
  Lemma s_add_inv x a y i : s_add A cmp x a = Ok (y, i) -> s_insert A x i a = Ok y.
  Proof.
    unfold s_add. destruct (count x =? 0).
    - intros E. apply bind_ok in E. destruct E as (z & E1 & E). congruence.
    - intros E. apply bind_ok in E. destruct E as ([r oi] & E1 & E). destruct ((oi >=? 0) && (oi <? count x)); [|discriminate].
      apply bind_ok in E. destruct E as (b & E2 & E). cbv zeta in E. apply bind_ok in E. destruct E as (z & E3 & E). congruence.
  Qed.
  (* around an element equal to a, or around the place where a is inserted *)
  Lemma around l1 l2 a b : ascending A c (l1 ++ b :: l2) -> c b a = Eq ->
    greater (l1 ++ l2) a <= zlen l2 <= not_less (l1 ++ l2) a.
  Proof.
    intros H Eb. apply (asc_app A c) in H. destruct H as (H1 & H2 & H3). unfold ascending in H2. inversion H2 as [|? ? H4 H5]; subst. rewrite Forall_forall in H5.
    rewrite greater_app, not_less_app. rewrite (greater_none A c l1), (not_less_all A c l2).
    - pose proof (greater_le A c l2 a). pose proof (not_less_nonneg A c l1 a). lia.
    - intros x Hx E. specialize (H5 x Hx). unfold le in H5. apply H5. apply (gt_lt A c TO). apply (lt_le_trans A c TO _ a); [exact E|]. rewrite (eq_sym_c A c TO _ _ Eb). discriminate.
    - intros x Hx. specialize (H3 x b Hx (or_introl eq_refl)). unfold le in H3. apply (to_trans c TO _ b); [exact H3|congruence].
  Qed.
  Lemma s_step_costs x l o : lst_shows A x l -> ascending A c l -> client_ok A o ->
    exists y l' r b, s_step A cmp x o = Ok (y, r) /\ lst_shows A y l' /\ ascending A c l' /\ ok_step A c l o l' r /\
      least_behind A c l o r <= b <= most_behind A c l o r /\ grown A x y b.
  Proof.
    intros S Ha Co. pose proof (cap_count A x l S) as Hc. pose proof S as (C & _).
    destruct (s_step_ok A c TO x l o S Ha Co) as (y & l' & r & E & Sy & As & Ok1). pose proof E as E'. unfold s_step in E'. destruct o; cbn [s_step_raw] in E'.
    1:{ clear y l' r E Sy As Ok1 E'. destruct (s_add_ok A c TO x l a S Ha) as (y & l1 & l2 & -> & E & S' & As & _). exists y, (l1 ++ a :: l2), (RInt (zlen l1)), (zlen l2).
      unfold s_step. cbn [s_step_raw]. rewrite E. cbn [bind]. split; [reflexivity|]. split; [exact S'|]. split; [exact As|]. split; [constructor|].
      cbn [least_behind most_behind]. split; [apply around with a; [exact As|apply (c_refl A c TO)]|].
      rewrite zlen_app in C. pose proof (zlen_nonneg l1). pose proof (zlen_nonneg l2). apply s_add_inv, s_insert_insert in E; [|lia]. apply insert_grown in E; [|lia]. replace (count x - zlen l1) with (zlen l2) in E by lia. exact E. }
    1:{ clear y l' r E Sy As Ok1 E'. unfold s_step. cbn [s_step_raw]. unfold s_remove. destruct (s_index_ok A c TO x l a S Ha) as [(l1 & b & l2 & -> & Cb & E)|(l1 & l2 & -> & B1 & B2 & E)]; rewrite E; cbn [bind].
      - rewrite zlen_app, zlen_cons in C. pose proof (zlen_nonneg l1). pose proof (zlen_nonneg l2). replace ((zlen l1 >=? 0) && (zlen l1 <? count x)) with true by lia.
        destruct (remove_mid A x l1 b l2 S) as (y & Ey & Sy). rewrite Ey. cbn [bind]. exists y, (l1 ++ l2), (RBool true), (zlen l2). split; [reflexivity|]. split; [exact Sy|].
        split; [now apply (asc_drop_mid A c l1 [b] l2)|]. split; [now constructor|]. cbn [least_behind most_behind]. split.
        + pose proof (around l1 l2 a b Ha Cb) as R. rewrite greater_app, not_less_app in R. change (b :: l2) with ([b] ++ l2). rewrite !greater_app, !not_less_app.
          assert (greater [b] a = 0) as -> by (unfold CstSpec.greater; cbn [filter]; now rewrite Cb). assert (not_less [b] a = 1) as -> by (unfold CstSpec.not_less; cbn [filter]; now rewrite Cb). lia.
        + apply remove_at_grown in Ey; [|lia]. replace (count x - zlen l1 - 1) with (zlen l2) in Ey by lia. exact Ey.
      - replace (-1 >=? 0) with false by lia. cbn [andb bind]. exists x, (l1 ++ l2), (RBool false), 0. split; [reflexivity|]. split; [exact S|]. split; [exact Ha|].
        split; [constructor; now apply (not_eq_split A c)|]. cbn [least_behind most_behind]. split; [lia|apply grown_refl]. }
    - destruct (remove_at A x i) as [z| | |] eqn:Ez; cbn [bind] in E'; try discriminate; injection E' as E1 E2; subst y r.
      + eexists _, l', _, (zlen l - i - 1). split; [exact E|]. split; [exact Sy|]. split; [exact As|]. split; [exact Ok1|]. split; [cbn [least_behind most_behind]; lia|]. rewrite <- C. now apply remove_at_grown; [|lia].
      + eexists _, l', _, 0. split; [exact E|]. split; [exact Sy|]. split; [exact As|]. split; [exact Ok1|]. split; [cbn [least_behind most_behind]; lia|]. apply grown_refl.
    - destruct (remove_range A x i n) as [z| | |] eqn:Ez; cbn [bind] in E'; try discriminate; injection E' as E1 E2; subst y r.
      + eexists _, l', _, (zlen l - i - n). split; [exact E|]. split; [exact Sy|]. split; [exact As|]. split; [exact Ok1|]. split; [cbn [least_behind most_behind]; lia|]. rewrite <- C. cbn [client_ok] in Co. apply remove_range_grown; [exact Ez|lia|lia].
      + eexists _, l', _, 0. split; [exact E|]. split; [exact Sy|]. split; [exact As|]. split; [exact Ok1|]. split; [cbn [least_behind most_behind]; lia|]. apply grown_refl.
    - exists y, l', r, 0. split; [exact E|]. split; [exact Sy|]. split; [exact As|]. split; [exact Ok1|]. split; [cbn [least_behind most_behind]; lia|].
      destruct (clear A x) as [z| | |] eqn:Ez; cbn [bind] in E'; try discriminate; injection E' as E1 E2; subst y r; [now apply clear_grown; [|lia]|apply grown_refl].
    - exists y, l', r, 0. split; [exact E|]. split; [exact Sy|]. split; [exact As|]. split; [exact Ok1|]. split; [cbn [least_behind most_behind]; lia|].
      destruct (get A x i) as [z| | |] eqn:Ez; cbn [bind] in E'; try discriminate; injection E' as E1 E2; subst y r; apply grown_refl.
    - exists y, l', r, 0. split; [exact E|]. split; [exact Sy|]. split; [exact As|]. split; [exact Ok1|]. split; [cbn [least_behind most_behind]; lia|].
      injection E' as E1 E2; subst y r; apply grown_refl.
    - exists y, l', r, 0. split; [exact E|]. split; [exact Sy|]. split; [exact As|]. split; [exact Ok1|]. split; [cbn [least_behind most_behind]; lia|].
      destruct (s_index_of A cmp x a) as [z| | |] eqn:Ez; cbn [bind] in E'; try discriminate; injection E' as E1 E2; subst y r; apply grown_refl.
    - exists y, l', r, 0. split; [exact E|]. split; [exact Sy|]. split; [exact As|]. split; [exact Ok1|]. split; [cbn [least_behind most_behind]; lia|].
      destruct (s_index_of A cmp x a) as [z| | |] eqn:Ez; cbn [bind] in E'; try discriminate; injection E' as E1 E2; subst y r; apply grown_refl.
  Qed.
  Lemma costs_peak l os l' rs least most peak : ok_costs A c l os l' rs least most peak -> zlen l <= peak.
  Proof. destruct 1; lia. Qed.
  Lemma s_run_costs os : forall x l, lst_shows A x l -> ascending A c l -> Forall (client_ok A) os ->
    exists y rs l' least most peak, s_run A cmp x os = Ok (y, rs) /\ lst_shows A y l' /\ ok_costs A c l os l' rs least most peak /\
      moves x + least <= moves y /\ moves y + slack A y <= moves x + slack A x + most + 11 * zlen os /\ cap y <= Z.max (cap x) (peak * 5 / 4 + 1).
  Proof.
    induction os as [|o os IH]; intros x l S Ha F; cbn [s_run].
    - exists x, [], l, 0, 0, (zlen l). change (zlen (@nil (sop A))) with 0. split; [reflexivity|]. split; [exact S|]. split; [constructor|]. lia.
    - inversion F as [|? ? F1 F2]; subst. destruct (s_step_costs x l o S Ha F1) as (y & l' & r & b & E & Sy & As & Ok1 & B & G1 & G2 & G3). rewrite E. cbn [bind].
      destruct (IH y l' Sy As F2) as (z & rs & l'' & least & most & peak & Ez & Sz & Co & M1 & M2 & P). rewrite Ez. cbn [bind].
      pose proof (costs_peak _ _ _ _ _ _ _ Co) as Pk. pose proof Sy as (C & _). rewrite zlen_cons.
      exists z, (r :: rs), l'', (least_behind A c l o r + least), (most_behind A c l o r + most), (Z.max (zlen l) peak).
      split; [reflexivity|]. split; [exact Sz|]. split; [now apply costs_cons with l'|]. pose proof (zlen_nonneg l). pose proof (zlen_nonneg l'). lia.
  Qed.
  Lemma sorted_costs os : Forall (client_ok A) os ->
    exists y rs l' least most peak, s_run A cmp empty_lst os = Ok (y, rs) /\ lst_shows A y l' /\ ok_costs A c [] os l' rs least most peak /\
      least <= moves y <= most + 11 * zlen os /\ cap y <= peak * 5 / 4 + 1.
  Proof.
    intros F. destruct (s_run_costs os empty_lst [] (empty_shows A)) as (y & rs & l' & least & most & peak & E & Sy & Co & M1 & M2 & P); [constructor|exact F|].
    exists y, rs, l', least, most, peak. split; [exact E|]. split; [exact Sy|]. split; [exact Co|]. pose proof (costs_peak _ _ _ _ _ _ _ Co) as Pk. change (zlen (@nil A)) with 0 in Pk.
    unfold slack in M2. cbn [moves count cap empty_lst] in *. lia.
  Qed.
  (* equal elements: the search stops in the middle *)
  Lemma add_equal x a n : (0 < n)%nat -> lst_shows A x (repeat a n) ->
    exists y, s_step A cmp x (SAdd a) = Ok (y, RInt ((Z.of_nat n - 1) / 2)) /\ lst_shows A y (repeat a (S n)) /\
      moves x + (Z.of_nat n - (Z.of_nat n - 1) / 2) <= moves y.
  Proof.
    intros Hn S. assert (zlen (repeat a n) = Z.of_nat n) as L by (unfold zlen; now rewrite repeat_length).
    pose proof (cap_count A x _ S) as Hc. pose proof S as (C & _). rewrite L in C.
    assert (Hm : 0 <= (Z.of_nat n - 1) / 2 < Z.of_nat n) by (pose proof (Z.div_mod (Z.of_nat n - 1) 2); pose proof (Z.mod_pos_bound (Z.of_nat n - 1) 2); lia).
    destruct (read_ok A x _ ((Z.of_nat n - 1) / 2) S) as (b & Rb & Nb); [rewrite L; exact Hm|].
    assert (b = a) as ->. { unfold znth in Nb. destruct (_ <? 0); [discriminate|]. apply nth_error_In, repeat_spec in Nb. exact Nb. }
    assert (index_of_internal A cmp x a = Ok ((Z.of_nat n - 1) / 2, (Z.of_nat n - 1) / 2)) as Ei.
    { unfold index_of_internal. rewrite C. replace (Z.to_nat (Z.of_nat n + 1)) with (Datatypes.S n) by lia. cbn [search]. replace (0 <=? Z.of_nat n - 1) with true by lia. cbv zeta.
      rewrite Z.quot_div_nonneg by lia. replace (Z.of_nat n - 1 - 0) with (Z.of_nat n - 1) by lia. rewrite Z.add_0_l. rewrite Rb. cbn [bind]. now rewrite (c_refl A c TO). }
    destruct (s_insert_at A x _ ((Z.of_nat n - 1) / 2) a S) as (y & Ey & Sy); [rewrite L; lia|]. exists y.
    assert (s_add A cmp x a = Ok (y, (Z.of_nat n - 1) / 2)) as Ea.
    { unfold s_add. rewrite C. replace (Z.of_nat n =? 0) with false by lia. rewrite Ei. cbn [bind]. replace (((Z.of_nat n - 1) / 2 >=? 0) && ((Z.of_nat n - 1) / 2 <? Z.of_nat n)) with true by lia.
      rewrite Rb. cbn [bind]. cbv zeta. rewrite (c_refl A c TO), Ey. reflexivity. }
    split; [unfold s_step; cbn [s_step_raw]; rewrite Ea; reflexivity|]. split.
    - replace (ztake A ((Z.of_nat n - 1) / 2) (repeat a n) ++ a :: zdrop A ((Z.of_nat n - 1) / 2) (repeat a n)) with (repeat a (Datatypes.S n)) in Sy; [exact Sy|].
      set (k := Z.to_nat ((Z.of_nat n - 1) / 2)). unfold ztake, zdrop. fold k. assert (k <= n)%nat as Hk by lia. clearbody k.
      assert (forall j, repeat a (k + j) = repeat a k ++ repeat a j) as Rp by (intros; apply repeat_app).
      replace (Datatypes.S n) with (k + Datatypes.S (n - k))%nat by lia. rewrite (Rp (Datatypes.S (n - k))). assert (repeat a n = repeat a k ++ repeat a (n - k)) as -> by (rewrite <- Rp; f_equal; lia).
      rewrite firstn_app, skipn_app, repeat_length, Nat.sub_diag. rewrite (firstn_all2 (repeat a k)), (skipn_all2 (repeat a k)) by (rewrite repeat_length; lia). cbn [firstn skipn app repeat]. now rewrite app_nil_r.
    - apply s_insert_insert in Ey; [|lia]. apply insert_grown in Ey; [|lia]. destruct Ey as (M & _). lia.
  Qed.
  Lemma add_equals a n : exists y rs, s_run A cmp empty_lst (repeat (SAdd a) n) = Ok (y, rs) /\ lst_shows A y (repeat a n) /\
    Z.of_nat n * (Z.of_nat n - 1) <= 4 * moves y.
  Proof.
    assert (forall k x m, lst_shows A x (repeat a m) -> Z.of_nat m * (Z.of_nat m - 1) <= 4 * moves x -> exists y rs, s_run A cmp x (repeat (SAdd a) k) = Ok (y, rs) /\ lst_shows A y (repeat a (m + k)) /\
      Z.of_nat (m + k) * (Z.of_nat (m + k) - 1) <= 4 * moves y) as G.
    { induction k as [|k IH]; intros x m S M; cbn [repeat s_run].
      - exists x, []. rewrite Nat.add_0_r. auto.
      - assert (exists y r, s_step A cmp x (SAdd a) = Ok (y, r) /\ lst_shows A y (repeat a (Datatypes.S m)) /\ Z.of_nat (Datatypes.S m) * (Z.of_nat (Datatypes.S m) - 1) <= 4 * moves y) as (y & r & E & Sy & My).
        { destruct m as [|m].
          - destruct (s_step_costs x [] (SAdd a) S) as (y & l' & r & b & E & Sy & As & Ok1 & B & G1 & _); [constructor|exact I|].
            exists y, r. split; [exact E|]. cbn [least_behind most_behind] in B. change (greater [] a) with 0 in B. split; [|nia].
            assert (l' = [a]) as ->; [|exact Sy]. inversion Ok1 as [l1 l2 a0 H1| | | | | | | | | | | | | |]; subst. destruct l1; [destruct l2; [reflexivity|discriminate]|discriminate].
          - destruct (add_equal x a (Datatypes.S m) ltac:(lia) S) as (y & E & Sy & My). exists y. eexists. split; [exact E|]. split; [exact Sy|].
            assert (2 * (Z.of_nat (Datatypes.S m) - (Z.of_nat (Datatypes.S m) - 1) / 2) >= Z.of_nat (Datatypes.S m)) by lia. nia. }
        rewrite E. cbn [bind]. destruct (IH y (Datatypes.S m) Sy My) as (z & rs & Ez & Sz & Mz). rewrite Ez. cbn [bind]. exists z, (r :: rs). split; [reflexivity|].
        replace (m + Datatypes.S k)%nat with (Datatypes.S m + k)%nat by lia. auto. }
    destruct (G n empty_lst 0%nat (empty_shows A)) as (y & rs & R); [cbn [moves empty_lst]; lia|]. exists y, rs. exact R.
  Qed.
End Sorted.

Section Dict.
  Variable K V : Type.
  Variable c : K -> K -> comparison.
  Variable TO : total_order c.
  Notation cmp := (fun a b => Some (c a b)).
  Lemma greater_split m1 m2 k : below K V c m1 k -> above K V c m2 k -> greater K c (map fst (m1 ++ m2)) k = zlen m2.
  Proof.
    intros B Ab. rewrite map_app, greater_app, greater_none, greater_all, zlen_map; [lia| |].
    - intros x Hx. apply in_map_iff in Hx. destruct Hx as (p & <- & Hp). now apply Ab.
    - intros x Hx. apply in_map_iff in Hx. destruct Hx as (p & <- & Hp). rewrite (B p Hp). discriminate.
  Qed.
  Lemma greater_absent m k m1 m2 : absent K V c m k m1 m2 -> greater K c (map fst m) k = zlen m2.
  Proof. intros (-> & B & Ab). now apply greater_split. Qed.
  Lemma greater_found m k m1 k0 v0 m2 : found K V c m k m1 k0 v0 m2 -> greater K c (map fst m) k = zlen m2.
  Proof.
    intros (-> & E & B & Ab). rewrite map_app, greater_app. cbn [map fst]. change (k0 :: map fst m2) with ([k0] ++ map fst m2). rewrite greater_app.
    assert (greater K c [k0] k = 0) as -> by (unfold greater; cbn [filter]; now rewrite E).
    pose proof (greater_split m1 m2 k B Ab) as G. rewrite map_app, greater_app in G. lia.
  Qed.
  Definition dgrown (d d' : dict K V) (b : Z) := grown K (keys d) (keys d') b /\ grown V (vals d) (vals d') b.
  Lemma dgrown_refl d : dgrown d d 0.
  Proof. split; apply grown_refl. Qed.
  Lemma put_grown d m k v ks j vs m1 m2 : d_shows K V c d m -> absent K V c m k m1 m2 -> s_add K cmp (keys d) k = Ok (ks, j) ->
    late (insert V (vals d) j v) = Ok vs -> dgrown d (mkDict ks vs) (greater K c (map fst m) k).
  Proof.
    intros (HK & HV & Ha) Hb E1 E2. destruct (add_absent K V c TO _ _ _ _ _ HK Ha Hb) as (y & n1 & n2 & Hn & E & _). rewrite E1 in E. injection E as -> ->.
    rewrite (greater_absent _ _ _ _ Hn). pose proof Hn as (Em & _ & _). pose proof (cap_count K _ _ HK) as C1. pose proof (cap_count V _ _ HV) as C2.
    pose proof HK as (D1 & _). pose proof HV as (D2 & _). rewrite zlen_map in D1. rewrite zlen_map in D2. rewrite Em, zlen_app in D1. rewrite Em, zlen_app in D2. pose proof (zlen_nonneg n1). pose proof (zlen_nonneg n2).
    split; cbn [keys vals].
    - apply s_add_inv, s_insert_insert in E1; [|lia]. apply insert_grown in E1; [|lia]. replace (count (keys d) - zlen n1) with (zlen n2) in E1 by lia. exact E1.
    - destruct (insert V (vals d) (zlen n1) v) as [z| | |] eqn:Ei; cbn [late] in E2; try discriminate. injection E2 as ->.
      apply insert_grown in Ei; [|lia]. replace (count (vals d) - zlen n1) with (zlen n2) in Ei by lia. exact Ei.
  Qed.
  Lemma d_step_costs d m o d' r : d_shows K V c d m -> d_step K V cmp d o = Ok (d', r) -> dgrown d d' (keys_behind K V c m o).
  Proof.
    intros Sh E. pose proof Sh as (HK & HV & Ha). unfold d_step in E.
    pose proof (cap_count K _ _ HK) as C1. pose proof (cap_count V _ _ HV) as C2. pose proof HK as (D1 & _). pose proof HV as (D2 & _). rewrite zlen_map in D1. rewrite zlen_map in D2.
    destruct o as [k v|k v|k| |k|k| |i|i]; cbn [d_step_raw keys_behind] in *.
    - unfold d_add in E. destruct (index_cases K V c TO _ _ k HK Ha) as [(m1 & k0 & v0 & m2 & F & Ei)|(m1 & m2 & F & Ei)]; rewrite Ei in E; cbn [bind] in E.
      + pose proof (zlen_nonneg m1). replace (zlen m1 =? -1) with false in E by lia. cbn [negb bind] in E. rewrite (lookup_found K V c _ _ _ _ _ _ F). injection E as <- _. apply dgrown_refl.
      + cbn [Z.eqb Pos.eqb negb] in E. rewrite (lookup_absent K V c _ _ _ _ F). destruct (absent_put_eq K V c TO d m k v HK HV Ha _ _ F) as (ks & j & vs & E1 & E2 & _).
        rewrite E1 in E. cbn [bind] in E. rewrite E2 in E. cbn [bind] in E. injection E as <- _. eapply put_grown; eauto.
    - unfold d_set in E. destruct (index_cases K V c TO _ _ k HK Ha) as [(m1 & k0 & v0 & m2 & F & Ei)|(m1 & m2 & F & Ei)]; rewrite Ei in E; cbn [bind] in E.
      + pose proof (zlen_nonneg m1). replace (zlen m1 =? -1) with false in E by lia. rewrite (lookup_found K V c _ _ _ _ _ _ F).
        destruct (set V (vals d) (zlen m1) v) as [z| | |] eqn:Ez; cbn [bind] in E; try discriminate; injection E as <- _; [|apply dgrown_refl].
        split; cbn [keys vals]; [apply grown_refl|]. now apply set_grown in Ez.
      + cbn [Z.eqb Pos.eqb] in E. rewrite (lookup_absent K V c _ _ _ _ F). destruct (absent_put_eq K V c TO d m k v HK HV Ha _ _ F) as (ks & j & vs & E1 & E2 & _).
        rewrite E1 in E. cbn [bind] in E. rewrite E2 in E. cbn [bind] in E. injection E as <- _. eapply put_grown; eauto.
    - unfold d_remove in E. destruct (index_cases K V c TO _ _ k HK Ha) as [(m1 & k0 & v0 & m2 & F & Ei)|(m1 & m2 & F & Ei)]; rewrite Ei in E; cbn [bind] in E.
      + pose proof (zlen_nonneg m1). pose proof (zlen_nonneg m2). replace (zlen m1 =? -1) with false in E by lia. cbn [negb] in E. rewrite (lookup_found K V c _ _ _ _ _ _ F), (greater_found _ _ _ _ _ _ F).
        pose proof F as (Em & _). rewrite Em, zlen_app, zlen_cons in D1. rewrite Em, zlen_app, zlen_cons in D2. rewrite Em, map_app in HK, HV. cbn [map fst snd] in *.
        destruct (remove_mid K _ _ _ _ HK) as (y & Ey & _). destruct (remove_mid V _ _ _ _ HV) as (z & Ez & _).
        rewrite zlen_map in Ey. rewrite zlen_map in Ez. rewrite Ey in E. cbn [bind] in E. rewrite (late_ok z _ Ez) in E. cbn [bind] in E. injection E as <- _.
        apply remove_at_grown in Ey; [|lia]. apply remove_at_grown in Ez; [|lia]. split; cbn [keys vals].
        * replace (count (keys d) - zlen m1 - 1) with (zlen m2) in Ey by lia. exact Ey.
        * replace (count (vals d) - zlen m1 - 1) with (zlen m2) in Ez by lia. exact Ez.
      + cbn [Z.eqb Pos.eqb negb bind] in E. rewrite (lookup_absent K V c _ _ _ _ F). injection E as <- _. apply dgrown_refl.
    - unfold d_clear in E. destruct (clear_ok K _ _ HK) as (y & Ey & _). destruct (clear_ok V _ _ HV) as (z & Ez & _).
      rewrite Ey in E. cbn [bind] in E. rewrite (late_ok z _ Ez) in E. cbn [bind] in E. injection E as <- _. split; cbn [keys vals]; [now apply clear_grown in Ey|now apply clear_grown in Ez].
    - destruct (d_get K V cmp d k); cbn [bind] in E; try discriminate; injection E as <- _; apply dgrown_refl.
    - destruct (s_index_of K cmp (keys d) k); cbn [bind] in E; try discriminate; injection E as <- _; apply dgrown_refl.
    - injection E as <- _. apply dgrown_refl.
    - destruct (get K (keys d) i); cbn [bind] in E; try discriminate; injection E as <- _; apply dgrown_refl.
    - destruct (get V (vals d) i); cbn [bind] in E; try discriminate; injection E as <- _; apply dgrown_refl.
  Qed.
  Lemma most_keys_ge os : forall m, zlen m <= most_keys K V c m os.
  Proof. destruct os; intros m; cbn [most_keys]; lia. Qed.
  Lemma d_run_costs os : forall d m, d_shows K V c d m ->
    exists d', d_run K V cmp d os = Ok (d', snd (md_run K V c m os)) /\ d_shows K V c d' (fst (md_run K V c m os)) /\
      (moves (keys d) + all_keys_behind K V c m os <= moves (keys d') /\ moves (keys d') + slack K (keys d') <= moves (keys d) + slack K (keys d) + all_keys_behind K V c m os + 11 * zlen os /\
       cap (keys d') <= Z.max (cap (keys d)) (most_keys K V c m os * 5 / 4 + 1)) /\
      (moves (vals d) + all_keys_behind K V c m os <= moves (vals d') /\ moves (vals d') + slack V (vals d') <= moves (vals d) + slack V (vals d) + all_keys_behind K V c m os + 11 * zlen os /\
       cap (vals d') <= Z.max (cap (vals d)) (most_keys K V c m os * 5 / 4 + 1)).
  Proof.
    induction os as [|o os IH]; intros d m H; cbn [d_run md_run all_keys_behind most_keys].
    - exists d. change (zlen (@nil (dop K V))) with 0. split; [reflexivity|]. split; [exact H|]. lia.
    - destruct (d_step_ok K V c TO d m o H) as (d' & E & H'). pose proof (d_step_costs d m o d' _ H E) as ((G1 & G2 & G3) & (G4 & G5 & G6)). rewrite E. cbn [bind].
      destruct (md_step K V c m o) as [m' r]. cbn [fst snd] in *. destruct (IH d' m' H') as (d'' & E' & H'' & P1 & P2). rewrite E'. cbn [bind].
      exists d''. destruct (md_run K V c m' os) as [m'' rs]. cbn [fst snd] in *. split; [reflexivity|]. split; [exact H''|]. rewrite zlen_cons.
      pose proof (most_keys_ge os m'). pose proof (zlen_nonneg m). pose proof (zlen_nonneg m'). destruct H' as ((D1 & _) & (D2 & _) & _). rewrite zlen_map in D1. rewrite zlen_map in D2. lia.
  Qed.
  Lemma dict_costs os :
    exists d, d_run K V cmp empty_dict os = Ok (d, snd (md_run K V c [] os)) /\ d_shows K V c d (fst (md_run K V c [] os)) /\
      all_keys_behind K V c [] os <= moves (keys d) <= all_keys_behind K V c [] os + 11 * zlen os /\
      all_keys_behind K V c [] os <= moves (vals d) <= all_keys_behind K V c [] os + 11 * zlen os /\
      cap (keys d) <= most_keys K V c [] os * 5 / 4 + 1 /\ cap (vals d) <= most_keys K V c [] os * 5 / 4 + 1.
  Proof.
    destruct (d_run_costs os empty_dict [] (d_empty K V c)) as (d & E & H & P1 & P2). exists d. split; [exact E|]. split; [exact H|].
    unfold slack in *. cbn [keys vals empty_dict empty_lst moves cap count] in *. pose proof (most_keys_ge os []). change (zlen (@nil (K * V))) with 0 in *. lia.
  Qed.
  (* ---- ascending and descending ---- *)
  Lemma behind_ascending m : forall m0, ascending_keys K V c (m0 ++ m) -> all_keys_behind K V c m0 (add_all K V m) = 0 /\ fst (md_run K V c m0 (add_all K V m)) = m0 ++ m.
  Proof.
    induction m as [|[k v] m IH]; intros m0 H; [split; [reflexivity|symmetry; apply app_nil_r]|].
    change (add_all K V ((k, v) :: m)) with (DAdd k v :: add_all K V m). cbn [all_keys_behind md_run keys_behind].
    assert (absent K V c m0 k m0 []) as F. { split; [now rewrite app_nil_r|]. split; [|intros p []]. intros p Hp. apply asck_app in H. destruct H as (_ & _ & H). apply (H p (k, v)); auto. now left. }
    unfold md_step. cbn [md_step_raw]. rewrite (lookup_absent K V c _ _ _ _ F), (put_absent K V c _ _ _ _ v F). cbn [fst]. rewrite (greater_absent _ _ _ _ F).
    assert (m0 ++ (k, v) :: m = (m0 ++ [(k, v)]) ++ m) as R by (now rewrite <- app_assoc). rewrite R in *. destruct (IH _ H) as (I1 & I2). rewrite I1. split; [reflexivity|].
    destruct (md_run K V c (m0 ++ [(k, v)]) (add_all K V m)). cbn [fst] in *. exact I2.
  Qed.
  Lemma behind_descending m : forall m0, ascending_keys K V c (m ++ m0) ->
    2 * all_keys_behind K V c m0 (add_all K V (rev m)) = 2 * zlen m * zlen m0 + zlen m * (zlen m - 1) /\ fst (md_run K V c m0 (add_all K V (rev m))) = m ++ m0.
  Proof.
    induction m as [|[k v] m IH] using rev_ind; intros m0 H; [split; reflexivity|]. rewrite rev_app_distr. cbn [rev app].
    change (add_all K V ((k, v) :: rev m)) with (DAdd k v :: add_all K V (rev m)). cbn [all_keys_behind md_run keys_behind].
    rewrite <- app_assoc in *. cbn [app] in *.
    assert (absent K V c m0 k [] m0) as F. { split; [reflexivity|]. split; [intros p []|]. intros p Hp. apply asck_app in H. destruct H as (_ & H & _). apply asck_cons in H. apply (gt_lt K c TO). now apply H. }
    unfold md_step. cbn [md_step_raw]. rewrite (lookup_absent K V c _ _ _ _ F), (put_absent K V c _ _ _ _ v F). cbn [fst app]. rewrite (greater_absent _ _ _ _ F).
    destruct (IH _ H) as (I1 & I2). rewrite zlen_app, !zlen_cons in *. change (zlen (@nil (K * V))) with 0 in *. split; [nia|].
    destruct (md_run K V c ((k, v) :: m0) (add_all K V (rev m))). cbn [fst] in *. exact I2.
  Qed.
  Lemma zlen_add_all m : zlen (add_all K V m) = zlen m.
  Proof. apply zlen_map. Qed.
  Lemma add_ascending m : ascending_keys K V c m ->
    exists d rs, d_run K V cmp empty_dict (add_all K V m) = Ok (d, rs) /\ d_shows K V c d m /\ moves (keys d) <= 11 * zlen m /\ moves (vals d) <= 11 * zlen m.
  Proof.
    intros H. destruct (dict_costs (add_all K V m)) as (d & E & S & P1 & P2 & _). destruct (behind_ascending m [] H) as (I1 & I2). rewrite I1, zlen_add_all in *. rewrite I2 in S.
    exists d. eexists. split; [exact E|]. split; [exact S|]. lia.
  Qed.
  Lemma add_descending m : ascending_keys K V c m ->
    exists d rs, d_run K V cmp empty_dict (add_all K V (rev m)) = Ok (d, rs) /\ d_shows K V c d m /\
      zlen m * (zlen m - 1) <= 2 * moves (keys d) /\ zlen m * (zlen m - 1) <= 2 * moves (vals d).
  Proof.
    intros H. destruct (dict_costs (add_all K V (rev m))) as (d & E & S & P1 & P2 & _). destruct (behind_descending m []) as (I1 & I2); [now rewrite app_nil_r|]. rewrite I2, app_nil_r in S.
    change (zlen (@nil (K * V))) with 0 in *. exists d. eexists. split; [exact E|]. split; [exact S|]. lia.
  Qed.
End Dict.
Lemma z_order : total_order Z.compare.
Proof.
  constructor; intros.
  - apply Z.compare_antisym.
  - rewrite Z.compare_gt_iff in *. lia.
Qed.
Lemma in_order_refuted : ~ (exists k, forall (l : list Z) y rs, ascending Z Z.compare l ->
  s_run Z (fun a b => Some (Z.compare a b)) empty_lst (map SAdd l) = Ok (y, rs) -> moves y <= k * zlen l).
Proof.
  intros (k & H). set (n := Z.to_nat (4 * Z.abs k + 2)). destruct (add_equals Z Z.compare z_order 0 n) as (y & rs & E & _ & M).
  assert (map SAdd (repeat 0 n) = repeat (SAdd 0) n) as Er by (clear; induction n as [|n IH]; cbn [repeat map]; congruence).
  assert (ascending Z Z.compare (repeat 0 n)) as As. { clear. unfold ascending. induction n as [|n IH]; cbn [repeat]; constructor; auto. apply Forall_forall. intros x Hx. apply repeat_spec in Hx. subst. unfold le. discriminate. }
  specialize (H (repeat 0 n) y rs As). rewrite Er in H. specialize (H E). unfold zlen in H. rewrite repeat_length in H. assert (Z.of_nat n = 4 * Z.abs k + 2) by lia. nia.
Qed.
