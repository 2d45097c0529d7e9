From Coq Require Import ZifyBool ZifyNat.
From Verif Require Import Base BaseFacts LstModel LstSpec LstProofs SrtModel SrtSpec SrtProofs DctModel DctSpec DctProofs EnuModel EnuSpec EnuProofs OwnModel OwnSpec.
Open Scope Z_scope.

Section Order.
  Variable A : Type.
  Variable c : A -> A -> comparison.
  Variable TO : total_order c.
  Lemma eq_refl_c a : c a a = Eq.
  Proof. pose proof (to_opp c TO a a) as H. destruct (c a a); cbn [CompOpp] in H; congruence. Qed.
  Lemma eq_trans_c a b d : c a b = Eq -> c b d = Eq -> c a d = Eq.
  Proof.
    intros H1 H2. assert (L1 : c a d <> Gt) by (apply (to_trans c TO a b d); congruence).
    assert (L2 : c d a <> Gt) by (apply (to_trans c TO d b a); rewrite (eq_sym_c A c TO) by assumption; discriminate).
    rewrite (to_opp c TO a d) in L2. destruct (c a d); cbn [CompOpp] in L2; congruence.
  Qed.
End Order.

Section Nth.
  Lemma znth_in {B} (l : list B) j a : znth l j = Some a -> 0 <= j < zlen l.
  Proof. unfold znth. destruct (j <? 0) eqn:E; [discriminate|]. intros H. apply nth_error_lt in H. unfold zlen. lia. Qed.
  Lemma znth_some {B} (l : list B) j : 0 <= j < zlen l -> exists a, znth l j = Some a.
  Proof.
    intros H. unfold znth, zlen in *. replace (j <? 0) with false by lia.
    destruct (nth_error l (Z.to_nat j)) eqn:E; [eauto|]. apply nth_error_None in E. lia.
  Qed.
  Lemma znth_out {B} (l : list B) j : ~ 0 <= j < zlen l -> znth l j = None.
  Proof. intros H. destruct (znth l j) eqn:E; auto. apply znth_in in E. lia. Qed.
  Lemma znth_app1 {B} (l1 l2 : list B) j : j < zlen l1 -> znth (l1 ++ l2) j = znth l1 j.
  Proof. intros H. unfold znth. destruct (j <? 0) eqn:E; auto. unfold zlen in H. rewrite nth_error_app1 by lia. reflexivity. Qed.
  Lemma znth_app2 {B} (l1 l2 : list B) j : zlen l1 <= j -> znth (l1 ++ l2) j = znth l2 (j - zlen l1).
  Proof.
    intros H. pose proof (zlen_nonneg l1). unfold znth. replace (j <? 0) with false by lia. replace (j - zlen l1 <? 0) with false by lia.
    unfold zlen in *. rewrite nth_error_app2 by lia. f_equal. lia.
  Qed.
  Lemma znth_cons_pos {B} (a : B) l j : 0 < j -> znth (a :: l) j = znth l (j - 1).
  Proof.
    intros H. unfold znth. replace (j <? 0) with false by lia. replace (j - 1 <? 0) with false by lia.
    replace (Z.to_nat j) with (S (Z.to_nat (j - 1))) by lia. reflexivity.
  Qed.
End Nth.

Section Lists.
  Variable A : Type.
  Variable eqb : A -> A -> bool.

  Lemma insert_own_spec x l i j : lst_shows A x l ->
    insert_own A x i j = match seen_by_insert A l (cap x) i j with Ok a => insert A x i a | Err => Err | _ => UB end.
  Proof.
    clear eqb. intros H. destruct (H) as (C & _). unfold insert_own, seen_by_insert, insert. rewrite C.
    destruct (znth l j) as [a|] eqn:N.
    2:{ replace ((j >=? 0) && (j <? zlen l)) with false; [reflexivity|].
        symmetry. apply Bool.not_true_is_false. intros K. destruct (znth_some l j) as [a Ha]; [lia|congruence]. }
    apply znth_in in N as Hj. replace ((j >=? 0) && (j <? zlen l)) with true by lia.
    destruct ((0 <=? i) && (i <=? zlen l)) eqn:Ei; cbn [negb].
    2:{ now replace ((i >=? 0) && (i <=? zlen l)) with false by lia. }
    replace ((i >=? 0) && (i <=? zlen l)) with true by lia.
    destruct (split_at A l i) as (l1 & l2 & El & L1 & _ & _); [lia|].
    destruct (insert_uninit_spec A x l i l1 l2 H El (eq_sym L1)) as (k & cap' & mv & E & Ec).
    rewrite E. cbn [bind cap buf count moves].
    assert (U : cap' = cap x /\ zlen l + 1 <= cap x \/ cap' <> cap x /\ zlen l + 1 > cap x).
    { destruct (insert_uninit_cap A x i _ E) as (_ & [(U1 & U2 & _)|(U1 & U2 & _)]); cbn [cap] in U2; rewrite C in *; [left; lia|right].
      split; [|lia]. rewrite U2. pose proof (zlen_nonneg l). Z.to_euclidean_division_equations; lia. }
    destruct U as [[-> U]|[U1 U]].
    2:{ replace (cap' =? cap x) with false by lia. now replace (cap x <=? zlen l) with true by lia. }
    rewrite Z.eqb_refl. cbn [negb]. replace (cap x <=? zlen l) with false by lia.
    unfold aget. destruct (j <? i) eqn:E1.
    - rewrite znth_app1 by (rewrite zlen_map; lia). rewrite znth_map. rewrite El, znth_app1 in N by lia. rewrite N. reflexivity.
    - rewrite znth_app2 by (rewrite zlen_map; lia). rewrite zlen_map. destruct (j =? i) eqn:E2.
      + replace (j - zlen l1) with 0 by lia. reflexivity.
      + rewrite znth_cons_pos by lia. destruct (znth_some l (j - 1)) as [b Hb]; [lia|]. rewrite Hb.
        rewrite El, znth_app2 in Hb by lia.
        assert (Q : j - zlen l1 - 1 < zlen l2) by (apply znth_in in Hb; lia).
        rewrite znth_app1 by (rewrite zlen_map; lia). rewrite znth_map. replace (j - zlen l1 - 1) with (j - 1 - zlen l1) by lia. rewrite Hb. reflexivity.
  Qed.

  Lemma ostep_sim x l o : lst_shows A x l -> sensible_o A o ->
    match osstep A eqb (l, cap x) o with
    | Ok ((l', room), r) => exists y, ostep A eqb x o = Ok (y, r) /\ lst_shows A y l' /\ cap y = room
    | UB => ostep A eqb x o = UB
    | _ => False
    end.
  Proof.
    intros H Hs. unfold osstep. cbn [fst snd].
    assert (P : forall o', on_list A o' = true -> sensible A o' -> ostep A eqb x o = ostep A eqb x (OList o') ->
      match (if on_list A o' then match sstep A eqb [Some l] o' with Ok ([Some l], r) => Ok ((l, room_after A (cap x) o' r l), r) | _ => UB end else UB) with
      | Ok ((l', room), r) => exists y, ostep A eqb x o = Ok (y, r) /\ lst_shows A y l' /\ cap y = room
      | UB => ostep A eqb x o = UB | _ => False end).
    { intros o' Ho Hs' E. destruct (list_op A eqb x l o' H Ho Hs') as (l' & r & y & E1 & E2 & S' & Ec). rewrite Ho, E1, E.
      exists y. split; [|split; [exact S'|exact Ec]]. unfold ostep, ostep_raw. rewrite Ho. now rewrite E2. }
    assert (G : forall j, get A x j = own A l j) by (intros j; rewrite (get_ok A _ _ _ H); reflexivity).
    assert (SB : forall i j, match seen_by_insert A l (cap x) i j with NoFuel => False | _ => True end).
    { intros i j. unfold seen_by_insert. destruct (znth l j); auto. destruct (negb _); auto. destruct (cap x <=? _); auto. destruct (j <? i); auto.
      destruct (j =? i); auto. destruct (znth l (j - 1)); auto. }
    assert (OW : forall j, match own A l j with NoFuel | UB => False | _ => True end) by (intros j; unfold own; destruct (znth l j); auto).
    destruct o as [o|j|i j|i j|j|j|j]; cbn [resolved].
    - destruct (on_list A o) eqn:Ho; [specialize (P o Ho Hs eq_refl); rewrite Ho in P; exact P|]. unfold ostep, ostep_raw. now rewrite Ho.
    - specialize (SB (zlen l) j). destruct (H) as (C & _). pose proof (insert_own_spec x l (zlen l) j H) as K.
      destruct (seen_by_insert A l (cap x) (zlen l) j) as [a| | |] eqn:E; cbn [bind]; try contradiction.
      + apply (P (LAdd 0 a) eq_refl I). unfold ostep, ostep_raw, step. cbn [on_list step_raw var nth_error bind upd]. rewrite C, K.
        destruct (insert A x (zlen l) a); reflexivity.
      + exists x. unfold ostep, ostep_raw. rewrite C, K. auto.
      + unfold ostep, ostep_raw. rewrite C, K. auto.
    - specialize (SB i j). pose proof (insert_own_spec x l i j H) as K.
      destruct (seen_by_insert A l (cap x) i j) as [a| | |] eqn:E; cbn [bind]; try contradiction.
      + apply (P (LInsert 0 i a) eq_refl I). unfold ostep, ostep_raw, step. cbn [on_list step_raw var nth_error bind upd]. rewrite K.
        destruct (insert A x i a); reflexivity.
      + exists x. unfold ostep, ostep_raw. rewrite K. auto.
      + unfold ostep, ostep_raw. rewrite K. auto.
    - specialize (OW j). specialize (G j). destruct (own A l j) as [a| | |] eqn:E; cbn [bind]; try contradiction.
      + apply (P (LSet 0 i a) eq_refl I). unfold ostep, ostep_raw, step. cbn [on_list step_raw var nth_error bind upd]. rewrite G. cbn [bind].
        destruct (set A x i a); reflexivity.
      + exists x. unfold ostep, ostep_raw. rewrite G. auto.
    - specialize (OW j). specialize (G j). destruct (own A l j) as [a| | |] eqn:E; cbn [bind]; try contradiction.
      + apply (P (LRemove 0 a) eq_refl I). unfold ostep, ostep_raw, step. cbn [on_list step_raw var nth_error bind upd]. rewrite G. cbn [bind].
        destruct (remove A eqb x a) as [[]| | |]; reflexivity.
      + exists x. unfold ostep, ostep_raw. rewrite G. auto.
    - specialize (OW j). specialize (G j). destruct (own A l j) as [a| | |] eqn:E; cbn [bind]; try contradiction.
      + apply (P (LIndexOf 0 a) eq_refl I). unfold ostep, ostep_raw, step. cbn [on_list step_raw var nth_error bind upd]. rewrite G. cbn [bind].
        destruct (index_of A eqb x a); reflexivity.
      + exists x. unfold ostep, ostep_raw. rewrite G. auto.
    - specialize (OW j). specialize (G j). destruct (own A l j) as [a| | |] eqn:E; cbn [bind]; try contradiction.
      + apply (P (LContains 0 a) eq_refl I). unfold ostep, ostep_raw, step. cbn [on_list step_raw var nth_error bind upd]. rewrite G. cbn [bind].
        destruct (index_of A eqb x a); reflexivity.
      + exists x. unfold ostep, ostep_raw. rewrite G. auto.
  Qed.
  Lemma orun_sim os : forall x l, lst_shows A x l -> Forall (sensible_o A) os ->
    match osrun A eqb (l, cap x) os with
    | Ok ((l', room), rs) => exists y, orun A eqb x os = Ok (y, rs) /\ lst_shows A y l' /\ cap y = room
    | UB => orun A eqb x os = UB
    | _ => False
    end.
  Proof.
    induction os as [|o os IH]; intros x l H Hs; cbn [osrun orun].
    - exists x. auto.
    - inversion Hs as [|? ? H1 H2]; subst. pose proof (ostep_sim x l o H H1) as K.
      destruct (osstep A eqb (l, cap x) o) as [[[l' room] r]| | |]; cbn [bind]; try contradiction.
      + destruct K as (y & E & S' & <-). rewrite E. cbn [bind]. specialize (IH y l' S' H2).
        destruct (osrun A eqb (l', cap y) os) as [[[l'' room] rs]| | |]; cbn [bind]; try contradiction.
        * destruct IH as (z & E' & S'' & Ec). rewrite E'. cbn [bind]. exists z. auto.
        * now rewrite IH.
      + now rewrite K.
  Qed.
  Lemma empty_shows : lst_shows A empty_lst [].
  Proof. split; [reflexivity|]. split; [reflexivity|]. exists O. reflexivity. Qed.

  Lemma history os : Forall (sensible_o A) os -> outs (orun A eqb empty_lst os) = outs (osrun A eqb ([], 0) os).
  Proof.
    intros H. pose proof (orun_sim os empty_lst [] empty_shows H) as K. cbn [cap empty_lst] in K.
    destruct (osrun A eqb ([], 0) os) as [[[l room] rs]| | |]; try contradiction.
    - destruct K as (y & -> & _). reflexivity.
    - now rewrite K.
  Qed.
  Lemma no_insert_ok os : forall x l, lst_shows A x l -> Forall (sensible_o A) os -> Forall (no_insert A) os ->
    exists y rs, orun A eqb x os = Ok (y, rs).
  Proof.
    induction os as [|o os IH]; intros x l H Hs Hn; cbn [orun]; [eauto|].
    inversion Hs as [|? ? H1 H2]; subst. inversion Hn as [|? ? N1 N2]; subst.
    assert (exists y r l', ostep A eqb x o = Ok (y, r) /\ lst_shows A y l') as (y & r & l' & E & S').
    { pose proof (ostep_sim x l o H H1) as K. destruct (osstep A eqb (l, cap x) o) as [[[l' room] r]| | |] eqn:E; try contradiction.
      { destruct K as (y & K & S' & _). eauto. }
      exfalso. clear K. unfold osstep in E. cbn [fst snd] in E.
      assert (Q : forall o', on_list A o' = true -> sensible A o' -> (if on_list A o' then match sstep A eqb [Some l] o' with Ok ([Some l], r) => Ok ((l, room_after A (cap x) o' r l), r) | _ => UB end else UB) = UB -> False).
      { intros o' Ho Hs' B. destruct (list_op A eqb x l o' H Ho Hs') as (l' & r & y & E1 & _). rewrite Ho, E1 in B. discriminate. }
      destruct o as [o|j|i j|i j|j|j|j]; cbn [resolved no_insert] in *; try contradiction.
      { exact (Q o N1 H1 E). }
      all: unfold own in E; destruct (znth l j) as [a|]; cbn [bind] in E; try discriminate.
      - exact (Q (LSet 0 i a) eq_refl I E).
      - exact (Q (LRemove 0 a) eq_refl I E).
    }
    rewrite E. cbn [bind]. destruct (IH y l' S' H2 N2) as (z & rs & E'). rewrite E'. cbn [bind]. eauto.
  Qed.

  Lemma add_own_room x l j a : lst_shows A x l -> znth l j = Some a ->
    (zlen l < cap x -> exists y, insert_own A x (zlen l) j = Ok y /\ insert A x (zlen l) a = Ok y /\ lst_shows A y (l ++ [a]) /\ cap y = cap x) /\
    (cap x <= zlen l -> insert_own A x (zlen l) j = UB).
  Proof.
    intros H N. apply znth_in in N as Hj. rewrite (insert_own_spec x l (zlen l) j H). unfold seen_by_insert. rewrite N.
    replace ((0 <=? zlen l) && (zlen l <=? zlen l)) with true by lia. cbn [negb]. split; intros R.
    - replace (cap x <=? zlen l) with false by lia. replace (j <? zlen l) with true by lia.
      destruct (H) as (C & _). destruct (append_last A x l a H) as (y & E & S'). rewrite C in E. exists y. split; [exact E|]. split; [exact E|]. split; [exact S'|].
      pose proof (insert_room A eqb x l (zlen l) a y (l ++ [a]) H E S') as K. rewrite K. unfold grown. rewrite zlen_app, zlen_cons, zlen_nil.
      match goal with |- context [?a <=? ?b] => now replace (a <=? b) with true by lia end.
    - now replace (cap x <=? zlen l) with true by lia.
  Qed.
  Lemma adds_own n : forall x l j a, lst_shows A x l -> znth l j = Some a ->
    (Z.of_nat n <= cap x - zlen l ->
       exists y rs, orun A eqb x (repeat (OAddOwn j) n) = Ok (y, rs) /\ lst_shows A y (l ++ repeat a n)) /\
    (cap x - zlen l < Z.of_nat n -> orun A eqb x (repeat (OAddOwn j) n) = UB).
  Proof.
    induction n as [|n IH]; intros x l j a H N; cbn [repeat orun].
    - split; intros R.
      + exists x, []. rewrite app_nil_r. auto.
      + destruct (buf_room A x l H). lia.
    - destruct (add_own_room x l j a H N) as [K1 K2]. destruct (H) as (C & _).
      unfold ostep at 1, ostep_raw. unfold ostep, ostep_raw in *. rewrite C.
      destruct (Z_lt_le_dec (zlen l) (cap x)) as [L|L].
      + destruct (K1 L) as (y & E & _ & S' & Ec). rewrite E. cbn [bind].
        assert (N' : znth (l ++ [a]) j = Some a) by (rewrite znth_app1 by (apply znth_in in N; lia); exact N).
        destruct (IH y (l ++ [a]) j a S' N') as [I1 I2]. rewrite Ec, zlen_app, zlen_cons, zlen_nil in *. split; intros R.
        * destruct I1 as (z & rs & E' & S''); [lia|]. rewrite E'. cbn [bind]. exists z. eexists. split; [reflexivity|].
          rewrite <- app_assoc in S''. exact S''.
        * rewrite I2 by lia. reflexivity.
      + rewrite (K2 L). cbn [bind]. split; intros R; [lia|reflexivity].
  Qed.
End Lists.

Section Sorted.
  Variable A : Type.
  Variable c : A -> A -> comparison.
  Variable TO : total_order c.
  Notation cmp := (fun a b => Some (c a b)).

  Lemma s_insert_own_is x l i j : lst_shows A x l -> 0 <= i <= zlen l -> 0 <= j < zlen l -> s_insert_own A x i j = insert_own A x i j.
  Proof.
    intros H Hi Hj. destruct (H) as (C & _). unfold s_insert_own, insert_own. rewrite C.
    replace ((j >=? 0) && (j <? zlen l)) with true by lia. replace ((i >=? 0) && (i <=? zlen l)) with true by lia.
    destruct (insert_uninitialized A x i 1) as [y| | |]; cbn [bind]; auto. destruct (negb (cap y =? cap x)); auto.
    unfold read. destruct (aget (buf y) j) as [[| |]| | |]; reflexivity.
  Qed.
  Lemma asc_nth l i j a b : ascending A c l -> 0 <= i -> i <= j -> znth l i = Some a -> znth l j = Some b -> c a b <> Gt.
  Proof.
    intros H Hi Hij Na Nb. destruct (Z.eq_dec i j) as [->|Ne].
    { assert (a = b) as -> by congruence. rewrite (eq_refl_c A c TO). discriminate. }
    apply znth_in in Na as Ra. destruct (zsplit1 l i Ra) as (l1 & a' & l2 & El & L & N & _). assert (a' = a) as -> by congruence.
    rewrite El in H. apply asc_app in H. destruct H as (_ & H & _). inversion H as [|? ? _ F]. subst.
    rewrite znth_app2 in Nb by lia. rewrite znth_cons_pos in Nb by lia. rewrite Forall_forall in F. apply F.
    unfold znth in Nb. destruct (_ <? 0); [discriminate|]. eapply nth_error_In; eauto.
  Qed.
  Lemma sorted_add_own x l j a : lst_shows A x l -> ascending A c l -> znth l j = Some a ->
    exists i, s_index_of A cmp x a = Ok i /\ 0 <= i < zlen l /\
      (cap x <= zlen l \/ i = j -> s_add_own A cmp x j = UB) /\
      (zlen l < cap x -> i <> j -> exists y b, s_add_own A cmp x j = Ok (y, i) /\ In b l /\ c b a = Eq /\
         lst_shows A y (ztake A i l ++ b :: zdrop A i l) /\ ascending A c (ztake A i l ++ b :: zdrop A i l)).
  Proof.
    intros H Hasc N. apply znth_in in N as Hj. destruct (H) as (C & _).
    destruct (internal_ok A c TO x l a H Hasc) as (r & oi & E & K).
    assert (exists b, 0 <= r < zlen l /\ r = oi /\ znth l r = Some b /\ c b a = Eq) as (b & Hr & <- & Nb & Cb).
    { destruct K as [(Hr & Eo & b & Nb & Cb)|(_ & p & Hp & Hb & Ha & _)]; [eauto 6|]. exfalso.
      assert (c a a = Eq) as R by apply (eq_refl_c A c TO).
      destruct (Z_lt_le_dec j p); [rewrite (Hb j a) in R by (lia || auto)|rewrite (Ha j a) in R by (lia || auto)]; discriminate. }
    clear K. exists r. unfold s_index_of. rewrite E. cbn [bind]. split; [reflexivity|]. split; [exact Hr|].
    assert (EQ : s_add_own A cmp x j = do y <- insert_own A x r j; Ok (y, r)).
    { unfold s_add_own. rewrite (get_ok A _ _ _ H), N. cbn [bind]. rewrite C. replace (zlen l =? 0) with false by lia. rewrite E. cbn [bind].
      replace ((r >=? 0) && (r <? zlen l)) with true by lia. destruct (read_ok A x l r H Hr) as (b' & R & N'). rewrite R. cbn [bind].
      assert (b' = b) as -> by congruence. rewrite Cb. rewrite (s_insert_own_is x l r j H) by lia. reflexivity. }
    rewrite EQ, (insert_own_spec A x l r j H). unfold seen_by_insert. rewrite N. replace ((0 <=? r) && (r <=? zlen l)) with true by lia. cbn [negb].
    split.
    - intros D. destruct (cap x <=? zlen l) eqn:F; [reflexivity|]. destruct D as [D|<-]; [lia|]. rewrite Z.ltb_irrefl, Z.eqb_refl. reflexivity.
    - intros R Ne. replace (cap x <=? zlen l) with false by lia.
      assert (exists d, (if j <? r then Ok a else if j =? r then UB else match znth l (j - 1) with Some b => Ok b | None => UB end) = Ok d /\ In d l /\ c d a = Eq) as (d & -> & Hd & Cd).
      { destruct (j <? r) eqn:L.
        - exists a. split; [reflexivity|]. split; [|apply (eq_refl_c A c TO)]. unfold znth in N. destruct (j <? 0); [discriminate|]. eapply nth_error_In; eauto.
        - replace (j =? r) with false by lia. destruct (znth_some l (j - 1)) as [d Nd]; [lia|]. rewrite Nd. exists d. split; [reflexivity|].
          split; [unfold znth in Nd; destruct (_ <? 0); [discriminate|]; eapply nth_error_In; eauto|].
          pose proof (asc_nth l r (j - 1) b d Hasc ltac:(lia) ltac:(lia) Nb Nd) as L1.
          pose proof (asc_nth l (j - 1) j d a Hasc ltac:(lia) ltac:(lia) Nd N) as L2.
          assert (L3 : c a d <> Gt). { apply (to_trans c TO a b d); [|exact L1]. rewrite (eq_sym_c A c TO _ _ Cb). discriminate. }
          rewrite (to_opp c TO d a) in L3. destruct (c d a); cbn [CompOpp] in L3; congruence. }
      destruct (insert_at A x l r d H) as (y & Ey & S'); [lia|]. rewrite Ey. cbn [bind]. exists y, d. split; [reflexivity|].
      split; [exact Hd|]. split; [exact Cd|]. split; [exact S'|].
      destruct (split_at A l r) as (l1 & l2 & El & L1 & E1 & E2); [lia|]. rewrite <- E1, <- E2.
      assert (exists l3, l2 = b :: l3) as (l3 & ->).
      { rewrite El, znth_app2 in Nb by lia. replace (r - zlen l1) with 0 in Nb by lia. destruct l2; [discriminate|]. cbn in Nb. injection Nb as ->. eauto. }
      assert (Cdb : c d b <> Gt). { apply (to_trans c TO d a b); [rewrite Cd; discriminate|rewrite (eq_sym_c A c TO _ _ Cb); discriminate]. }
      assert (Cbd : c b d <> Gt). { apply (to_trans c TO b a d); [rewrite Cb; discriminate|rewrite (eq_sym_c A c TO _ _ Cd); discriminate]. }
      rewrite El in Hasc. apply asc_app in Hasc. destruct Hasc as (A1 & A2 & A3). apply asc_app. split; [exact A1|]. split.
      + constructor; [exact A2|]. inversion A2 as [|? ? A4 A5]; subst. constructor; [exact Cdb|]. eapply Forall_impl; [|exact A5].
        intros e He. apply (to_trans c TO d b e); auto.
      + intros e f He [<-|Hf]; [|now apply A3]. apply (to_trans c TO e b d); [|exact Cbd]. apply A3; [exact He|now left].
  Qed.
  Lemma sorted_distinct x l j a : lst_shows A x l -> StronglySorted (fun a b => c a b = Lt) l -> znth l j = Some a -> s_add_own A cmp x j = UB.
  Proof.
    intros H Hs N.
    assert (Hasc : ascending A c l).
    { unfold ascending. clear -Hs. induction Hs as [|a l H IH F]; constructor; auto. eapply Forall_impl; [|exact F]. intros b Hb. unfold le. cbv beta in Hb. congruence. }
    destruct (sorted_add_own x l j a H Hasc N) as (i & E & Hi & K & _). apply K. right.
    destruct (s_index_ok A c TO x l a H Hasc) as [(l1 & b & l2 & El & Cb & E')|(l1 & l2 & _ & _ & _ & E')]; [|rewrite E in E'; injection E'; lia].
    assert (i = zlen l1) as -> by congruence. apply znth_in in N as Hj.
    rewrite El in Hs.
    assert (SP : forall p q : list A, StronglySorted (fun a b => c a b = Lt) (p ++ q) -> StronglySorted (fun a b => c a b = Lt) q /\ forall u v, In u p -> In v q -> c u v = Lt).
    { clear. induction p as [|u p IH]; cbn [app]; intros q Hq; [split; [exact Hq|intros u v []]|]. inversion Hq as [|? ? H1 H2]; subst. destruct (IH q H1) as [I1 I2].
      split; [exact I1|]. intros u' v [<-|Hu] Hv; [|now apply I2]. rewrite Forall_forall in H2. apply H2. apply in_or_app. now right. }
    apply SP in Hs. destruct Hs as [S2 S1]. inversion S2 as [|? ? _ F]; subst. rewrite Forall_forall in F.
    destruct (Z.eq_dec (zlen l1) j) as [|Ne]; [assumption|exfalso].
    destruct (Z_lt_le_dec j (zlen l1)) as [L|L].
    - rewrite znth_app1 in N by exact L. assert (In a l1) by (unfold znth in N; destruct (j <? 0); [discriminate|]; eapply nth_error_In; eauto).
      specialize (S1 a b H0 (or_introl eq_refl)). rewrite (eq_sym_c A c TO _ _ Cb) in S1. discriminate.
    - rewrite znth_app2, znth_cons_pos in N by lia. assert (Ha : In a l2) by (unfold znth in N; destruct (_ <? 0); [discriminate|]; eapply nth_error_In; eauto).
      specialize (F a Ha). rewrite Cb in F. discriminate.
  Qed.
End Sorted.

Section Dicts.
  Variable K V : Type.
  Variable c : K -> K -> comparison.
  Variable TO : total_order c.
  Notation cmp := (fun a b => Some (c a b)).
  Notation shows := (d_shows K V c).
  Notation lookup := (lookup K V c).

  Lemma seen_same d m k n1 n2 k' m1 k0 v0 m2 : shows d m -> absent K V c m k n1 n2 -> found K V c m k' m1 k0 v0 m2 ->
    seen_by_insert V (map snd m) (cap (vals d)) (zlen n1) (zlen m1) = seen_by_add K V c m (cap (vals d)) k k'.
  Proof.
    intros (HK & HV & Ha) An Fo. unfold seen_by_insert, seen_by_add. rewrite (lookup_found K V c _ _ _ _ _ _ Fo).
    destruct Fo as (Em & E0 & B' & A'). destruct An as (En & B & A_).
    pose proof (zlen_nonneg n1). pose proof (zlen_nonneg n2). pose proof (zlen_nonneg m1).
    assert (N : znth (map snd m) (zlen m1) = Some v0) by (rewrite znth_map, Em, znth_app_len; reflexivity).
    rewrite N. rewrite zlen_map. assert (Lm : zlen m = zlen n1 + zlen n2) by (rewrite En, zlen_app; reflexivity).
    replace ((0 <=? zlen n1) && (zlen n1 <=? zlen m)) with true by lia. cbn [negb].
    destruct (cap (vals d) <=? zlen m) eqn:R; [reflexivity|].
    assert (Eq' : c k0 k = c k' k).
    { clear -E0 TO. destruct (c k' k) eqn:E1.
      - apply (eq_trans_c K c TO) with k'; auto.
      - apply (le_lt_trans K c TO _ k'); [congruence|exact E1].
      - destruct (c k0 k) eqn:E2; auto; exfalso.
        + assert (c k' k = Eq) by (apply (eq_trans_c K c TO) with k0; auto; now apply (eq_sym_c K c TO)). congruence.
        + assert (c k' k = Lt) by (apply (le_lt_trans K c TO _ k0); [rewrite (eq_sym_c K c TO _ _ E0); discriminate|exact E2]). congruence. }
    assert (Es : m1 ++ (k0, v0) :: m2 = n1 ++ n2) by congruence.
    destruct (c k' k) eqn:E1.
    - exfalso. assert (I : In (k0, v0) (n1 ++ n2)) by (rewrite <- Es; apply in_or_app; right; now left).
      apply in_app_or in I. destruct I as [I|I]; [apply B in I|apply A_ in I]; cbn [fst] in I; congruence.
    - assert (L : zlen m1 < zlen n1); [|now replace (zlen m1 <? zlen n1) with true by lia].
      destruct (Z_lt_le_dec (zlen m1) (zlen n1)) as [L|L]; [exact L|exfalso].
      destruct (app_eq_app _ _ _ _ Es) as (mid & [(E3 & E4)|(E3 & E4)]).
      + assert (I : In (k0, v0) n2) by (rewrite E4; apply in_or_app; right; now left). apply A_ in I. cbn [fst] in I. congruence.
      + assert (mid = []). { destruct mid; auto. rewrite E3, zlen_app, zlen_cons in L. pose proof (zlen_nonneg mid). lia. }
        subst mid. assert (I : In (k0, v0) n2) by (cbn [app] in E4; rewrite <- E4; now left). apply A_ in I. cbn [fst] in I. congruence.
    - assert (exists mid, m1 = n1 ++ mid /\ n2 = mid ++ (k0, v0) :: m2) as (mid & E3 & E4).
      { destruct (app_eq_app _ _ _ _ Es) as (mid & [(E3 & E4)|(E3 & E4)]); [eauto|].
        destruct mid as [|p mid].
        - exists []. cbn [app] in *. rewrite app_nil_r in *. auto.
        - exfalso. assert (p = (k0, v0)) by (cbn [app] in E4; congruence). subst p.
          assert (I : In (k0, v0) n1) by (rewrite E3; apply in_or_app; right; now left). apply B in I. cbn [fst] in I. congruence. }
      assert (Eb : between K V c k k' m = mid).
      { unfold between. rewrite En, E4, !filter_app. cbn [filter fst]. rewrite E0.
        assert (F1 : forall q, (forall p, In p q -> c k (fst p) = Gt) -> filter (fun p : K * V => match c k (fst p), c (fst p) k' with Lt, Lt => true | _, _ => false end) q = []).
        { induction q as [|p q IH]; intros Hq; auto. cbn [filter]. rewrite (Hq p (or_introl eq_refl)). apply IH. intros p' Hp'. apply Hq. now right. }
        assert (F2 : forall q, (forall p, In p q -> c (fst p) k' = Gt) -> filter (fun p : K * V => match c k (fst p), c (fst p) k' with Lt, Lt => true | _, _ => false end) q = []).
        { induction q as [|p q IH]; intros Hq; auto. cbn [filter]. rewrite (Hq p (or_introl eq_refl)). destruct (c k (fst p)); apply IH; intros p' Hp'; apply Hq; now right. }
        assert (F3 : forall q, (forall p, In p q -> c k (fst p) = Lt /\ c (fst p) k' = Lt) -> filter (fun p : K * V => match c k (fst p), c (fst p) k' with Lt, Lt => true | _, _ => false end) q = q).
        { induction q as [|p q IH]; intros Hq; auto. cbn [filter]. destruct (Hq p (or_introl eq_refl)) as [-> ->]. f_equal. apply IH. intros p' Hp'. apply Hq. now right. }
        rewrite (F1 n1), (F3 mid), (F2 m2).
        - destruct (c k k0); apply app_nil_r.
        - intros p Hp. now apply A'.
        - intros p Hp. split.
          + apply (gt_lt K c TO). apply A_. rewrite E4. apply in_or_app. now left.
          + apply B'. rewrite E3. apply in_or_app. now right.
        - intros p Hp. apply B in Hp. rewrite (to_opp c TO), Hp. reflexivity. }
      rewrite Eb. assert (L : zlen m1 = zlen n1 + zlen mid) by (rewrite E3, zlen_app; reflexivity). pose proof (zlen_nonneg mid).
      replace (zlen m1 <? zlen n1) with false by lia.
      destruct mid as [|p mid _] using rev_ind.
      + replace (zlen m1 =? zlen n1) with true by (rewrite zlen_nil in L; lia). reflexivity.
      + rewrite zlen_app, zlen_cons, zlen_nil in L. pose proof (zlen_nonneg mid). replace (zlen m1 =? zlen n1) with false by lia. rewrite rev_app_distr. cbn [rev app].
        rewrite znth_map, En, E4. rewrite znth_app2 by lia. rewrite <- app_assoc. cbn [app].
        replace (zlen m1 - 1 - zlen n1) with (zlen mid) by lia. rewrite znth_app_len. reflexivity.
  Qed.
  Lemma slot_cases d m k' : shows d m ->
    (exists m1 k0 v0 m2, found K V c m k' m1 k0 v0 m2 /\ d_slot K V cmp d k' = Ok (zlen m1) /\ lookup k' m = Some v0) \/
    (d_slot K V cmp d k' = Err /\ lookup k' m = None).
  Proof.
    intros (HK & HV & Ha). unfold d_slot. destruct (index_cases K V c TO _ _ k' HK Ha) as [(m1 & k0 & v0 & m2 & F & E)|(m1 & m2 & F & E)]; rewrite E; cbn [bind].
    - left. exists m1, k0, v0, m2. split; [exact F|]. rewrite (lookup_found K V c _ _ _ _ _ _ F). split; [|reflexivity].
      rewrite (get_ok V _ _ _ HV). destruct F as (-> & _). rewrite znth_map, znth_app_len. reflexivity.
    - right. rewrite (lookup_absent K V c _ _ _ _ F), (get_neg V _ _ HV). auto.
  Qed.
  Lemma own_added d m k k' : shows d m -> lookup k m = None ->
    d_add_own K V cmp d k k' = match seen_by_add K V c m (cap (vals d)) k k' with Ok v => d_add K V cmp d k v | Err => Err | _ => UB end /\
    d_set_own K V cmp d k k' = match seen_by_add K V c m (cap (vals d)) k k' with Ok v => d_set K V cmp d k v | Err => Err | _ => UB end.
  Proof.
    intros H Lk. unfold d_add_own, d_set_own, d_add, d_set.
    destruct (slot_cases d m k' H) as [(m1 & k0 & v0 & m2 & F & E & L)|(E & L)]; rewrite E; cbn [bind].
    2:{ unfold seen_by_add. rewrite L. auto. }
    destruct (H) as (HK & HV & Ha).
    destruct (index_cases K V c TO _ _ k HK Ha) as [(n1 & k1 & v1 & n2 & F' & E')|(n1 & n2 & F' & E')]; rewrite E'; cbn [bind].
    { rewrite (lookup_found K V c _ _ _ _ _ _ F') in Lk. discriminate. }
    cbn [Z.eqb Pos.eqb negb].
    destruct (add_absent K V c TO _ _ _ _ _ HK Ha F') as (y & p1 & p2 & Hp & Ea & Sy). rewrite Ea. cbn [bind].
    rewrite (insert_own_spec V (vals d) _ (zlen p1) (zlen m1) HV).
    rewrite (seen_same d m k p1 p2 k' m1 k0 v0 m2 H Hp F).
    destruct (seen_by_add K V c m (cap (vals d)) k k') as [v| | |] eqn:Es; cbn [late bind]; auto.
    exfalso. unfold seen_by_add in Es. rewrite L in Es. destruct (_ <=? _); [discriminate|]. destruct (c k' k); try discriminate; destruct (rev _); discriminate.
  Qed.
  Lemma index_at d m i k v : shows d m -> znth m i = Some (k, v) -> s_index_of K cmp (keys d) k = Ok i /\ lookup k m = Some v /\ 0 <= i < zlen m.
  Proof.
    intros (HK & HV & Ha) N. apply znth_in in N as Hi.
    destruct (zsplit1 m i Hi) as (m1 & p & m2 & El & L & N' & _). assert (p = (k, v)) as -> by congruence.
    pose proof (found_iff K V c TO m k m1 k v m2 Ha El (eq_refl_c K c TO k)) as F.
    split; [|split; [exact (lookup_found K V c _ _ _ _ _ _ F)|exact Hi]].
    destruct (index_cases K V c TO _ _ k HK Ha) as [(n1 & k0 & v0 & n2 & F' & E)|(n1 & n2 & F' & E)].
    - rewrite E. f_equal. rewrite <- L. destruct F as (E1 & C1 & B1 & A1). destruct F' as (E2 & C2 & B2 & A2).
      assert (Es : m1 ++ (k, v) :: m2 = n1 ++ (k0, v0) :: n2) by congruence.
      destruct (app_eq_app _ _ _ _ Es) as (mid & [(E3 & E4)|(E3 & E4)]); destruct mid as [|q mid]; try (rewrite app_nil_r in E3; congruence); exfalso.
      + assert (q = (k0, v0)) by (cbn [app] in E4; congruence). subst q.
        assert (I : In (k0, v0) m1) by (rewrite E3; apply in_or_app; right; now left). apply B1 in I. cbn [fst] in I. congruence.
      + assert (q = (k, v)) by (cbn [app] in E4; congruence). subst q.
        assert (I : In (k, v) n1) by (rewrite E3; apply in_or_app; right; now left). apply B2 in I. cbn [fst] in I. congruence.
    - exfalso. pose proof (lookup_absent K V c _ _ _ _ F') as L'. rewrite (lookup_found K V c _ _ _ _ _ _ F) in L'. discriminate.
  Qed.
  Lemma od_step_sim d m o : shows d m -> cap (keys d) = cap (vals d) ->
    match odsstep K V c (m, cap (keys d)) o with
    | Ok ((m', room), r) => exists d', od_step K V cmp d o = Ok (d', r) /\ shows d' m' /\ cap (keys d') = room /\ cap (keys d') = cap (vals d')
    | UB => od_step K V cmp d o = UB
    | _ => False
    end.
  Proof.
    intros H Hc. unfold odsstep. cbn [fst snd].
    assert (P : forall o', od_step K V cmp d o = d_step K V cmp d o' ->
      match (let '(m', r) := md_step K V c m o' in Ok ((m', mroom_after K V (cap (keys d)) o' r m'), r)) with
      | Ok ((m', room), r) => exists d', od_step K V cmp d o = Ok (d', r) /\ shows d' m' /\ cap (keys d') = room /\ cap (keys d') = cap (vals d')
      | UB => od_step K V cmp d o = UB
      | _ => False end).
    { intros o' E. destruct (dict_op K V c TO d m o' H Hc) as (d' & E1 & S' & C1 & C2). destruct (md_step K V c m o') as [m' r]. cbn [fst snd] in *.
      exists d'. rewrite E. auto. }
    assert (EX : forall o', od_step_raw K V cmp d o = d_step_raw K V cmp d o' -> od_step K V cmp d o = d_step K V cmp d o').
    { intros o' E. unfold od_step, d_step. now rewrite E. }
    assert (SB : forall k k', match seen_by_add K V c m (cap (keys d)) k k' with NoFuel => False | _ => True end).
    { intros k k'. unfold seen_by_add. destruct (lookup k' m); auto. destruct (_ <=? _); auto. destruct (c k' k); auto; destruct (rev _); auto. }
    assert (GK : forall i, match znth m i with Some (k, v) => get K (keys d) i = Ok k | None => get K (keys d) i = Err end).
    { intros i. destruct (H) as (HK & _). rewrite (get_ok K _ _ _ HK), znth_map. destruct (znth m i) as [[k v]|]; reflexivity. }
    destruct o as [o|k k'|k k'|i v|i v|i]; cbn [dresolved].
    - apply P. unfold od_step. cbn [od_step_raw]. unfold d_step. destruct (d_step_raw K V cmp d o) as [[]| | |]; reflexivity.
    - destruct (lookup k m) as [v0|] eqn:Lk.
      + exists d. split; [|auto]. unfold od_step. cbn [od_step_raw]. unfold d_add_own.
        destruct (slot_cases d m k' H) as [(m1 & k0 & v1 & m2 & _ & E & _)|(E & _)]; rewrite E; cbn [bind]; [|reflexivity].
        destruct (H) as (HK & _ & Ha). destruct (index_cases K V c TO _ _ k HK Ha) as [(n1 & k1 & v2 & n2 & F' & E')|(n1 & n2 & F' & E')].
        * rewrite E'. cbn [bind]. pose proof (zlen_nonneg n1). replace (zlen n1 =? -1) with false by lia. reflexivity.
        * rewrite (lookup_absent K V c _ _ _ _ F') in Lk. discriminate.
      + destruct (own_added d m k k' H Lk) as [E _]. rewrite <- Hc in E. specialize (SB k k').
        destruct (seen_by_add K V c m (cap (keys d)) k k') as [v| | |]; cbn [bind]; try contradiction.
        * apply P. apply EX. cbn [od_step_raw d_step_raw]. now rewrite E.
        * exists d. split; [|auto]. unfold od_step. cbn [od_step_raw]. now rewrite E.
        * unfold od_step. cbn [od_step_raw]. now rewrite E.
    - destruct (lookup k m) as [v0|] eqn:Lk.
      + destruct (slot_cases d m k' H) as [(m1 & k0 & v1 & m2 & F & E & L)|(E & L)]; rewrite L.
        * apply P. apply EX. cbn [od_step_raw d_step_raw]. unfold d_set_own, d_set. rewrite E. cbn [bind].
          destruct (H) as (HK & HV & Ha). destruct (index_cases K V c TO _ _ k HK Ha) as [(n1 & k1 & v2 & n2 & F' & E')|(n1 & n2 & F' & E')].
          2:{ rewrite (lookup_absent K V c _ _ _ _ F') in Lk. discriminate. }
          rewrite E'. cbn [bind]. pose proof (zlen_nonneg n1). replace (zlen n1 =? -1) with false by lia.
          pose proof (zlen_nonneg m1). destruct F as (Em & _).
          assert (N : znth (map snd m) (zlen m1) = Some v1) by (rewrite znth_map, Em, znth_app_len; reflexivity).
          destruct (read_ok V (vals d) (map snd m) (zlen m1) HV) as (w & R & N'); [apply znth_in in N; exact N|]. rewrite R. cbn [bind].
          assert (w = v1) as -> by congruence. destruct (set V (vals d) (zlen n1) v1); reflexivity.
        * exists d. split; [|auto]. unfold od_step. cbn [od_step_raw]. unfold d_set_own. rewrite E. reflexivity.
      + destruct (own_added d m k k' H Lk) as [_ E]. rewrite <- Hc in E. specialize (SB k k').
        destruct (seen_by_add K V c m (cap (keys d)) k k') as [v| | |]; cbn [bind]; try contradiction.
        * apply P. apply EX. cbn [od_step_raw d_step_raw]. now rewrite E.
        * exists d. split; [|auto]. unfold od_step. cbn [od_step_raw]. now rewrite E.
        * unfold od_step. cbn [od_step_raw]. now rewrite E.
    - specialize (GK i). destruct (znth m i) as [[k v1]|] eqn:N.
      + destruct (index_at d m i k v1 H N) as (E & _ & Hi). apply P. apply EX. cbn [od_step_raw d_step_raw]. unfold d_add. rewrite GK. cbn [bind]. rewrite E. cbn [bind].
        replace (i =? -1) with false by lia. reflexivity.
      + exists d. split; [|auto]. unfold od_step. cbn [od_step_raw]. rewrite GK. reflexivity.
    - specialize (GK i). destruct (znth m i) as [[k v1]|] eqn:N.
      + destruct (index_at d m i k v1 H N) as (E & _ & Hi). apply P. apply EX. cbn [od_step_raw d_step_raw]. unfold d_set. rewrite GK. cbn [bind]. rewrite E. cbn [bind].
        replace (i =? -1) with false by lia. destruct (set V (vals d) i v); reflexivity.
      + exists d. split; [|auto]. unfold od_step. cbn [od_step_raw]. rewrite GK. reflexivity.
    - specialize (GK i). destruct (znth m i) as [[k v1]|] eqn:N.
      + apply P. apply EX. cbn [od_step_raw d_step_raw]. rewrite GK. cbn [bind]. reflexivity.
      + exists d. split; [|auto]. unfold od_step. cbn [od_step_raw]. rewrite GK. reflexivity.
  Qed.
  Lemma od_run_sim os : forall d m, shows d m -> cap (keys d) = cap (vals d) ->
    match odsrun K V c (m, cap (keys d)) os with
    | Ok ((m', room), rs) => exists d', od_run K V cmp d os = Ok (d', rs) /\ shows d' m'
    | UB => od_run K V cmp d os = UB
    | _ => False
    end.
  Proof.
    induction os as [|o os IH]; intros d m H Hc; cbn [odsrun od_run].
    - exists d. auto.
    - pose proof (od_step_sim d m o H Hc) as Q.
      destruct (odsstep K V c (m, cap (keys d)) o) as [[[m' room] r]| | |]; cbn [bind]; try contradiction.
      + destruct Q as (d' & E & S' & <- & C'). rewrite E. cbn [bind]. specialize (IH d' m' S' C').
        destruct (odsrun K V c (m', cap (keys d')) os) as [[[m'' room] rs]| | |]; cbn [bind]; try contradiction.
        * destruct IH as (z & E' & S''). rewrite E'. cbn [bind]. exists z. auto.
        * now rewrite IH.
      + now rewrite Q.
  Qed.
  Lemma dict_history os : outs (od_run K V cmp empty_dict os) = outs (odsrun K V c ([], 0) os).
  Proof.
    assert (S0 : shows empty_dict []).
    { split; [apply empty_shows|]. split; [apply empty_shows|]. constructor. }
    pose proof (od_run_sim os empty_dict [] S0 eq_refl) as Q. change (cap (keys (@empty_dict K V))) with 0 in Q.
    unfold fmap in *. destruct (odsrun K V c ([], 0) os) as [[[m room] rs]| | |]; try contradiction.
    - destruct Q as (d & E & _). now rewrite E.
    - now rewrite Q.
  Qed.

  (* ---- groups ---- *)
  Notation gshows := (g_shows K V c).
  Notation glookup := (DctSpec.lookup K (list V) c).
  Notation L := (list V).

  (* where the values of a key are *)
  Lemma g_at g m k vs : gshows g m -> glookup k m = Some vs ->
    exists i p x, s_index_of K cmp (gkeys g) k = Ok i /\ 0 <= i /\ get nat (gvals g) i = Ok p /\ deref K V g p = Ok x /\ lst_shows V x vs /\
      (exists m1 k0 m2, found K L c m k m1 k0 vs m2 /\ i = zlen m1).
  Proof.
    intros (ps & HK & HP & HC & ND & HL & Ha & HN) Lk.
    destruct (index_cases K L c TO _ _ k HK Ha) as [(m1 & k0 & vs' & m2 & F & E)|(m1 & m2 & F & E)].
    2:{ rewrite (lookup_absent K L c _ _ _ _ F) in Lk. discriminate. }
    rewrite (lookup_found K L c _ _ _ _ _ _ F) in Lk. injection Lk as ->. pose proof F as (Em & _). rewrite Em in HC.
    destruct (cells_split K V _ _ _ _ _ HC) as (ps1 & p & ps2 & -> & Lp & C1 & (x & Ex & Sx) & C2). cbn [snd] in Sx.
    exists (zlen m1), p, x. split; [exact E|]. split; [apply zlen_nonneg|]. split; [rewrite <- Lp; exact (get_mid nat _ _ _ _ HP)|].
    split; [unfold deref; now rewrite Ex|]. split; [exact Sx|]. exists m1, k0, m2. auto.
  Qed.
  Lemma g_nodup g m k k' i i' p vs vs' : gshows g m -> glookup k m = Some vs -> glookup k' m = Some vs' ->
    s_index_of K cmp (gkeys g) k = Ok i -> s_index_of K cmp (gkeys g) k' = Ok i' ->
    get nat (gvals g) i = Ok p -> get nat (gvals g) i' = Ok p -> c k k' = Eq.
  Proof.
    intros H L1 L2 I1 I2 G1 G2.
    destruct (g_at g m k vs H L1) as (i1 & p1 & x1 & E1 & P1 & Q1 & _ & _ & (m1 & k0 & m2 & F1 & Z1)).
    destruct (g_at g m k' vs' H L2) as (i2 & p2 & x2 & E2 & P2 & Q2 & _ & _ & (n1 & k1 & n2 & F2 & Z2)).
    assert (i1 = i) as -> by congruence. assert (i2 = i') as -> by congruence.
    destruct H as (ps & HK & HP & HC & ND & _).
    rewrite (get_ok nat _ _ _ HP) in G1. rewrite (get_ok nat _ _ _ HP) in G2.
    destruct (znth ps i) as [q1|] eqn:N1; [|discriminate]. destruct (znth ps i') as [q2|] eqn:N2; [|discriminate].
    assert (q1 = q2) as -> by congruence.
    assert (i = i').
    { unfold znth in N1, N2. replace (i <? 0) with false in N1 by lia. replace (i' <? 0) with false in N2 by lia.
      assert (Z.to_nat i = Z.to_nat i'); [|lia]. apply (proj1 (NoDup_nth_error ps) ND); [eapply nth_error_lt; eauto|congruence]. }
    destruct F1 as (Em1 & C1 & _). destruct F2 as (Em2 & C2 & _).
    assert (k0 = k1) as ->.
    { assert (N3 : znth m i = Some (k0, vs)) by (rewrite Em1, Z1; apply znth_app_len).
      assert (N4 : znth m i = Some (k1, vs')) by (rewrite Em2, H, Z2; apply znth_app_len). congruence. }
    apply (eq_trans_c K c TO) with k1; [now apply (eq_sym_c K c TO)|exact C2].
  Qed.
  Lemma group_add_other g m k k' j vs v : gshows g m -> glookup k' m = Some vs -> znth vs j = Some v -> c k k' <> Eq ->
    g_add_own K V cmp g k k' j = g_add K V cmp g k v.
  Proof.
    intros H Lk N Ne. destruct (g_at g m k' vs H Lk) as (i' & q & z & E & Hi & Eq & Ez & Sz & _).
    unfold g_add_own, g_add. rewrite E. cbn [bind]. rewrite Eq. cbn [bind]. rewrite Ez. cbn [bind].
    rewrite (get_ok V _ _ _ Sz), N. cbn [bind].
    assert (Hj : 0 <= j < zlen vs) by (apply znth_in in N; exact N).
    assert (Rz : read V (buf z) j = Ok v).
    { destruct (read_ok V z vs j Sz Hj) as (w & R & N'). rewrite R. congruence. }
    assert (Hq : (q < length (gheap g))%nat).
    { unfold deref in Ez. destruct (nth_error (gheap g) q) eqn:X; [|discriminate]. eapply nth_error_lt; eauto. }
    destruct (H) as (ps & HK & HP & HC & ND & HL & Ha & HN).
    destruct (index_cases K L c TO _ _ k HK Ha) as [(m1 & k0 & us & m2 & F & E1)|(m1 & m2 & F & E1)]; rewrite E1; cbn [bind].
    - assert (L2 : glookup k m = Some us) by exact (lookup_found K L c _ _ _ _ _ _ F).
      destruct (g_at g m k us H L2) as (i & p & x & E2 & Hi2 & Ep & Ex & Sx & _). assert (i = zlen m1) as <- by congruence.
      replace (i =? -1) with false by lia. rewrite Ep. cbn [bind]. rewrite Ex. cbn [late bind].
      destruct (Nat.eqb p q) eqn:PQ.
      + exfalso. apply Nat.eqb_eq in PQ. subst q. apply Ne. exact (g_nodup g m k k' i i' p us vs H L2 Lk E2 E Ep Eq).
      + rewrite Ez. cbn [late bind]. rewrite Rz. cbn [bind]. reflexivity.
    - cbn [Z.eqb Pos.eqb]. destruct (s_add K cmp (gkeys g) k) as [[ks n]| | |]; cbn [bind]; auto.
      destruct (late (insert nat (gvals g) n (length (gheap g)))) as [us| | |]; cbn [bind]; auto.
      unfold deref at 1. cbn [gheap]. destruct (late (deref K V _ (length (gheap g)))) as [x| | |] eqn:Ed.
      + unfold deref in Ed. cbn [gheap] in Ed. rewrite Ed. cbn [bind]. replace (Nat.eqb (length (gheap g)) q) with false by lia.
        replace (late (deref K V (mkGroup ks us (gheap g ++ [Some empty_lst])) q)) with (Ok z).
        2:{ unfold deref in *. cbn [gheap]. rewrite nth_error_app1 by exact Hq. now rewrite Ez. }
        cbn [bind]. rewrite Rz. cbn [bind]. reflexivity.
      + unfold deref in Ed. cbn [gheap] in Ed. rewrite Ed. reflexivity.
      + unfold deref in Ed. cbn [gheap] in Ed. rewrite Ed. reflexivity.
      + unfold deref in Ed. cbn [gheap] in Ed. rewrite Ed. reflexivity.
  Qed.
  Lemma group_add_same g m k k' j vs v : gshows g m -> glookup k' m = Some vs -> znth vs j = Some v -> c k k' = Eq ->
    exists x, g_get K V cmp g k = Ok x /\ lst_shows V x vs /\
      (zlen vs < cap x -> g_add_own K V cmp g k k' j = g_add K V cmp g k v) /\
      (cap x <= zlen vs -> g_add_own K V cmp g k k' j = UB).
  Proof.
    intros H Lk N Ce. destruct (g_at g m k' vs H Lk) as (i' & q & z & E & Hi & Eq & Ez & Sz & (m1 & k0 & m2 & F & Zi)).
    assert (F' : found K L c m k m1 k0 vs m2).
    { destruct F as (Em & C0 & _). destruct H as (ps & _ & _ & _ & _ & _ & Ha & _). apply found_iff; auto.
      apply (eq_trans_c K c TO) with k'; [exact C0|now apply (eq_sym_c K c TO)]. }
    assert (L2 : glookup k m = Some vs) by exact (lookup_found K L c _ _ _ _ _ _ F').
    destruct (g_at g m k vs H L2) as (i & p & x & E2 & Hi2 & Ep & Ex & Sx & (n1 & k1 & n2 & F2 & Zi2)).
    assert (Eii : i = i').
    { destruct F as (Em & C0 & B1 & A1). destruct F2 as (En & C2 & B2 & A2). rewrite Zi, Zi2.
      assert (Es : m1 ++ (k0, vs) :: m2 = n1 ++ (k1, vs) :: n2) by congruence. destruct F' as (_ & C3 & B3 & A3).
      destruct (app_eq_app _ _ _ _ Es) as (mid & [(E3 & E4)|(E3 & E4)]); destruct mid as [|w mid]; try (rewrite app_nil_r in E3; congruence); exfalso.
      + assert (w = (k1, vs)) by (cbn [app] in E4; congruence). subst w.
        assert (I : In (k1, vs) m1) by (rewrite E3; apply in_or_app; right; now left). apply B3 in I. cbn [fst] in I. congruence.
      + assert (w = (k0, vs)) by (cbn [app] in E4; congruence). subst w.
        assert (I : In (k0, vs) n1) by (rewrite E3; apply in_or_app; right; now left). apply B2 in I. cbn [fst] in I. congruence. }
    clear Zi Zi2 F2. subst i. assert (q = p) as -> by congruence. assert (z = x) as -> by congruence.
    exists x. split; [unfold g_get, g_by_index; rewrite E2; cbn [bind]; rewrite Ep; exact Ex|]. split; [exact Sx|].
    unfold g_add_own, g_add. rewrite E, E2. cbn [bind]. rewrite Ep. cbn [bind]. rewrite Ex. cbn [bind].
    rewrite (get_ok V _ _ _ Sx), N. cbn [bind]. replace (i' =? -1) with false by lia. cbn [bind]. rewrite Ex. cbn [late bind].
    rewrite Nat.eqb_refl. destruct (Sx) as (C & _). rewrite C.
    destruct (add_own_room V (fun _ _ => true) x vs j v Sx N) as [R1 R2]. split; intros R.
    - destruct (R1 R) as (y & -> & -> & _). reflexivity.
    - rewrite (R2 R). reflexivity.
  Qed.
  Lemma group_add_err g m k k' j : gshows g m ->
    match glookup k' m with Some vs => znth vs j = None | None => True end -> g_add_own K V cmp g k k' j = Err.
  Proof.
    intros H N. unfold g_add_own. destruct (glookup k' m) as [vs|] eqn:Lk.
    - destruct (g_at g m k' vs H Lk) as (i' & q & z & E & Hi & Eq & Ez & Sz & _). rewrite E. cbn [bind]. rewrite Eq. cbn [bind]. rewrite Ez. cbn [bind].
      rewrite (get_ok V _ _ _ Sz), N. reflexivity.
    - destruct H as (ps & HK & HP & HC & ND & HL & Ha & HN).
      destruct (index_cases K L c TO _ _ k' HK Ha) as [(m1 & k0 & us & m2 & F & E1)|(m1 & m2 & F & E1)].
      + rewrite (lookup_found K L c _ _ _ _ _ _ F) in Lk. discriminate.
      + rewrite E1. cbn [bind]. rewrite (get_neg nat _ _ HP). reflexivity.
  Qed.
  Lemma group_remove_own veq g m k j : gshows g m ->
    match glookup k m with
    | Some vs => match znth vs j with
                 | Some v => g_remove_own K V cmp veq g k j = g_remove_value K V cmp veq g k v
                 | None => g_remove_own K V cmp veq g k j = Err
                 end
    | None => g_remove_own K V cmp veq g k j = Err
    end.
  Proof.
    intros H. unfold g_remove_own, g_get, g_by_index. destruct (glookup k m) as [vs|] eqn:Lk.
    - destruct (g_at g m k vs H Lk) as (i' & q & z & E & Hi & Eq & Ez & Sz & _). rewrite E. cbn [bind]. rewrite Eq. cbn [bind]. rewrite Ez. cbn [bind].
      rewrite (get_ok V _ _ _ Sz). destruct (znth vs j); reflexivity.
    - destruct H as (ps & HK & HP & HC & ND & HL & Ha & HN).
      destruct (index_cases K L c TO _ _ k HK Ha) as [(m1 & k0 & us & m2 & F & E1)|(m1 & m2 & F & E1)].
      + rewrite (lookup_found K L c _ _ _ _ _ _ F) in Lk. discriminate.
      + rewrite E1. cbn [bind]. rewrite (get_neg nat _ _ HP). reflexivity.
  Qed.
End Dicts.

(* ---- from any state; witnesses ---- *)
Lemma history_from A eqb x l os : lst_shows A x l -> Forall (sensible_o A) os -> outs (orun A eqb x os) = outs (osrun A eqb (l, cap x) os).
Proof.
  intros S0 H. pose proof (orun_sim A eqb os x l S0 H) as K.
  destruct (osrun A eqb (l, cap x) os) as [[[l' room] rs]| | |]; try contradiction.
  - destruct K as (y & -> & _). reflexivity.
  - now rewrite K.
Qed.
Lemma dict_history_from K V c (TO : total_order c) d m os : d_shows K V c d m -> cap (keys d) = cap (vals d) ->
  outs (od_run K V (fun a b => Some (c a b)) d os) = outs (odsrun K V c (m, cap (keys d)) os).
Proof.
  intros S0 Hc. pose proof (od_run_sim K V c TO os d m S0 Hc) as Q.
  destruct (odsrun K V c (m, cap (keys d)) os) as [[[m' room] rs]| | |]; try contradiction.
  - destruct Q as (d' & E & _). now rewrite E.
  - now rewrite Q.
Qed.
Lemma insert_own_cases A x l i j a : lst_shows A x l -> 0 <= i <= zlen l -> znth l j = Some a ->
  (cap x <= zlen l -> insert_own A x i j = UB) /\
  (zlen l < cap x -> j < i -> insert_own A x i j = insert A x i a) /\
  (zlen l < cap x -> j = i -> insert_own A x i j = UB) /\
  (zlen l < cap x -> i < j -> exists b, znth l (j - 1) = Some b /\ insert_own A x i j = insert A x i b).
Proof.
  intros H Hi N. rewrite (insert_own_spec A x l i j H). unfold seen_by_insert. rewrite N.
  replace ((0 <=? i) && (i <=? zlen l)) with true by lia. cbn [negb]. apply znth_in in N as Hj.
  split; [|split; [|split]]; intros R.
  - now replace (cap x <=? zlen l) with true by lia.
  - intros J. replace (cap x <=? zlen l) with false by lia. now replace (j <? i) with true by lia.
  - intros ->. replace (cap x <=? zlen l) with false by lia. now rewrite Z.ltb_irrefl, Z.eqb_refl.
  - intros J. replace (cap x <=? zlen l) with false by lia. replace (j <? i) with false by lia. replace (j =? i) with false by lia.
    destruct (znth_some l (j - 1)) as [b Nb]; [lia|]. exists b. rewrite Nb. auto.
Qed.
Lemma history_empty_dict K V c (TO : total_order c) os :
  outs (od_run K V (fun a b => Some (c a b)) empty_dict os) = outs (odsrun K V c ([], 0) os).
Proof. exact (dict_history K V c TO os). Qed.
Lemma list_wrong_value :
  outs (orun Z Z.eqb empty_lst [OList (LAdd 0 1); OList (LAdd 0 2); OList (LAdd 0 3); OInsertOwn 0 2; OList (LGet 0 0)]) =
    Ok [RInt 0; RInt 1; RInt 2; RInt 0; RVal 2].
Proof. vm_compute. reflexivity. Qed.
Lemma list_dangling : outs (orun Z Z.eqb empty_lst [OList (LAdd 0 1); OList (LAdd 0 2); OAddOwn 0]) = UB.
Proof. vm_compute. reflexivity. Qed.
Lemma dict_wrong_value :
  outs (od_run Z Z (fun a b => Some (Z.compare a b)) empty_dict
    [ODict (DAdd 2 20); ODict (DAdd 3 30); ODict (DAdd 4 40); ODAddOwn 1 4; ODict (DGet 1)]) =
    Ok [OBool true; OBool true; OBool true; OBool true; OVal 30].
Proof. vm_compute. reflexivity. Qed.
Lemma dict_dangling :
  outs (od_run Z Z (fun a b => Some (Z.compare a b)) empty_dict [ODict (DAdd 1 10); ODict (DAdd 2 20); ODSetOwn 3 1]) = UB /\
  outs (od_run Z Z (fun a b => Some (Z.compare a b)) empty_dict [ODict (DAdd 2 20); ODSetOwn 1 2]) = UB.
Proof. split; vm_compute; reflexivity. Qed.
Lemma history_full A eqb x l os : lst_shows A x l -> Forall (sensible_o A) os ->
  outs (orun A eqb x os) = outs (osrun A eqb (l, cap x) os) /\
  (forall l' room rs, osrun A eqb (l, cap x) os = Ok ((l', room), rs) ->
     exists y, orun A eqb x os = Ok (y, rs) /\ lst_shows A y l' /\ cap y = room).
Proof.
  intros S0 H. split; [now apply history_from|]. intros l' room rs E. pose proof (orun_sim A eqb os x l S0 H) as K. now rewrite E in K.
Qed.
Lemma dict_full K V c (TO : total_order c) d m os : d_shows K V c d m -> cap (keys d) = cap (vals d) ->
  outs (od_run K V (fun a b => Some (c a b)) d os) = outs (odsrun K V c (m, cap (keys d)) os) /\
  (forall m' room rs, odsrun K V c (m, cap (keys d)) os = Ok ((m', room), rs) ->
     exists d', od_run K V (fun a b => Some (c a b)) d os = Ok (d', rs) /\ d_shows K V c d' m').
Proof.
  intros S0 H. split; [now apply dict_history_from|]. intros m' room rs E. pose proof (od_run_sim K V c TO os d m S0 H) as Q. now rewrite E in Q.
Qed.
Definition three : lst Z := mkLst [Live 1; Live 2; Live 3; Raw] 3 4 0.
Lemma three_shows : lst_shows Z three [1; 2; 3].
Proof. split; [reflexivity|]. split; [reflexivity|]. exists 1%nat. reflexivity. Qed.
Definition two_full : lst Z := mkLst [Live 1; Live 2] 2 2 0.
Lemma two_shows : lst_shows Z two_full [1; 2].
Proof. split; [reflexivity|]. split; [reflexivity|]. exists 0%nat. reflexivity. Qed.
Lemma insert_copy_wrong : ~ forall x l i j a y, lst_shows Z x l -> znth l j = Some a -> insert_own Z x i j = Ok y -> insert Z x i a = Ok y.
Proof.
  intros H. specialize (H three [1; 2; 3] 0 2 3 (mkLst [Live 2; Live 1; Live 2; Live 3] 4 4 3) three_shows eq_refl eq_refl).
  vm_compute in H. discriminate.
Qed.
Lemma add_defined_wrong : ~ forall x l j a, lst_shows Z x l -> znth l j = Some a -> insert_own Z x (zlen l) j <> UB.
Proof. intros H. exact (H two_full [1; 2] 0 1 two_shows eq_refl eq_refl). Qed.
Definition three_keys : dict Z Z := mkDict (mkLst [Live 2; Live 3; Live 4; Raw] 3 4 0) (mkLst [Live 20; Live 30; Live 40; Raw] 3 4 0).
Lemma three_keys_shows : d_shows Z Z Z.compare three_keys [(2, 20); (3, 30); (4, 40)].
Proof.
  split; [split; [reflexivity|split; [reflexivity|exists 1%nat; reflexivity]]|].
  split; [split; [reflexivity|split; [reflexivity|exists 1%nat; reflexivity]]|]. repeat constructor.
Qed.
Lemma dict_copy_wrong : ~ forall d m k k' v d', d_shows Z Z Z.compare d m -> lookup Z Z Z.compare k' m = Some v ->
  d_add_own Z Z (fun a b => Some (Z.compare a b)) d k k' = Ok d' -> d_add Z Z (fun a b => Some (Z.compare a b)) d k v = Ok d'.
Proof.
  intros H. destruct (d_add_own Z Z (fun a b => Some (Z.compare a b)) three_keys 1 4) as [d'| | |] eqn:E; try (vm_compute in E; discriminate).
  specialize (H three_keys _ 1 4 40 d' three_keys_shows eq_refl E). rewrite <- E in H. vm_compute in H. discriminate.
Qed.
Lemma dict_defined_wrong : ~ forall d m k k' v, d_shows Z Z Z.compare d m -> lookup Z Z Z.compare k m = None -> lookup Z Z Z.compare k' m = Some v ->
  d_add_own Z Z (fun a b => Some (Z.compare a b)) d k k' <> UB.
Proof. intros H. exact (H three_keys _ 1 2 20 three_keys_shows eq_refl eq_refl eq_refl). Qed.
Definition doubled : lst Z := mkLst [Live 5; Live 7; Live 7; Live 7; Raw] 4 5 0.
Lemma doubled_shows : lst_shows Z doubled [5; 7; 7; 7] /\ ascending Z Z.compare [5; 7; 7; 7] /\ znth [5; 7; 7; 7] 3 = Some 7 /\
  s_add_own Z (fun a b => Some (Z.compare a b)) doubled 3 = Ok (mkLst [Live 5; Live 7; Live 7; Live 7; Live 7] 5 5 3, 1) /\
  s_add_own Z (fun a b => Some (Z.compare a b)) doubled 1 = UB.
Proof.
  split; [split; [reflexivity|split; [reflexivity|exists 1%nat; reflexivity]]|].
  split; [repeat (constructor; [|repeat constructor; unfold le; discriminate]); constructor|].
  split; [reflexivity|]. split; reflexivity.
Qed.
Definition pair_group : group Z Z := mkGroup (mkLst [Live 1; Live 2] 2 2 0) (mkLst [Live 0; Live 1] 2 2 0)%nat [Some three; Some two_full].
Lemma pair_group_shows : g_shows Z Z Z.compare pair_group [(1, [1; 2; 3]); (2, [1; 2])].
Proof.
  exists [0; 1]%nat. split; [split; [reflexivity|split; [reflexivity|exists 0%nat; reflexivity]]|].
  split; [split; [reflexivity|split; [reflexivity|exists 0%nat; reflexivity]]|].
  split. { constructor; [exists three; split; [reflexivity|apply three_shows]|]. constructor; [exists two_full; split; [reflexivity|apply two_shows]|constructor]. }
  split. { constructor; [intros [H|[]]; discriminate|constructor; [intros []|constructor]]. }
  split. { intros [|[|p]] x; cbn; auto. destruct p; discriminate. }
  split; [repeat constructor|]. repeat constructor; discriminate.
Qed.
Lemma safe_example : Forall (no_insert Z) [OList (LAdd 0 1); OList (LAdd 0 2); OSetOwn 0 1; ORemoveOwn 1; OIndexOfOwn 0].
Proof. repeat constructor. Qed.
