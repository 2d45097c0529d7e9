(* Proofs about LmModel. *)
From Verif Require Import Base BaseFacts LstModel LstSpec LstProofs LmModel LmSpec.
From Coq Require Import ZifyBool ZifyNat.
Open Scope Z_scope.

Section P.
  Variable A : Type.
  Variable eqb : A -> A -> bool.

  Lemma aget_nil {B} i : aget (@nil B) i = UB.
  Proof. unfold aget, znth. destruct (i <? 0); [reflexivity|]. destruct (Z.to_nat i); reflexivity. Qed.
  Lemma move_out_cases (m : mem A) i : move_out A m i = UB \/ exists r, move_out A m i = Ok r.
  Proof.
    unfold move_out, aget. destruct (znth m i) as [s|]; cbn [bind]; auto. destruct (is_raw A s); auto.
    unfold aset. destruct (_ && _); cbn [bind]; eauto.
  Qed.
  Lemma across_nil di m si n : (0 < n)%nat -> move_across A [] di m si n = UB.
  Proof.
    intros H. destruct n as [|n]; [lia|]. cbn [move_across].
    destruct (move_out_cases m si) as [->|[[m' s] ->]]; cbn [bind]; [reflexivity|].
    unfold construct. rewrite aget_nil. reflexivity.
  Qed.

  (* growing without memory is UB *)
  Lemma grow_ub x i a : 0 <= i <= count x -> cap x < count x + 1 -> m_insert A true x i a = UB.
  Proof.
    intros Hi Hc. unfold m_insert. replace ((i >=? 0) && (i <=? count x)) with true by lia.
    unfold m_insert_uninitialized. replace (count x + 1 >? cap x) with true by lia. cbn [m_alloc].
    destruct (Z.eq_dec i 0) as [->|Ni].
    - cbn [Z.to_nat move_across bind]. destruct (Z.eq_dec (count x) 0) as [E|N].
      + rewrite E. cbn [Z.sub Z.opp Z.add Z.to_nat move_across dtors bind]. unfold deallocate.
        destruct (forallb _ _); cbn [bind]; [|reflexivity]. cbn [buf copy_ctors]. unfold construct. rewrite aget_nil. reflexivity.
      + rewrite across_nil by lia. reflexivity.
    - rewrite across_nil by lia. reflexivity.
  Qed.
  Lemma insert_same bad x i a : m_insert A bad x i a = insert A x i a \/ (bad = true /\ m_insert A bad x i a = UB).
  Proof.
    destruct bad.
    - destruct (Z.lt_ge_cases (cap x) (count x + 1)) as [L|L].
      + destruct ((i >=? 0) && (i <=? count x)) eqn:E.
        * right. split; [reflexivity|]. apply grow_ub; lia.
        * left. unfold m_insert, insert. rewrite E. reflexivity.
      + left. unfold m_insert, insert, m_insert_uninitialized. replace (count x + 1 >? cap x) with false by lia. reflexivity.
    - left. unfold m_insert, insert, m_insert_uninitialized. cbn [m_alloc].
      unfold insert_uninitialized. destruct (count x + 1 >? cap x); reflexivity.
  Qed.

  Lemma dealloc_cases (m : mem A) : deallocate A m = Ok tt \/ deallocate A m = UB.
  Proof. unfold deallocate. destruct (forallb _ m); auto. Qed.

  (* releasing: the same; or UB; or the list has lost its buffer *)
  Lemma release_cases bad x c y : 0 <= count x -> release A x c = Ok y ->
    m_release A bad x c = Ok y \/
    (bad = true /\ m_release A bad x c = UB) \/
    (bad = true /\ count x = 0 /\ m_release A bad x c = Ok (mkLst [] 0 (cap y) (moves y)) /\ 0 < cap y).
  Proof.
    intros Hc. unfold release, m_release. destruct (buf x) as [|b bs] eqn:Eb; [auto|]. cbv zeta.
    destruct bad; [|cbn [m_alloc]; auto]. intros E. cbn [m_alloc].
    match type of E with bind ?r _ = _ => destruct r as [m| | |] end; cbn [bind] in *; try discriminate.
    destruct (_ && _) eqn:E1; [|auto]. destruct (count x <? cap x * 5 / 8) eqn:E2; [|auto].
    destruct (Z.eq_dec (count x) 0) as [P|P].
    - rewrite P in *. change (Z.to_nat 0) with 0%nat in *. cbn [move_across dtors bind] in *.
      destruct (deallocate A m); cbn [bind] in *; try discriminate.
      right. right. injection E as <-. cbn [cap moves]. repeat split; auto; lia.
    - right. left. split; [reflexivity|]. rewrite across_nil by lia. reflexivity.
  Qed.

  (* an empty list that has lost its buffer *)
  Definition broken (x : lst A) : Prop := buf x = [] /\ count x = 0 /\ 0 < cap x.
  Definition st (x : lst A) (l : list A) : Prop := lst_shows A x l \/ (l = [] /\ broken x).

  Lemma st_holds x l : st x l -> holds A x l.
  Proof.
    intros [(C & _ & B)|(-> & B & C & _)]; [split; assumption|]. split; [exact C|]. exists 0%nat. exact B.
  Qed.
  Lemma st_count x l : st x l -> count x = zlen l.
  Proof. intros H. exact (proj1 (st_holds _ _ H)). Qed.

  Lemma broken_insert bad x i a : broken x -> (m_insert A bad x i a = Err /\ ~ 0 <= i <= 0) \/ m_insert A bad x i a = UB.
  Proof.
    intros (B & C & K). unfold m_insert. rewrite C. destruct ((i >=? 0) && (i <=? 0)) eqn:E; [right|left; split; [reflexivity|lia]].
    assert (i = 0) as -> by lia. unfold m_insert_uninitialized, insert_uninitialized. rewrite C.
    replace (0 + 1 >? cap x) with false by lia. cbn [Z.ltb Z.compare bind buf]. rewrite B. cbn [copy_ctors]. unfold construct. rewrite aget_nil. reflexivity.
  Qed.

  Lemma insert_st bad x l i a : st x l -> 0 <= i <= zlen l ->
    m_insert A bad x i a = UB \/ exists y, m_insert A bad x i a = Ok y /\ st y (ztake A i l ++ a :: zdrop A i l).
  Proof.
    intros [H|[-> H]] Hi.
    - destruct (insert_same bad x i a) as [->|[_ E]]; [|auto]. destruct (insert_at A x l i a H Hi) as (y & E & S).
      right. exists y. split; [exact E|]. left. exact S.
    - destruct (broken_insert bad x i a H) as [[_ N]|E]; [|auto]. unfold zlen in Hi. cbn in Hi. lia.
  Qed.
  Lemma insert_st_err bad x l i a : st x l -> ~ 0 <= i <= zlen l -> m_insert A bad x i a = Err.
  Proof. intros H N. unfold m_insert. rewrite (st_count _ _ H). now replace ((i >=? 0) && (i <=? zlen l)) with false by lia. Qed.

  Lemma release_st bad x c y l : 0 <= count x -> release A x c = Ok y -> lst_shows A y l ->
    m_release A bad x c = UB \/ exists z, m_release A bad x c = Ok z /\ st z l.
  Proof.
    intros Hc E S. destruct (release_cases bad x c y Hc E) as [->|[[_ ->]|(_ & C & -> & K)]]; auto.
    - right. exists y. split; [reflexivity|]. now left.
    - right. eexists. split; [reflexivity|]. right.
      assert (count y = count x) as Cy.
      { revert E. clear. unfold release. destruct (buf x) as [|bb bs]; [congruence|]. cbv zeta. intros E.
        match type of E with bind ?r _ = _ => destruct r as [m| | |] end; cbn [bind] in E; try discriminate.
        destruct (_ && _); [|injection E as <-; reflexivity]. destruct (_ <? _); [|injection E as <-; reflexivity].
        destruct (move_across _ _ _ _ _ _) as [[nb m']| | |]; cbn [bind] in E; try discriminate.
        destruct (dtors _ _ _ _); cbn [bind] in E; try discriminate. destruct (deallocate _ _); cbn [bind] in E; try discriminate.
        injection E as <-. reflexivity. }
      split; [|repeat split; assumption]. destruct S as (S & _). destruct l; [reflexivity|]. unfold zlen in S. cbn [length] in S. lia.
  Qed.

  Lemma remove_at_st bad x l i : st x l -> 0 <= i < zlen l ->
    m_remove_at A bad x i = UB \/ exists y, m_remove_at A bad x i = Ok y /\ st y (ztake A i l ++ zdrop A (i + 1) l).
  Proof.
    intros [H|[-> H]] Hi.
    - destruct (remove_at_at A x l i H Hi) as (y & E & S). unfold remove_at in E. unfold m_remove_at.
      destruct ((i >=? 0) && (i <? count x)) eqn:Ei; [|discriminate].
      destruct (assign_overlapped A (buf x) i (i + 1) (count x - i - 1)) as [m| | |]; cbn [bind] in *; try discriminate.
      eapply release_st; [|exact E|exact S]. cbn [count]. lia.
    - unfold zlen in Hi. cbn in Hi. lia.
  Qed.
  Lemma remove_at_st_err bad x l i : st x l -> ~ 0 <= i < zlen l -> m_remove_at A bad x i = Err.
  Proof. intros H N. unfold m_remove_at. rewrite (st_count _ _ H). now replace ((i >=? 0) && (i <? zlen l)) with false by lia. Qed.

  Lemma remove_range_st bad x l i n : st x l -> 0 <= i -> 0 <= n -> i + n <= zlen l -> i + n < 2 ^ 63 ->
    m_remove_range A bad x i n = UB \/ exists y, m_remove_range A bad x i n = Ok y /\ st y (ztake A i l ++ zdrop A (i + n) l).
  Proof.
    intros [H|[-> H]] Hi Hn Hl Ho.
    - destruct (remove_range_at A x l i n H) as (y & E & S); try lia. unfold remove_range in E. unfold m_remove_range.
      destruct ((i >=? 0) && (i <=? count x)) eqn:Ei; [|discriminate].
      destruct (negb _); [discriminate|]. destruct ((i + n >=? 0) && (i + n <=? count x)) eqn:Ein; [|discriminate].
      destruct (assign_overlapped A (buf x) i (i + n) (count x - i - n)) as [m| | |]; cbn [bind] in *; try discriminate.
      eapply release_st; [|exact E|exact S]. cbn [count]. lia.
    - change (zlen []) with 0 in Hl. assert (i = 0) as -> by lia. assert (n = 0) as -> by lia. right.
      destruct H as (B & C & K). exists (mkLst (buf x) (count x) (cap x) (moves x)).
      split; [|right; repeat split; assumption]. unfold m_remove_range. rewrite C, B.
      cbn [Z.geb Z.leb Z.compare andb Z.add Z.sub Z.opp negb assign_overlapped bind]. unfold m_release, assign_overlapped. cbn.
      replace (moves x + 0) with (moves x) by lia. reflexivity.
  Qed.

  Definition sts (s : vars A) (t : seqs A) : Prop :=
    Forall2 (fun x l => match x, l with Some x, Some l => st x l | None, None => True | _, _ => False end) s t.
  Lemma sts_hold s t : sts s t -> all_hold A s t.
  Proof.
    unfold sts, all_hold. induction 1 as [|x l s t H F IH]; constructor; auto.
    destruct x, l; auto. now apply st_holds.
  Qed.
  Lemma var_sts s t v : sts s t ->
    match var A s v, sread A t v with
    | Ok x, Ok l => st x l /\ nth_error s v = Some (Some x) /\ nth_error t v = Some (Some l)
    | UB, UB => True | _, _ => False end.
  Proof.
    intros H. unfold var, sread. pose proof (Forall2_nth _ _ _ v H) as N. cbv beta in N.
    destruct (nth_error s v) as [[x|]|], (nth_error t v) as [[l|]|]; tauto.
  Qed.
  Lemma free_sts s t v : sts s t -> free_var A s v = sfree A t v.
  Proof.
    intros H. unfold free_var, sfree. pose proof (Forall2_nth _ _ _ v H) as N. cbv beta in N.
    destruct (nth_error s v) as [[x|]|], (nth_error t v) as [[l|]|]; tauto.
  Qed.
  Lemma destruct_st x l : st x l -> destruct A x = Ok tt.
  Proof. intros [H|(_ & B & _)]; [eapply destruct_ok; exact H|]. unfold destruct. rewrite B. reflexivity. Qed.
  Lemma clear_st x l : st x l -> exists y, clear A x = Ok y /\ st y [].
  Proof.
    intros [H|(_ & B & C & _)].
    - destruct (clear_ok A x l H) as (y & E & S). exists y. split; [exact E|now left].
    - unfold clear. rewrite B, C. cbn. eexists. split; [reflexivity|]. left. split; [reflexivity|]. split; [reflexivity|]. now exists 0%nat.
  Qed.
  Lemma index_st x l a : st x l -> index_of A eqb x a = Ok (first_pos A eqb a l).
  Proof.
    intros [H|(-> & B & C & _)]; [now apply index_of_ok|]. unfold index_of. rewrite C. reflexivity.
  Qed.

  Definition msim (r : res (vars A * out A)) (q : res (seqs A * out A)) : Prop :=
    match q with
    | Ok (t', y) => r = UB \/ exists s', r = Ok (s', y) /\ sts s' t'
    | Err => r = Err
    | _ => True
    end.

  Lemma m_step_raw_sim s t o bad : sts s t -> msim (m_step_raw A eqb s o bad) (sstep_raw A eqb t o).
  Proof.
    intros H.
    assert (U : forall s t v x l, sts s t -> st x l -> sts (upd s v (Some x)) (upd t v (Some l)))
      by (intros; now apply Forall2_upd).
    assert (E0 : st empty_lst []) by (left; apply empty_shows).
    Ltac gv H v x l Sh := let V := fresh "V" in pose proof (var_sts _ _ v H) as V;
      destruct (var A _ v) as [x| | |], (sread A _ v) as [l| | |]; try contradiction; [|exact I];
      destruct V as (Sh & ? & ?); cbn [bind].
    destruct o; cbn [m_step_raw step_raw sstep_raw].
    - rewrite (free_sts _ _ v H). destruct (sfree_shape A t v) as [->| ->]; cbn [bind msim]; auto.
      right. eexists. split; [reflexivity|]. auto.
    - rewrite (free_sts _ _ v H). destruct (sfree_shape A t v) as [->| ->]; cbn [bind msim]; auto.
      gv H w x l Sh. right. eexists. split; [reflexivity|]. auto.
    - gv H v x l Sh. gv H w x' l' S'. rewrite (destruct_st _ _ Sh). cbn [bind].
      right. eexists. split; [reflexivity|]. auto.
    - gv H v x l Sh. rewrite (destruct_st _ _ Sh). cbn [bind].
      right. eexists. split; [reflexivity|]. apply Forall2_upd; auto.
    - gv H v x l Sh. pose proof (zlen_nonneg l). pose proof (st_count _ _ Sh) as C. rewrite C.
      destruct (insert_st bad x l (zlen l) a Sh) as [->|(y & -> & S')]; [lia|now left|]. cbn [bind msim].
      unfold ztake, zdrop in S'. rewrite zlen_to_nat, firstn_all, skipn_all in S'.
      right. eexists. split; [reflexivity|]. auto.
    - gv H v x l Sh. unfold sinsert. destruct ((0 <=? i) && (i <=? zlen l)) eqn:Hi; cbn [bind msim].
      + destruct (insert_st bad x l i a Sh) as [->|(y & -> & S')]; [lia|now left|]. cbn [bind]. right. eauto.
      + rewrite (insert_st_err bad x l i a Sh) by lia. reflexivity.
    - gv H v x l Sh. destruct ((0 <=? i) && (i <? zlen l)) eqn:Hi; cbn [bind msim].
      + destruct (remove_at_st bad x l i Sh) as [->|(y & -> & S')]; [lia|now left|]. cbn [bind]. right. eauto.
      + rewrite (remove_at_st_err bad x l i Sh) by lia. reflexivity.
    - gv H v x l Sh. unfold sremove. pose proof (st_count _ _ Sh) as C. destruct ((0 <=? i) && (i <=? zlen l)) eqn:Hi; cbn [bind msim].
      + destruct ((- 2 ^ 63 <=? i + n) && (i + n <? 2 ^ 63)) eqn:Ho; cbn [negb msim bind]; auto.
        destruct (i + n <? 0) eqn:Hneg; cbn [bind msim].
        * unfold m_remove_range. rewrite C. replace ((i >=? 0) && (i <=? zlen l)) with true by lia.
          rewrite Ho. cbn [negb]. now replace (i + n >=? 0) with false by lia.
        * destruct (n <? 0) eqn:Hn; cbn [bind msim]; auto.
          destruct (i + n <=? zlen l) eqn:Hl; cbn [bind msim].
          -- destruct (remove_range_st bad x l i n Sh) as [->|(y & -> & S')]; try lia; [now left|]. cbn [bind]. right. eauto.
          -- unfold m_remove_range. rewrite C. replace ((i >=? 0) && (i <=? zlen l)) with true by lia.
             rewrite Ho. cbn [negb]. now replace ((i + n >=? 0) && (i + n <=? zlen l)) with false by lia.
      + unfold m_remove_range. rewrite C. now replace ((i >=? 0) && (i <=? zlen l)) with false by lia.
    - gv H v x l Sh. unfold m_remove. rewrite (index_st _ _ _ Sh). cbn [bind].
      pose proof (first_pos_range A eqb a l) as R. rewrite (st_count _ _ Sh).
      destruct (first_pos A eqb a l =? -1) eqn:E.
      + replace (first_pos A eqb a l >=? 0) with false by lia. cbn [andb bind msim].
        right. eexists. split; [reflexivity|]. rewrite upd_id by assumption. exact H.
      + replace ((first_pos A eqb a l >=? 0) && (first_pos A eqb a l <? zlen l)) with true by lia.
        destruct (remove_at_st bad x l (first_pos A eqb a l) Sh) as [->|(y & -> & S')]; [lia|now left|]. cbn [bind msim]. right. eauto.
    - gv H v x l Sh. destruct (clear_st x l Sh) as (y & E & S'). rewrite E. cbn [bind msim]. right. eauto.
    - gv H v x l Sh. unfold sset. destruct ((0 <=? i) && (i <? zlen l)) eqn:Hi; cbn [bind msim].
      + destruct Sh as [Sh|[-> Sh]]; [|unfold zlen in Hi; cbn in Hi; lia].
        destruct (set_ok A x l i a Sh) as (y & E & S'); [lia|]. rewrite E. cbn [bind]. right. eexists. split; [reflexivity|]. apply U; auto. now left.
      + unfold set. rewrite (st_count _ _ Sh). now replace ((i >=? 0) && (i <? zlen l)) with false by lia.
    - gv H v x l Sh. destruct Sh as [Sh|[-> (B & C & _)]].
      + rewrite (get_ok A _ _ i Sh). destruct (znth l i); cbn [bind msim]; eauto.
      + unfold get. rewrite C. replace ((i >=? 0) && (i <? 0)) with false by lia. unfold znth. destruct (i <? 0); [reflexivity|].
        destruct (Z.to_nat i); reflexivity.
    - gv H v x l Sh. rewrite (st_count _ _ Sh). cbn [msim]. eauto.
    - gv H v x l Sh. rewrite (index_st _ _ _ Sh). cbn [bind msim]. eauto.
    - gv H v x l Sh. rewrite (index_st _ _ _ Sh). cbn [bind msim]. rewrite first_pos_existsb. eauto.
  Qed.

  Lemma m_step_sim s t o bad t' y : sts s t -> sstep A eqb t o = Ok (t', y) ->
    m_step A eqb s o bad = UB \/ exists s', m_step A eqb s o bad = Ok (s', y) /\ sts s' t'.
  Proof.
    intros H E. pose proof (m_step_raw_sim s t o bad H) as K. unfold msim in K. unfold sstep in E. unfold m_step.
    destruct (sstep_raw A eqb t o) as [[t1 y1]| | |]; try discriminate.
    - assert (t1 = t' /\ y1 = y) as [-> ->] by (split; congruence).
      destruct K as [->|(s' & -> & S')]; eauto.
    - rewrite K. assert (t = t' /\ RError = y) as [-> <-] by (split; congruence). eauto.
  Qed.
  Lemma m_run_sim p : forall s t t' ys, sts s t -> srun A eqb t (map fst p) = Ok (t', ys) ->
    m_run A eqb s p = UB \/ exists s', m_run A eqb s p = Ok (s', ys) /\ sts s' t'.
  Proof.
    induction p as [|[o bad] p IH]; intros s t t' ys H E; cbn [map fst srun m_run] in *.
    - assert (t = t' /\ [] = ys) as [-> <-] by (split; congruence). eauto.
    - apply bind_ok in E. destruct E as ([t1 y1] & E1 & E). apply bind_ok in E. destruct E as ([t2 ys2] & E2 & E).
      destruct (m_step_sim _ _ _ bad _ _ H E1) as [->|(s1 & -> & H1)]; [now left|]. cbn [bind].
      destruct (IH _ _ _ _ H1 E2) as [->|(s2 & -> & H2)]; [now left|]. cbn [bind].
      right. exists s2. split; congruence.
  Qed.
  Lemma never_wrong n p t ys : srun A eqb (repeat None n) (map fst p) = Ok (t, ys) ->
    m_run A eqb (repeat None n) p = UB \/ exists s, m_run A eqb (repeat None n) p = Ok (s, ys) /\ all_hold A s t.
  Proof.
    intros E. destruct (m_run_sim p (repeat None n) (repeat None n) t ys) as [->|(s & -> & S)]; auto.
    - unfold sts. clear. induction n; cbn; constructor; auto.
    - right. exists s. split; [reflexivity|]. now apply sts_hold.
  Qed.

  Lemma m_release_good x c : m_release A false x c = release A x c.
  Proof. reflexivity. Qed.
  Lemma m_insert_good x i a : m_insert A false x i a = insert A x i a.
  Proof. destruct (insert_same false x i a) as [E|[E _]]; [exact E|discriminate]. Qed.
  Lemma m_step_good s o : m_step A eqb s o false = step A eqb s o.
  Proof.
    unfold m_step, step. destruct o; cbn [m_step_raw step_raw]; try reflexivity.
    - destruct (var A s v); cbn [bind]; try reflexivity. rewrite m_insert_good. reflexivity.
    - destruct (var A s v); cbn [bind]; try reflexivity. rewrite m_insert_good. reflexivity.
  Qed.
  Lemma enough n os t ys : srun A eqb (repeat None n) os = Ok (t, ys) ->
    exists s, m_run A eqb (repeat None n) (map (fun o => (o, false)) os) = Ok (s, ys) /\ shows A s t.
  Proof.
    intros E. destruct (list_refines A eqb n os t ys E) as (s & R & S). exists s. split; [|exact S].
    rewrite <- R. clear. generalize (repeat (@None (lst A)) n) as s0. induction os as [|o os IH]; intros s0; [reflexivity|].
    cbn [map m_run run]. rewrite m_step_good. destruct (step A eqb s0 o) as [[s1 y]| | |]; cbn [bind]; try reflexivity.
    rewrite IH. reflexivity.
  Qed.

  (* ---- what fails ---------------------------------------------------------------------- *)
  Lemma insert_short x l i a : lst_shows A x l -> 0 <= i <= zlen l ->
    (zlen l = cap x -> m_insert A true x i a = UB) /\
    (zlen l < cap x -> m_insert A true x i a = insert A x i a).
  Proof.
    intros (C & _) Hi. split; intros E.
    - apply grow_ub; lia.
    - unfold m_insert, insert, m_insert_uninitialized. replace (count x + 1 >? cap x) with false by lia. reflexivity.
  Qed.

  Lemma remove_short x l i : lst_shows A x l -> 0 <= i < zlen l ->
    (shrinks (cap x) (zlen l - 1) = false -> m_remove_at A true x i = remove_at A x i) /\
    (shrinks (cap x) (zlen l - 1) = true -> 1 < zlen l -> m_remove_at A true x i = UB) /\
    (shrinks (cap x) (zlen l - 1) = true -> zlen l = 1 ->
       exists y, m_remove_at A true x i = Ok y /\ holds A y [] /\ forall bad a, m_insert A bad y 0 a = UB).
  Proof.
    intros H Hi. destruct (remove_at_at A x l i H Hi) as (y & E & S). pose proof H as (C & Hz & _).
    assert (HC : forall m, holds A (mkLst [] 0 m (moves y)) []) by (intros; split; [reflexivity|now exists 0%nat]).
    unfold shrinks, remove_at, m_remove_at in *. destruct ((i >=? 0) && (i <? count x)) eqn:Ei; [|discriminate].
    destruct (assign_overlapped A (buf x) i (i + 1) (count x - i - 1)) as [m| | |] eqn:Ea; cbn [bind] in *; try discriminate.
    rewrite <- C. unfold release, m_release in *. cbn [buf count cap moves] in *.
    destruct m as [|b bs].
    { assert (count x - 1 = 0 /\ cap x = 0) as [K1 K2].
      { assert (y = mkLst [] (count x - 1) (cap x) (moves x + (count x - i - 1))) as -> by congruence.
        destruct S as (S1 & S2 & k & S3). cbn [buf count cap] in *. change (zlen (@nil (slot A))) with 0 in S2.
        destruct (ztake A i l ++ zdrop A (i + 1) l); [|discriminate]. change (zlen (@nil A)) with 0 in S1. lia. }
      rewrite K1, K2. split; [reflexivity|]. split; intros; discriminate. }
    cbv zeta in *.
    match type of E with bind ?r _ = _ => destruct r as [m'| | |] end; cbn [bind] in *; try discriminate.
    destruct ((count x - 1 <=? cap x / 2) && (count x - 1 <=? 8)) eqn:E1; cbn [andb]; [|repeat split; intros; discriminate].
    destruct (count x - 1 <? cap x * 5 / 8) eqn:E2; [|repeat split; intros; discriminate].
    split; [discriminate|]. cbn [m_alloc]. split; intros _ E3.
    - rewrite across_nil by lia. reflexivity.
    - rewrite E3 in *. change (Z.to_nat (1 - 1)) with 0%nat in *. cbn [move_across dtors bind] in *.
      destruct (deallocate A m'); cbn [bind] in *; try discriminate.
      eexists. split; [reflexivity|]. change (1 - 1) with 0 in *. split; [split; [reflexivity|now exists 0%nat]|].
      intros bad v. set (z := mkLst _ _ _ _).
      assert (Bz : broken z) by (unfold z; repeat split; cbn [cap]; lia).
      destruct (broken_insert bad z 0 v Bz) as [[_ K]|K]; [lia|exact K].
  Qed.

  Lemma slots_exact sz size : 0 < sz -> 0 <= size -> sz * size < 2 ^ 64 -> slots sz size = size.
  Proof.
    intros H1 H2 H3. unfold slots. rewrite Z.mod_small by nia. rewrite Z.mul_comm. now apply Z.div_mul; lia.
  Qed.
  Lemma slots_fewer sz size : 0 < sz -> 0 <= size -> 2 ^ 64 <= sz * size -> 0 <= slots sz size < size.
  Proof.
    intros H1 H2 H3. unfold slots. pose proof (Z.mod_pos_bound (sz * size) (2 ^ 64)).
    split; [apply Z.div_pos; lia|]. apply Z.div_lt_upper_bound; lia.
  Qed.
  Lemma array_set sz size i a : 0 < sz -> 0 <= i < size ->
    exists x, m_array A sz size = Ok x /\ acount x = size /\
      if i <? slots sz size then exists y, a_set A x i a = Ok y else a_set A x i a = UB.
  Proof.
    intros H1 H2. unfold m_array. replace (size >=? 0) with true by lia. eexists. split; [reflexivity|].
    split; [reflexivity|]. unfold a_set. cbn [acount abuf].
    assert (0 <= slots sz size) as P.
    { unfold slots. apply Z.div_pos; [|lia]. apply Z.mod_pos_bound. lia. }
    replace ((i >=? 0) && (i <? size)) with true by lia.
    replace (size <=? 0) with false by lia. unfold assign, aget, znth. replace (i <? 0) with false by lia.
    destruct (i <? slots sz size) eqn:E.
    - rewrite nth_error_repeat by lia. cbn [bind is_raw]. unfold aset, zlen. rewrite repeat_length.
      replace ((0 <=? i) && (i <? _)) with true by lia. cbn [bind]. eauto.
    - replace (nth_error _ _) with (@None (slot A)); [reflexivity|]. symmetry. apply nth_error_None. rewrite repeat_length. lia.
  Qed.
End P.
