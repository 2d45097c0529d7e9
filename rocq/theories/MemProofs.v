From Coq Require Import ZifyBool ZifyNat.
From Verif Require Import Base BaseFacts LstModel LstSpec LstProofs MemSpec.
Open Scope Z_scope.

Section Lists.
  Variable A : Type.
  Variable eqb : A -> A -> bool.
  Definition slack (x : lst A) : Z := Z.max 0 (5 * count x - 4 * cap x).
  Lemma cap_count x l : lst_shows A x l -> 0 <= count x <= cap x.
  Proof. intros (C & Z & k & B). rewrite C, <- Z, B, zlen_app, zlen_map. pose proof (zlen_nonneg l). pose proof (zlen_nonneg (repeat (@Raw A) k)). lia. Qed.
  Lemma uninit_moves x i y : insert_uninitialized A x i 1 = Ok y -> i <= count x ->
    count y = count x + 1 /\
    ((count x + 1 <= cap x /\ cap y = cap x /\ moves y = moves x + (count x - i)) \/
     (count x + 1 > cap x /\ cap y = (count x + 1) * 5 / 4 + 1 /\ moves y = moves x + count x)).
  Proof.
    unfold insert_uninitialized. cbv zeta. intros E Hi. assert (K : forall a b : lst A, Ok a = Ok b -> a = b) by congruence.
    destruct (count x + 1 >? cap x) eqn:E1.
    - replace (count x + 1 <? cap x) with false in E by lia.
      repeat (let a := fresh in let F := fresh in apply bind_ok in E; destruct E as (a & F & E); match type of a with prod _ _ => destruct a | _ => idtac end).
      apply K in E. subst y. cbn [count cap moves]. split; [reflexivity|right]. lia.
    - destruct (i <? count x) eqn:E2.
      + destruct (1 >=? count x - i); repeat (let a := fresh in let F := fresh in apply bind_ok in E; destruct E as (a & F & E); match type of a with prod _ _ => destruct a | _ => idtac end);
          apply K in E; subst y; cbn [count cap moves]; (split; [reflexivity|left]); lia.
      + apply K in E. subst y. cbn [count cap moves]. split; [reflexivity|left]. lia.
  Qed.
  Lemma insert_moves x i a y : insert A x i a = Ok y -> 0 <= count x <= cap x ->
    moves y + slack y <= moves x + slack x + (count x - i) + 5 /\ cap y <= Z.max (cap x) (count y * 5 / 4 + 1).
  Proof.
    unfold insert. destruct ((i >=? 0) && (i <=? count x)) eqn:Ei; [|discriminate]. intros E Hc.
    apply bind_ok in E. destruct E as (z & E1 & E). apply bind_ok in E. destruct E as (m & E2 & E).
    apply uninit_moves in E1; [|lia]. assert (y = mkLst m (count z) (cap z) (moves z)) as -> by congruence. unfold slack. cbn [count cap moves]. destruct E1 as (C & [(F1 & F2 & F3)|(F1 & F2 & F3)]); lia.
  Qed.
  Lemma release_moves x c y : release A x c = Ok y -> 0 <= count x -> 0 <= cap x ->
    count y = count x /\ moves y + slack y <= moves x + slack x + 11 /\ cap y <= cap x /\ cap x * 5 / 8 <= cap y /\ (8 < count x -> cap y = cap x).
  Proof.
    unfold release. intros E Hc Hp. assert (K : forall a b : lst A, Ok a = Ok b -> a = b) by congruence. destruct (buf x) as [|b bs]; [apply K in E; subst; lia|]. cbv zeta in E.
    match type of E with bind ?r _ = _ => destruct r as [m'| | |] end; cbn [bind] in *; try discriminate.
    unfold slack. destruct ((count x <=? cap x / 2) && (count x <=? 8)) eqn:E1; [|apply K in E; subst y; cbn [count cap moves]; lia].
    destruct (count x <? cap x * 5 / 8) eqn:E2; [|apply K in E; subst y; cbn [count cap moves]; lia].
    repeat (let a := fresh in let F := fresh in apply bind_ok in E; destruct E as (a & F & E); match type of a with prod _ _ => destruct a | _ => idtac end).
    apply K in E; subst y; cbn [count cap moves]. lia.
  Qed.
  Lemma remove_at_moves x i y : remove_at A x i = Ok y -> 0 <= cap x ->
    count y = count x - 1 /\ moves y + slack y <= moves x + slack x + (count x - i - 1) + 11 /\ cap y <= cap x /\ cap x * 5 / 8 <= cap y /\ (9 < count x -> cap y = cap x).
  Proof.
    unfold remove_at. destruct ((i >=? 0) && (i <? count x)) eqn:Ei; [|discriminate]. intros E Hp. apply bind_ok in E. destruct E as (m & _ & E). apply release_moves in E; cbn [count cap moves] in *; try lia.
    destruct E as (E1 & E2 & E3 & E4 & E5). unfold slack in *. cbn [count cap moves] in *. repeat split; try lia; try (intros; apply E5; lia).
  Qed.
  Lemma remove_range_moves x i n y : remove_range A x i n = Ok y -> 0 <= n -> 0 <= cap x ->
    moves y + slack y <= moves x + slack x + (count x - i - n) + 11 /\ cap y <= cap x.
  Proof.
    unfold remove_range. destruct ((i >=? 0) && (i <=? count x)) eqn:Ei; [|discriminate]. destruct (negb ((- 2 ^ 63 <=? i + n) && (i + n <? 2 ^ 63))); [discriminate|]. destruct ((i + n >=? 0) && (i + n <=? count x)) eqn:E1; [|discriminate].
    intros E Hn Hp. apply bind_ok in E. destruct E as (m & _ & E). apply release_moves in E; cbn [count cap moves] in *; try lia. unfold slack in *. cbn [count cap moves] in *. lia.
  Qed.
  Lemma clear_moves x y : clear A x = Ok y -> moves y = moves x /\ count y = 0 /\ cap y = 0.
  Proof. unfold clear. intros E. apply bind_ok in E. destruct E as (m & _ & E). apply bind_ok in E. destruct E as (u & _ & E). injection E as <-. auto. Qed.
  Lemma set_moves x i a y : set A x i a = Ok y -> moves y = moves x /\ count y = count x /\ cap y = cap x.
  Proof. unfold set. destruct ((i >=? 0) && (i <? count x)); [|discriminate]. intros E. apply bind_ok in E. destruct E as (m & _ & E). injection E as <-. auto. Qed.

  Lemma step_bound x l o t r : lst_shows A x l -> on_list A o -> sstep A eqb [Some l] o = Ok (t, r) ->
    exists y, step A eqb [Some x] o = Ok ([Some y], r) /\ t = [Some (after A eqb l o)] /\ lst_shows A y (after A eqb l o) /\
      moves y + slack y <= moves x + slack x + behind A eqb l o + 11 /\ cap y <= Z.max (cap x) (zlen (after A eqb l o) * 5 / 4 + 1).
  Proof.
    intros S O E. destruct (step_sim A eqb [Some x] [Some l] o t r) as (s' & E2 & S2); [constructor; [exact S|constructor]|exact E|].
    pose proof (cap_count x l S) as Hc. pose proof S as (C & _).
    assert (forall s u, step_raw A eqb [Some x] o = Ok (s, u) -> exists y, s = [Some y]) as One.
    { intros s u. destruct o; cbn [on_list] in O; try contradiction; subst; cbn [step_raw]; unfold LstModel.var; cbn [nth_error]; intros H;
        repeat (let a := fresh in let F := fresh in apply bind_ok in H; destruct H as (a & F & H); match type of a with prod _ _ => destruct a | _ => idtac end);
        injection H as <- _; try (match goal with H : Ok _ = Ok _ |- _ => injection H as <- end); cbn [upd]; eauto. }
    assert (exists y, s' = [Some y] /\ moves y + slack y <= moves x + slack x + behind A eqb l o + 11 /\ cap y <= Z.max (cap x) (count y * 5 / 4 + 1)) as (y & -> & M & P).
    { assert (0 <= behind A eqb l o) as Hb.
      { pose proof (zlen_nonneg l). destruct o; cbn [behind]; try lia. 1-3: destruct (_ && _) eqn:?; lia.
        pose proof (first_pos_range A eqb a l). destruct (first_pos A eqb a l =? -1) eqn:?; lia. }
      assert (moves x + slack x <= moves x + slack x + behind A eqb l o + 11 /\ cap x <= Z.max (cap x) (count x * 5 / 4 + 1)) as Same by lia.
      unfold step in E2. destruct (step_raw A eqb [Some x] o) as [[s1 r1]| | |] eqn:Er; try discriminate.
      2:{ injection E2 as <- _. exists x. auto. }
      injection E2 as -> ->. destruct (One _ _ eq_refl) as (y & ->). exists y. split; [reflexivity|].
      destruct o; cbn [on_list] in O; try contradiction; subst; cbn [step_raw] in Er; unfold LstModel.var in Er; cbn [nth_error bind upd] in Er.
      - apply bind_ok in Er. destruct Er as (z & Ez & Er). injection Er as -> _. apply insert_moves in Ez; [|lia]. cbn [behind] in *. lia.
      - apply bind_ok in Er. destruct Er as (z & Ez & Er). injection Er as -> _. pose proof Ez as Ez'. apply insert_moves in Ez; [|lia]. cbn [behind] in *. unfold insert in Ez'. rewrite C in *.
        destruct ((i >=? 0) && (i <=? zlen l)) eqn:Ei; [|discriminate]. replace ((0 <=? i) && (i <=? zlen l)) with true by lia. lia.
      - apply bind_ok in Er. destruct Er as (z & Ez & Er). injection Er as -> _. pose proof Ez as Ez'. apply remove_at_moves in Ez; [|lia]. cbn [behind] in *. unfold remove_at in Ez'. rewrite C in *.
        destruct ((i >=? 0) && (i <? zlen l)) eqn:Ei; [|discriminate]. replace ((0 <=? i) && (i <? zlen l)) with true by lia. lia.
      - apply bind_ok in Er. destruct Er as (z & Ez & Er). injection Er as -> _. pose proof Ez as Ez'. cbn [behind] in *.
        unfold sstep in E. cbn [sstep_raw] in E. unfold LstSpec.sread in E. cbn [nth_error bind] in E. unfold sremove in E. unfold remove_range in Ez'. rewrite C in *.
        destruct ((i >=? 0) && (i <=? zlen l)) eqn:Ei; [|discriminate]. replace ((0 <=? i) && (i <=? zlen l)) with true in E by lia.
        destruct (negb ((- 2 ^ 63 <=? i + n) && (i + n <? 2 ^ 63))); [discriminate|]. destruct ((i + n >=? 0) && (i + n <=? zlen l)) eqn:E1; [|discriminate].
        replace (i + n <? 0) with false in E by lia. destruct (n <? 0) eqn:En; [discriminate|]. apply remove_range_moves in Ez; try lia.
        replace ((0 <=? i) && (0 <=? n) && (i + n <=? zlen l)) with true by lia. lia.
      - unfold remove in Er. rewrite (index_of_ok A eqb x l a S) in Er. cbn [bind behind] in *. pose proof (first_pos_range A eqb a l) as Hf.
        destruct ((first_pos A eqb a l >=? 0) && (first_pos A eqb a l <? count x)) eqn:Ei.
        + destruct (remove_at A x (first_pos A eqb a l)) as [z| | |] eqn:Ez; cbn [bind] in Er; try discriminate. injection Er as -> _. apply remove_at_moves in Ez; [|lia].
          replace (first_pos A eqb a l =? -1) with false in * by lia. lia.
        + injection Er as -> _. exact Same.
      - apply bind_ok in Er. destruct Er as (z & Ez & Er). injection Er as -> _. apply clear_moves in Ez. unfold slack in *. lia.
      - apply bind_ok in Er. destruct Er as (z & Ez & Er). injection Er as -> _. apply set_moves in Ez. unfold slack in *. lia.
      - apply bind_ok in Er. destruct Er as (z & Ez & Er). injection Er as -> _. exact Same.
      - injection Er as -> _. exact Same.
      - apply bind_ok in Er. destruct Er as (z & Ez & Er). injection Er as -> _. exact Same.
      - apply bind_ok in Er. destruct Er as (z & Ez & Er). injection Er as -> _. exact Same. }
    inversion S2 as [|? o1 ? t1 H1 H2]; subst. inversion H2; subst. destruct o1 as [l1|]; [|contradiction].
    assert (after A eqb l o = l1) as -> by (unfold after; now rewrite E). pose proof H1 as (C1 & _). exists y. rewrite <- C1. auto.
  Qed.
  Lemma peak_ge os : forall l, zlen l <= peak A eqb l os.
  Proof. destruct os; intros l; cbn [peak]; lia. Qed.
  Lemma run_bound os : forall x l t ys, lst_shows A x l -> Forall (on_list A) os -> srun A eqb [Some l] os = Ok (t, ys) ->
    exists y l', run A eqb [Some x] os = Ok ([Some y], ys) /\ t = [Some l'] /\ lst_shows A y l' /\
      moves y + slack y <= moves x + slack x + all_behind A eqb l os + 11 * zlen os /\ cap y <= Z.max (cap x) (peak A eqb l os * 5 / 4 + 1).
  Proof.
    induction os as [|o os IH]; intros x l t ys S F E; cbn [srun run all_behind peak] in *.
    - injection E as <- <-. exists x, l. change (zlen (@nil (op A))) with 0. split; [reflexivity|]. split; [reflexivity|]. split; [exact S|]. lia.
    - inversion F as [|? ? F1 F2]; subst. apply bind_ok in E. destruct E as ([t1 r] & E1 & E). apply bind_ok in E. destruct E as ([t2 rs] & E2 & E). injection E as <- <-.
      destruct (step_bound x l o t1 r S F1 E1) as (y & Ey & -> & Sy & M & P). rewrite Ey. cbn [bind].
      destruct (IH y (after A eqb l o) t2 rs Sy F2 E2) as (z & l' & Ez & -> & Sz & M2 & P2). rewrite Ez. cbn [bind]. exists z, l'. rewrite zlen_cons.
      pose proof (peak_ge os (after A eqb l o)). pose proof (zlen_nonneg (after A eqb l o)). split; [reflexivity|]. split; [reflexivity|]. split; [exact Sz|]. lia.
  Qed.
  Lemma list_bound os t ys : Forall (on_list A) os -> srun A eqb [Some []] os = Ok (t, ys) ->
    exists y l, run A eqb [Some empty_lst] os = Ok ([Some y], ys) /\ t = [Some l] /\ lst_shows A y l /\
      moves y <= all_behind A eqb [] os + 11 * zlen os /\ cap y <= peak A eqb [] os * 5 / 4 + 1.
  Proof.
    intros F E. destruct (run_bound os empty_lst [] t ys (empty_shows A) F E) as (y & l & R & -> & S & M & P). exists y, l. unfold slack in M. cbn [count cap moves empty_lst] in *.
    pose proof (peak_ge os []). change (zlen (@nil A)) with 0 in *. split; [exact R|]. split; [reflexivity|]. split; [exact S|]. lia.
  Qed.
  (* ---- what is not given back ---- *)
  Lemma never_shrinks x l i : lst_shows A x l -> 0 <= i < zlen l -> 9 < zlen l -> exists y, remove_at A x i = Ok y /\ cap y = cap x.
  Proof.
    intros S Hi Hl. destruct (remove_at_at A x l i S Hi) as (y & E & _). exists y. split; [exact E|]. pose proof (cap_count x l S). pose proof S as (C & _). apply remove_at_moves in E; [|lia].
    apply E. lia.
  Qed.
  Lemma five_mono a b : a <= b -> five_eighths a <= five_eighths b.
  Proof. unfold five_eighths. lia. Qed.
  Lemma iter_mono n : forall a b, a <= b -> Nat.iter n five_eighths a <= Nat.iter n five_eighths b.
  Proof. induction n as [|n IH]; intros a b H; [exact H|]. change (five_eighths (Nat.iter n five_eighths a) <= five_eighths (Nat.iter n five_eighths b)). apply five_mono. auto. Qed.
  Lemma five_le a : 0 <= a -> 0 <= five_eighths a <= a.
  Proof. unfold five_eighths. lia. Qed.
  Lemma iter_le n : forall a, 0 <= a -> 0 <= Nat.iter n five_eighths a <= a.
  Proof. induction n as [|n IH]; intros a H; [change (0 <= a <= a); lia|]. change (0 <= five_eighths (Nat.iter n five_eighths a) <= a). pose proof (IH a H). pose proof (five_le (Nat.iter n five_eighths a)). lia. Qed.
  Lemma iter_more n m a : 0 <= a -> (n <= m)%nat -> Nat.iter m five_eighths a <= Nat.iter n five_eighths a.
  Proof.
    intros Ha H. induction H as [|m H IH]; [lia|]. change (five_eighths (Nat.iter m five_eighths a) <= Nat.iter n five_eighths a). pose proof (iter_le m a Ha). pose proof (five_le (Nat.iter m five_eighths a)). lia.
  Qed.
  Lemma removing n : forall x l, lst_shows A x l -> length l = n -> forall k, (k <= n)%nat ->
    exists y, remove_first_n A x k = Ok y /\ lst_shows A y (skipn k l) /\ Nat.iter (9 - (n - k)) five_eighths (cap x) <= cap y.
  Proof.
    intros x l S0 L k. induction k as [|k IH]; intros Hk.
    - exists x. split; [reflexivity|]. split; [exact S0|]. pose proof (cap_count x l S0). apply iter_le. lia.
    - destruct IH as (y & E & Sy & P); [lia|]. unfold remove_first_n in *. change (Nat.iter (S k) ?f ?x) with (f (Nat.iter k f x)). cbv beta. rewrite E. cbn [bind].
      assert (zlen (skipn k l) = Z.of_nat (n - k)) as Lk by (unfold zlen; rewrite skipn_length; lia).
      destruct (remove_at_at A y (skipn k l) 0 Sy) as (z & Ez & Sz); [lia|]. rewrite Ez. exists z. split; [reflexivity|].
      split.
      + unfold ztake, zdrop in Sz. change (Z.to_nat 0) with 0%nat in Sz. cbn [firstn app] in Sz. change (Z.to_nat (0 + 1)) with 1%nat in Sz. rewrite skipn_skipn in Sz. replace (S k) with (k + 1)%nat by lia. exact Sz.
      + pose proof (cap_count _ _ Sy) as Hy. pose proof Sy as (C & _). apply remove_at_moves in Ez; [|lia]. destruct Ez as (_ & _ & _ & Q1 & Q2).
        destruct (Nat.le_gt_cases (n - k) 9) as [H9|H9].
        * replace (9 - (n - S k))%nat with (S (9 - (n - k))) by lia. change (five_eighths (Nat.iter (9 - (n - k)) five_eighths (cap x)) <= cap z).
          pose proof (five_mono _ _ P). unfold five_eighths in *. lia.
        * replace (9 - (n - S k))%nat with (9 - (n - k))%nat by lia. rewrite Q2; [exact P|]. lia.
  Qed.
  Lemma emptied x l : lst_shows A x l -> exists y, remove_first_n A x (length l) = Ok y /\ lst_shows A y [] /\ Nat.iter 9 five_eighths (cap x) <= cap y.
  Proof.
    intros S. destruct (removing (length l) x l S eq_refl (length l) (le_n _)) as (y & E & Sy & P). exists y. rewrite skipn_all in Sy. replace (9 - (length l - length l))%nat with 9%nat in P by lia. auto.
  Qed.
  Lemma emptied_cleared x l : lst_shows A x l ->
    (exists y, remove_first_n A x (length l) = Ok y /\ lst_shows A y [] /\ Nat.iter 9 five_eighths (cap x) <= cap y) /\
    exists z, clear A x = Ok z /\ lst_shows A z [] /\ cap z = 0.
  Proof.
    intros S. split; [now apply emptied|]. destruct (clear_ok A x l S) as (z & E & Sz). exists z. split; [exact E|]. split; [exact Sz|]. now apply clear_moves in E.
  Qed.
End Lists.
