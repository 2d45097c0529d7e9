From Verif Require Import Base BaseFacts SrtSpec SrtProofs LzyModel LzySpec.
Open Scope Z_scope.

(* ---- enough fuel -------------------------------------------------------------------- *)
Lemma y_ret X (r : X) : yields (fun _ => Ok r) r.
Proof. now exists 0%nat. Qed.
Lemma y_bind X Y (F : nat -> res X) (G : nat -> X -> res Y) a b :
  yields F a -> yields (fun f => G f a) b -> yields (fun f => bind (F f) (G f)) b.
Proof. intros [N H] [M K]. exists (Nat.max N M). intros f Hf. rewrite H by lia. cbn [bind]. apply K. lia. Qed.
Lemma y_step X (F G : nat -> res X) r : (forall f, F (S f) = G f) -> yields G r -> yields F r.
Proof. intros E [N H]. exists (S N). intros [|f] Hf; [lia|]. rewrite E. apply H. lia. Qed.
Lemma y_ext X (F G : nat -> res X) r : (forall f, F f = G f) -> yields G r -> yields F r.
Proof. intros E [N H]. exists N. intros f Hf. rewrite E. auto. Qed.
Lemma y_fun X (F : nat -> res X) a b : yields F a -> yields F b -> a = b.
Proof. intros [N H] [M K]. specialize (H (Nat.max N M) ltac:(lia)). rewrite K in H by lia. congruence. Qed.

(* ---- what it is for an enumerator to run through a list ------------------------------ *)
Record sim {A : Type} (l : list A) (i0 : Z * Z) (rs : bool) (P : option nat -> enum A -> Prop) : Prop := {
  s_start : 0 <= snd i0 /\ fst i0 <= snd i0 - 1;
  s_bound : forall k e, P (Some k) e -> (k <= length l)%nat;
  s_next : forall k e, P (Some k) e -> (k < length l)%nat -> exists e', yields (fun f => next f e) (true, e') /\ P (Some (S k)) e';
  s_cur : forall k e, P (Some (S k)) e -> exists x, nth_error l k = Some x /\ current e = Ok x;
  s_end : forall e, P (Some (length l)) e -> exists e', yields (fun f => next f e) (false, e') /\ P None e';
  s_done : forall e, P None e -> exists e', yields (fun f => next f e) (false, e') /\ P None e';
  s_idx : forall k e, P (Some k) e -> index e = if (k =? 0)%nat then fst i0 else Z.of_nat k - 1 + snd i0;
  s_reset : rs = true -> forall o e, P o e -> exists e', reset e = Ok e' /\ P (Some 0%nat) e' }.
Definition tracks {A : Type} (l : list A) (i0 : Z * Z) (rs : bool) (e : enum A) : Prop := exists P, sim l i0 rs P /\ P (Some 0%nat) e.

Lemma nth_lt A (l : list A) k : (k < length l)%nat -> exists x, nth_error l k = Some x.
Proof. intros H. destruct (nth_error l k) eqn:E; eauto. apply nth_error_None in E. lia. Qed.
Lemma skipn_cons A (l : list A) k x : nth_error l k = Some x -> skipn k l = x :: skipn (S k) l.
Proof. revert k. induction l as [|a l IH]; intros [|k] E; try discriminate; cbn in *; [congruence|]. now apply IH. Qed.
Lemma firstn_S A (l : list A) k x : nth_error l k = Some x -> firstn (S k) l = firstn k l ++ [x].
Proof. revert k. induction l as [|a l IH]; intros [|k] E; try discriminate; cbn in *; [congruence|]. now rewrite (IH k E). Qed.

Section Run.
  Variable A : Type.
  Variable l : list A.
  Variable i0 : Z * Z.
  Variable rs : bool.
  Variable P : option nat -> enum A -> Prop.
  Variable HS : sim l i0 rs P.
  Lemma fold_ok I (g : I -> A -> I) : forall m k e acc, (length l - k = m)%nat -> P (Some k) e -> yields (fun f => fold_loop f g acc e) (fold_left g (skipn k l) acc).
  Proof.
    induction m as [|m IH]; intros k e acc Hm HP; pose proof (s_bound _ _ _ _ HS _ _ HP).
    - assert (k = length l) by lia. subst k. destruct (s_end _ _ _ _ HS _ HP) as (e' & Y & _). rewrite skipn_all. cbn [fold_left].
      eapply y_step; [intros f; cbn [fold_loop]; reflexivity|]. eapply y_bind; [exact Y|]. apply y_ret.
    - destruct (s_next _ _ _ _ HS _ _ HP) as (e' & Y & HP'); [lia|]. destruct (s_cur _ _ _ _ HS _ _ HP') as (x & Ex & Ec).
      rewrite (skipn_cons _ _ _ _ Ex). cbn [fold_left]. eapply y_step; [intros f; cbn [fold_loop]; reflexivity|].
      eapply y_bind; [exact Y|]. cbv beta iota. rewrite Ec. cbn [bind]. apply IH; auto. lia.
  Qed.
  Lemma drain_ok : forall m k e, (length l - k = m)%nat -> P (Some k) e -> yields (fun f => drain f e) (skipn k l).
  Proof.
    induction m as [|m IH]; intros k e Hm HP; pose proof (s_bound _ _ _ _ HS _ _ HP).
    - assert (k = length l) by lia. subst k. destruct (s_end _ _ _ _ HS _ HP) as (e' & Y & _). rewrite skipn_all.
      eapply y_step; [intros f; cbn [drain]; reflexivity|]. eapply y_bind; [exact Y|]. apply y_ret.
    - destruct (s_next _ _ _ _ HS _ _ HP) as (e' & Y & HP'); [lia|]. destruct (s_cur _ _ _ _ HS _ _ HP') as (x & Ex & Ec).
      rewrite (skipn_cons _ _ _ _ Ex). eapply y_step; [intros f; cbn [drain]; reflexivity|].
      eapply y_bind; [exact Y|]. cbv beta iota. rewrite Ec. cbn [bind]. eapply y_bind; [apply (IH (S k)); auto; lia|]. apply y_ret.
  Qed.
  Lemma count_ok : forall m k e n, (length l - k = m)%nat -> P (Some k) e -> yields (fun f => count_loop f n e) (n + Z.of_nat m).
  Proof.
    induction m as [|m IH]; intros k e n Hm HP; pose proof (s_bound _ _ _ _ HS _ _ HP).
    - assert (k = length l) by lia. subst k. destruct (s_end _ _ _ _ HS _ HP) as (e' & Y & _). rewrite Z.add_0_r.
      eapply y_step; [intros f; cbn [count_loop]; reflexivity|]. eapply y_bind; [exact Y|]. apply y_ret.
    - destruct (s_next _ _ _ _ HS _ _ HP) as (e' & Y & HP'); [lia|]. eapply y_step; [intros f; cbn [count_loop]; reflexivity|].
      eapply y_bind; [exact Y|]. cbv beta iota. replace (n + Z.of_nat (S m)) with (n + 1 + Z.of_nat m) by lia. apply (IH (S k)); auto. lia.
  Qed.
  Lemma next_any o e : P o e -> exists b e', yields (fun f => next f e) (b, e') /\ exists o', P o' e'.
  Proof.
    intros HP. destruct o as [k|].
    - pose proof (s_bound _ _ _ _ HS _ _ HP). destruct (Nat.lt_ge_cases k (length l)).
      + destruct (s_next _ _ _ _ HS _ _ HP) as (e' & Y & HP'); eauto 6.
      + assert (k = length l) by lia. subst k. destruct (s_end _ _ _ _ HS _ HP) as (e' & Y & HP'); eauto 6.
    - destruct (s_done _ _ _ _ HS _ HP) as (e' & Y & HP'); eauto 6.
  Qed.
  Lemma nexts_any m : forall o e, P o e -> exists e', yields (fun f => nexts m f e) e' /\ exists o', P o' e'.
  Proof.
    induction m as [|m IH]; intros o e HP; cbn [nexts]; [exists e; split; [apply y_ret|eauto]|].
    destruct (next_any o e HP) as (b & e' & Y & o' & HP'). destruct (IH o' e' HP') as (e2 & Y2 & R). exists e2. split; auto.
    eapply y_bind; [exact Y|]. exact Y2.
  Qed.
  Lemma skip_ok : forall m k e, P (Some k) e -> (k + m <= length l)%nat -> exists e', yields (fun f => skip_loop (next f) m e) (true, e') /\ P (Some (k + m)%nat) e'.
  Proof.
    induction m as [|m IH]; intros k e HP Hl; cbn [skip_loop].
    - rewrite Nat.add_0_r. exists e. split; [apply y_ret|auto].
    - destruct (s_next _ _ _ _ HS _ _ HP) as (e' & Y & HP'); [lia|]. destruct (IH _ _ HP') as (e2 & Y2 & HP2); [lia|].
      exists e2. split; [eapply y_bind; [exact Y|exact Y2]|]. now replace (k + S m)%nat with (S k + m)%nat by lia.
  Qed.
  Lemma skip_fail : forall m k e, P (Some k) e -> (length l < k + m)%nat -> exists e', yields (fun f => skip_loop (next f) m e) (false, e') /\ P None e'.
  Proof.
    induction m as [|m IH]; intros k e HP Hl; pose proof (s_bound _ _ _ _ HS _ _ HP); [lia|]. cbn [skip_loop].
    destruct (Nat.eq_dec k (length l)) as [->|Nk].
    - destruct (s_end _ _ _ _ HS _ HP) as (e' & Y & HP'). exists e'. split; auto. eapply y_bind; [exact Y|]. apply y_ret.
    - destruct (s_next _ _ _ _ HS _ _ HP) as (e' & Y & HP'); [lia|]. destruct (IH _ _ HP') as (e2 & Y2 & HP2); [lia|].
      exists e2. split; auto. eapply y_bind; [exact Y|exact Y2].
  Qed.
End Run.

Lemma drain_tracks A (l : list A) i0 rs e : tracks l i0 rs e -> yields (fun f => drain f e) l.
Proof. intros (P & S & H). exact (drain_ok A l i0 rs P S _ 0 e eq_refl H). Qed.

(* ---- sources -------------------------------------------------------------------------- *)
Ltac ystep := eapply y_step; [intros ?f; cbn [next]; reflexivity|].

Lemma t_empty A : tracks (@nil A) (-1, 0) true EEmpty.
Proof.
  exists (fun o e => e = EEmpty /\ (o = Some 0%nat \/ o = None)). split; [|auto].
  assert (Y : yields (fun f => next f (@EEmpty A)) (false, EEmpty)) by (ystep; apply y_ret).
  split.
  - cbn [fst snd]; lia.
  - intros k e (-> & [[= ->]|H]); [auto|discriminate].
  - intros k e _ H. cbn in H. lia.
  - intros k e (-> & [[=]|H]). discriminate.
  - intros e (-> & _). exists EEmpty. auto.
  - intros e (-> & _). exists EEmpty. auto.
  - intros k e (-> & [[= ->]|H]); [reflexivity|discriminate].
  - intros _ o e (-> & _). exists EEmpty. auto.
Qed.

Lemma cget_ok A (l : list A) k x : nth_error l k = Some x -> cget l (Z.of_nat k) = Ok x.
Proof. intros H. unfold cget. rewrite znth_nat, H. reflexivity. Qed.

Section Source.
  Variable A : Type.
  Variable l : list A.
  Variable C : Z -> enum A.
  Variable rs : bool.
  Hypothesis HN : forall f i, next (S f) (C i) = Ok ((i + 1 >=? 0) && (i + 1 <? zlen l), C (i + 1)).
  Hypothesis HC : forall i, current (C i) = cget l i.
  Hypothesis HI : forall i, index (C i) = i.
  Hypothesis HR : rs = true -> forall i, reset (C i) = Ok (C (-1)).
  Lemma t_source : tracks l (-1, 0) rs (C (-1)).
  Proof.
    exists (fun o e => match o with Some k => e = C (Z.of_nat k - 1) /\ (k <= length l)%nat | None => exists i, e = C i /\ zlen l <= i end).
    split; [|split; [reflexivity|lia]]. unfold zlen in *. split.
    - cbn [fst snd]; lia.
    - intros k e [-> H]. exact H.
    - intros k e [-> H] Hk. exists (C (Z.of_nat (S k) - 1)). split; [|split; [reflexivity|lia]].
      exists 1%nat. intros [|f] Hf; [lia|]. rewrite HN. replace (Z.of_nat k - 1 + 1) with (Z.of_nat (S k) - 1) by lia. f_equal. f_equal. lia.
    - intros k e [-> H]. destruct (nth_lt _ l k) as (x & Ex); [lia|]. exists x. split; auto. rewrite HC.
      replace (Z.of_nat (S k) - 1) with (Z.of_nat k) by lia. now apply cget_ok.
    - intros e [-> H]. eexists. split; [exists 1%nat; intros [|f] Hf; [lia|]; rewrite HN|].
      { replace ((Z.of_nat (length l) - 1 + 1 >=? 0) && (Z.of_nat (length l) - 1 + 1 <? Z.of_nat (length l))) with false by lia. reflexivity. }
      eexists. split; [reflexivity|]. lia.
    - intros e (i & -> & H). eexists. split; [exists 1%nat; intros [|f] Hf; [lia|]; rewrite HN|].
      { replace ((i + 1 >=? 0) && (i + 1 <? Z.of_nat (length l))) with false by lia. reflexivity. }
      eexists. split; [reflexivity|]. lia.
    - intros k e [-> H]. rewrite HI. destruct k; cbn [Nat.eqb fst snd]; lia.
    - intros E [k|] e H; exists (C (-1)).
      + destruct H as [-> H]. rewrite HR by auto. split; auto. split; [reflexivity|lia].
      + destruct H as (i & -> & H). rewrite HR by auto. split; auto. split; [reflexivity|lia].
  Qed.
End Source.
Lemma t_cont A (l : list A) : tracks l (-1, 0) true (ECont l (-1)).
Proof. apply (t_source A l (ECont l)); reflexivity. Qed.
Lemma t_once A (l : list A) : tracks l (-1, 0) false (EOnce l (-1)).
Proof. apply (t_source A l (EOnce l)); try reflexivity. discriminate. Qed.

Lemma t_reverse A (l : list A) : tracks (rev l) (-1, 0) true (EReverse l (-1)).
Proof.
  exists (fun o e => match o with Some k => e = EReverse l (Z.of_nat k - 1) /\ (k <= length l)%nat | None => exists i, e = EReverse l i /\ zlen l <= i end).
  split; [|split; [reflexivity|lia]]. unfold zlen in *. split; rewrite ?rev_length.
  - cbn [fst snd]; lia.
  - intros k e [-> H]. exact H.
  - intros k e [-> H] Hk. exists (EReverse l (Z.of_nat (S k) - 1)). split; [|split; [reflexivity|lia]].
    exists 1%nat. intros [|f] Hf; [lia|]. cbn [next]. replace (Z.of_nat k - 1 + 1) with (Z.of_nat (S k) - 1) by lia. f_equal. f_equal. unfold zlen. lia.
  - intros k e [-> H]. destruct (nth_lt _ (rev l) k) as (x & Ex); [rewrite rev_length; lia|]. exists x. split; auto. cbn [current].
    unfold zlen. replace (Z.of_nat (length l) - 1 - (Z.of_nat (S k) - 1)) with (Z.of_nat (length l - S k)) by lia.
    apply cget_ok. destruct (nth_lt _ l (length l - S k)) as (y & Ey); [lia|]. rewrite Ey. f_equal.
    assert (D : nth k (rev l) x = x) by (now apply nth_error_nth). rewrite rev_nth in D by lia. rewrite (nth_error_nth _ _ x Ey) in D. congruence.
  - intros e [-> H]. eexists. split; [ystep; unfold zlen|].
    { replace (Z.of_nat (length l) - 1 + 1 <? Z.of_nat (length l)) with false by lia. apply y_ret. }
    eexists. split; [reflexivity|]. lia.
  - intros e (i & -> & H). eexists. split; [ystep; unfold zlen|].
    { replace (i + 1 <? Z.of_nat (length l)) with false by lia. apply y_ret. }
    eexists. split; [reflexivity|]. lia.
  - intros k e [-> H]. destruct k; cbn [index Nat.eqb fst snd]; lia.
  - intros _ [k|] e H; exists (EReverse l (-1)).
    + destruct H as [-> H]. split; auto. split; [reflexivity|lia].
    + destruct H as (i & -> & H). split; auto. split; [reflexivity|lia].
Qed.

Lemma zrange_len s n : length (zrange s n) = Z.to_nat n.
Proof. unfold zrange. now rewrite map_length, seq_length. Qed.

Lemma t_range s n : - 2 ^ 63 < s < 2 ^ 63 -> - 2 ^ 63 < s + n < 2 ^ 63 -> tracks (zrange s n) (-1, 0) true (ERange s n (s - 1)).
Proof.
  intros H1 H2.
  assert (F : fits (s - 1) && fits (s + n) && fits (s + n - 1) = true) by (unfold fits; lia).
  assert (F1 : fits (s - 1) = true) by (unfold fits; lia). clear H1 H2.
  exists (fun o e => exists k, e = ERange s n (s - 1 + Z.of_nat k) /\ (k <= Z.to_nat n)%nat /\ match o with Some k' => k = k' | None => k = Z.to_nat n end).
  split; [split|]; rewrite ?zrange_len.
  - cbn [fst snd]; lia.
  - intros k e (k1 & -> & H & ->). exact H.
  - intros k e (k1 & -> & H & ->) Hk. exists (ERange s n (s - 1 + Z.of_nat (S k))). split; [|exists (S k); split; [reflexivity|split; [lia|reflexivity]]].
    ystep. rewrite F. replace ((s - 1 <=? s - 1 + Z.of_nat k) && (s - 1 + Z.of_nat k <? s + n - 1)) with true by lia.
    replace (s - 1 + Z.of_nat k + 1) with (s - 1 + Z.of_nat (S k)) by lia. apply y_ret.
  - intros k e (k1 & -> & H & ->). exists (s + Z.of_nat k). split.
    + unfold zrange. rewrite nth_error_map, nth_error_nth' with (d := 0%nat) by (rewrite seq_length; lia). rewrite seq_nth by lia. reflexivity.
    + cbn [current]. f_equal. lia.
  - intros e (k1 & -> & H & ->). exists (ERange s n (s - 1 + Z.of_nat (Z.to_nat n))). split; [|exists (Z.to_nat n); auto].
    ystep. rewrite F. replace ((s - 1 <=? s - 1 + Z.of_nat (Z.to_nat n)) && (s - 1 + Z.of_nat (Z.to_nat n) <? s + n - 1)) with false by lia. apply y_ret.
  - intros e (k1 & -> & H & ->). exists (ERange s n (s - 1 + Z.of_nat (Z.to_nat n))). split; [|exists (Z.to_nat n); auto].
    ystep. rewrite F. replace ((s - 1 <=? s - 1 + Z.of_nat (Z.to_nat n)) && (s - 1 + Z.of_nat (Z.to_nat n) <? s + n - 1)) with false by lia. apply y_ret.
  - intros k e (k1 & -> & H & ->). cbn [index]. destruct k; cbn [Nat.eqb fst snd]; lia.
  - intros _ o e (k1 & -> & H & _). exists (ERange s n (s - 1)). cbn [reset]. rewrite F1. split; auto.
    exists 0%nat. split; [f_equal; lia|]. split; [lia|reflexivity].
  - exists 0%nat. split; [f_equal; lia|]. split; [lia|reflexivity].
Qed.

(* ---- stages --------------------------------------------------------------------------- *)
Lemma t_select A B (f : A -> B) l i0 rs e o : tracks l i0 rs e -> tracks (map f l) i0 rs (ESelect e f o).
Proof.
  intros (P & HS & H0).
  exists (fun q x => exists e o, x = ESelect e f o /\ P q e /\ match q with Some (S k) => exists y, nth_error l k = Some y /\ o = Some (f y) | _ => True end).
  split; [split|]; rewrite ?map_length.
  - apply (s_start _ _ _ _ HS).
  - intros k x (e1 & o1 & -> & HP & _). apply (s_bound _ _ _ _ HS _ _ HP).
  - intros k x (e1 & o1 & -> & HP & _) Hk. destruct (s_next _ _ _ _ HS _ _ HP Hk) as (e' & Y & HP'). destruct (s_cur _ _ _ _ HS _ _ HP') as (y & Ey & Ec).
    exists (ESelect e' f (Some (f y))). split; [|exists e', (Some (f y)); eauto]. ystep. eapply y_bind; [exact Y|]. cbv beta iota. rewrite Ec. apply y_ret.
  - intros k x (e1 & o1 & -> & HP & y & Ey & ->). exists (f y). split; [now apply map_nth_error|reflexivity].
  - intros x (e1 & o1 & -> & HP & _). destruct (s_end _ _ _ _ HS _ HP) as (e' & Y & HP').
    exists (ESelect e' f o1). split; [|exists e', o1; auto]. ystep. eapply y_bind; [exact Y|]. apply y_ret.
  - intros x (e1 & o1 & -> & HP & _). destruct (s_done _ _ _ _ HS _ HP) as (e' & Y & HP').
    exists (ESelect e' f o1). split; [|exists e', o1; auto]. ystep. eapply y_bind; [exact Y|]. apply y_ret.
  - intros k x (e1 & o1 & -> & HP & _). cbn [index]. apply (s_idx _ _ _ _ HS _ _ HP).
  - intros R q x (e1 & o1 & -> & HP & _). destruct (s_reset _ _ _ _ HS R _ _ HP) as (e' & E & HP').
    exists (ESelect e' f o1). cbn [reset]. rewrite E. split; [reflexivity|]. exists e', o1. auto.
  - exists e, o. auto.
Qed.

Lemma filter_prefix A (p : A -> bool) (l : list A) j : exists r, filter p l = filter p (firstn j l) ++ r.
Proof. exists (filter p (skipn j l)). now rewrite <- filter_app, firstn_skipn. Qed.

Section Filter.
  Variable A : Type.
  Variable q : A -> bool.
  Variable W : enum A -> Z -> enum A.
  Hypothesis HN : forall f e i, next (S f) (W e i) =
    do (b, e) <- next f e;
    if b then do x <- current e; if q x then Ok (true, W e (i + 1)) else next f (W e i) else Ok (false, W e i).
  Hypothesis HC : forall e i, current (W e i) = current e.
  Hypothesis HI : forall e i, index (W e i) = i.
  Hypothesis HR : forall e i, reset (W e i) = do e <- reset e; Ok (W e (-1)).
  Variable l : list A.
  Variable i0 : Z * Z.
  Variable rs : bool.
  Variable P : option nat -> enum A -> Prop.
  Variable HS : sim l i0 rs P.
  Definition filt (o : option nat) (x : enum A) : Prop :=
    match o with
    | Some k => exists e j, x = W e (Z.of_nat k - 1) /\ P (Some j) e /\ length (filter q (firstn j l)) = k /\
        match k with S k' => exists j' y, j = S j' /\ nth_error l j' = Some y /\ nth_error (filter q l) k' = Some y | O => True end
    | None => exists e i, x = W e i /\ P None e
    end.
  Lemma filt_next : forall m j k e, (length l - j = m)%nat -> P (Some j) e -> length (filter q (firstn j l)) = k -> (k < length (filter q l))%nat ->
    exists e', yields (fun f => next f (W e (Z.of_nat k - 1))) (true, e') /\ filt (Some (S k)) e'.
  Proof.
    induction m as [|m IH]; intros j k e Hm HP Hk Hl.
    - exfalso. pose proof (s_bound _ _ _ _ HS _ _ HP). rewrite firstn_all2 in Hk by lia. lia.
    - destruct (s_next _ _ _ _ HS _ _ HP) as (e' & Y & HP'); [lia|]. destruct (s_cur _ _ _ _ HS _ _ HP') as (y & Ey & Ec).
      destruct (q y) eqn:Eq.
      + exists (W e' (Z.of_nat k)). split.
        * eapply y_step; [intros f; apply HN|]. eapply y_bind; [exact Y|]. cbv beta iota. rewrite Ec. cbn [bind]. rewrite Eq.
          replace (Z.of_nat k - 1 + 1) with (Z.of_nat k) by lia. apply y_ret.
        * exists e', (S j). split; [f_equal; lia|]. split; auto. rewrite (firstn_S _ _ _ _ Ey), filter_app, app_length. cbn [filter]. rewrite Eq. cbn [length].
          split; [lia|]. exists j, y. split; auto. split; auto.
          destruct (filter_prefix A q l (S j)) as (r & E). rewrite E, (firstn_S _ _ _ _ Ey), filter_app. cbn [filter]. rewrite Eq.
          rewrite <- app_assoc, nth_error_app2 by lia. now replace (k - _)%nat with 0%nat by lia.
      + destruct (IH (S j) k e') as (e2 & Y2 & F2); auto; [lia|rewrite (firstn_S _ _ _ _ Ey), filter_app, app_length; cbn [filter]; rewrite Eq; cbn [length]; lia|].
        exists e2. split; auto. eapply y_step; [intros f; apply HN|]. eapply y_bind; [exact Y|]. cbv beta iota. rewrite Ec. cbn [bind]. rewrite Eq. exact Y2.
  Qed.
  Lemma filt_end : forall m j e i, (length l - j = m)%nat -> P (Some j) e -> length (filter q (firstn j l)) = length (filter q l) ->
    exists e', yields (fun f => next f (W e i)) (false, e') /\ filt None e'.
  Proof.
    induction m as [|m IH]; intros j e i Hm HP Hk; pose proof (s_bound _ _ _ _ HS _ _ HP).
    - assert (j = length l) by lia. subst j. destruct (s_end _ _ _ _ HS _ HP) as (e' & Y & HP'). exists (W e' i). split; [|exists e', i; auto].
      eapply y_step; [intros f; apply HN|]. eapply y_bind; [exact Y|]. apply y_ret.
    - destruct (s_next _ _ _ _ HS _ _ HP) as (e' & Y & HP'); [lia|]. destruct (s_cur _ _ _ _ HS _ _ HP') as (y & Ey & Ec).
      destruct (filter_prefix A q l (S j)) as (r & E). assert (El := f_equal (@length A) E). rewrite (firstn_S _ _ _ _ Ey), filter_app, !app_length in El. cbn [filter] in El.
      destruct (q y) eqn:Eq; cbn [length] in El; [exfalso; lia|].
      destruct (IH (S j) e' i) as (e2 & Y2 & F2); auto; [lia|rewrite (firstn_S _ _ _ _ Ey), filter_app, app_length; cbn [filter]; rewrite Eq; cbn [length]; lia|].
      exists e2. split; auto. eapply y_step; [intros f; apply HN|]. eapply y_bind; [exact Y|]. cbv beta iota. rewrite Ec. cbn [bind]. rewrite Eq. exact Y2.
  Qed.
  Lemma filt_sim : sim (filter q l) (-1, 0) rs filt.
  Proof.
    split.
    - cbn [fst snd]; lia.
    - intros k x (e & j & -> & HP & Hk & _). destruct (filter_prefix A q l j) as (r & ->). rewrite app_length. lia.
    - intros k x (e & j & -> & HP & Hk & _) Hl. apply (filt_next _ j k e eq_refl HP Hk Hl).
    - intros k x (e & j & -> & HP & Hk & j' & y & -> & E1 & E2). exists y. split; auto. rewrite HC.
      destruct (s_cur _ _ _ _ HS _ _ HP) as (z & Ez & Ec). congruence.
    - intros x (e & j & -> & HP & Hk & _). apply (filt_end _ j e _ eq_refl HP Hk).
    - intros x (e & i & -> & HP). destruct (s_done _ _ _ _ HS _ HP) as (e' & Y & HP'). exists (W e' i). split; [|exists e', i; auto].
      eapply y_step; [intros f; apply HN|]. eapply y_bind; [exact Y|]. apply y_ret.
    - intros k x (e & j & -> & HP & Hk & _). rewrite HI. destruct k; cbn [Nat.eqb fst snd]; lia.
    - intros R o x Fx. assert (X : exists e i o', x = W e i /\ P o' e) by (destruct o; [destruct Fx as (e & j & -> & HP & _)|destruct Fx as (e & i & -> & HP)]; eauto).
      destruct X as (e & i & o' & -> & HP). destruct (s_reset _ _ _ _ HS R _ _ HP) as (e' & E & HP'). exists (W e' (-1)). rewrite HR, E. split; [reflexivity|].
      exists e', 0%nat. cbn [firstn filter length]. auto.
  Qed.
End Filter.
Lemma t_where A (p : A -> bool) l i0 rs e : tracks l i0 rs e -> tracks (filter p l) (-1, 0) rs (EWhere e p (-1)).
Proof.
  intros (P & HS & H0). exists (filt A p (fun e i => EWhere e p i) l P). split; [apply filt_sim with i0; auto|].
  exists e, 0%nat. auto.
Qed.
Lemma t_intexc A (c : A -> A -> comparison) r b l i0 rs e : tracks l i0 rs e ->
  tracks (filter (fun x => Bool.eqb (contains c r x) b) l) (-1, 0) rs (EIntExc e c r b (-1)).
Proof.
  intros (P & HS & H0). exists (filt A (fun x => Bool.eqb (contains c r x) b) (fun e i => EIntExc e c r b i) l P). split; [apply filt_sim with i0; auto|].
  exists e, 0%nat. auto.
Qed.

Lemma t_concat A (l1 l2 : list A) i1 i2 rs1 rs2 e1 e2 : tracks l1 i1 rs1 e1 -> tracks l2 i2 rs2 e2 ->
  tracks (l1 ++ l2) (-1, 0) (rs1 && rs2) (EConcat e1 e2 (-1) false).
Proof.
  intros (P1 & S1 & H1) (P2 & S2 & H2).
  exists (fun o x => exists e1 e2 i t, x = EConcat e1 e2 i t /\ match o with
    | Some k => i = Z.of_nat k - 1 /\ (t = false /\ P1 (Some k) e1 /\ P2 (Some 0%nat) e2 \/
        t = true /\ exists m, k = (length l1 + S m)%nat /\ (exists o, P1 o e1) /\ P2 (Some (S m)) e2)
    | None => t = true /\ (exists o, P1 o e1) /\ P2 None e2 end).
  split; [split|].
  - cbn [fst snd]; lia.
  - intros k x (a & b & i & t & -> & -> & [(-> & Ha & Hb)|(-> & m & -> & Ha & Hb)]); rewrite app_length.
    + pose proof (s_bound _ _ _ _ S1 _ _ Ha). lia.
    + pose proof (s_bound _ _ _ _ S2 _ _ Hb). lia.
  - intros k x (a & b & i & t & -> & -> & [(-> & Ha & Hb)|(-> & m & -> & Ha & Hb)]) Hk; rewrite app_length in Hk.
    + pose proof (s_bound _ _ _ _ S1 _ _ Ha). destruct (Nat.eq_dec k (length l1)) as [->|Nk].
      * destruct (s_end _ _ _ _ S1 _ Ha) as (a' & Y & Ha'). destruct (s_next _ _ _ _ S2 _ _ Hb) as (b' & Y2 & Hb'); [lia|].
        exists (EConcat a' b' (Z.of_nat (length l1)) true). split.
        -- ystep. eapply y_bind; [exact Y|]. cbv beta iota. eapply y_bind; [exact Y2|]. cbv beta iota.
           replace (Z.of_nat (length l1) - 1 + 1) with (Z.of_nat (length l1)) by lia. apply y_ret.
        -- exists a', b', (Z.of_nat (length l1)), true. split; auto. split; [lia|]. right. split; auto. exists 0%nat. split; [lia|]. eauto.
      * destruct (s_next _ _ _ _ S1 _ _ Ha) as (a' & Y & Ha'); [lia|]. exists (EConcat a' b (Z.of_nat k) false). split.
        -- ystep. eapply y_bind; [exact Y|]. cbv beta iota. replace (Z.of_nat k - 1 + 1) with (Z.of_nat k) by lia. apply y_ret.
        -- exists a', b, (Z.of_nat k), false. split; auto. split; [lia|]. left. auto.
    + destruct (s_next _ _ _ _ S2 _ _ Hb) as (b' & Y2 & Hb'); [lia|]. exists (EConcat a b' (Z.of_nat (length l1 + S m)) true). split.
      * ystep. eapply y_bind; [exact Y2|]. cbv beta iota. replace (Z.of_nat (length l1 + S m) - 1 + 1) with (Z.of_nat (length l1 + S m)) by lia. apply y_ret.
      * do 4 eexists. split; [reflexivity|]. split; [lia|]. right. split; auto. exists (S m). split; [lia|]. auto.
  - intros k x (a & b & i & t & -> & -> & [(-> & Ha & Hb)|(-> & m & Ek & Ha & Hb)]); cbn [current].
    + destruct (s_cur _ _ _ _ S1 _ _ Ha) as (y & Ey & Ec). exists y. split; auto. rewrite nth_error_app1; auto. apply nth_error_Some. congruence.
    + destruct (s_cur _ _ _ _ S2 _ _ Hb) as (y & Ey & Ec). exists y. split; auto. rewrite nth_error_app2 by lia. now replace (k - length l1)%nat with m by lia.
  - intros x (a & b & i & t & -> & -> & [(-> & Ha & Hb)|(-> & m & Ek & Ha & Hb)]); rewrite app_length in *.
    + pose proof (s_bound _ _ _ _ S1 _ _ Ha) as L. assert (length l2 = 0%nat) by lia. replace (length l1 + length l2)%nat with (length l1) in * by lia.
      destruct (s_end _ _ _ _ S1 _ Ha) as (a' & Y & Ha'). replace 0%nat with (length l2) in Hb. destruct (s_end _ _ _ _ S2 _ Hb) as (b' & Y2 & Hb').
      eexists. split; [|do 4 eexists; split; [reflexivity|split; [reflexivity|eauto]]].
      ystep. eapply y_bind; [exact Y|]. cbv beta iota. eapply y_bind; [exact Y2|]. apply y_ret.
    + replace (S m) with (length l2) in Hb by lia. destruct (s_end _ _ _ _ S2 _ Hb) as (b' & Y2 & Hb').
      eexists. split; [|do 4 eexists; split; [reflexivity|split; [reflexivity|eauto]]]. ystep. eapply y_bind; [exact Y2|]. apply y_ret.
  - intros x (a & b & i & t & -> & -> & Ha & Hb). destruct (s_done _ _ _ _ S2 _ Hb) as (b' & Y2 & Hb').
    eexists. split; [|do 4 eexists; split; [reflexivity|split; [reflexivity|eauto]]]. ystep. eapply y_bind; [exact Y2|]. apply y_ret.
  - intros k x (a & b & i & t & -> & -> & _). cbn [index]. destruct k; cbn [Nat.eqb fst snd]; lia.
  - intros R o x (a & b & i & t & -> & H). apply andb_true_iff in R as [R1 R2].
    assert (X : (exists o, P1 o a) /\ exists o, P2 o b) by (destruct o; [destruct H as (_ & [(_ & ? & ?)|(_ & m & _ & ? & ?)])|destruct H as (_ & ? & ?)]; eauto).
    destruct X as ((o1 & Ha) & o2 & Hb). destruct (s_reset _ _ _ _ S1 R1 _ _ Ha) as (a' & Ea & Ha'). destruct (s_reset _ _ _ _ S2 R2 _ _ Hb) as (b' & Eb & Hb').
    eexists. cbn [reset]. rewrite Ea. cbn [bind]. rewrite Eb. cbn [bind]. split; [reflexivity|]. do 4 eexists. split; [reflexivity|]. split; [reflexivity|]. auto.
  - do 4 eexists. split; [reflexivity|]. split; [reflexivity|]. auto.
Qed.

Lemma t_take_exact A (l : list A) n i0 rs e : tracks l i0 rs e -> tracks (firstn (taken (fst i0) (snd i0) n) l) i0 rs (ETake e n).
Proof.
  intros (P & HS & H0). pose proof (s_start _ _ _ _ HS) as Hi. set (c := taken (fst i0) (snd i0) n).
  assert (Hc : (fst i0 >= n - 1 /\ c = 0%nat) \/ (fst i0 < n - 1 /\ c = Z.to_nat (Z.max 1 (n - snd i0)))) by (unfold c, taken; destruct (fst i0 >=? n - 1) eqn:G; [left|right]; lia).
  clearbody c.
  exists (fun o x => exists e, x = ETake e n /\ match o with
    | Some k => P (Some k) e /\ (k <= length (firstn (c) l))%nat
    | None => P None e \/ exists k, P (Some k) e /\ n - 1 <= index e end).
  assert (L : length (firstn (c) l) = Nat.min (c) (length l)) by apply firstn_length.
  split; [split|]; rewrite ?L.
  - auto.
  - intros k x (a & -> & _ & H). lia.
  - intros k x (a & -> & HP & _) Hk. destruct (s_next _ _ _ _ HS _ _ HP) as (a' & Y & HP'); [lia|]. exists (ETake a' n). split.
    + ystep. pose proof (s_idx _ _ _ _ HS _ _ HP) as E. replace (index a >=? n - 1) with false by (destruct (Nat.eqb_spec k 0); lia).
      eapply y_bind; [exact Y|]. apply y_ret.
    + exists a'. repeat split; auto; lia.
  - intros k x (a & -> & HP & Hk). destruct (s_cur _ _ _ _ HS _ _ HP) as (y & Ey & Ec). exists y. split; auto.
    rewrite <- Ey. rewrite <- (firstn_skipn (c) l) at 2. rewrite nth_error_app1; auto. lia.
  - intros x (a & -> & HP & _). pose proof (s_idx _ _ _ _ HS _ _ HP) as E.
    destruct (index a >=? n - 1) eqn:G.
    + exists (ETake a n). split; [ystep; rewrite G; apply y_ret|]. exists a. split; auto. right. exists (Nat.min (c) (length l)). split; auto. lia.
    + assert (X : Nat.min (c) (length l) = length l) by (destruct (Nat.eqb_spec (Nat.min (c) (length l)) 0); lia). rewrite X in *.
      destruct (s_end _ _ _ _ HS _ HP) as (a' & Y & HP'). exists (ETake a' n). split; [|exists a'; auto].
      ystep. rewrite G. eapply y_bind; [exact Y|]. apply y_ret.
  - intros x (a & -> & HP). destruct (index a >=? n - 1) eqn:G.
    + exists (ETake a n). split; [ystep; rewrite G; apply y_ret|]. exists a. auto.
    + destruct HP as [HP|(k & HP & Hx)]; [|lia]. destruct (s_done _ _ _ _ HS _ HP) as (a' & Y & HP'). exists (ETake a' n). split; [|exists a'; auto].
      ystep. rewrite G. eapply y_bind; [exact Y|]. apply y_ret.
  - intros k x (a & -> & HP & _). cbn [index]. apply (s_idx _ _ _ _ HS _ _ HP).
  - intros R o x (a & -> & H). assert (X : exists o, P o a) by (destruct o; [destruct H|destruct H as [|(? & ? & ?)]]; eauto).
    destruct X as (o' & HP). destruct (s_reset _ _ _ _ HS R _ _ HP) as (a' & E & HP'). exists (ETake a' n). cbn [reset]. rewrite E. split; [reflexivity|].
    exists a'. repeat split; auto; lia.
  - exists e. repeat split; auto; lia.
Qed.

Lemma taken_plain s h n : h = 0 -> s <= -1 -> 1 <= n \/ s = -1 -> taken s h n = Z.to_nat n.
Proof. intros -> Hs Hn. unfold taken. destruct (s >=? n - 1) eqn:G; lia. Qed.
Lemma t_take A (l : list A) n i0 rs e : tracks l i0 rs e -> snd i0 = 0 -> 1 <= n \/ fst i0 = -1 -> tracks (firstn (Z.to_nat n) l) i0 rs (ETake e n).
Proof.
  intros H E Hn. assert (Hi : fst i0 <= -1) by (destruct H as (P & HS & _); pose proof (s_start _ _ _ _ HS); lia).
  rewrite <- (taken_plain (fst i0) (snd i0) n); auto. now apply t_take_exact.
Qed.

Lemma nth_skipn A (l : list A) n k : nth_error (skipn n l) k = nth_error l (n + k).
Proof. revert n. induction l as [|a l IH]; intros [|n]; cbn [skipn Nat.add nth_error]; auto. now destruct k. Qed.
Lemma t_skip A (l : list A) n i0 rs e : tracks l i0 rs e -> tracks (skipn (Z.to_nat n) l) (fst i0 - n, snd i0 + Z.max 0 (- n)) rs (ESkip e n false).
Proof.
  intros (P & HS & H0). pose proof (s_start _ _ _ _ HS) as Hi.
  exists (fun o x => exists e s, x = ESkip e n s /\ match o with
    | Some 0%nat => s = false /\ P (Some 0%nat) e
    | Some k => s = true /\ P (Some (Z.to_nat n + k)%nat) e
    | None => s = true /\ P None e end).
  assert (L : length (skipn (Z.to_nat n) l) = (length l - Z.to_nat n)%nat) by apply skipn_length.
  split; [split|]; rewrite ?L.
  - cbn [fst snd]; lia.
  - intros [|k] x (a & s & -> & -> & HP); [lia|]. pose proof (s_bound _ _ _ _ HS _ _ HP). lia.
  - intros [|k] x (a & s & -> & -> & HP) Hk.
    + destruct (skip_ok _ _ _ _ _ HS (Z.to_nat n) _ _ HP) as (a' & Y & HP'); [lia|]. destruct (s_next _ _ _ _ HS _ _ HP') as (a2 & Y2 & HP2); [lia|].
      exists (ESkip a2 n true). split.
      * ystep. eapply y_bind; [exact Y|]. cbv beta iota. eapply y_bind; [exact Y2|]. apply y_ret.
      * exists a2, true. split; auto. split; auto. now replace (Z.to_nat n + 1)%nat with (S (0 + Z.to_nat n)) by lia.
    + destruct (s_next _ _ _ _ HS _ _ HP) as (a2 & Y2 & HP2); [lia|]. exists (ESkip a2 n true). split.
      * ystep. eapply y_bind; [exact Y2|]. apply y_ret.
      * exists a2, true. split; auto. split; auto. now replace (Z.to_nat n + S (S k))%nat with (S (Z.to_nat n + S k)) by lia.
  - intros k x (a & s & -> & -> & HP). replace (Z.to_nat n + S k)%nat with (S (Z.to_nat n + k)) in HP by lia. destruct (s_cur _ _ _ _ HS _ _ HP) as (y & Ey & Ec). exists y.
    split; auto. now rewrite nth_skipn.
  - intros x (a & s & -> & H). destruct (length l - Z.to_nat n)%nat as [|k] eqn:Ek; destruct H as [-> HP].
    + destruct (Nat.eq_dec (length l) (Z.to_nat n)) as [El|Nl].
      * destruct (skip_ok _ _ _ _ _ HS (Z.to_nat n) _ _ HP) as (a' & Y & HP'); [lia|]. cbn [Nat.add] in HP'. rewrite <- El in HP'.
        destruct (s_end _ _ _ _ HS _ HP') as (a2 & Y2 & HP2). exists (ESkip a2 n true). split; [|exists a2, true; auto].
        ystep. eapply y_bind; [exact Y|]. cbv beta iota. eapply y_bind; [exact Y2|]. apply y_ret.
      * destruct (skip_fail _ _ _ _ _ HS (Z.to_nat n) _ _ HP) as (a' & Y & HP'); [lia|]. exists (ESkip a' n true). split; [|exists a', true; auto].
        ystep. eapply y_bind; [exact Y|]. apply y_ret.
    + replace (Z.to_nat n + S k)%nat with (length l) in HP by lia. destruct (s_end _ _ _ _ HS _ HP) as (a2 & Y2 & HP2). exists (ESkip a2 n true).
      split; [|exists a2, true; auto]. ystep. eapply y_bind; [exact Y2|]. apply y_ret.
  - intros x (a & s & -> & -> & HP). destruct (s_done _ _ _ _ HS _ HP) as (a2 & Y2 & HP2). exists (ESkip a2 n true).
    split; [|exists a2, true; auto]. ystep. eapply y_bind; [exact Y2|]. apply y_ret.
  - intros [|k] x (a & s & -> & -> & HP); cbn [index]; rewrite (s_idx _ _ _ _ HS _ _ HP); cbn [Nat.eqb fst snd]; [lia|].
    replace ((Z.to_nat n + S k =? 0)%nat) with false by lia. lia.
  - intros R o x (a & s & -> & H). assert (X : exists o, P o a) by (destruct o as [[|k]|]; destruct H; eauto).
    destruct X as (o' & HP). destruct (s_reset _ _ _ _ HS R _ _ HP) as (a' & E & HP'). exists (ESkip a' n false). cbn [reset]. rewrite E. split; [reflexivity|].
    exists a', false. auto.
  - exists e, false. auto.
Qed.

(* ---- Repeat ----------------------------------------------------------------------------- *)
Lemma times_len A n (l : list A) : length (times n l) = (Z.to_nat n * length l)%nat.
Proof. unfold times. induction (Z.to_nat n) as [|k IH]; cbn [repeat concat]; auto. rewrite app_length, IH. lia. Qed.
Lemma times_nth A (l : list A) : forall m r j, (r < m)%nat -> (j < length l)%nat -> nth_error (concat (repeat l m)) (r * length l + j) = nth_error l j.
Proof.
  induction m as [|m IH]; intros r j Hr Hj; [lia|]. cbn [repeat concat]. destruct r as [|r].
  - cbn [Nat.mul Nat.add]. now apply nth_error_app1.
  - rewrite nth_error_app2 by lia. replace (S r * length l + j - length l)%nat with (r * length l + j)%nat by lia. apply IH; lia.
Qed.
Section Repeat.
  Variable A : Type.
  Variable l : list A.
  Variable i0 : Z * Z.
  Variable n : Z.
  Variable P : option nat -> enum A -> Prop.
  Variable HS : sim l i0 true P.
  Definition rept (o : option nat) (x : enum A) : Prop :=
    match o with
    | Some k => exists e r j, x = ERepeat e n (Z.of_nat k - 1) (Z.of_nat r) /\ P (Some j) e /\ k = (r * length l + j)%nat /\
        (k = 0%nat /\ r = 0%nat \/ (0 < j)%nat /\ (r < Z.to_nat n)%nat)
    | None => exists e i r o, x = ERepeat e n i r /\ P o e /\ n <= r
    end.
  Lemma rept_end : forall m r e i, (Z.to_nat n - r = S m)%nat -> P (Some (length l)) e -> (length l = 0)%nat \/ m = 0%nat ->
    exists e', yields (fun f => next f (ERepeat e n i (Z.of_nat r))) (false, e') /\ rept None e'.
  Proof.
    induction m as [|m IH]; intros r e i Hm HP Hl.
    - destruct (s_end _ _ _ _ HS _ HP) as (e' & Y & HP'). destruct (s_reset _ _ _ _ HS eq_refl _ _ HP') as (e2 & E & HP2).
      exists (ERepeat e2 n i (Z.of_nat r + 1)). split.
      + ystep. replace (Z.of_nat r <? n) with true by lia. eapply y_bind; [exact Y|]. cbv beta iota. rewrite E. cbn [bind].
        ystep. replace (Z.of_nat r + 1 <? n) with false by lia. apply y_ret.
      + do 4 eexists. split; [reflexivity|]. split; [exact HP2|]. lia.
    - destruct Hl as [Hl|Hl]; [|lia]. destruct (s_end _ _ _ _ HS _ HP) as (e' & Y & HP'). destruct (s_reset _ _ _ _ HS eq_refl _ _ HP') as (e2 & E & HP2).
      destruct (IH (S r) e2 i) as (e3 & Y3 & R3); [lia|now rewrite Hl|auto|]. exists e3. split; auto.
      ystep. replace (Z.of_nat r <? n) with true by lia. eapply y_bind; [exact Y|]. cbv beta iota. rewrite E. cbn [bind].
      now replace (Z.of_nat r + 1) with (Z.of_nat (S r)) by lia.
  Qed.
  Lemma rept_sim : sim (times n l) (-1, 0) true rept.
  Proof.
    split.
    - cbn [fst snd]; lia.
    - intros k x (e & r & j & -> & HP & -> & H). rewrite times_len. pose proof (s_bound _ _ _ _ HS _ _ HP). destruct H as [[H1 H2]|[H1 H2]]; nia.
    - intros k x (e & r & j & -> & HP & Ek & H) Hk. rewrite times_len in Hk. pose proof (s_bound _ _ _ _ HS _ _ HP) as B.
      assert (Hr : (r < Z.to_nat n)%nat) by (destruct H as [[H1 ->]|]; lia).
      destruct (Nat.eq_dec j (length l)) as [Ej|Nj].
      + subst j. destruct (s_end _ _ _ _ HS _ HP) as (e' & Y & HP'). destruct (s_reset _ _ _ _ HS eq_refl _ _ HP') as (e2 & E & HP2).
        assert (0 < length l)%nat by lia. assert (S r < Z.to_nat n)%nat by nia.
        destruct (s_next _ _ _ _ HS _ _ HP2) as (e3 & Y3 & HP3); [lia|].
        exists (ERepeat e3 n (Z.of_nat (S k) - 1) (Z.of_nat (S r))). split.
        * ystep. replace (Z.of_nat r <? n) with true by lia. eapply y_bind; [exact Y|]. cbv beta iota. rewrite E. cbn [bind].
          ystep. replace (Z.of_nat r + 1 <? n) with true by lia. eapply y_bind; [exact Y3|]. cbv beta iota.
          replace (Z.of_nat k - 1 + 1) with (Z.of_nat (S k) - 1) by lia. replace (Z.of_nat r + 1) with (Z.of_nat (S r)) by lia. apply y_ret.
        * exists e3, (S r), 1%nat. split; auto. split; auto. split; [lia|]. right. lia.
      + destruct (s_next _ _ _ _ HS _ _ HP) as (e3 & Y3 & HP3); [lia|]. exists (ERepeat e3 n (Z.of_nat (S k) - 1) (Z.of_nat r)). split.
        * ystep. replace (Z.of_nat r <? n) with true by lia. eapply y_bind; [exact Y3|]. cbv beta iota.
          replace (Z.of_nat k - 1 + 1) with (Z.of_nat (S k) - 1) by lia. apply y_ret.
        * exists e3, r, (S j). split; auto. split; auto. split; [lia|]. right. lia.
    - intros k x (e & r & j & -> & HP & Ek & H). destruct H as [[H _]|[H1 H2]]; [lia|]. destruct j as [|j]; [lia|].
      pose proof (s_bound _ _ _ _ HS _ _ HP) as B. destruct (s_cur _ _ _ _ HS _ _ HP) as (y & Ey & Ec). exists y. split; auto.
      unfold times. replace k with (r * length l + j)%nat by lia. rewrite times_nth; auto; lia.
    - intros x (e & r & j & -> & HP & Ek & H). rewrite times_len in *. pose proof (s_bound _ _ _ _ HS _ _ HP) as B.
      destruct (Nat.eq_dec (Z.to_nat n) 0) as [N0|N0].
      + eexists. split; [ystep; replace (Z.of_nat r <? n) with false by lia; apply y_ret|].
        do 4 eexists. split; [reflexivity|]. split; [exact HP|]. lia.
      + assert (Hr : (r < Z.to_nat n)%nat) by (destruct H as [[H1 ->]|]; lia).
        assert (j = length l /\ (length l = 0%nat \/ S r = Z.to_nat n)) as [-> D].
        { destruct (Nat.eq_dec (length l) 0) as [L0|L0]; [split; [lia|auto]|]. assert (Z.to_nat n * length l <= S r * length l)%nat by lia. 
          assert (Z.to_nat n <= S r)%nat by nia. assert (S r = Z.to_nat n) by lia. split; [nia|auto]. }
        destruct (rept_end (Z.to_nat n - S r) r e (Z.of_nat (Z.to_nat n * length l) - 1)) as (e' & Y & R); auto; try lia. eauto.
    - intros x (e & i & r & o & -> & HP & Hr). eexists. split; [ystep; replace (r <? n) with false by lia; apply y_ret|].
      do 4 eexists. split; [reflexivity|]. eauto.
    - intros k x (e & r & j & -> & _). cbn [index]. destruct k; cbn [Nat.eqb fst snd]; lia.
    - intros _ o x H. assert (X : exists e i r o, x = ERepeat e n i r /\ P o e).
      { destruct o; [destruct H as (e & r & j & -> & HP & _)|destruct H as (e & i & r & o & -> & HP & _)]; eauto 6. }
      destruct X as (e & i & r & o' & -> & HP). destruct (s_reset _ _ _ _ HS eq_refl _ _ HP) as (e2 & E & HP2).
      exists (ERepeat e2 n (-1) 0). cbn [reset]. rewrite E. split; [reflexivity|]. exists e2, 0%nat, 0%nat. split; [reflexivity|]. split; auto.
  Qed.
End Repeat.
Lemma t_repeat A (l : list A) n i0 e : tracks l i0 true e -> tracks (times n l) (-1, 0) true (ERepeat e n (-1) 0).
Proof.
  intros (P & HS & H0). exists (rept A l n P). split; [eapply rept_sim; eauto|]. exists e, 0%nat, 0%nat. split; [reflexivity|]. auto.
Qed.
Lemma t_repeat0 A (l : list A) n i0 rs e : tracks l i0 rs e -> n <= 0 -> tracks (times n l) (-1, 0) rs (ERepeat e n (-1) 0).
Proof.
  intros (P & HS & H0) Hn. assert (times n l = []) as -> by (unfold times; now replace (Z.to_nat n) with 0%nat by lia).
  exists (fun o x => exists e o', x = ERepeat e n (-1) 0 /\ P o' e /\ (o = Some 0%nat \/ o = None)).
  assert (Y : forall e : enum A, yields (fun f => next f (ERepeat e n (-1) 0)) (false, ERepeat e n (-1) 0)) by (intros; ystep; replace (0 <? n) with false by lia; apply y_ret).
  split; [split|].
  - cbn [fst snd]; lia.
  - intros k x (a & o' & -> & HP & [[= ->]|H]); [auto|discriminate].
  - intros k x _ H. cbn in H. lia.
  - intros k x (a & o' & -> & HP & [[=]|H]). discriminate.
  - intros x (a & o' & -> & HP & _). eauto 8.
  - intros x (a & o' & -> & HP & _). eauto 8.
  - intros k x (a & o' & -> & HP & [[= ->]|H]); [auto|discriminate].
  - intros R o x (a & o' & -> & HP & _). destruct (s_reset _ _ _ _ HS R _ _ HP) as (e2 & E & HP2). exists (ERepeat e2 n (-1) 0). cbn [reset]. rewrite E.
    split; [reflexivity|]. eauto 8.
  - eauto 8.
Qed.

(* ---- Distinct ---------------------------------------------------------------------------- *)
Section Distinct.
  Variable A : Type.
  Variable c : A -> A -> comparison.
  Hypothesis TO : total_order c.
  Lemma same_refl a : same c a a = true.
  Proof. unfold same. pose proof (to_opp c TO a a) as H. destruct (c a a); auto; discriminate. Qed.
  Lemma same_sym a b : same c a b = same c b a.
  Proof. unfold same. rewrite (to_opp c TO a b). now destruct (c a b). Qed.
  Lemma same_trans a b d : same c a b = true -> same c b d = true -> same c a d = true.
  Proof.
    unfold same. intros H1 H2. pose proof (to_opp c TO a b) as O1. pose proof (to_opp c TO b d) as O2. pose proof (to_opp c TO a d) as O3.
    destruct (c a b) eqn:E1; try discriminate. destruct (c b d) eqn:E2; try discriminate.
    pose proof (to_trans c TO a b d) as T1. pose proof (to_trans c TO d b a) as T2. rewrite E1, E2 in T1. rewrite O2, O1, O3 in T2. cbn [CompOpp] in T2.
    destruct (c a d) eqn:E3; auto; exfalso; [apply T2|apply T1]; try discriminate; reflexivity.
  Qed.
  Lemma contains_app l m x : contains c (l ++ m) x = contains c l x || contains c m x.
  Proof. apply existsb_app. Qed.
  Lemma contains_In l x : contains c l x = true <-> exists y, In y l /\ same c y x = true.
  Proof. apply existsb_exists. Qed.
  Lemma contains_cons a l x : contains c (a :: l) x = same c a x || contains c l x.
  Proof. reflexivity. Qed.
  Lemma contains_filter_not l a x : same c a x = false -> contains c (filter (fun y => negb (same c a y)) l) x = contains c l x.
  Proof.
    intros E. apply eq_true_iff_eq. rewrite !contains_In. split; intros (y & Hy & E1).
    - apply filter_In in Hy as [Hy _]. eauto.
    - exists y. split; auto. apply filter_In. split; auto. destruct (same c a y) eqn:E2; auto. now rewrite (same_trans _ _ _ E2 E1) in E.
  Qed.
  Lemma contains_distinct l x : contains c (distinct c l) x = contains c l x.
  Proof.
    induction l as [|a l IH]; cbn [distinct]; auto. rewrite !contains_cons. destruct (same c a x) eqn:E; cbn [orb]; auto. rewrite <- IH.
    now apply contains_filter_not.
  Qed.
  Lemma distinct_snoc l x : distinct c (l ++ [x]) = if contains c (distinct c l) x then distinct c l else distinct c l ++ [x].
  Proof.
    induction l as [|a l IH]; cbn [app distinct]; auto. rewrite contains_cons.
    destruct (same c a x) eqn:E.
    - cbn [orb]. rewrite IH. destruct (contains c (distinct c l) x); auto. rewrite filter_app. cbn [filter]. rewrite E. cbn [negb]. now rewrite app_nil_r.
    - cbn [orb]. rewrite IH, contains_filter_not by auto.
      destruct (contains c (distinct c l) x); auto. rewrite filter_app. cbn [filter]. rewrite E. reflexivity.
  Qed.
  Lemma distinct_prefix l m : exists r, distinct c (l ++ m) = distinct c l ++ r.
  Proof.
    induction l as [|a l IH]; cbn [app distinct]; eauto. destruct IH as (r & ->). rewrite filter_app. eauto.
  Qed.
  Lemma distinct_first l j : exists r, distinct c l = distinct c (firstn j l) ++ r.
  Proof. destruct (distinct_prefix (firstn j l) (skipn j l)) as (r & E). rewrite firstn_skipn in E. eauto. Qed.
  Lemma contains_rev l x : contains c (rev l) x = contains c l x.
  Proof. apply eq_true_iff_eq. rewrite !contains_In. split; intros (y & Hy & E); exists y; (split; [|auto]); now apply in_rev; rewrite ?rev_involutive. Qed.

  Variable l : list A.
  Variable i0 : Z * Z.
  Variable rs : bool.
  Variable P : option nat -> enum A -> Prop.
  Variable HS : sim l i0 rs P.
  Definition dist (o : option nat) (x : enum A) : Prop :=
    exists e d v, x = EDistinct e c d v /\ match o with
    | Some k => exists j, P (Some j) e /\ d = rev (distinct c (firstn j l)) /\ length d = k /\
        match k with S k' => exists y, nth_error (distinct c l) k' = Some y /\ v = Some y | O => True end
    | None => P None e end.
  Lemma dist_next : forall m j e v, (length l - j = m)%nat -> P (Some j) e -> (length (distinct c (firstn j l)) < length (distinct c l))%nat ->
    exists e', yields (fun f => next f (EDistinct e c (rev (distinct c (firstn j l))) v)) (true, e') /\ dist (Some (S (length (distinct c (firstn j l))))) e'.
  Proof.
    induction m as [|m IH]; intros j e v Hm HP Hl.
    - exfalso. pose proof (s_bound _ _ _ _ HS _ _ HP). rewrite firstn_all2 in Hl by lia. lia.
    - destruct (s_next _ _ _ _ HS _ _ HP) as (e' & Y & HP'); [lia|]. destruct (s_cur _ _ _ _ HS _ _ HP') as (y & Ey & Ec).
      pose proof (distinct_snoc (firstn j l) y) as ED. rewrite <- (firstn_S _ _ _ _ Ey) in ED.
      destruct (contains c (distinct c (firstn j l)) y) eqn:Eq.
      + destruct (IH (S j) e' v) as (e2 & Y2 & F2); auto; [lia|now rewrite ED|]. rewrite ED in Y2, F2. exists e2. split; auto.
        ystep. eapply y_bind; [exact Y|]. cbv beta iota. rewrite Ec. cbn [bind]. rewrite contains_rev, Eq. exact Y2.
      + eexists. split.
        * ystep. eapply y_bind; [exact Y|]. cbv beta iota. rewrite Ec. cbn [bind]. rewrite contains_rev, Eq. apply y_ret.
        * do 3 eexists. split; [reflexivity|]. exists (S j). split; auto. rewrite ED, rev_app_distr. split; [reflexivity|]. split; [cbn [length]; now rewrite rev_length|].
          exists y. split; auto. destruct (distinct_first l (S j)) as (r & E). rewrite E, ED, <- app_assoc, nth_error_app2 by lia. now rewrite Nat.sub_diag.
  Qed.
  Lemma dist_end : forall m j e v, (length l - j = m)%nat -> P (Some j) e -> length (distinct c (firstn j l)) = length (distinct c l) ->
    exists e', yields (fun f => next f (EDistinct e c (rev (distinct c (firstn j l))) v)) (false, e') /\ dist None e'.
  Proof.
    induction m as [|m IH]; intros j e v Hm HP Hl; pose proof (s_bound _ _ _ _ HS _ _ HP).
    - assert (j = length l) by lia. subst j. destruct (s_end _ _ _ _ HS _ HP) as (e' & Y & HP'). eexists. split; [|do 3 eexists; split; [reflexivity|exact HP']].
      ystep. eapply y_bind; [exact Y|]. apply y_ret.
    - destruct (s_next _ _ _ _ HS _ _ HP) as (e' & Y & HP'); [lia|]. destruct (s_cur _ _ _ _ HS _ _ HP') as (y & Ey & Ec).
      pose proof (distinct_snoc (firstn j l) y) as ED. rewrite <- (firstn_S _ _ _ _ Ey) in ED.
      destruct (contains c (distinct c (firstn j l)) y) eqn:Eq.
      + destruct (IH (S j) e' v) as (e2 & Y2 & F2); auto; [lia|now rewrite ED|]. rewrite ED in Y2. exists e2. split; auto.
        ystep. eapply y_bind; [exact Y|]. cbv beta iota. rewrite Ec. cbn [bind]. rewrite contains_rev, Eq. exact Y2.
      + exfalso. destruct (distinct_first l (S j)) as (r & E). assert (El := f_equal (@length A) E). rewrite ED, !app_length in El. cbn [length] in El. lia.
  Qed.
  Lemma dist_sim : sim (distinct c l) (-1, 0) rs dist.
  Proof.
    split.
    - cbn [fst snd]; lia.
    - intros k x (e & d & v & -> & j & HP & -> & <- & _). rewrite rev_length. destruct (distinct_first l j) as (r & E). rewrite E, app_length. lia.
    - intros k x (e & d & v & -> & j & HP & -> & <- & _) Hk. rewrite rev_length in *. now apply (dist_next _ j e v eq_refl).
    - intros k x (e & d & v & -> & j & HP & Ed & Ek & y & Ey & ->). exists y. auto.
    - intros x (e & d & v & -> & j & HP & -> & Ek & _). rewrite rev_length in Ek. now apply (dist_end _ j e v eq_refl).
    - intros x (e & d & v & -> & HP). destruct (s_done _ _ _ _ HS _ HP) as (e' & Y & HP'). eexists. split; [|do 3 eexists; split; [reflexivity|exact HP']].
      ystep. eapply y_bind; [exact Y|]. apply y_ret.
    - intros k x (e & d & v & -> & j & HP & -> & <- & _). cbn [index]. unfold zlen. destruct (length _); cbn [Nat.eqb fst snd]; lia.
    - intros R o x (e & d & v & -> & H). assert (X : exists o, P o e) by (destruct o; [destruct H as (j & H & _)|]; eauto). destruct X as (o' & HP).
      destruct (s_reset _ _ _ _ HS R _ _ HP) as (e2 & E & HP2). exists (EDistinct e2 c [] v). cbn [reset]. rewrite E. split; [reflexivity|].
      do 3 eexists. split; [reflexivity|]. exists 0%nat. cbn [firstn distinct rev length]. auto.
  Qed.
End Distinct.
Lemma t_distinct A (c : A -> A -> comparison) l i0 rs e v : total_order c -> tracks l i0 rs e -> tracks (distinct c l) (-1, 0) rs (EDistinct e c [] v).
Proof.
  intros TO (P & HS & H0). exists (dist A c l P). split; [eapply dist_sim; eauto|]. do 3 eexists. split; [reflexivity|]. exists 0%nat. cbn [firstn distinct rev length]. auto.
Qed.

(* ---- Pairwise ------------------------------------------------------------------------------ *)
Lemma combine_nth_error A B (l : list A) (m : list B) : forall k x y, nth_error l k = Some x -> nth_error m k = Some y -> nth_error (combine l m) k = Some (x, y).
Proof. revert m. induction l as [|a l IH]; intros [|b m] [|k] x y; cbn; try discriminate; intros; [congruence|auto]. Qed.
Lemma t_pair A B (l : list A) (m : list B) i1 i2 rs1 rs2 e1 e2 v : tracks l i1 rs1 e1 -> tracks m i2 rs2 e2 ->
  tracks (combine l m) i1 (rs1 && rs2) (EPair e1 e2 v).
Proof.
  intros (P1 & S1 & H1) (P2 & S2 & H2).
  exists (fun o x => exists e1 e2 v, x = EPair e1 e2 v /\ match o with
    | Some k => P1 (Some k) e1 /\ P2 (Some k) e2 /\ match k with S k' => exists y, nth_error (combine l m) k' = Some y /\ v = Some y | O => True end
    | None => (P1 None e1 /\ exists o, P2 o e2) \/ (exists o, P1 o e1) /\ P2 None e2 end).
  split; [split|]; rewrite ?combine_length.
  - apply (s_start _ _ _ _ S1).
  - intros k x (a & b & w & -> & Ha & Hb & _). pose proof (s_bound _ _ _ _ S1 _ _ Ha). pose proof (s_bound _ _ _ _ S2 _ _ Hb). lia.
  - intros k x (a & b & w & -> & Ha & Hb & _) Hk. destruct (s_next _ _ _ _ S1 _ _ Ha) as (a' & Ya & Ha'); [lia|]. destruct (s_next _ _ _ _ S2 _ _ Hb) as (b' & Yb & Hb'); [lia|].
    destruct (s_cur _ _ _ _ S1 _ _ Ha') as (y & Ey & Ec). destruct (s_cur _ _ _ _ S2 _ _ Hb') as (z & Ez & Ed).
    eexists. split.
    + ystep. eapply y_bind; [exact Ya|]. cbv beta iota. eapply y_bind; [exact Yb|]. cbv beta iota. rewrite Ec. cbn [bind]. rewrite Ed. apply y_ret.
    + do 3 eexists. split; [reflexivity|]. split; auto. split; auto. exists (y, z). split; auto. now apply combine_nth_error.
  - intros k x (a & b & w & -> & Ha & Hb & y & Ey & ->). exists y. auto.
  - intros x (a & b & w & -> & Ha & Hb & _). pose proof (s_bound _ _ _ _ S1 _ _ Ha). pose proof (s_bound _ _ _ _ S2 _ _ Hb).
    destruct (Nat.le_gt_cases (length l) (length m)) as [L|L].
    + rewrite Nat.min_l in * by auto. destruct (s_end _ _ _ _ S1 _ Ha) as (a' & Ya & Ha'). eexists. split; [ystep; eapply y_bind; [exact Ya|]; apply y_ret|].
      do 3 eexists. split; [reflexivity|]. eauto.
    + rewrite Nat.min_r in * by lia. destruct (s_next _ _ _ _ S1 _ _ Ha) as (a' & Ya & Ha'); [lia|]. destruct (s_end _ _ _ _ S2 _ Hb) as (b' & Yb & Hb').
      eexists. split; [ystep; eapply y_bind; [exact Ya|]; cbv beta iota; eapply y_bind; [exact Yb|]; apply y_ret|].
      do 3 eexists. split; [reflexivity|]. eauto.
  - intros x (a & b & w & -> & [(Ha & o & Hb)|((o & Ha) & Hb)]).
    + destruct (s_done _ _ _ _ S1 _ Ha) as (a' & Ya & Ha'). eexists. split; [ystep; eapply y_bind; [exact Ya|]; apply y_ret|].
      do 3 eexists. split; [reflexivity|]. eauto.
    + destruct (next_any _ _ _ _ _ S1 _ _ Ha) as ([|] & a' & Ya & o' & Ha').
      * destruct (s_done _ _ _ _ S2 _ Hb) as (b' & Yb & Hb'). eexists. split; [ystep; eapply y_bind; [exact Ya|]; cbv beta iota; eapply y_bind; [exact Yb|]; apply y_ret|].
        do 3 eexists. split; [reflexivity|]. eauto.
      * eexists. split; [ystep; eapply y_bind; [exact Ya|]; apply y_ret|]. do 3 eexists. split; [reflexivity|]. eauto.
  - intros k x (a & b & w & -> & Ha & _). cbn [index]. apply (s_idx _ _ _ _ S1 _ _ Ha).
  - intros R o x (a & b & w & -> & H). apply andb_true_iff in R as [R1 R2].
    assert (X : (exists o, P1 o a) /\ exists o, P2 o b) by (destruct o; [destruct H as (? & ? & _)|destruct H as [(? & ?)|(? & ?)]]; eauto).
    destruct X as ((o1 & Ha) & o2 & Hb). destruct (s_reset _ _ _ _ S1 R1 _ _ Ha) as (a' & Ea & Ha'). destruct (s_reset _ _ _ _ S2 R2 _ _ Hb) as (b' & Eb & Hb').
    eexists. cbn [reset]. rewrite Ea. cbn [bind]. rewrite Eb. cbn [bind]. split; [reflexivity|]. do 3 eexists. split; [reflexivity|]. auto.
  - do 3 eexists. split; [reflexivity|]. auto.
Qed.

(* ---- pipelines -------------------------------------------------------------------------------- *)
Lemma tracks_ext A (l m : list A) i0 rs e : l = m -> tracks l i0 rs e -> tracks m i0 rs e.
Proof. now intros ->. Qed.
Lemma tracks_less A (l : list A) i0 e rs rs' : tracks l i0 rs' e -> (rs = true -> rs' = true) -> tracks l i0 rs e.
Proof. intros (P & HS & H) I. exists P. split; auto. destruct HS as [? ? ? ? ? ? ? R]. split; auto. intros X. exact (R (I X)). Qed.
Lemma tracks_weak A (l : list A) i0 e rs : tracks l i0 true e -> tracks l i0 rs e.
Proof. intros H. eapply tracks_less; eauto. Qed.
Lemma build_exact A (p : pipe A) : sane p -> exists e, yields (fun f => build f p) e /\ tracks (means p) (first_index p, offset p) (restarts p) e /\ evaluated e = ready p.
Proof.
  induction p as [A|A l|A l|s n|A B p IH f|A p IH f|A p IHp q IHq|A p IH n|A p IH n|A p IH n|A c p IH|A p IH|A B p IHp q IHq|A c p IHp q IHq|A c p IHp q IHq|A c p IHp q IHq|A p IH b];
    cbn [sane means restarts first_index offset ready build]; intros T.
  - exists EEmpty. split; [apply y_ret|]. split; [apply t_empty|auto].
  - exists (ECont l (-1)). split; [apply y_ret|]. split; [apply t_cont|auto].
  - exists (EOnce l (-1)). split; [apply y_ret|]. split; [apply t_once|auto].
  - exists (ERange s n (s - 1)). split; [|split; [apply t_range; tauto|auto]]. replace (fits (s - 1)) with true by (unfold fits; lia). apply y_ret.
  - destruct IH as (e & Y & H & E); auto. exists (ESelect e f None). split; [eapply y_bind; [exact Y|apply y_ret]|]. split; auto. now apply t_select.
  - destruct IH as (e & Y & H & E); auto. exists (EWhere e f (-1)). split; [eapply y_bind; [exact Y|apply y_ret]|]. split; auto. now apply t_where with (first_index p, offset p).
  - destruct IHp as (e & Y & H & E); [tauto|]. destruct IHq as (e2 & Y2 & H2 & E2); [tauto|]. exists (EConcat e e2 (-1) false).
    split; [eapply y_bind; [exact Y|]; eapply y_bind; [exact Y2|]; apply y_ret|]. split; [|cbn [evaluated]; congruence]. now apply t_concat with (first_index p, offset p) (first_index q, offset q).
  - destruct IH as (e & Y & H & E); [tauto|]. exists (ETake e n). split; [eapply y_bind; [exact Y|apply y_ret]|]. split; auto. apply (t_take_exact _ _ n (first_index p, offset p)). exact H.
  - destruct IH as (e & Y & H & E); [tauto|]. exists (ESkip e n false). split; [eapply y_bind; [exact Y|apply y_ret]|].
    split; [|auto]. apply (t_skip _ _ n (first_index p, offset p)). exact H.
  - destruct IH as (e & Y & H & E); [tauto|]. exists (ERepeat e n (-1) 0). split; [eapply y_bind; [exact Y|apply y_ret]|]. split; auto.
    destruct T as [T [N|R]]; [now apply t_repeat0 with (first_index p, offset p)|]. rewrite R in *. now apply t_repeat with (first_index p, offset p).
  - destruct IH as (e & Y & H & E); [tauto|]. exists (EDistinct e c [] None). split; [eapply y_bind; [exact Y|apply y_ret]|]. split; auto. now apply t_distinct with (first_index p, offset p).
  - destruct IH as (e & Y & H & E); auto. exists (EReverse (means p) (-1)). split; [|split; [apply t_reverse|auto]].
    eapply y_bind; [exact Y|]. eapply y_bind; [eapply drain_tracks; exact H|]. apply y_ret.
  - destruct IHp as (e & Y & H & E); [tauto|]. destruct IHq as (e2 & Y2 & H2 & E2); [tauto|]. exists (EPair e e2 None).
    split; [eapply y_bind; [exact Y|]; eapply y_bind; [exact Y2|]; apply y_ret|]. split; [|cbn [evaluated]; congruence]. now apply t_pair with (first_index q, offset q).
  - destruct IHp as (e & Y & H & E); [tauto|]. destruct IHq as (e2 & Y2 & H2 & E2); [tauto|]. exists (EDistinct (EIntExc e c (means q) true (-1)) c [] None).
    split; [eapply y_bind; [exact Y|]; eapply y_bind; [exact Y2|]; eapply y_bind; [eapply drain_tracks; exact H2|]; apply y_ret|]. split; auto.
    apply t_distinct with (-1, 0); [tauto|]. eapply tracks_ext; [|eapply t_intexc; exact H]. apply filter_ext. intros x. now destruct (contains c (means q) x).
  - destruct IHp as (e & Y & H & E); [tauto|]. destruct IHq as (e2 & Y2 & H2 & E2); [tauto|]. exists (EDistinct (EIntExc e c (means q) false (-1)) c [] None).
    split; [eapply y_bind; [exact Y|]; eapply y_bind; [exact Y2|]; eapply y_bind; [eapply drain_tracks; exact H2|]; apply y_ret|]. split; auto.
    apply t_distinct with (-1, 0); [tauto|]. eapply tracks_ext; [|eapply t_intexc; exact H]. apply filter_ext. intros x. now destruct (contains c (means q) x).
  - destruct IHp as (e & Y & H & E); [tauto|]. destruct IHq as (e2 & Y2 & H2 & E2); [tauto|]. exists (EDistinct (EConcat e e2 (-1) false) c [] None).
    split; [eapply y_bind; [exact Y|]; eapply y_bind; [exact Y2|]; apply y_ret|]. split; auto. apply t_distinct with (-1, 0); [tauto|]. now apply t_concat with (first_index p, offset p) (first_index q, offset q).
  - destruct IH as (e & Y & H & E); auto. destruct (negb b && ready p) eqn:G.
    + exists e. split; [eapply y_bind; [exact Y|]; cbv beta; rewrite E, G; apply y_ret|]. destruct b; [discriminate|]. cbn [negb andb] in G. rewrite G. split; [exact H|]. now rewrite E.
    + exists (ECont (means p) (-1)). split; [|split; [replace (b || negb (ready p) || restarts p) with true by (destruct b, (ready p); auto; discriminate); apply t_cont|auto]].
      eapply y_bind; [exact Y|]. cbv beta. rewrite E, G. eapply y_bind; [eapply drain_tracks; exact H|]. apply y_ret.
Qed.
Lemma tame_sane A (p : pipe A) : tame p -> sane p /\ means p = denote p /\ offset p = 0 /\ first_index p <= -1 /\ (starts_plain p = true -> first_index p = -1) /\ (resets p = true -> restarts p = true).
Proof.
  induction p as [A|A l|A l|s n|A B p IH f|A p IH f|A p IHp q IHq|A p IH n|A p IH n|A p IH n|A c p IH|A p IH|A B p IHp q IHq|A c p IHp q IHq|A c p IHp q IHq|A c p IHp q IHq|A p IH b];
    cbn [tame sane means denote first_index offset starts_plain resets restarts]; intros T;
    try (destruct IH as (I1 & I2 & I3 & I4 & I5 & I6); [tauto|]); try (destruct IHp as (I1 & I2 & I3 & I4 & I5 & I6); [tauto|]; destruct IHq as (J1 & J2 & J3 & J4 & J5 & J6); [tauto|]);
    rewrite ?andb_true_iff, ?orb_true_iff;
    try (split; [tauto|]; split; [congruence|]; split; [auto|]; split; [lia|]; split; [auto|tauto]; fail).
  - split; [auto|]. split; [|auto]. rewrite I2, (taken_plain (first_index p) (offset p) n); auto. destruct T as [_ [T|T]]; auto.
  - split; [auto|]. split; [congruence|]. split; [lia|]. split; [lia|]. split; [|auto]. intros [X1 X2]. rewrite (I5 X2). lia.
  - split; [tauto|]. split; [now rewrite I2, J2|]. split; auto. split; [lia|]. split; [auto|tauto].
  - split; [tauto|]. split; [now rewrite I2, J2|]. split; auto. split; [lia|]. split; [auto|tauto].
  - split; [tauto|]. split; [congruence|]. destruct (negb b && ready p); (split; [auto|]; split; [auto; lia|]; split; [auto|tauto]).
Qed.
Lemma build_ok A (p : pipe A) : tame p -> exists e i0, yields (fun f => build f p) e /\ tracks (denote p) i0 (resets p) e /\ snd i0 = 0.
Proof.
  intros T. destruct (tame_sane A p T) as (S & M & O & _ & _ & R). destruct (build_exact A p S) as (e & Y & H & _). exists e, (first_index p, offset p). rewrite <- M.
  split; [auto|]. split; [|auto]. eapply tracks_less; eauto.
Qed.
Lemma elements_exact A (p : pipe A) : sane p -> yields (fun f => elements f p) (means p).
Proof. intros T. destruct (build_exact A p T) as (e & Y & H & _). unfold elements. eapply y_bind; [exact Y|]. eapply drain_tracks; eauto. Qed.

(* ---- results --------------------------------------------------------------------------------- *)
Lemma elements_ok A (p : pipe A) : tame p -> yields (fun f => elements f p) (denote p).
Proof. intros T. destruct (build_ok A p T) as (e & i & Y & H & _). unfold elements. eapply y_bind; [exact Y|]. eapply drain_tracks; eauto. Qed.
Lemma reset_ok A (p : pipe A) m : tame p -> resets p = true ->
  yields (on p (fun f e => do e <- nexts m f e; do e <- reset e; drain f e)) (denote p).
Proof.
  intros T R. destruct (build_ok A p T) as (e & i & Y & (P & HS & H) & _). unfold on. eapply y_bind; [exact Y|]. cbv beta.
  destruct (nexts_any _ _ _ _ _ HS m _ _ H) as (e' & Y' & o' & H'). eapply y_bind; [exact Y'|]. cbv beta.
  destruct (s_reset _ _ _ _ HS R _ _ H') as (e2 & E & H2). rewrite E. cbn [bind]. apply (drain_ok _ _ _ _ _ HS _ 0 _ eq_refl H2).
Qed.
Lemma take_ok A (p : pipe A) n : tame p -> 1 <= n \/ starts_plain p = true ->
  exists r, yields (fun f => elements f (PTake p n)) r /\ r = firstn (Z.to_nat n) (denote p) /\ zlen r = Z.min (Z.max n 0) (zlen (denote p)).
Proof.
  intros T H. exists (firstn (Z.to_nat n) (denote p)). split; [apply (elements_ok A (PTake p n)); cbn [tame]; auto|]. split; auto.
  unfold zlen. rewrite firstn_length. lia.
Qed.

Lemma part_refl A (l : list A) : part_of l l.
Proof. induction l; constructor; auto. Qed.
Lemma part_trans A (l m n : list A) : part_of l m -> part_of m n -> part_of l n.
Proof.
  intros H1 H2. revert l H1. induction H2 as [m|x m n H IH|x m n H IH]; intros l H1.
  - inversion H1; subst; constructor.
  - inversion H1 as [|y l' m' H3|y l' m' H3]; subst; constructor; auto.
  - constructor. auto.
Qed.
Lemma part_filter A (q : A -> bool) l : part_of (filter q l) l.
Proof. induction l as [|a l IH]; cbn [filter]; [constructor|]. destruct (q a); constructor; auto. Qed.
Lemma part_distinct A (c : A -> A -> comparison) l : part_of (distinct c l) l.
Proof. induction l as [|a l IH]; cbn [distinct]; constructor. eapply part_trans; [apply part_filter|exact IH]. Qed.
Lemma has_contains A (c : A -> A -> comparison) l x : has c l x <-> contains c l x = true.
Proof.
  rewrite contains_In. unfold has, same. split; intros (y & H & E); exists y; (split; [exact H|]); [now rewrite E|]. now destruct (c y x).
Qed.
Lemma fop_filter A (R : A -> A -> Prop) q l : ForallOrdPairs R l -> ForallOrdPairs R (filter q l).
Proof.
  induction 1 as [|a l H1 H2 IH]; cbn [filter]; [constructor|]. destruct (q a); auto. constructor; auto.
  apply Forall_forall. intros x Hx. apply filter_In in Hx as [Hx _]. rewrite Forall_forall in H1. auto.
Qed.
Lemma different_distinct A (c : A -> A -> comparison) l : all_different c (distinct c l).
Proof.
  unfold all_different. induction l as [|a l IH]; cbn [distinct]; constructor.
  - apply Forall_forall. intros x Hx. apply filter_In in Hx as [_ Hx]. unfold same in Hx. destruct (c a x); easy.
  - now apply fop_filter.
Qed.
Lemma seq_snoc n m : seq n (S m) = seq n m ++ [(n + m)%nat].
Proof. revert n. induction m as [|m IH]; intros n; [cbn [seq app]; f_equal; lia|]. change (seq n (S (S m))) with (n :: seq (S n) (S m)). rewrite IH. cbn [seq app]. do 2 f_equal. f_equal. lia. Qed.
Lemma firsts_distinct A (c : A -> A -> comparison) l : total_order c -> distinct c l = firsts c l.
Proof.
  intros TO. induction l as [|x l IH] using rev_ind; [reflexivity|]. rewrite distinct_snoc by auto. rewrite contains_distinct by auto.
  unfold firsts. rewrite app_length, Nat.add_1_r, seq_snoc, flat_map_app. cbn [flat_map Nat.add]. rewrite app_nil_r.
  rewrite nth_error_app2, Nat.sub_diag by lia. cbn [nth_error]. rewrite firstn_app, Nat.sub_diag, firstn_all. cbn [firstn]. rewrite app_nil_r.
  assert (E : flat_map (fun i => match nth_error (l ++ [x]) i with Some x0 => if contains c (firstn i (l ++ [x])) x0 then [] else [x0] | None => [] end) (seq 0 (length l)) = firsts c l).
  { unfold firsts. rewrite !flat_map_concat_map. f_equal. apply map_ext_in. intros i Hi. apply in_seq in Hi. rewrite nth_error_app1 by lia.
    rewrite firstn_app. replace (i - length l)%nat with 0%nat by lia. cbn [firstn]. now rewrite app_nil_r. }
  rewrite E, <- IH. destruct (contains c l x); [now rewrite app_nil_r|reflexivity].
Qed.
Lemma contains_filter_same A (c : A -> A -> comparison) (TO : total_order c) q l x :
  (forall a b, same c a b = true -> q a = q b) -> contains c (filter q l) x = q x && contains c l x.
Proof.
  intros Q. apply eq_true_iff_eq. rewrite andb_true_iff, !contains_In. split.
  - intros (y & Hy & E). apply filter_In in Hy as [Hy Eq]. split; [|eauto]. now rewrite <- (Q y x).
  - intros (Hx & y & Hy & E). exists y. split; auto. apply filter_In. split; auto. now rewrite (Q y x).
Qed.
Lemma contains_same A (c : A -> A -> comparison) (TO : total_order c) l a b : same c a b = true -> contains c l a = contains c l b.
Proof.
  intros E. apply eq_true_iff_eq. rewrite !contains_In. split; intros (y & Hy & E1); exists y; (split; [auto|]).
  - eapply same_trans; eauto.
  - eapply same_trans; eauto. now rewrite same_sym.
Qed.

Lemma distinct_ok A (c : A -> A -> comparison) (p : pipe A) : tame p -> total_order c ->
  exists r, yields (fun f => elements f (PDistinct c p)) r /\ r = firsts c (denote p) /\ all_different c r /\ forall x, has c r x <-> has c (denote p) x.
Proof.
  intros T TO. exists (distinct c (denote p)). split; [apply (elements_ok A (PDistinct c p)); cbn [tame]; auto|]. split; [now apply firsts_distinct|].
  split; [apply different_distinct|]. intros x. rewrite !has_contains, contains_distinct by auto. tauto.
Qed.
Lemma distinct_filter A (c : A -> A -> comparison) g : (forall a b, same c a b = true -> g a = g b) -> forall l, distinct c (filter g l) = filter g (distinct c l).
Proof.
  intros G. induction l as [|a l IH]; cbn [filter distinct]; auto. destruct (g a) eqn:E; cbn [distinct].
  - rewrite IH. f_equal. clear. induction (distinct c l) as [|b m IH]; cbn [filter]; auto.
    destruct (same c a b) eqn:E1, (g b) eqn:E2; cbn [negb filter]; rewrite ?E1, ?E2; cbn [negb]; rewrite ?IH; auto.
  - rewrite IH. assert (N : forall m, filter g (filter (fun y => negb (same c a y)) m) = filter g m).
    { intros m. induction m as [|b m IHm]; cbn [filter]; auto. destruct (same c a b) eqn:E1; cbn [negb].
      - rewrite <- (G _ _ E1), E. exact IHm.
      - cbn [filter]. now rewrite IHm. }
    now rewrite N.
Qed.
Lemma intersect_ok A (c : A -> A -> comparison) (p q : pipe A) : tame p -> tame q -> total_order c ->
  exists r, yields (fun f => elements f (PIntersect c p q)) r /\ part_of r (firsts c (denote p)) /\ all_different c r /\
    forall x, has c r x <-> has c (denote p) x /\ has c (denote q) x.
Proof.
  intros Tp Tq TO. eexists. split; [apply (elements_ok A (PIntersect c p q)); cbn [tame]; auto|]. cbn [denote]. split; [|split].
  - rewrite <- firsts_distinct by auto. rewrite distinct_filter by (intros; now apply contains_same). apply part_filter.
  - apply different_distinct.
  - intros x. rewrite !has_contains, contains_distinct, contains_filter_same; auto; [|intros; now apply contains_same]. rewrite andb_true_iff. tauto.
Qed.
Lemma except_ok A (c : A -> A -> comparison) (p q : pipe A) : tame p -> tame q -> total_order c ->
  exists r, yields (fun f => elements f (PExcept c p q)) r /\ part_of r (firsts c (denote p)) /\ all_different c r /\
    forall x, has c r x <-> has c (denote p) x /\ ~ has c (denote q) x.
Proof.
  intros Tp Tq TO. eexists. split; [apply (elements_ok A (PExcept c p q)); cbn [tame]; auto|]. cbn [denote].
  assert (G : forall a b, same c a b = true -> negb (contains c (denote q) a) = negb (contains c (denote q) b)) by (intros a b E; now rewrite (contains_same A c TO _ _ _ E)).
  split; [|split].
  - rewrite <- firsts_distinct by auto. rewrite distinct_filter by auto. apply part_filter.
  - apply different_distinct.
  - intros x. rewrite !has_contains, contains_distinct, contains_filter_same; auto. rewrite andb_true_iff, negb_true_iff, not_true_iff_false. tauto.
Qed.
Lemma union_ok A (c : A -> A -> comparison) (p q : pipe A) : tame p -> tame q -> total_order c ->
  exists r, yields (fun f => elements f (PUnion c p q)) r /\ r = firsts c (denote p ++ denote q) /\ all_different c r /\
    forall x, has c r x <-> has c (denote p) x \/ has c (denote q) x.
Proof.
  intros Tp Tq TO. eexists. split; [apply (elements_ok A (PUnion c p q)); cbn [tame]; auto|]. cbn [denote]. split; [now apply firsts_distinct|].
  split; [apply different_distinct|]. intros x. rewrite !has_contains, contains_distinct, contains_app, orb_true_iff by auto. tauto.
Qed.

(* ---- aggregations -------------------------------------------------------------------------------- *)
Lemma r_bind_err X Y (F : nat -> res X) (G : nat -> X -> res Y) a : yields F a -> (forall f, G f a = Err) -> raises (fun f => bind (F f) (G f)).
Proof. intros [N H] K. exists N. intros f Hf. rewrite H by auto. apply K. Qed.
Lemma on_bind A X (p : pipe A) (g : nat -> enum A -> res X) e r : yields (fun f => build f p) e -> yields (fun f => g f e) r -> yields (on p g) r.
Proof. intros Y H. unfold on. eapply y_bind; eauto. Qed.
Lemma r_on A X (p : pipe A) (g : nat -> enum A -> res X) e : yields (fun f => build f p) e -> raises (fun f => g f e) -> raises (on p g).
Proof. intros [N H] [M K]. exists (Nat.max N M). intros f Hf. unfold on. rewrite H by lia. apply K. lia. Qed.

Lemma fold_tracks A I (g : I -> A -> I) l i0 rs e acc : tracks l i0 rs e -> yields (fun f => fold_loop f g acc e) (fold_left g l acc).
Proof. intros (P & HS & H). exact (fold_ok A l i0 rs P HS I g _ 0 e acc eq_refl H). Qed.
Lemma next_nil A i0 rs (e : enum A) : tracks [] i0 rs e -> exists e', yields (fun f => next f e) (false, e').
Proof. intros (P & HS & H). destruct (s_end _ _ _ _ HS _ H) as (e' & Y & _). eauto. Qed.
Lemma next_cons A (x : A) l i0 rs e : tracks (x :: l) i0 rs e ->
  exists e', yields (fun f => next f e) (true, e') /\ current e' = Ok x /\ forall I (g : I -> A -> I) acc, yields (fun f => fold_loop f g acc e') (fold_left g l acc).
Proof.
  intros (P & HS & H). destruct (s_next _ _ _ _ HS _ _ H) as (e' & Y & H'); [cbn [length]; lia|]. exists e'. split; auto.
  destruct (s_cur _ _ _ _ HS _ _ H') as (y & Ey & Ec). split; [cbn [nth_error] in Ey; congruence|]. intros I g acc.
  exact (fold_ok A _ i0 rs P HS I g _ 1 e' acc eq_refl H').
Qed.

Lemma agg_init_ok A I (p : pipe A) (g : I -> A -> I) init : tame p -> yields (on p (fun f e => aggregate_init f g init e)) (fold_left g (denote p) init).
Proof. intros T. destruct (build_ok A p T) as (e & i & Y & H & _). eapply on_bind; [exact Y|]. eapply fold_tracks; eauto. Qed.
Lemma agg_ok A (p : pipe A) (g : A -> A -> A) : tame p ->
  match denote p with [] => raises (on p (fun f e => aggregate f g e)) | x :: r => yields (on p (fun f e => aggregate f g e)) (fold_left g r x) end.
Proof.
  intros T. destruct (build_ok A p T) as (e & i & Y & H & _). destruct (denote p) as [|x r].
  - destruct (next_nil _ _ _ _ H) as (e' & Y'). eapply r_on; [exact Y|]. unfold aggregate. eapply r_bind_err; [exact Y'|]. reflexivity.
  - destruct (next_cons _ _ _ _ _ _ H) as (e' & Y' & Ec & F). eapply on_bind; [exact Y|]. unfold aggregate. eapply y_bind; [exact Y'|]. cbv beta iota. rewrite Ec. cbn [bind]. apply F.
Qed.
Lemma fold_and A (q : A -> bool) l : forall b, fold_left andb (map q l) b = b && forallb q l.
Proof. induction l as [|a l IH]; intros b; cbn [map fold_left forallb]; [now rewrite andb_true_r|]. rewrite IH. now rewrite andb_assoc. Qed.
Lemma fold_or A (q : A -> bool) l : forall b, fold_left orb (map q l) b = b || existsb q l.
Proof. induction l as [|a l IH]; intros b; cbn [map fold_left existsb]; [now rewrite orb_false_r|]. rewrite IH. now rewrite orb_assoc. Qed.
Lemma all_ok A (p : pipe A) (q : A -> bool) : tame p -> exists b, yields (on p (fun f e => all f q e)) b /\ (b = true <-> forall x, In x (denote p) -> q x = true).
Proof.
  intros T. destruct (build_ok A p T) as (e & i & Y & H & _). exists (forallb q (denote p)). split; [|apply forallb_forall].
  eapply on_bind; [exact Y|]. unfold all, aggregate_init. pose proof (fold_tracks _ _ andb _ _ _ _ true (t_select _ _ q _ _ _ _ None H)) as F.
  rewrite fold_and in F. exact F.
Qed.
Lemma any_ok A (p : pipe A) (q : A -> bool) : tame p -> exists b, yields (on p (fun f e => any f q e)) b /\ (b = true <-> exists x, In x (denote p) /\ q x = true).
Proof.
  intros T. destruct (build_ok A p T) as (e & i & Y & H & _). exists (existsb q (denote p)). split; [|apply existsb_exists].
  eapply on_bind; [exact Y|]. unfold any, aggregate_init. pose proof (fold_tracks _ _ orb _ _ _ _ false (t_select _ _ q _ _ _ _ None H)) as F.
  rewrite fold_or in F. exact F.
Qed.
Lemma le_refl' A (c : A -> A -> comparison) : total_order c -> forall a, c a a <> Gt.
Proof. intros TO a. pose proof (to_opp c TO a a). destruct (c a a); easy. Qed.
Lemma fold_max A (c : A -> A -> comparison) (TO : total_order c) l : forall x, let m := fold_left (fun a b => match c a b with Gt => a | _ => b end) l x in
  In m (x :: l) /\ forall y, In y (x :: l) -> c y m <> Gt.
Proof.
  induction l as [|a l IH]; intros x; cbn [fold_left].
  - split; [now left|]. intros y [->|[]]. now apply le_refl'.
  - destruct (IH (match c x a with Gt => x | _ => a end)) as [H1 H2]. split.
    + destruct H1 as [H1|H1]; [|right; now right]. rewrite <- H1. destruct (c x a); cbn; auto.
    + intros y Hy. set (m := fold_left _ l _) in *. clearbody m. pose proof (H2 _ (or_introl eq_refl)) as H3.
      destruct Hy as [<-|[<-|Hy]]; [| |apply H2; now right].
      * apply (to_trans c TO _ (match c x a with Gt => x | _ => a end)); auto. destruct (c x a) eqn:E; rewrite ?E; try discriminate. now apply le_refl'.
      * apply (to_trans c TO _ (match c x a with Gt => x | _ => a end)); auto. destruct (c x a) eqn:E; try (now apply le_refl'). rewrite (to_opp c TO x a), E. discriminate.
Qed.
Lemma fold_min A (c : A -> A -> comparison) (TO : total_order c) l : forall x, let m := fold_left (fun a b => match c a b with Lt => a | _ => b end) l x in
  In m (x :: l) /\ forall y, In y (x :: l) -> c m y <> Gt.
Proof.
  induction l as [|a l IH]; intros x; cbn [fold_left].
  - split; [now left|]. intros y [->|[]]. now apply le_refl'.
  - destruct (IH (match c x a with Lt => x | _ => a end)) as [H1 H2]. split.
    + destruct H1 as [H1|H1]; [|right; now right]. rewrite <- H1. destruct (c x a); cbn; auto.
    + intros y Hy. set (m := fold_left _ l _) in *. clearbody m. pose proof (H2 _ (or_introl eq_refl)) as H3.
      destruct Hy as [<-|[<-|Hy]]; [| |apply H2; now right].
      * apply (to_trans c TO _ (match c x a with Lt => x | _ => a end)); auto. destruct (c x a) eqn:E; try (now apply le_refl'); rewrite (to_opp c TO x a), E; discriminate.
      * apply (to_trans c TO _ (match c x a with Lt => x | _ => a end)); auto. destruct (c x a) eqn:E; try (now apply le_refl'). rewrite E. discriminate.
Qed.
Lemma max_ok A (c : A -> A -> comparison) (p : pipe A) : tame p -> total_order c ->
  (denote p = [] -> raises (on p (fun f e => max f c e))) /\
  (denote p <> [] -> exists m, yields (on p (fun f e => max f c e)) m /\ In m (denote p) /\ forall x, In x (denote p) -> c x m <> Gt).
Proof.
  intros T TO. unfold max. pose proof (agg_ok A p (fun a b => match c a b with Gt => a | _ => b end) T) as H. destruct (denote p) as [|x r]; (split; intros E; try easy).
  destruct (fold_max A c TO r x) as [H1 H2]. eauto.
Qed.
Lemma min_ok A (c : A -> A -> comparison) (p : pipe A) : tame p -> total_order c ->
  (denote p = [] -> raises (on p (fun f e => min f c e))) /\
  (denote p <> [] -> exists m, yields (on p (fun f e => min f c e)) m /\ In m (denote p) /\ forall x, In x (denote p) -> c m x <> Gt).
Proof.
  intros T TO. unfold min. pose proof (agg_ok A p (fun a b => match c a b with Lt => a | _ => b end) T) as H. destruct (denote p) as [|x r]; (split; intros E; try easy).
  destruct (fold_min A c TO r x) as [H1 H2]. eauto.
Qed.
Lemma fold_last A (l : list A) : forall x, fold_left (fun _ y => y) l x = List.last l x.
Proof. induction l as [|a l IH]; intros x; cbn [fold_left]; auto. rewrite IH. destruct l; [reflexivity|]. cbn [List.last]. clear. revert a0. induction l as [|b l IH]; intros; [reflexivity|]. cbn [List.last]. apply IH. Qed.
Lemma first_ok A (p : pipe A) d : tame p ->
  match denote p with
  | [] => raises (on p (fun f e => first f e)) /\ yields (on p (fun f e => first_or f d e)) d
  | x :: _ => yields (on p (fun f e => first f e)) x /\ yields (on p (fun f e => first_or f d e)) x end.
Proof.
  intros T. destruct (build_ok A p T) as (e & i & Y & H & _). destruct (denote p) as [|x r].
  - destruct (next_nil _ _ _ _ H) as (e' & Y'). split; [eapply r_on|eapply on_bind]; try exact Y; [eapply r_bind_err; [exact Y'|reflexivity]|].
    eapply y_bind; [exact Y'|]. apply y_ret.
  - destruct (next_cons _ _ _ _ _ _ H) as (e' & Y' & Ec & F). split; (eapply on_bind; [exact Y|]); (eapply y_bind; [exact Y'|]); cbv beta iota; rewrite Ec; apply y_ret.
Qed.
Lemma last_ok A (p : pipe A) d : tame p ->
  (denote p = [] -> raises (on p (fun f e => last f e)) /\ yields (on p (fun f e => last_or f d e)) d) /\
  (forall l x, denote p = l ++ [x] -> yields (on p (fun f e => last f e)) x /\ yields (on p (fun f e => last_or f d e)) x).
Proof.
  intros T. destruct (build_ok A p T) as (e & i & Y & H & _). split.
  - intros E. rewrite E in H. destruct (next_nil _ _ _ _ H) as (e' & Y'). split.
    + eapply r_on; [exact Y|]. eapply r_bind_err; [exact Y'|reflexivity].
    + eapply on_bind; [exact Y|]. exact (fold_tracks _ _ (fun _ y => y) _ _ _ _ d H).
  - intros l x E. split.
    + assert (X : exists a r, denote p = a :: r /\ List.last r a = x).
      { rewrite E. destruct l as [|a l]; [exists x, []; auto|]. exists a, (l ++ [x]). split; auto. apply last_last. }
      destruct X as (a & r & E' & L). rewrite E' in H. destruct (next_cons _ _ _ _ _ _ H) as (e' & Y' & Ec & F). eapply on_bind; [exact Y|]. unfold last.
      eapply y_bind; [exact Y'|]. cbv beta iota. rewrite Ec. cbn [bind]. rewrite <- L, <- fold_last. apply F.
    + eapply on_bind; [exact Y|]. unfold last_or. pose proof (fold_tracks _ _ (fun _ y => y) _ _ _ _ d H) as F. rewrite fold_last, E, last_last in F. exact F.
Qed.
Lemma count_is A (p : pipe A) : tame p -> yields (on p (fun f e => count f e)) (zlen (denote p)).
Proof.
  intros T. destruct (build_ok A p T) as (e & i & Y & (P & HS & H) & _). eapply on_bind; [exact Y|]. unfold count.
  pose proof (count_ok _ _ _ _ _ HS _ 0 e 0 eq_refl H) as F. rewrite Nat.sub_0_r in F. exact F.
Qed.
Lemma is_empty_ok A (p : pipe A) : tame p -> exists b, yields (on p (fun f e => is_empty f e)) b /\ (b = true <-> denote p = []).
Proof.
  intros T. destruct (build_ok A p T) as (e & i & Y & H & _). destruct (denote p) as [|x r].
  - destruct (next_nil _ _ _ _ H) as (e' & Y'). exists true. split; [|tauto]. eapply on_bind; [exact Y|]. eapply y_bind; [exact Y'|]. apply y_ret.
  - destruct (next_cons _ _ _ _ _ _ H) as (e' & Y' & Ec & F). exists false. split; [|split; discriminate]. eapply on_bind; [exact Y|]. eapply y_bind; [exact Y'|]. apply y_ret.
Qed.

(* ---- GroupBy, SelectMany ---------------------------------------------------------------------------- *)
Lemma group_ok A K (c : K -> K -> comparison) (keq : K -> K -> bool) (kf : A -> K) (p : pipe A) : tame p -> total_order c -> (forall a b, keq a b = true <-> c a b = Eq) ->
  exists gs, yields (on p (fun f e => group_by f c keq kf e)) gs /\
    map fst gs = firsts c (map kf (denote p)) /\
    (forall k e, In (k, e) gs -> exists g, yields (fun f => drain f e) g /\ part_of g (denote p) /\
       (forall t, In t g <-> In t (denote p) /\ c k (kf t) = Eq) /\ g = filter (fun t => keq k (kf t)) (denote p)) /\
    (forall t, In t (denote p) -> exists k e, In (k, e) gs /\ c k (kf t) = Eq /\ forall k' e', In (k', e') gs -> c k' (kf t) = Eq -> k' = k).
Proof.
  intros T TO KE. destruct (build_ok A p T) as (e & i & Y & H & _).
  set (ks := distinct c (map kf (denote p))).
  exists (map (fun k => (k, group_of keq kf e k)) ks). split; [|split; [|split]].
  - eapply on_bind; [exact Y|]. unfold group_by. eapply y_bind; [|apply y_ret]. eapply drain_tracks. unfold group_keys. apply t_distinct with i; auto. apply t_select. exact H.
  - rewrite map_map. cbn [fst]. rewrite map_id. now apply firsts_distinct.
  - intros k e' Hk. apply in_map_iff in Hk as (k' & [= <- <-] & Hk). exists (filter (fun t => keq k' (kf t)) (denote p)). split; [|split; [apply part_filter|split; auto]].
    + eapply drain_tracks. unfold group_of. eapply t_where. exact H.
    + intros t. rewrite filter_In, KE. tauto.
  - intros t Ht. assert (X : contains c ks (kf t) = true).
    { unfold ks. rewrite contains_distinct by auto. apply contains_In. exists (kf t). split; [now apply in_map|now apply same_refl]. }
    apply contains_In in X as (k & Hk & E). exists k, (group_of keq kf e k). split; [apply in_map_iff; eauto|]. split; [unfold same in E; now destruct (c k (kf t))|].
    intros k' e' Hk' E'. apply in_map_iff in Hk' as (k2 & [= -> _] & Hk').
    assert (S : same c k k' = true). { eapply same_trans; eauto. rewrite same_sym by auto. unfold same. now rewrite E'. }
    pose proof (different_distinct K c (map kf (denote p))) as D. fold ks in D. clearbody ks. clear - D Hk Hk' S TO.
    induction D as [|a l D1 D2 IH]; [easy|]. rewrite Forall_forall in D1. destruct Hk as [->|Hk], Hk' as [->|Hk']; auto.
    + exfalso. apply (D1 _ Hk'). unfold same in S. now destruct (c k k').
    + exfalso. apply (D1 _ Hk). rewrite same_sym in S by auto. unfold same in S. now destruct (c k' k).
Qed.
Lemma group_any A K (c : K -> K -> comparison) (keq : K -> K -> bool) (kf : A -> K) (p : pipe A) : tame p -> total_order c ->
  exists gs, yields (on p (fun f e => group_by f c keq kf e)) gs /\
    map fst gs = firsts c (map kf (denote p)) /\
    (forall k e, In (k, e) gs -> yields (fun f => drain f e) (filter (fun t => keq k (kf t)) (denote p))).
Proof.
  intros T TO. destruct (build_ok A p T) as (e & i & Y & H & _).
  set (ks := distinct c (map kf (denote p))).
  exists (map (fun k => (k, group_of keq kf e k)) ks). split; [|split].
  - eapply on_bind; [exact Y|]. unfold group_by. eapply y_bind; [|apply y_ret]. eapply drain_tracks. unfold group_keys. apply t_distinct with i; auto. apply t_select. exact H.
  - rewrite map_map. cbn [fst]. rewrite map_id. now apply firsts_distinct.
  - intros k e' Hk. apply in_map_iff in Hk as (k' & [= <- <-] & Hk). eapply drain_tracks. unfold group_of. eapply t_where. exact H.
Qed.
Lemma group_loses : exists (c : Z -> Z -> comparison) (p : pipe Z) t, total_order c /\ tame p /\ In t (denote p) /\
  exists gs, yields (on p (fun f e => group_by f c Z.eqb (fun x => x) e)) gs /\ forall k e g, In (k, e) gs -> yields (fun f => drain f e) g -> ~ In t g.
Proof.
  set (c := fun a b => (a mod 10 ?= b mod 10)%Z).
  assert (TO : total_order c). { split; [intros a b; apply Z.compare_antisym|]. unfold c. intros a b d H1 H2 H3. apply H1. rewrite Z.compare_gt_iff in *. lia. }
  assert (T : tame (PList [1; 11])) by (constructor || exact I).
  exists c, (PList [1; 11]), 11. split; [exact TO|]. split; [exact T|]. split; [right; now left|].
  destruct (group_any Z Z c Z.eqb (fun x => x) (PList [1; 11]) T TO) as (gs & Y & F & G). exists gs. split; [exact Y|].
  intros k e g Hi Yg Ht. pose proof (y_fun _ _ _ _ Yg (G k e Hi)) as ->. apply filter_In in Ht as [_ Ht]. apply Z.eqb_eq in Ht as ->.
  apply (in_map fst) in Hi. rewrite F in Hi. vm_compute in Hi. destruct Hi as [Hi|[]]. discriminate.
Qed.
Lemma t_many A B (g : A -> pipe B) (fe : A -> enum B) l : (forall x, In x l -> tame (g x) /\ yields (fun f => build f (g x)) (fe x)) ->
  forall acc i0 rs m, tracks m i0 rs acc -> exists i1 rs1, tracks (m ++ flat_map (fun x => denote (g x)) l) i1 rs1 (fold_left (fun a t => EConcat a (fe t) (-1) false) l acc).
Proof.
  induction l as [|x l IH]; intros G acc i0 rs m H; cbn [flat_map fold_left].
  - rewrite app_nil_r. eauto.
  - destruct (G x (or_introl eq_refl)) as [T Y]. destruct (build_ok B (g x) T) as (e & i & Y' & H' & _). rewrite (y_fun _ _ _ _ Y Y').
    rewrite app_assoc. eapply IH; [intros; apply G; now right|]. eapply t_concat; eauto.
Qed.
Lemma many_ok A B (p : pipe A) (g : A -> pipe B) (fe : A -> enum B) : tame p -> (forall x, In x (denote p) -> tame (g x) /\ yields (fun f => build f (g x)) (fe x)) ->
  yields (on p (fun f e => do r <- select_many f fe e; drain f r)) (flat_map (fun x => denote (g x)) (denote p)).
Proof.
  intros T G. destruct (build_ok A p T) as (e & i & Y & H & _). eapply on_bind; [exact Y|]. cbv beta. unfold select_many.
  eapply y_bind; [eapply fold_tracks; exact H|]. cbv beta. destruct (t_many A B g fe (denote p) G EEmpty _ _ [] (t_empty B)) as (i1 & rs1 & H1).
  eapply drain_tracks. exact H1.
Qed.

(* ---- CompareEnumerable -------------------------------------------------------------------------------- *)
Lemma compare_run A B (c : A -> B -> option comparison) l m i1 i2 rs1 rs2 P Q (HS : sim l i1 rs1 P) (HT : sim m i2 rs2 Q) :
  forall n k a b, (length l - k = n)%nat -> P (Some k) a -> Q (Some k) b -> yields (fun f => compare f c a b) (lex c (skipn k l) (skipn k m)).
Proof.
  induction n as [|n IH]; intros k a b Hn Ha Hb; pose proof (s_bound _ _ _ _ HS _ _ Ha); pose proof (s_bound _ _ _ _ HT _ _ Hb).
  - assert (k = length l) by lia. subst k. destruct (s_end _ _ _ _ HS _ Ha) as (a' & Ya & _). rewrite skipn_all.
    eapply y_step; [intros f; cbn [compare]; reflexivity|]. eapply y_bind; [exact Ya|]. cbv beta iota.
    destruct (Nat.eq_dec (length l) (length m)) as [E|E].
    + rewrite E in *. destruct (s_end _ _ _ _ HT _ Hb) as (b' & Yb & _). rewrite skipn_all. eapply y_bind; [exact Yb|]. apply y_ret.
    + destruct (s_next _ _ _ _ HT _ _ Hb) as (b' & Yb & Hb'); [lia|]. destruct (s_cur _ _ _ _ HT _ _ Hb') as (y & Ey & _).
      rewrite (skipn_cons _ _ _ _ Ey). eapply y_bind; [exact Yb|]. apply y_ret.
  - destruct (s_next _ _ _ _ HS _ _ Ha) as (a' & Ya & Ha'); [lia|]. destruct (s_cur _ _ _ _ HS _ _ Ha') as (x & Ex & Ecx).
    rewrite (skipn_cons _ _ _ _ Ex). eapply y_step; [intros f; cbn [compare]; reflexivity|]. eapply y_bind; [exact Ya|]. cbv beta iota.
    destruct (Nat.eq_dec k (length m)) as [E|E].
    + subst k. destruct (s_end _ _ _ _ HT _ Hb) as (b' & Yb & _). rewrite skipn_all. eapply y_bind; [exact Yb|]. apply y_ret.
    + destruct (s_next _ _ _ _ HT _ _ Hb) as (b' & Yb & Hb'); [lia|]. destruct (s_cur _ _ _ _ HT _ _ Hb') as (y & Ey & Ecy).
      rewrite (skipn_cons _ _ _ _ Ey). eapply y_bind; [exact Yb|]. cbv beta iota. cbn [negb andb]. rewrite Ecx. cbn [bind]. rewrite Ecy. cbn [bind lex].
      destruct (c x y) as [[| |]|]; try apply y_ret. apply IH; auto. lia.
Qed.
Lemma compare_ok A B (c : A -> B -> option comparison) (p : pipe A) (q : pipe B) : tame p -> tame q ->
  yields (on p (fun f a => do b <- build f q; compare f c a b)) (lex c (denote p) (denote q)).
Proof.
  intros Tp Tq. destruct (build_ok A p Tp) as (a & i & Y & (P & HS & H) & _). destruct (build_ok B q Tq) as (b & j & Y2 & (Q & HT & H2) & _).
  eapply on_bind; [exact Y|]. eapply y_bind; [exact Y2|]. exact (compare_run A B c _ _ _ _ _ _ P Q HS HT _ 0 a b eq_refl H H2).
Qed.
Lemma lex_opp A (c : A -> A -> option comparison) : partial_order c -> forall l m, lex c m l = opp (lex c l m).
Proof.
  intros PO. induction l as [|x l IH]; intros [|y m]; cbn [lex]; auto. rewrite (po_opp c PO x y). destruct (c x y) as [[| |]|]; cbn [opp CompOpp]; auto.
Qed.
Lemma lex_trans A (c : A -> A -> option comparison) : partial_order c -> forall l m n, leo (lex c) l m -> leo (lex c) m n -> leo (lex c) l n.
Proof.
  intros PO. unfold leo. induction l as [|x l IH]; intros [|y m] [|z n]; cbn [lex]; intros H1 H2; auto; try (destruct H1; discriminate); try (destruct H2; discriminate).
  assert (L1 : leo c x y) by (unfold leo; destruct (c x y) as [[| |]|]; auto; destruct H1; discriminate).
  assert (L2 : leo c y z) by (unfold leo; destruct (c y z) as [[| |]|]; auto; destruct H2; discriminate).
  pose proof (po_trans c PO _ _ _ L1 L2) as [E|E]; rewrite E; auto.
  assert (L3 : leo c z x) by (right; rewrite (po_opp c PO x z), E; reflexivity).
  pose proof (po_trans c PO _ _ _ L2 L3) as L4. pose proof (po_trans c PO _ _ _ L3 L1) as L5. unfold leo in L1, L2, L4, L5.
  rewrite (po_opp c PO x y) in L4. rewrite (po_opp c PO y z) in L5.
  assert (c x y = Some Eq) as E1 by (clear - L1 L4; destruct (c x y) as [[| |]|]; cbn [opp CompOpp] in L4; destruct L1, L4; congruence).
  assert (c y z = Some Eq) as E2 by (clear - L2 L5; destruct (c y z) as [[| |]|]; cbn [opp CompOpp] in L5; destruct L2, L5; congruence).
  rewrite E1 in H1. rewrite E2 in H2. eapply IH; eauto.
Qed.
Lemma lex_eq A B (c : A -> B -> option comparison) : forall l m, lex c l m = Some Eq <-> Forall2 (fun x y => c x y = Some Eq) l m.
Proof.
  induction l as [|x l IH]; intros [|y m]; cbn [lex]; split; intros H; try (now constructor); try (now inversion H).
  - destruct (c x y) as [[| |]|] eqn:E; try (now inversion H). constructor; auto. now apply IH.
  - inversion H as [|? ? ? ? E F]; subst. rewrite E. now apply IH.
Qed.

(* ---- witnesses --------------------------------------------------------------------------------- *)
Lemma skip_take_more : yields (fun f => elements f (PTake (PSkip (PList [1; 2; 3]) 1) 0)) [2].
Proof. exists 20%nat. intros f Hf. replace f with (20 + (f - 20))%nat by lia. generalize (f - 20)%nat. intros g. vm_compute. reflexivity. Qed.
Lemma skip_take_less : yields (fun f => elements f (PTake (PSkip (PList [1; 2; 3]) (-1)) 1)) [].
Proof. exists 20%nat. intros f Hf. replace f with (20 + (f - 20))%nat by lia. generalize (f - 20)%nat. intros g. vm_compute. reflexivity. Qed.
Lemma repeat_once_raises : raises (fun f => elements f (PRepeat (POnce [1; 2]) 1)).
Proof. exists 20%nat. intros f Hf. replace f with (20 + (f - 20))%nat by lia. generalize (f - 20)%nat. intros g. vm_compute. reflexivity. Qed.
Lemma range_overflows : forall f, (2 <= f)%nat -> elements f (PRange (2 ^ 63 - 2) 2) = UB.
Proof. intros f Hf. replace f with (2 + (f - 2))%nat by lia. generalize (f - 2)%nat. intros g. vm_compute. reflexivity. Qed.
Lemma z_total : total_order Z.compare.
Proof. split; intros a b; [apply Z.compare_antisym|]. intros d. rewrite !Z.compare_le_iff. lia. Qed.

(* ---- when Reset raises ------------------------------------------------------------------------- *)
Fixpoint rsets {A : Type} (e : enum A) : bool :=
  match e with
  | EEmpty => true
  | ECont _ _ => true
  | EOnce _ _ => false
  | ERange _ _ _ => true
  | ESelect e _ _ => rsets e
  | EWhere e _ _ => rsets e
  | EConcat e1 e2 _ _ => rsets e1 && rsets e2
  | ETake e _ => rsets e
  | ESkip e _ _ => rsets e
  | ERepeat e _ _ _ => rsets e
  | EDistinct e _ _ _ => rsets e
  | EReverse _ _ => true
  | EPair e1 e2 _ => rsets e1 && rsets e2
  | EIntExc e _ _ _ _ => rsets e
  end.
(* no range begins outside the integers *)
Fixpoint fit {A : Type} (e : enum A) : Prop :=
  match e with
  | ERange s _ _ => fits (s - 1) = true
  | ESelect e _ _ => fit e
  | EWhere e _ _ => fit e
  | EConcat e1 e2 _ _ => fit e1 /\ fit e2
  | ETake e _ => fit e
  | ESkip e _ _ => fit e
  | ERepeat e _ _ _ => fit e
  | EDistinct e _ _ _ => fit e
  | EPair e1 e2 _ => fit e1 /\ fit e2
  | EIntExc e _ _ _ _ => fit e
  | _ => True
  end.
Definition alike {A : Type} (a b : enum A) : Prop := rsets b = rsets a /\ (fit a -> fit b).
Lemma alike_refl A (a : enum A) : alike a a.
Proof. split; auto. Qed.
Lemma alike_trans A (a b c : enum A) : alike a b -> alike b c -> alike a c.
Proof. intros [E F] [G H]. split; [congruence|auto]. Qed.
Lemma reset_alike A (e : enum A) : forall e', reset e = Ok e' -> alike e e'.
Proof.
  unfold alike. induction e; cbn [reset]; intros x E;
    try (destruct (reset e) as [a| | |]; cbn [bind] in E; try discriminate; injection E as <-; destruct (IHe _ eq_refl); cbn [rsets fit]; auto; fail);
    try (injection E as <-; cbn [rsets fit]; auto; fail);
    try (destruct (reset e1) as [y1| | |]; cbn [bind] in E; try discriminate; destruct (reset e2) as [y2| | |]; cbn [bind] in E; try discriminate; injection E as <-;
         destruct (IHe1 _ eq_refl), (IHe2 _ eq_refl); cbn [rsets fit]; split; [congruence|tauto]).
  - discriminate.
  - destruct (fits (z - 1)) eqn:G; [|discriminate]. injection E as <-. cbn [rsets fit]. auto.
Qed.
Lemma reset_raises A (e : enum A) : fit e -> if rsets e then exists e', reset e = Ok e' else reset e = Err.
Proof.
  induction e; cbn [rsets fit reset]; intros F; eauto;
    try (specialize (IHe F); destruct (rsets e); [destruct IHe as (x & ->)|rewrite IHe]; cbn [bind]; eauto; fail);
    try (destruct F as [F1 F2]; specialize (IHe1 F1); specialize (IHe2 F2); destruct (rsets e1); [destruct IHe1 as (x & ->)|rewrite IHe1]; cbn [bind andb]; auto;
         destruct (rsets e2); [destruct IHe2 as (y & ->)|rewrite IHe2]; cbn [bind]; eauto; fail).
  rewrite F. eauto.
Qed.
Lemma skip_alike A (nxt : enum A -> res (bool * enum A)) : (forall e b e', nxt e = Ok (b, e') -> alike e e') ->
  forall m e b e', skip_loop nxt m e = Ok (b, e') -> alike e e'.
Proof.
  intros N. induction m as [|m IH]; intros e b e' E; cbn [skip_loop] in E; [injection E as <- <-; apply alike_refl|].
  destruct (nxt e) as [[c e1]| | |] eqn:En; cbn [bind] in E; try discriminate. apply N in En. destruct c; [|injection E as <- <-; auto].
  eapply alike_trans; eauto.
Qed.
Lemma next_alike f : forall A (e : enum A) b e', next f e = Ok (b, e') -> alike e e'.
Proof.
  induction f as [|f IH]; intros A e b e' E; [discriminate|].
  destruct e as [A|A l i|A l i|s n i|A B e g o|A e q i|A e1 e2 i t|A e n|A e n s|A e n i r|A e c d o|A l i|A B e1 e2 o|A e c r x i]; cbn [next] in E.
  - injection E as <- <-. apply alike_refl.
  - injection E as <- <-. split; auto.
  - injection E as <- <-. split; auto.
  - destruct (_ && _ && _); [|discriminate]. destruct (_ && _); injection E as <- <-; split; auto.
  - destruct (next f e) as [[b1 a]| | |] eqn:En; cbn [bind] in E; try discriminate. apply IH in En as [E1 F1]. destruct b1.
    + destruct (current a); cbn [bind] in E; try discriminate. injection E as <- <-. split; auto.
    + injection E as <- <-. split; auto.
  - destruct (next f e) as [[b1 a]| | |] eqn:En; cbn [bind] in E; try discriminate. apply IH in En as [E1 F1]. destruct b1.
    + destruct (current a) as [y| | |]; cbn [bind] in E; try discriminate. destruct (q y); [injection E as <- <-; split; auto|]. apply IH in E as [E2 F2].
      split; cbn [rsets fit] in *; [congruence|auto].
    + injection E as <- <-. split; auto.
  - destruct t.
    + destruct (next f e2) as [[b1 a]| | |] eqn:En; cbn [bind] in E; try discriminate. apply IH in En as [E1 F1]. injection E as <- <-. split; cbn [rsets fit]; [congruence|tauto].
    + destruct (next f e1) as [[b1 a]| | |] eqn:En; cbn [bind] in E; try discriminate. apply IH in En as [E1 F1]. destruct b1.
      * injection E as <- <-. split; cbn [rsets fit]; [congruence|tauto].
      * destruct (next f e2) as [[b2 a2]| | |] eqn:En2; cbn [bind] in E; try discriminate. apply IH in En2 as [E2 F2]. injection E as <- <-. split; cbn [rsets fit]; [congruence|tauto].
  - destruct (index e >=? n - 1); [injection E as <- <-; apply alike_refl|].
    destruct (next f e) as [[b1 a]| | |] eqn:En; cbn [bind] in E; try discriminate. apply IH in En as [E1 F1]. injection E as <- <-. split; auto.
  - destruct s.
    + destruct (next f e) as [[b1 a]| | |] eqn:En; cbn [bind] in E; try discriminate. apply IH in En as [E1 F1]. injection E as <- <-. split; auto.
    + destruct (skip_loop (next f) (Z.to_nat n) e) as [[b1 a]| | |] eqn:Es; cbn [bind] in E; try discriminate. apply skip_alike in Es as [E1 F1]; [|intros; eapply IH; eauto]. destruct b1.
      * destruct (next f a) as [[b2 a2]| | |] eqn:En; cbn [bind] in E; try discriminate. apply IH in En as [E2 F2]. injection E as <- <-. split; cbn [rsets fit]; [congruence|auto].
      * injection E as <- <-. split; auto.
  - destruct (r <? n); [|injection E as <- <-; apply alike_refl].
    destruct (next f e) as [[b1 a]| | |] eqn:En; cbn [bind] in E; try discriminate. apply IH in En as [E1 F1]. destruct b1; [injection E as <- <-; split; auto|].
    destruct (reset a) as [a2| | |] eqn:Er; cbn [bind] in E; try discriminate. apply reset_alike in Er as [E2 F2]. apply IH in E as [E3 F3]. split; cbn [rsets fit] in *; [congruence|auto].
  - destruct (next f e) as [[b1 a]| | |] eqn:En; cbn [bind] in E; try discriminate. apply IH in En as [E1 F1]. destruct b1; [|injection E as <- <-; split; auto].
    destruct (current a) as [y| | |]; cbn [bind] in E; try discriminate. destruct (contains c d y); [|injection E as <- <-; split; auto].
    apply IH in E as [E2 F2]. split; cbn [rsets fit] in *; [congruence|auto].
  - injection E as <- <-. split; auto.
  - destruct (next f e1) as [[b1 a]| | |] eqn:En; cbn [bind] in E; try discriminate. apply IH in En as [E1 F1]. destruct b1; [|injection E as <- <-; split; cbn [rsets fit]; [congruence|tauto]].
    destruct (next f e2) as [[b2 a2]| | |] eqn:En2; cbn [bind] in E; try discriminate. apply IH in En2 as [E2 F2].
    destruct b2; [|injection E as <- <-; split; cbn [rsets fit]; [congruence|tauto]].
    destruct (current a); cbn [bind] in E; try discriminate. destruct (current a2); cbn [bind] in E; try discriminate. injection E as <- <-. split; cbn [rsets fit]; [congruence|tauto].
  - destruct (next f e) as [[b1 a]| | |] eqn:En; cbn [bind] in E; try discriminate. apply IH in En as [E1 F1]. destruct b1; [|injection E as <- <-; split; auto].
    destruct (current a) as [y| | |]; cbn [bind] in E; try discriminate. destruct (Bool.eqb _ _); [injection E as <- <-; split; auto|].
    apply IH in E as [E2 F2]. split; cbn [rsets fit] in *; [congruence|auto].
Qed.
Lemma nexts_alike A f : forall m (e : enum A) e', nexts m f e = Ok e' -> alike e e'.
Proof.
  induction m as [|m IH]; intros e e' E; cbn [nexts] in E; [injection E as <-; apply alike_refl|].
  destruct (next f e) as [[b a]| | |] eqn:En; cbn [bind] in E; try discriminate. apply next_alike in En. eapply alike_trans; eauto.
Qed.
Lemma build_alike A (p : pipe A) : sane p -> forall f e, build f p = Ok e -> rsets e = restarts p /\ fit e /\ evaluated e = ready p.
Proof.
  induction p as [A|A l|A l|s n|A B p IH g|A p IH g|A p IHp q IHq|A p IH n|A p IH n|A p IH n|A c p IH|A p IH|A B p IHp q IHq|A c p IHp q IHq|A c p IHp q IHq|A c p IHp q IHq|A p IH b];
    cbn [sane restarts ready build]; intros T f e E;
    try (injection E as <-; cbn [rsets fit evaluated]; auto; fail);
    try (destruct (build f p) as [a| | |] eqn:Ep; cbn [bind] in E; try discriminate; destruct (IH ltac:(tauto) _ _ Ep) as (E1 & F1 & V1); injection E as <-; cbn [rsets fit evaluated]; auto; fail);
    try (destruct (build f p) as [a| | |] eqn:Ep; cbn [bind] in E; try discriminate; destruct (IHp ltac:(tauto) _ _ Ep) as (E1 & F1 & V1);
         destruct (build f q) as [a2| | |] eqn:Eq; cbn [bind] in E; try discriminate; destruct (IHq ltac:(tauto) _ _ Eq) as (E2 & F2 & V2);
         try (destruct (drain f a2); cbn [bind] in E; try discriminate); injection E as <-; cbn [rsets fit evaluated];
         rewrite ?E1, ?E2, ?V1, ?V2; auto; fail).
  - replace (fits (s - 1)) with true in E by (unfold fits; lia). injection E as <-. cbn [rsets fit evaluated]. split; auto. split; auto. unfold fits. lia.
  - destruct (build f p) as [a| | |] eqn:Ep; cbn [bind] in E; try discriminate. destruct (drain f a); cbn [bind] in E; try discriminate. injection E as <-. cbn [rsets fit evaluated]. auto.
  - destruct (build f p) as [a| | |] eqn:Ep; cbn [bind] in E; try discriminate. destruct (IH T _ _ Ep) as (E1 & F1 & V1). rewrite V1 in E. destruct (negb b && ready p) eqn:G.
    + injection E as <-. destruct b; [discriminate|]. cbn [negb andb] in G. rewrite G in V1 |- *. auto.
    + destruct (drain f a); cbn [bind] in E; try discriminate. injection E as <-. cbn [rsets fit evaluated]. split; auto. destruct b, (ready p); auto; discriminate.
Qed.
Lemma reset_err A (p : pipe A) m : sane p -> restarts p = false -> raises (on p (fun f e => do e <- nexts m f e; do e <- reset e; drain f e)).
Proof.
  intros T R. destruct (build_exact A p T) as (e & (N1 & Y) & (P & HS & H) & _). destruct (nexts_any _ _ _ _ _ HS m _ _ H) as (e' & (N2 & Y') & _).
  exists (Nat.max N1 N2). intros f Hf. unfold on. specialize (Y f ltac:(lia)). rewrite Y. cbn [bind]. specialize (Y' f ltac:(lia)). rewrite Y'. cbn [bind].
  destruct (build_alike A p T _ _ Y) as (E1 & F1 & _). destruct (nexts_alike _ _ _ _ _ Y') as (E2 & F2). pose proof (reset_raises _ e' (F2 F1)) as X.
  rewrite E2, E1, R in X. now rewrite X.
Qed.
Lemma repeat_err A (l : list A) i0 rs P (HS : sim l i0 rs P) n : 1 <= n ->
  forall m k e i, (length l - k = m)%nat -> P (Some k) e -> fit e -> rsets e = false -> exists N, forall f, (N <= f)%nat -> drain f (ERepeat e n i 0) = Err.
Proof.
  intros Hn. induction m as [|m IH]; intros k e i Hm HP F R; pose proof (s_bound _ _ _ _ HS _ _ HP).
  - assert (k = length l) by lia. subst k. destruct (s_end _ _ _ _ HS _ HP) as (e' & (N & Y) & _). exists (S (S N)). intros [|[|f]] Hf; [lia|lia|].
    cbn [drain next]. replace (0 <? n) with true by lia. specialize (Y f ltac:(lia)). rewrite Y. cbn [bind]. destruct (next_alike _ _ _ _ _ Y) as (E2 & F2).
    pose proof (reset_raises _ e' (F2 F)) as X. rewrite E2, R in X. now rewrite X.
  - destruct (s_next _ _ _ _ HS _ _ HP) as (e' & (N & Y) & HP'); [lia|]. destruct (s_cur _ _ _ _ HS _ _ HP') as (y & _ & Ec).
    destruct (next_alike _ _ _ _ _ (Y N (le_n _))) as (E2 & F2). destruct (IH (S k) e' (i + 1)) as (M & D); auto; [lia|congruence|].
    exists (S (S (Nat.max N M))). intros [|[|f]] Hf; [lia|lia|]. change (drain (S (S f)) (ERepeat e n i 0)) with (do (b, e) <- next (S f) (ERepeat e n i 0); if b then do x <- current e; do r <- drain (S f) e; Ok (x :: r) else Ok []).
    cbn [next]. replace (0 <? n) with true by lia. rewrite (Y f) by lia. cbn [bind current]. rewrite Ec. cbn [bind]. rewrite D by lia. reflexivity.
Qed.
Lemma repeat_raises A (p : pipe A) n : sane p -> restarts p = false -> 1 <= n -> raises (fun f => elements f (PRepeat p n)).
Proof.
  intros T R Hn. destruct (build_exact A p T) as (e & (N1 & Y) & (P & HS & H) & _). destruct (build_alike A p T _ _ (Y N1 (le_n _))) as (E1 & F1 & _).
  destruct (repeat_err _ _ _ _ _ HS n Hn _ 0%nat e (-1) eq_refl H F1) as (N2 & D); [congruence|]. exists (Nat.max N1 N2). intros f Hf.
  unfold elements. cbn [build]. rewrite Y by lia. cbn [bind]. apply D. lia.
Qed.
Lemma means_denote A (p : pipe A) : tame p -> sane p /\ means p = denote p.
Proof. intros T. destruct (tame_sane A p T) as (S & M & _). auto. Qed.
Lemma take_exact A (p : pipe A) n : sane p -> yields (fun f => elements f (PTake p n)) (firstn (taken (first_index p) (offset p) n) (means p)).
Proof. intros T. now apply (elements_exact A (PTake p n)). Qed.
Lemma reset_exact A (p : pipe A) m : sane p -> restarts p = true ->
  yields (on p (fun f e => do e <- nexts m f e; do e <- reset e; drain f e)) (means p).
Proof.
  intros T R. destruct (build_exact A p T) as (e & Y & (P & HS & H) & _). unfold on. eapply y_bind; [exact Y|]. cbv beta.
  destruct (nexts_any _ _ _ _ _ HS m _ _ H) as (e' & Y' & o' & H'). eapply y_bind; [exact Y'|]. cbv beta.
  destruct (s_reset _ _ _ _ HS R _ _ H') as (e2 & E & H2). rewrite E. cbn [bind]. apply (drain_ok _ _ _ _ _ HS _ 0 _ eq_refl H2).
Qed.
