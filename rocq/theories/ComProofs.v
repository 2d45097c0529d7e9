From Coq Require Import ZifyBool ZifyNat.
From Verif Require Import Base BaseFacts ComModel ComSpec.
Open Scope nat_scope.

Definition num (t : nat) (l : list (option (option nat))) : nat := length (filter (holds t) l).
Definition b2n (b : bool) : nat := if b then 1 else 0.
Lemma num_upd l v x y t : nth_error l v = Some x -> num t (upd l v y) + b2n (holds t x) = num t l + b2n (holds t y).
Proof.
  unfold num. revert v. induction l as [|z l IH]; intros [|v] H; cbn [nth_error upd filter] in *; try discriminate.
  - inversion H; subst. destruct (holds t x), (holds t y); cbn; lia.
  - specialize (IH _ H). destruct (holds t z); cbn; lia.
Qed.
Lemma num_pos l t : existsb (holds t) l = (1 <=? num t l).
Proof.
  unfold num. induction l as [|x l IH]; cbn [existsb filter]; auto. destruct (holds t x); cbn [orb]; [reflexivity|exact IH].
Qed.
Lemma num_in l u t : nth_error l u = Some (Some (Some t)) -> 1 <= num t l.
Proof.
  intros H. assert (existsb (holds t) l = true) as E.
  { apply existsb_exists. exists (Some (Some t)). split; [eapply nth_error_In; eauto|]. cbn. apply Nat.eqb_refl. }
  rewrite num_pos in E. lia.
Qed.

(* variables and model agree except perhaps at v *)
Record loose (v : option nat) (s : cst) (w : own) : Prop := {
  l_len : length (cvs s) = length (ov w);
  l_var : forall u, Some u <> v -> nth_error (cvs s) u =
            option_map (option_map (fun x => match x with None => cnull | Some t => mkC (Some t) (Some (nth t (oo w) 0)) end)) (nth_error (ov w) u);
  l_tok : forall u t, nth_error (ov w) u = Some (Some (Some t)) -> t < length (oo w);
  l_cnt : forall c, nth_error (ccn s) c = if Nat.ltb c (length (oo w)) then Some (if num c (ov w) =? 0 then None else Some (Z.of_nat (num c (ov w)))) else None;
  l_rel : crel s = orel w
}.
Definition Sim := loose None.

Lemma l_get v s w u x : loose v s w -> Some u <> v -> look w u = Some x ->
  nth_error (cvs s) u = Some (Some (match x with None => cnull | Some t => mkC (Some t) (Some (nth t (oo w) 0)) end)).
Proof.
  intros H N L. rewrite (l_var _ _ _ H u N). unfold look in L. destruct (nth_error (ov w) u); [|discriminate]. now subst.
Qed.
Lemma look_nth w u x : look w u = Some x -> nth_error (ov w) u = Some (Some x).
Proof. unfold look. destruct (nth_error (ov w) u); congruence. Qed.
Lemma l_weak v s w : Sim s w -> loose v s w.
Proof. intros [A B C D E]. constructor; auto. intros u _. apply B. discriminate. Qed.

(* dropping what v holds *)
Lemma drop_ok s w v y : Sim s w -> look w v = Some y ->
  exists s1, cdec s v = Ok s1 /\ loose (Some v) s1 (put w v (Some None)) /\ exists q, nth_error (cvs s1) v = Some (Some q).
Proof.
  intros H L. pose proof (l_get _ _ _ v y H ltac:(discriminate) L) as G. pose proof (look_nth _ _ _ L) as Ln.
  unfold cdec, vget. rewrite G. cbn [bind]. unfold put. rewrite Ln. destruct y as [t|].
  2:{ exists s. cbn [cc cnull]. split; [reflexivity|]. split; [|eauto]. destruct H as [A B C D E]. constructor; cbn [ov oo orel]; auto.
      - now rewrite upd_length.
      - intros u N. rewrite upd_other by congruence. apply B. discriminate.
      - intros u t. destruct (Nat.eq_dec u v) as [->|N]; [rewrite upd_same by (eapply nth_error_lt; eauto); discriminate|].
        rewrite upd_other by auto. eauto.
      - intros c. rewrite D. pose proof (num_upd (ov w) v _ (Some None) c Ln) as Q. cbn [holds b2n] in Q. 
        replace (num c (upd (ov w) v (Some None))) with (num c (ov w)) by lia. reflexivity. }
  cbn [cc cr]. pose proof (l_tok _ _ _ H _ _ Ln) as Lt. pose proof (num_in _ _ _ Ln) as Np.
  unfold nget. rewrite (l_cnt _ _ _ H). replace (t <? length (oo w)) with true by lia.
  replace (num t (ov w) =? 0) with false by lia. cbn [bind]. cbv zeta.
  set (l' := upd (ov w) v (Some None)).
  assert (forall c, num c l' + b2n (Nat.eqb t c) = num c (ov w)) as Q.
  { intros c. pose proof (num_upd (ov w) v _ (Some None) c Ln) as Q. cbn [holds b2n] in Q. fold l' in Q. lia. }
  pose proof (Q t) as Qt. rewrite Nat.eqb_refl in Qt. cbn [b2n] in Qt.
  assert (forall u t', nth_error l' u = Some (Some (Some t')) -> t' < length (oo w)) as TK.
  { intros u t'. unfold l'. destruct (Nat.eq_dec u v) as [->|N]; [rewrite upd_same by (eapply nth_error_lt; eauto); discriminate|].
    rewrite upd_other by auto. apply (l_tok _ _ _ H). }
  assert (t < length (ccn s)) as Lc.
  { apply nth_error_Some. rewrite (l_cnt _ _ _ H). replace (t <? length (oo w)) with true by lia. discriminate. }
  rewrite num_pos. destruct H as [A B C D E]. destruct (Z.eqb_spec (Z.of_nat (num t (ov w)) - 1) 0) as [Z|Z].
  - replace (1 <=? num t l') with false by lia. unfold vset. cbn [cvs nset]. rewrite G. eexists. split; [reflexivity|].
    split; [|cbn [cvs]; rewrite upd_same by (eapply nth_error_lt; eauto); eauto].
    constructor; cbn [ov oo orel cvs ccn crel nset]; auto.
    + unfold l'. now rewrite !upd_length.
    + intros u N. unfold l'. rewrite !upd_other by congruence. apply B. discriminate.
    + intros c. destruct (Nat.eq_dec c t) as [->|N].
      * rewrite upd_same by (now rewrite upd_length). replace (t <? length (oo w)) with true by lia.
        replace (num t l' =? 0) with true by lia. reflexivity.
      * rewrite !upd_other by auto. rewrite D. specialize (Q c). replace (t =? c) with false in Q by lia. cbn [b2n] in Q.
        replace (num c l') with (num c (ov w)) by lia. reflexivity.
    + now rewrite E.
  - replace (1 <=? num t l') with true by lia. eexists. split; [reflexivity|]. split; [|eauto].
    constructor; cbn [ov oo orel cvs ccn crel nset]; auto.
    + unfold l'. now rewrite !upd_length.
    + intros u N. unfold l'. rewrite !upd_other by congruence. apply B. discriminate.
    + intros c. destruct (Nat.eq_dec c t) as [->|N].
      * rewrite upd_same by auto. replace (t <? length (oo w)) with true by lia.
        replace (num t l' =? 0) with false by lia. do 2 f_equal. lia.
      * rewrite !upd_other by auto. rewrite D. specialize (Q c). replace (t =? c) with false in Q by lia. cbn [b2n] in Q.
        replace (num c l') with (num c (ov w)) by lia. reflexivity.
Qed.

Definition hole (w : own) (v : nat) : Prop := nth_error (ov w) v = Some None \/ nth_error (ov w) v = Some (Some None).
Lemma hole_num w v t x : hole w v -> num t (upd (ov w) v x) = num t (ov w) + b2n (holds t x).
Proof. intros [H|H]; pose proof (num_upd (ov w) v _ x t H) as Q; cbn [holds b2n] in Q; lia. Qed.
Lemma hole_lt w v : hole w v -> v < length (ov w).
Proof. intros [H|H]; eapply nth_error_lt; eauto. Qed.

(* giving v new contents that count nothing *)
Lemma fill_none s w v x : loose (Some v) s w -> hole w v -> x = None \/ x = Some None ->
  Sim (mkCst (ccn s) (upd (cvs s) v (option_map (fun _ => cnull) x)) (crel s)) (mkOwn (upd (ov w) v x) (oo w) (orel w)).
Proof.
  intros H Hh Hx. pose proof (hole_lt _ _ Hh) as Lv. pose proof (fun t => hole_num w v t x Hh) as Q. destruct H as [A B C D E].
  assert (forall t, holds t x = false) as Nx by (intros; destruct Hx; subst; reflexivity).
  constructor; cbn [ov oo orel cvs ccn crel]; auto.
  - now rewrite !upd_length.
  - intros u _. destruct (Nat.eq_dec u v) as [->|N].
    + rewrite !upd_same by lia. destruct Hx; subst; reflexivity.
    + rewrite !upd_other by auto. apply B. congruence.
  - intros u t. destruct (Nat.eq_dec u v) as [->|N]; [rewrite upd_same by auto; destruct Hx; subst; discriminate|].
    rewrite upd_other by auto. eauto.
  - intros c. rewrite D, Q, Nx. cbn [b2n]. rewrite Nat.add_0_r. reflexivity.
Qed.
Lemma fill_copy s w v u x : loose (Some v) s w -> hole w v -> u <> v -> look w u = Some x ->
  exists p s', nth_error (cvs s) u = Some (Some p) /\
    cinc (mkCst (ccn s) (upd (cvs s) v (Some p)) (crel s)) p = Ok s' /\ Sim s' (mkOwn (upd (ov w) v (Some x)) (oo w) (orel w)).
Proof.
  intros H Hh N L. pose proof (l_get _ _ _ u x H ltac:(congruence) L) as G. destruct x as [t|].
  2:{ eexists _, _. split; [exact G|]. cbn [cinc cc cnull]. split; [reflexivity|].
      exact (fill_none s w v (Some None) H Hh (or_intror eq_refl)). }
  pose proof (look_nth _ _ _ L) as Ln. pose proof (l_tok _ _ _ H _ _ Ln) as Lt. pose proof (num_in _ _ _ Ln) as Np.
  eexists _, _. split; [exact G|]. cbn [cinc cc]. unfold nget. cbn [ccn]. rewrite (l_cnt _ _ _ H).
  replace (t <? length (oo w)) with true by lia. replace (num t (ov w) =? 0) with false by lia. cbn [bind]. split; [reflexivity|].
  pose proof (hole_lt _ _ Hh) as Lv. pose proof (fun c => hole_num w v c (Some (Some t)) Hh) as Q.
  assert (t < length (ccn s)) as Lc.
  { apply nth_error_Some. rewrite (l_cnt _ _ _ H). replace (t <? length (oo w)) with true by lia. discriminate. }
  destruct H as [A B C D E]. constructor; cbn [ov oo orel cvs ccn crel nset]; auto.
  - now rewrite !upd_length.
  - intros u' _. destruct (Nat.eq_dec u' v) as [->|N'].
    + rewrite !upd_same by lia. reflexivity.
    + rewrite !upd_other by auto. apply B. congruence.
  - intros u' t'. destruct (Nat.eq_dec u' v) as [->|N']; [rewrite upd_same by auto; intros X; inversion X; now subst|].
    rewrite upd_other by auto. eauto.
  - intros c. rewrite Q. cbn [holds]. destruct (Nat.eqb_spec t c) as [<-|Nc]; cbn [b2n].
    + rewrite upd_same by auto. replace (t <? length (oo w)) with true by lia. replace (num t (ov w) + 1 =? 0) with false by lia.
      do 2 f_equal. lia.
    + rewrite upd_other by auto. rewrite D, Nat.add_0_r. reflexivity.
Qed.
Lemma fill_move s w v u x : loose (Some v) s w -> hole w v -> u <> v -> look w u = Some x ->
  exists p, nth_error (cvs s) u = Some (Some p) /\
    Sim (mkCst (ccn s) (upd (upd (cvs s) v (Some p)) u (Some cnull)) (crel s))
        (mkOwn (upd (upd (ov w) v (Some x)) u (Some None)) (oo w) (orel w)).
Proof.
  intros H Hh N L. pose proof (l_get _ _ _ u x H ltac:(congruence) L) as G. eexists. split; [exact G|].
  pose proof (look_nth _ _ _ L) as Ln. pose proof (hole_lt _ _ Hh) as Lv. pose proof (nth_error_lt _ _ _ Ln) as Lu.
  assert (nth_error (upd (ov w) v (Some x)) u = Some (Some x)) as Ln' by (rewrite upd_other; auto).
  assert (forall c, num c (upd (upd (ov w) v (Some x)) u (Some None)) = num c (ov w)) as Q.
  { intros c. pose proof (hole_num w v c (Some x) Hh) as Q1. pose proof (num_upd _ u _ (Some None) c Ln') as Q2. cbn [holds b2n] in Q1, Q2. lia. }
  pose proof (l_tok _ _ _ H) as TK.
  destruct H as [A B C D E]. constructor; cbn [ov oo orel cvs ccn crel]; auto.
  - now rewrite !upd_length.
  - intros t _. destruct (Nat.eq_dec t u) as [->|Nu].
    + rewrite !upd_same by (rewrite ?upd_length; lia). reflexivity.
    + rewrite !(upd_other _ u) by auto. destruct (Nat.eq_dec t v) as [->|Nv].
      * rewrite !upd_same by lia. reflexivity.
      * rewrite !upd_other by auto. apply B. congruence.
  - intros t y. destruct (Nat.eq_dec t u) as [->|Nu]; [rewrite upd_same by (rewrite upd_length; lia); discriminate|].
    rewrite (upd_other _ u) by auto. destruct (Nat.eq_dec t v) as [->|Nv].
    + rewrite upd_same by lia. intros X. inversion X; subst. eapply TK; eauto.
    + rewrite upd_other by auto. eauto.
  - intros c. rewrite Q. apply D.
Qed.
Lemma fill_new s w v o : loose (Some v) s w -> hole w v ->
  Sim (mkCst (ccn s ++ [Some 1%Z]) (upd (cvs s) v (Some (mkC (Some (length (ccn s))) (Some o)))) (crel s))
      (mkOwn (upd (ov w) v (Some (Some (length (oo w))))) (oo w ++ [o]) (orel w)) /\ length (ccn s) = length (oo w).
Proof.
  intros H Hh. pose proof (hole_lt _ _ Hh) as Lv. pose proof (fun c => hole_num w v c (Some (Some (length (oo w)))) Hh) as Q.
  assert (length (ccn s) = length (oo w)) as LL.
  { apply Nat.le_antisymm.
    - apply Nat.nlt_ge. intros X. assert (nth_error (ccn s) (length (oo w)) <> None) as Y by (now apply nth_error_Some).
      rewrite (l_cnt _ _ _ H) in Y. replace (length (oo w) <? length (oo w)) with false in Y by lia. congruence.
    - apply Nat.nlt_ge. intros X. assert (nth_error (ccn s) (length (ccn s)) = None) as Y by (apply nth_error_None; lia).
      rewrite (l_cnt _ _ _ H) in Y. replace (length (ccn s) <? length (oo w)) with true in Y by lia. discriminate. }
  split; auto. rewrite LL.
  assert (forall t, t < length (oo w) -> nth t (oo w ++ [o]) 0 = nth t (oo w) 0) as NT by (intros; now rewrite app_nth1).
  assert (nth (length (oo w)) (oo w ++ [o]) 0 = o) as NO by (rewrite app_nth2 by lia; now rewrite Nat.sub_diag).
  assert (num (length (oo w)) (ov w) = 0) as NZ.
  { unfold num. destruct (filter (holds (length (oo w))) (ov w)) as [|y l] eqn:F; auto. exfalso.
    assert (In y (filter (holds (length (oo w))) (ov w))) as I by (rewrite F; now left). apply filter_In in I. destruct I as [I P].
    apply In_nth_error in I. destruct I as [i I]. destruct y as [[t|]|]; cbn in P; try discriminate.
    apply (l_tok _ _ _ H) in I. lia. }
  destruct H as [A B C D E]. constructor; cbn [ov oo orel cvs ccn crel]; auto.
  - now rewrite !upd_length.
  - intros u _. destruct (Nat.eq_dec u v) as [->|N].
    + rewrite !upd_same by lia. cbn [option_map]. now rewrite NO.
    + rewrite !upd_other by auto. rewrite B by congruence. destruct (nth_error (ov w) u) as [[[t|]|]|] eqn:X; cbn [option_map]; auto.
      rewrite NT; eauto.
  - intros u t. rewrite app_length. cbn [length]. destruct (Nat.eq_dec u v) as [->|N].
    + rewrite upd_same by auto. intros X. inversion X. lia.
    + rewrite upd_other by auto. intros X. apply C in X. lia.
  - intros c. rewrite app_length. cbn [length]. rewrite Q. cbn [holds]. destruct (Nat.lt_trichotomy c (length (oo w))) as [X|[X|X]].
    + rewrite nth_error_app1 by lia. rewrite D. replace (c <? length (oo w)) with true by lia. replace (c <? length (oo w) + 1) with true by lia.
      replace (length (oo w) =? c) with false by lia. cbn [b2n]. now rewrite Nat.add_0_r.
    + subst c. rewrite nth_error_app2 by lia. rewrite LL, Nat.sub_diag. replace (length (oo w) <? length (oo w) + 1) with true by lia.
      rewrite Nat.eqb_refl, NZ. reflexivity.
    + replace (c <? length (oo w) + 1) with false by lia. apply nth_error_None. rewrite app_length. cbn [length]. lia.
Qed.

Lemma put_hole w v x : hole w v -> put w v x = mkOwn (upd (ov w) v x) (oo w) (orel w).
Proof. unfold put. intros [H|H]; now rewrite H. Qed.
Lemma upd_upd {A} (l : list A) v x y : upd (upd l v x) v y = upd l v y.
Proof. revert v. induction l as [|z l IH]; intros [|v]; cbn; congruence. Qed.
Lemma put_split w v y x : look w v = Some y ->
  (forall t, y = Some t -> holds t x = true -> existsb (holds t) (upd (ov w) v (Some None)) = true) ->
  put w v x = mkOwn (upd (ov (put w v (Some None))) v x) (oo (put w v (Some None))) (orel (put w v (Some None))).
Proof.
  intros L K. pose proof (look_nth _ _ _ L) as Ln. unfold put. rewrite Ln. destruct y as [t|]; [|cbn [ov oo orel]; now rewrite upd_upd].
  rewrite !num_pos. pose proof (num_upd (ov w) v _ (Some None) t Ln) as Q1. pose proof (num_upd (ov w) v _ x t Ln) as Q2.
  cbn [holds b2n] in *. rewrite Nat.eqb_refl in *. cbn [b2n] in *.
  specialize (K t eq_refl). rewrite num_pos in K. destruct (holds t x) eqn:Hx.
  - specialize (K eq_refl). cbn [b2n] in Q2. replace (1 <=? num t (upd (ov w) v x)) with true by lia. rewrite K. cbn [ov oo orel]. now rewrite upd_upd.
  - cbn [b2n] in Q2. replace (num t (upd (ov w) v x)) with (num t (upd (ov w) v (Some None))) by lia.
    destruct (1 <=? _); cbn [ov oo orel]; now rewrite upd_upd.
Qed.
Lemma put_none_hole w v y : look w v = Some y -> hole (put w v (Some None)) v.
Proof.
  intros L. pose proof (look_nth _ _ _ L) as Ln. right. unfold put. rewrite Ln.
  assert (nth_error (upd (ov w) v (Some None)) v = Some (Some None)) as X by (apply upd_same; eapply nth_error_lt; eauto).
  destruct y as [t|]; [|exact X]. destruct (existsb _ _); exact X.
Qed.
Lemma put_ov w v x : ov (put w v x) = upd (ov w) v x.
Proof. unfold put. destruct (nth_error (ov w) v) as [[[t|]|]|]; auto. destruct (existsb _ _); auto. Qed.
Lemma put_oo w v x : oo (put w v x) = oo w.
Proof. unfold put. destruct (nth_error (ov w) v) as [[[t|]|]|]; auto. destruct (existsb _ _); auto. Qed.

Lemma cstep_ok s w o : Sim s w -> olegal w o -> exists s', cstep s o = Ok s' /\ Sim s' (ospec w o).
Proof.
  intros H L.
  assert (forall v, nth_error (ov w) v = Some None -> nth_error (cvs s) v = Some None) as FR.
  { intros v X. rewrite (l_var _ _ _ H v ltac:(discriminate)), X. reflexivity. }
  destruct o as [v|v o|v u|v u|v|v|v o|v u|v u]; cbn [olegal] in L; cbn [cstep ospec].
  - unfold vinit. rewrite (FR v L). eexists. split; [reflexivity|]. rewrite put_hole by (now left).
    exact (fill_none s w v (Some None) (l_weak _ _ _ H) (or_introl L) (or_intror eq_refl)).
  - unfold wrap, vinit. cbn [cvs ccn crel]. rewrite (FR v L). eexists. split; [reflexivity|].
    rewrite put_hole by (now left). cbn [ov oo orel]. apply (fill_new s w v o (l_weak _ _ _ H) (or_introl L)).
  - destruct L as [Lv Lu]. destruct (look w u) as [x|] eqn:X; [|congruence].
    assert (u <> v) as N by (intros ->; unfold look in X; rewrite Lv in X; discriminate).
    destruct (fill_copy s w v u x (l_weak _ _ _ H) (or_introl Lv) N X) as (p & s' & P & R & S').
    unfold vget, vinit. rewrite P. cbn [bind]. rewrite (FR v Lv). cbn [bind]. exists s'. split; [exact R|]. rewrite put_hole by (now left). exact S'.
  - destruct L as [Lv Lu]. destruct (look w u) as [x|] eqn:X; [|congruence].
    assert (u <> v) as N by (intros ->; unfold look in X; rewrite Lv in X; discriminate).
    destruct (fill_move s w v u x (l_weak _ _ _ H) (or_introl Lv) N X) as (p & P & S').
    unfold vget, vinit, vset. rewrite P. cbn [bind]. rewrite (FR v Lv). cbn [bind cvs ccn crel].
    rewrite upd_other by auto. rewrite P. eexists. split; [reflexivity|]. rewrite (put_hole w v) by (now left).
    pose proof (look_nth _ _ _ X) as Xn.
    assert (nth_error (upd (ov w) v (Some x)) u = Some (Some x)) as Xu by (now rewrite upd_other by auto).
    unfold put. cbn [ov oo orel]. rewrite Xu. destruct x as [t|]; [|exact S'].
    replace (existsb (holds t) (upd (upd (ov w) v (Some (Some t))) u (Some None))) with true; [exact S'|].
    symmetry. apply existsb_exists. exists (Some (Some t)). split; [|cbn; apply Nat.eqb_refl].
    apply (nth_error_In _ v). rewrite upd_other by auto. apply upd_same. eapply nth_error_lt; eauto.
  - destruct (look w v) as [y|] eqn:Y; [|congruence].
    destruct (drop_ok s w v y H Y) as (s1 & R & S1 & q & Q). rewrite R. cbn [bind]. unfold vkill. rewrite Q. eexists. split; [reflexivity|].
    rewrite (put_split w v y None Y) by (intros; discriminate).
    exact (fill_none s1 _ v None S1 (put_none_hole _ _ _ Y) (or_introl eq_refl)).
  - destruct (look w v) as [y|] eqn:Y; [|congruence].
    destruct (drop_ok s w v y H Y) as (s1 & R & S1 & q & Q). rewrite R. cbn [bind]. unfold vset. rewrite Q. eexists. split; [reflexivity|].
    rewrite (put_split w v y (Some None) Y) by (intros; discriminate).
    exact (fill_none s1 _ v (Some None) S1 (put_none_hole _ _ _ Y) (or_intror eq_refl)).
  - destruct (look w v) as [y|] eqn:Y; [|congruence].
    destruct (drop_ok s w v y H Y) as (s1 & R & S1 & q & Q). rewrite R. cbn [bind]. unfold wrap, vset. cbn [cvs ccn crel]. rewrite Q.
    eexists. split; [reflexivity|].
    set (wx := mkOwn (ov w) (oo w ++ [o]) (orel w)).
    assert (look wx v = Some y) as Yx by exact Y.
    rewrite (put_split wx v y _ Yx).
    + destruct (fill_new s1 (put w v (Some None)) v o S1 (put_none_hole _ _ _ Y)) as [S2 _].
      rewrite put_oo in S2. rewrite put_ov in *. rewrite put_oo. cbn [oo ov wx].
      replace (orel (put wx v (Some None))) with (orel (put w v (Some None))); [exact S2|].
      pose proof (look_nth _ _ _ Y) as Yn. unfold put. cbn [wx ov oo orel]. rewrite Yn. destruct y as [t|]; auto.
      destruct (existsb _ _); auto. cbn [orel]. rewrite app_nth1; auto. eapply (l_tok _ _ _ H); eauto.
    + intros t -> Ht. cbn [holds] in Ht. exfalso. pose proof (l_tok _ _ _ H _ _ (look_nth _ _ _ Y)). lia.
  - destruct L as [Lv Lu]. destruct (look w u) as [x|] eqn:X; [|congruence]. destruct (look w v) as [y|] eqn:Y; [|congruence].
    destruct (Nat.eqb_spec v u) as [<-|N].
    + pose proof (l_get _ _ _ v y H ltac:(discriminate) Y) as G. unfold vget. rewrite G. cbn [bind]. exists s. split; [reflexivity|].
      assert (x = y) by congruence. subst x. pose proof (look_nth _ _ _ Y) as Yn.
      assert (upd (ov w) v (Some y) = ov w) as U.
      { clear - Yn. revert v Yn. induction (ov w) as [|z l IH]; intros [|v] Hn; cbn in *; try discriminate; [congruence|now rewrite IH]. }
      unfold put. rewrite Yn, U. destruct y as [t|]; [|destruct w; exact H].
      replace (existsb (holds t) (ov w)) with true; [destruct w; exact H|].
      symmetry. apply existsb_exists. exists (Some (Some t)). split; [eapply nth_error_In; eauto|cbn; apply Nat.eqb_refl].
    + destruct (drop_ok s w v y H Y) as (s1 & R & S1 & q & Q). rewrite R. cbn [bind].
      assert (look (put w v (Some None)) u = Some x) as X1.
      { unfold look. rewrite put_ov, upd_other by auto. exact X. }
      destruct (fill_copy s1 _ v u x S1 (put_none_hole _ _ _ Y) ltac:(congruence) X1) as (p & s' & P & R' & S').
      unfold vget, vset. rewrite P. cbn [bind]. rewrite Q. cbn [bind]. exists s'. split; [exact R'|].
      rewrite (put_split w v y (Some x) Y); [exact S'|].
      intros t -> Ht. apply existsb_exists. exists (Some x). split; auto.
      apply (nth_error_In _ u). rewrite upd_other by auto. now apply look_nth.
  - destruct L as [Lv Lu]. destruct (look w u) as [x|] eqn:X; [|congruence]. destruct (look w v) as [y|] eqn:Y; [|congruence].
    destruct (Nat.eqb_spec v u) as [<-|N].
    + pose proof (l_get _ _ _ v y H ltac:(discriminate) Y) as G. unfold vget. rewrite G. cbn [bind]. exists s. split; [reflexivity|exact H].
    + destruct (drop_ok s w v y H Y) as (s1 & R & S1 & q & Q). rewrite R. cbn [bind].
      assert (look (put w v (Some None)) u = Some x) as X1.
      { unfold look. rewrite put_ov, upd_other by auto. exact X. }
      destruct (fill_move s1 _ v u x S1 (put_none_hole _ _ _ Y) ltac:(congruence) X1) as (p & P & S').
      unfold vget, vset. rewrite P. cbn [bind]. rewrite Q. cbn [bind cvs ccn crel]. rewrite upd_other by auto. rewrite P.
      eexists. split; [reflexivity|].
      assert (put w v (Some x) = mkOwn (upd (ov (put w v (Some None))) v (Some x)) (oo (put w v (Some None))) (orel (put w v (Some None)))) as PS.
      { apply (put_split w v y (Some x) Y). intros t -> Ht. apply existsb_exists. exists (Some x). split; auto.
        apply (nth_error_In _ u). rewrite upd_other by auto. now apply look_nth. }
      rewrite PS. set (w1 := put w v (Some None)) in *.
      assert (nth_error (upd (ov w1) v (Some x)) u = Some (Some x)) as Xu by (rewrite upd_other by auto; now apply look_nth).
      unfold put. cbn [ov oo orel]. rewrite Xu. destruct x as [t|]; [|exact S'].
      replace (existsb (holds t) (upd (upd (ov w1) v (Some (Some t))) u (Some None))) with true; [exact S'|].
      symmetry. apply existsb_exists. exists (Some (Some t)). split; [|cbn; apply Nat.eqb_refl].
      apply (nth_error_In _ v). rewrite upd_other by auto. apply upd_same. apply (hole_lt w1 v). apply (put_none_hole w v y Y).
Qed.
Lemma cinit_ok n : Sim (cinit n) (oinit n).
Proof.
  constructor; cbn [cinit oinit cvs ov oo ccn crel orel]; auto.
  - now rewrite !repeat_length.
  - intros u _. destruct (Nat.lt_ge_cases u n).
    + rewrite !nth_error_repeat by auto. reflexivity.
    + replace (nth_error (repeat None n) u) with (@None (option cptr)) by (symmetry; apply nth_error_None; now rewrite repeat_length).
      replace (nth_error (repeat None n) u) with (@None (option (option nat))) by (symmetry; apply nth_error_None; now rewrite repeat_length). reflexivity.
  - intros u t H. apply nth_error_In, repeat_spec in H. discriminate.
  - intros [|c]; reflexivity.
Qed.
Lemma crun_ok os : forall s w, Sim s w -> olegal_run w os -> exists s', crun s os = Ok s' /\ Sim s' (ospec_run w os).
Proof.
  induction os as [|o os IH]; intros s w H L.
  - exists s. auto.
  - destruct L as [L1 L2]. destruct (cstep_ok s w o H L1) as (s1 & R & S1). cbn [crun]. rewrite R. cbn [bind].
    destruct (IH s1 _ S1 L2) as (s' & R' & S'). eauto.
Qed.
Lemma com_ok n os : olegal_run (oinit n) os ->
  exists s, crun (cinit n) os = Ok s /\ crel s = orel (ospec_run (oinit n) os) /\
    map (option_map cr) (cvs s) = shows (ospec_run (oinit n) os) /\
    (forall c k, nth_error (ccn s) c = Some (Some k) -> existsb (holds c) (ov (ospec_run (oinit n) os)) = true).
Proof.
  intros L. destruct (crun_ok os _ _ (cinit_ok n) L) as (s & R & S). exists s. split; [exact R|].
  split; [apply (l_rel _ _ _ S)|]. split.
  - unfold shows. apply nth_error_ext. intros i. rewrite !nth_error_map, (l_var _ _ _ S i ltac:(discriminate)).
    destruct (nth_error (ov _) i) as [[[t|]|]|]; reflexivity.
  - intros c k H. rewrite (l_cnt _ _ _ S) in H. destruct (c <? _); [|discriminate].
    destruct (num c _ =? 0) eqn:E; [discriminate|]. rewrite num_pos. lia.
Qed.

(* ---- every reference handed over is held or has been released ------------------------ *)
Lemma filt_same (f g : nat -> bool) l : (forall x, In x l -> f x = g x) -> length (filter f l) = length (filter g l).
Proof.
  induction l as [|x l IH]; intros H; auto. cbn [filter]. rewrite <- (H x (or_introl eq_refl)).
  assert (length (filter f l) = length (filter g l)) by (apply IH; intros; apply H; now right). destruct (f x); cbn [length]; lia.
Qed.
Lemma filt_drop (f g : nat -> bool) t l : NoDup l -> In t l -> f t = true -> g t = false -> (forall x, x <> t -> f x = g x) ->
  length (filter f l) = S (length (filter g l)).
Proof.
  induction l as [|x l IH]; intros N I Ft Gt E; [destruct I|]. apply NoDup_cons_iff in N. destruct N as [N1 N2]. cbn [filter].
  destruct (Nat.eq_dec x t) as [->|Nx].
  - rewrite Ft, Gt. cbn [length]. f_equal. apply filt_same. intros y Iy. apply E. intros ->. contradiction.
  - rewrite <- (E x Nx). destruct I as [->|I]; [congruence|]. specialize (IH N2 I Ft Gt E). destruct (f x); cbn [length]; lia.
Qed.
Definition toks (w : own) : Prop := forall u t, nth_error (ov w) u = Some (Some (Some t)) -> t < length (oo w).
Definition total (w : own) (o : nat) : nat := count_occ Nat.eq_dec (orel w) o + length (live w o).

Lemma upd_out {A} (l : list A) v x : nth_error l v = None -> upd l v x = l.
Proof. revert v. induction l as [|z l IH]; intros [|v] H; cbn in *; try discriminate; auto. now rewrite IH. Qed.
Lemma num_upd' (w : own) v x t : v < length (ov w) ->
  num t (upd (ov w) v x) + b2n (holds t (look w v)) = num t (ov w) + b2n (holds t x).
Proof.
  intros L. unfold look. destruct (nth_error (ov w) v) as [y|] eqn:E; [now apply num_upd|]. apply nth_error_None in E. lia.
Qed.
Lemma put_total w v x o : toks w -> (forall t, holds t x = true -> existsb (holds t) (ov w) = true) ->
  total (put w v x) o = total w o /\ toks (put w v x).
Proof.
  intros T K.
  assert (toks (put w v x)) as T'.
  { intros u t. rewrite put_ov, put_oo. destruct (Nat.eq_dec u v) as [->|N].
    - destruct (nth_error (ov w) v) as [y|] eqn:E.
      + rewrite upd_same by (eapply nth_error_lt; eauto). intros X. inversion X; subst x.
        assert (existsb (holds t) (ov w) = true) as Q by (apply K; cbn; apply Nat.eqb_refl).
        apply existsb_exists in Q. destruct Q as (z & I & Hz). apply In_nth_error in I. destruct I as [i I].
        destruct z as [[t'|]|]; cbn in Hz; try discriminate. apply Nat.eqb_eq in Hz. subst. eauto.
      + rewrite upd_out by auto. intros X. congruence.
    - rewrite upd_other by auto. eauto. }
  split; auto.
  assert (forall t, holds t (look w v) = false -> v < length (ov w) -> existsb (holds t) (upd (ov w) v x) = existsb (holds t) (ov w)) as KE.
  { intros t Ht Lv. pose proof (num_upd' w v x t Lv) as Q. rewrite Ht in Q. specialize (K t). rewrite !num_pos. rewrite num_pos in K.
    destruct (holds t x); cbn [b2n] in Q; [specialize (K eq_refl)|]; lia. }
  unfold total, put. destruct (nth_error (ov w) v) as [y|] eqn:E.
  2:{ rewrite (upd_out _ _ _ E). destruct w; reflexivity. }
  pose proof (nth_error_lt _ _ _ E) as Lv.
  assert (look w v = y) as Ly by (unfold look; now rewrite E).
  assert (forall t, y = Some (Some t) -> existsb (holds t) (ov w) = true) as KO.
  { intros t ->. apply existsb_exists. exists (Some (Some t)). split; [eapply nth_error_In; eauto|cbn; apply Nat.eqb_refl]. }
  assert ((forall t, y <> Some (Some t)) -> length (filter (fun t => Nat.eqb (nth t (oo w) 0) o && existsb (holds t) (upd (ov w) v x)) (seq 0 (length (oo w)))) = length (live w o)) as KN.
  { intros Ny. unfold live. apply filt_same. intros t _. rewrite KE; auto. rewrite Ly. destruct y as [[t'|]|]; auto. congruence. }
  destruct y as [[t|]|]; cbn [orel]; [|f_equal; apply KN; congruence|f_equal; apply KN; congruence].
  destruct (existsb (holds t) (upd (ov w) v x)) eqn:Ex; cbn [orel].
  - f_equal. unfold live. cbn [ov oo]. apply filt_same. intros t' _. destruct (Nat.eq_dec t' t) as [->|N].
    + rewrite Ex, KO; auto.
    + rewrite KE; auto. rewrite Ly. cbn. apply Nat.eqb_neq. auto.
  - unfold live. cbn [ov oo]. pose proof (T _ _ E) as Lt.
    cbn [count_occ]. destruct (Nat.eq_dec (nth t (oo w) 0) o) as [Eo|No].
    + rewrite (filt_drop (fun t => Nat.eqb (nth t (oo w) 0) o && existsb (holds t) (ov w))
                 (fun t => Nat.eqb (nth t (oo w) 0) o && existsb (holds t) (upd (ov w) v x)) t); [lia| | | | |].
      * apply seq_NoDup.
      * apply in_seq. lia.
      * rewrite KO by auto. rewrite Eo, Nat.eqb_refl. reflexivity.
      * rewrite Ex. apply andb_false_r.
      * intros t' N. rewrite KE; auto. rewrite Ly. cbn. apply Nat.eqb_neq. auto.
    + f_equal. apply filt_same. intros t' _. destruct (Nat.eq_dec t' t) as [->|N].
      * apply Nat.eqb_neq in No. now rewrite No.
      * rewrite KE; auto. rewrite Ly. cbn. apply Nat.eqb_neq. auto.
Qed.
Lemma look_held w u t : holds t (look w u) = true -> existsb (holds t) (ov w) = true.
Proof.
  intros H. unfold look in H. destruct (nth_error (ov w) u) as [y|] eqn:E; [|discriminate].
  apply existsb_exists. exists y. split; [eapply nth_error_In; eauto|auto].
Qed.
Lemma toks_fresh w : toks w -> existsb (holds (length (oo w))) (ov w) = false.
Proof.
  intros T. destruct (existsb (holds (length (oo w))) (ov w)) eqn:E; auto. apply existsb_exists in E. destruct E as (y & I & H).
  apply In_nth_error in I. destruct I as [i I]. destruct y as [[t|]|]; cbn in H; try discriminate.
  apply T in I. lia.
Qed.
(* handing over a reference to v *)
Lemma hand_total w v o' o : toks w -> v < length (ov w) ->
  let w' := put (mkOwn (ov w) (oo w ++ [o']) (orel w)) v (Some (Some (length (oo w)))) in
  total w' o = total w o + (if Nat.eqb o' o then 1 else 0) /\ toks w'.
Proof.
  intros T Lv w'. pose proof (toks_fresh w T) as F.
  set (w1 := put w v (Some None)).
  destruct (put_total w v (Some None) o T ltac:(intros; discriminate)) as [T1 K1]. fold w1 in T1, K1.
  assert (ov w1 = upd (ov w) v (Some None)) as O1 by apply put_ov. assert (oo w1 = oo w) as P1 by apply put_oo.
  assert (w' = mkOwn (upd (ov w1) v (Some (Some (length (oo w))))) (oo w ++ [o']) (orel w1)) as W.
  { unfold w', w1, put. cbn [ov oo orel]. destruct (nth_error (ov w) v) as [[[t|]|]|] eqn:E; cbn [ov orel]; try (now rewrite upd_upd).
    pose proof (T _ _ E) as Lt.
    assert (existsb (holds t) (upd (ov w) v (Some (Some (length (oo w))))) = existsb (holds t) (upd (ov w) v (Some None))) as Q.
    { rewrite !num_pos. pose proof (num_upd _ v _ (Some (Some (length (oo w)))) t E) as Q1. pose proof (num_upd _ v _ (Some None) t E) as Q2.
      cbn [holds b2n] in Q1, Q2. replace (length (oo w) =? t) with false in Q1 by lia. cbn [b2n] in Q1. f_equal. lia. }
    rewrite Q. destruct (existsb (holds t) (upd (ov w) v (Some None))); cbn [ov oo orel]; rewrite ?upd_upd; auto. rewrite app_nth1 by auto. reflexivity. }
  split.
  - rewrite W. rewrite <- T1. unfold total. cbn [orel]. rewrite <- Nat.add_assoc. f_equal.
    unfold live. cbn [ov oo]. rewrite P1, app_length. cbn [length]. rewrite Nat.add_1_r, seq_S, filter_app, app_length. cbn [filter].
    assert (v < length (ov w1)) as Lv1 by (rewrite O1, upd_length; auto).
    assert (look w1 v = Some None) as L1. { unfold look. rewrite O1, upd_same; auto. }
    assert (forall t, existsb (holds t) (upd (ov w1) v (Some (Some (length (oo w))))) = (existsb (holds t) (ov w1) || Nat.eqb (length (oo w)) t)) as Q.
    { intros t. rewrite !num_pos. pose proof (num_upd' w1 v (Some (Some (length (oo w)))) t Lv1) as Q. rewrite L1 in Q. cbn [holds b2n] in Q.
      destruct (length (oo w) =? t); cbn [b2n] in Q; lia. }
    assert (0 + length (oo w) = length (oo w)) as -> by lia.
    rewrite Q, Nat.eqb_refl, orb_true_r, andb_true_r. rewrite app_nth2 by lia. rewrite Nat.sub_diag. cbn [nth].
    f_equal.
    + apply filt_same. intros t I. apply in_seq in I. rewrite app_nth1 by lia. rewrite Q.
      replace (length (oo w) =? t) with false by lia. now rewrite orb_false_r.
    + now destruct (o' =? o).
  - rewrite W. intros u t. cbn [ov oo]. rewrite app_length. cbn [length]. destruct (Nat.eq_dec u v) as [->|N].
    + rewrite upd_same by (rewrite O1, upd_length; auto). intros X. inversion X. lia.
    + rewrite upd_other by auto. intros X. apply K1 in X. rewrite P1 in X. lia.
Qed.
Lemma ospec_total w a o : toks w -> olegal w a -> total (ospec w a) o = total w o + handed o [a] /\ toks (ospec w a).
Proof.
  intros T L. assert (forall v, look w v <> None -> v < length (ov w)) as LT.
  { intros v H. unfold look in H. apply nth_error_Some. destruct (nth_error (ov w) v); congruence. }
  assert (forall v u, toks w -> total (put (put w v (look w u)) u (Some None)) o = total w o /\ toks (put (put w v (look w u)) u (Some None))) as MV.
  { intros v u _. destruct (put_total w v (look w u) o T (look_held w u)) as [A B].
    destruct (put_total (put w v (look w u)) u (Some None) o B ltac:(intros; discriminate)) as [C D]. split; [congruence|auto]. }
  destruct a as [v|v o'|v u|v u|v|v|v o'|v u|v u]; cbn [ospec handed]; cbn [olegal] in L; rewrite ?Nat.add_0_r.
  - apply put_total; auto. intros; discriminate.
  - apply hand_total; auto. eapply nth_error_lt; eauto.
  - apply put_total; auto. apply look_held.
  - apply MV; auto.
  - apply put_total; auto. intros; discriminate.
  - apply put_total; auto. intros; discriminate.
  - apply hand_total; auto.
  - apply put_total; auto. apply look_held.
  - destruct (v =? u); auto.
Qed.
Lemma handed_cons o a os : handed o (a :: os) = handed o [a] + handed o os.
Proof. destruct a; cbn [handed]; lia. Qed.
Lemma balance_run os : forall w o, toks w -> olegal_run w os -> total (ospec_run w os) o = total w o + handed o os.
Proof.
  induction os as [|a os IH]; intros w o T L.
  - cbn [ospec_run fold_left handed]. lia.
  - destruct L as [L1 L2]. destruct (ospec_total w a o T L1) as [A B]. change (ospec_run w (a :: os)) with (ospec_run (ospec w a) os).
    rewrite (IH _ o B L2), A, (handed_cons o a os). lia.
Qed.
Lemma balance n os o : olegal_run (oinit n) os ->
  count_occ Nat.eq_dec (orel (ospec_run (oinit n) os)) o + length (live (ospec_run (oinit n) os) o) = handed o os.
Proof.
  intros L. change (total (ospec_run (oinit n) os) o = handed o os). rewrite balance_run; auto.
  intros u t H. cbn [oinit ov] in H. apply nth_error_In, repeat_spec in H. discriminate.
Qed.
Lemma self_assign :
  exists s1 s2, crun (cinit 1) [CWrap 0 7; CSetRaw 0 7] = Ok s1 /\ crel s1 = [7] /\ map (option_map cr) (cvs s1) = [Some (Some 7)] /\
    crun (cinit 1) [CWrap 0 7; CSetRaw 0 7; CDestroy 0] = Ok s2 /\ crel s2 = [7; 7].
Proof. eexists _, _. split; [vm_compute; reflexivity|]. split; [reflexivity|]. split; [reflexivity|]. split; [vm_compute; reflexivity|reflexivity]. Qed.
