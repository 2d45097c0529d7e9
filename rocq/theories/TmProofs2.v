(* Proofs about TmModel: programs. *)
From Verif Require Import Base BaseFacts LstModel LstSpec LstProofs LmSpec TmModel TmSpec TmProofs.
From Coq Require Import ZifyBool ZifyNat.
Open Scope Z_scope.

Section P.
  Variable E : Type.
  Variable husk : E -> E.
  Variable torn : E -> E -> E.

  Definition size1 (x : option (list E * Z)) : Z := match x with Some (l, _) => zlen l | None => 0 end.
  Definition own1 (x : option (list E * Z)) : Z := match x with Some (_, c) => own c | None => 0 end.
  Lemma listed_cons x vs : listed (x :: vs) = size1 x + listed vs.
  Proof. destruct x as [[l c]|]; reflexivity. Qed.
  Lemma owning_cons x vs : @owning E (x :: vs) = own1 x + owning vs.
  Proof. destruct x as [[l c]|]; [|reflexivity]. cbn [owning fold_right own1]. unfold own. destruct (0 <? c); reflexivity. Qed.
  Lemma listed_upd vs : forall v x y, nth_error vs v = Some x -> listed (upd vs v y) = listed vs - size1 x + size1 y.
  Proof.
    induction vs as [|z vs IH]; intros [|v] x y N; cbn [nth_error] in N; try discriminate; cbn [upd]; rewrite !listed_cons.
    - injection N as ->. lia.
    - rewrite (IH v x y N). lia.
  Qed.
  Lemma owning_upd vs : forall v x y, nth_error vs v = Some x -> @owning E (upd vs v y) = owning vs - own1 x + own1 y.
  Proof.
    induction vs as [|z vs IH]; intros [|v] x y N; cbn [nth_error] in N; try discriminate; cbn [upd]; rewrite !owning_cons.
    - injection N as ->. lia.
    - rewrite (IH v x y N). lia.
  Qed.

  Definition rel (w : tworld E) (s : sworld E) : Prop :=
    all_show w s /\ alive (books w) = listed (svars s) + Z.of_nat (selems s) /\
    blocks (books w) = owning (svars s) + Z.of_nat (sbufs s).

  Lemma var_rel w s v : rel w s ->
    match tvar E w v, svar s v with
    | Ok x, Ok (l, c) => tshows x l c /\ nth_error (svars s) v = Some (Some (l, c))
    | UB, UB => True | _, _ => False end.
  Proof.
    intros (H & _). unfold tvar, svar. pose proof (Forall2_nth _ _ _ v H) as N. cbv beta in N.
    destruct (nth_error (tvars w) v) as [[x|]|], (nth_error (svars s) v) as [[[l c]|]|]; tauto.
  Qed.
  Lemma free_rel w s v : rel w s ->
    match tfree E w v, svfree s v with Ok _, Ok _ => nth_error (svars s) v = Some None | UB, UB => True | _, _ => False end.
  Proof.
    intros (H & _). unfold tfree, svfree. pose proof (Forall2_nth _ _ _ v H) as N. cbv beta in N.
    destruct (nth_error (tvars w) v) as [[x|]|], (nth_error (svars s) v) as [[[l c]|]|]; tauto.
  Qed.
  Lemma show_upd (w : tworld E) (s : sworld E) v x y g es bs : all_show w s ->
    match x, y with Some x, Some (l, c) => tshows x l c | None, None => True | _, _ => False end ->
    all_show (mkW (upd (tvars w) v x) g) (mkS (upd (svars s) v y) es bs).
  Proof. intros H K. unfold all_show. cbn [tvars svars]. now apply Forall2_upd. Qed.
  Lemma empty_tshows : tshows (@tempty E) [] 0.
  Proof. split; [reflexivity|]. split; [reflexivity|]. split; [reflexivity|]. now exists []. Qed.

  Definition sim (r : res (tworld E * tout E)) (q : res (sworld E * tout E)) : Prop :=
    match q with
    | Ok (s', y) => exists w', r = Ok (w', y) /\ rel w' s'
    | Err => r = Err
    | _ => True
    end.

  Lemma changed_rel w s v l c x' h : rel w s -> nth_error (svars s) v = Some (Some (l, c)) -> tshows x' (cl h) (cc h) ->
    rel (mkW (upd (tvars w) v (Some x')) (booked E (books w) h l c))
        (mkS (upd (svars s) v (Some (cl h, cc h))) (selems s + le h) (sbufs s + lb h)).
  Proof.
    intros (H & A & B) N S. split; [now apply show_upd|]. cbn [books svars selems sbufs]. unfold booked. cbn [alive blocks].
    rewrite (listed_upd _ _ _ _ N), (owning_upd _ _ _ _ N). cbn [size1 own1]. lia.
  Qed.
  Lemma same_rel w s v l c x' m : rel w s -> nth_error (svars s) v = Some (Some (l, c)) -> tshows x' m c -> zlen m = zlen l ->
    rel (mkW (upd (tvars w) v (Some x')) (books w)) (mkS (upd (svars s) v (Some (m, c))) (selems s) (sbufs s)).
  Proof.
    intros (H & A & B) N S L. split; [now apply show_upd|]. cbn [books svars selems sbufs].
    rewrite (listed_upd _ _ _ _ N), (owning_upd _ _ _ _ N). cbn [size1 own1]. lia.
  Qed.
  (* variable w hands its buffer to v, which has none (any more) *)
  Lemma move_rel w s v u x l c g old : rel w s -> nth_error (svars s) v = Some old -> nth_error (svars s) u = Some (Some (l, c)) ->
    nth_error (tvars w) u = Some (Some x) -> tshows x l c ->
    alive g = alive (books w) - size1 old -> blocks g = blocks (books w) - own1 old ->
    rel (mkW (upd (upd (tvars w) v (Some x)) u (Some tempty)) g) (mkS (upd (upd (svars s) v (Some (l, c))) u (Some ([], 0))) (selems s) (sbufs s)).
  Proof.
    intros (H & A & B) Nv Nu _ S Ga Gb.
    assert (N2 : exists z, nth_error (upd (svars s) v (Some (l, c))) u = Some z /\ size1 z = zlen l /\ own1 z = own c).
    { destruct (Nat.eq_dec v u) as [->|D].
      - eexists. split; [apply upd_same; eapply nth_error_lt; exact Nu|]. split; reflexivity.
      - eexists. rewrite upd_other by exact D. split; [exact Nu|]. split; reflexivity. }
    destruct N2 as (z & N2 & Sz & Oz). split.
    - pose proof (show_upd w s v (Some x) (Some (l, c)) g (selems s) (sbufs s) H S) as H1.
      exact (show_upd _ _ u (Some tempty) (Some ([], 0)) g (selems s) (sbufs s) H1 empty_tshows).
    - cbn [books svars selems sbufs]. rewrite (listed_upd _ _ _ _ N2), (owning_upd _ _ _ _ N2), (listed_upd _ _ _ _ Nv), (owning_upd _ _ _ _ Nv).
      cbn [size1 own1]. change (zlen []) with 0. unfold own at 2. cbn [Z.ltb Z.compare].
      rewrite Ga, Gb, A, B, Sz, Oz. destruct (Nat.eq_dec v u) as [->|D].
      + assert (old = Some (l, c)) as -> by congruence. cbn [size1 own1]. lia.
      + lia.
  Qed.

  Lemma tstep_raw_sim w s o f : rel w s -> sim (tstep_raw E husk torn w o f) (tsstep_raw E husk torn s o f).
  Proof.
    intros R.
    Ltac gv R v x l c Sh NV := let V := fresh "V" in pose proof (var_rel _ _ v R) as V;
      destruct (tvar E _ v) as [x| | |] eqn:?, (svar _ v) as [[l c]| | |] eqn:?; try contradiction; [|exact I];
      destruct V as (Sh & NV); cbn [bind].
    Ltac gf R v V := pose proof (free_rel _ _ v R) as V;
      destruct (tfree E _ v) as [?| | |], (svfree _ v) as [?| | |]; try contradiction; [|exact I]; cbn [bind].
    assert (TV : forall v x, tvar E w v = Ok x -> nth_error (tvars w) v = Some (Some x)).
    { intros v x. unfold tvar. destruct (nth_error (tvars w) v) as [[y|]|]; congruence. }
    destruct o; cbn [tstep_raw tsstep_raw].
    - gf R v NF. eexists. split; [reflexivity|]. destruct R as (H & A & B). split; [apply show_upd; [exact H|exact empty_tshows]|].
      cbn [keep books svars selems sbufs]. rewrite (listed_upd _ _ _ _ NF), (owning_upd _ _ _ _ NF). cbn [size1 own1]. change (zlen []) with 0. change (own 0) with 0. lia.
    - gf R v NF. gv R w0 x l c Sh Nu. eexists. split; [reflexivity|]. unfold keep.
      eapply move_rel; eauto; cbn [size1 own1]; lia.
    - gv R v x l c Sh NV. gv R w0 x' l' c' Sh' NV'. rewrite (destruct_spec E husk torn _ _ _ _ Sh). cbn [bind].
      eexists. split; [reflexivity|]. unfold keep. eapply move_rel; eauto.
    - gv R v x l c Sh NV. rewrite (destruct_spec E husk torn _ _ _ _ Sh). cbn [bind]. eexists. split; [reflexivity|].
      destruct R as (H & A & B). split; [apply show_upd; [exact H|exact I]|]. cbn [keep books svars selems sbufs alive blocks].
      rewrite (listed_upd _ _ _ _ NV), (owning_upd _ _ _ _ NV). cbn [size1 own1]. lia.
    - gv R v x l c Sh NV. assert (C : tcount x = zlen l) by apply Sh. rewrite C. pose proof (zlen_nonneg l) as Z0.
      destruct (insert_spec E husk torn (books w) f x l c (zlen l) a Sh) as (x' & -> & S'); [lia|]. cbn [bind].
      eexists. split; [reflexivity|]. eapply changed_rel; eauto.
    - gv R v x l c Sh NV. destruct ((0 <=? i) && (i <=? zlen l)) eqn:Q.
      + destruct (insert_spec E husk torn (books w) f x l c i a Sh) as (x' & -> & S'); [lia|]. cbn [bind].
        eexists. split; [reflexivity|]. eapply changed_rel; eauto.
      + rewrite (insert_err E husk torn _ _ _ _ _ _ _ Sh) by lia. reflexivity.
    - gv R v x l c Sh NV. destruct ((0 <=? i) && (i <? zlen l)) eqn:Q.
      + destruct (remove_spec E husk torn (books w) f x l c i Sh) as (x' & -> & S'); [lia|]. cbn [bind].
        eexists. split; [reflexivity|]. eapply changed_rel; eauto.
      + rewrite (remove_err E husk torn _ _ _ _ _ _ Sh) by lia. reflexivity.
    - gv R v x l c Sh NV. destruct ((0 <=? i) && (i <=? zlen l)) eqn:Q.
      + destruct (negb ((- 2 ^ 63 <=? i + n) && (i + n <? 2 ^ 63))) eqn:Q1; [exact I|].
        destruct ((i + n <? 0) || (zlen l <? i + n)) eqn:Q2.
        * rewrite (remove_range_err E husk torn _ _ _ _ _ _ _ Sh) by lia. reflexivity.
        * destruct (n <? 0) eqn:Q3; [exact I|].
          destruct (remove_range_spec E husk torn (books w) f x l c i n Sh) as (x' & -> & S'); [lia..|]. cbn [bind].
          eexists. split; [reflexivity|]. eapply changed_rel; eauto.
      + rewrite (remove_range_err1 E husk torn _ _ _ _ _ _ _ Sh) by lia. reflexivity.
    - gv R v x l c Sh NV. rewrite (clear_spec E husk torn _ _ _ _ Sh). cbn [bind]. eexists. split; [reflexivity|].
      destruct R as (H & A & B). split; [apply show_upd; [exact H|exact empty_tshows]|]. cbn [keep books svars selems sbufs alive blocks].
      rewrite (listed_upd _ _ _ _ NV), (owning_upd _ _ _ _ NV). cbn [size1 own1]. change (zlen []) with 0. change (own 0) with 0. lia.
    - gv R v x l c Sh NV. pose proof (set_spec E husk torn x l c i a Sh) as S. destruct (sset E l i a) as [m| | |] eqn:Q; cbn [bind sim]; auto.
      + destruct S as (y & -> & S & L). cbn [bind]. eexists. split; [reflexivity|]. unfold keep. eapply same_rel; eauto.
      + rewrite S. reflexivity.
    - gv R v x l c Sh NV. rewrite (get_spec E _ _ _ i Sh). destruct (znth l i); cbn [bind sim]; eauto.
    - gv R v x l c Sh NV. cbn [sim]. exists w. split; [|exact R]. assert (C : tcount x = zlen l) by apply Sh. now rewrite C.
  Qed.

  Lemma tstep_sim w s o f s' y : rel w s -> tsstep E husk torn s o f = Ok (s', y) ->
    exists w', tstep E husk torn w o f = Ok (w', y) /\ rel w' s'.
  Proof.
    intros R Q. pose proof (tstep_raw_sim w s o f R) as K. unfold sim in K. unfold tsstep in Q. unfold tstep.
    destruct (tsstep_raw E husk torn s o f) as [[s1 y1]| | |]; try discriminate.
    - assert (s1 = s' /\ y1 = y) as [-> ->] by (split; congruence). destruct K as (w' & -> & K). eauto.
    - rewrite K. assert (s = s' /\ YError = y) as [-> <-] by (split; congruence). eauto.
  Qed.
  Lemma trun_sim p : forall w s s' ys, rel w s -> tsrun E husk torn s p = Ok (s', ys) ->
    exists w', trun E husk torn w p = Ok (w', ys) /\ rel w' s'.
  Proof.
    induction p as [|[o f] p IH]; intros w s s' ys R Q; cbn [tsrun trun] in *.
    - assert (s = s' /\ [] = ys) as [-> <-] by (split; congruence). eauto.
    - apply bind_ok in Q. destruct Q as ([s1 y1] & Q1 & Q). apply bind_ok in Q. destruct Q as ([s2 ys2] & Q2 & Q).
      destruct (tstep_sim _ _ _ _ _ _ R Q1) as (w1 & -> & R1). cbn [bind].
      destruct (IH _ _ _ _ R1 Q2) as (w2 & -> & R2). cbn [bind]. exists w2. split; [congruence|]. congruence.
  Qed.
  Lemma rel_init n : rel (tinit n) (sinit n).
  Proof.
    unfold rel, all_show, tinit, sinit. cbn [tvars svars books alive blocks selems sbufs].
    split; [|split]; induction n; cbn [repeat]; auto; try (rewrite ?listed_cons, ?owning_cons; cbn [size1 own1]; lia).
  Qed.
  Lemma exact_run n p s ys : tsrun E husk torn (sinit n) p = Ok (s, ys) ->
    exists w, trun E husk torn (tinit n) p = Ok (w, ys) /\ all_show w s /\
      alive (books w) = listed (svars s) + Z.of_nat (selems s) /\ blocks (books w) = owning (svars s) + Z.of_nat (sbufs s).
  Proof. intros Q. destruct (trun_sim p _ _ _ _ (rel_init n) Q) as (w & H & R). exists w. split; [exact H|exact R]. Qed.

  (* ---- single statements in reachable worlds ------------------------------------------ *)
  Definition after (w w' : tworld E) (v : nat) (l : list E) (c es bs : Z) : Prop :=
    holds_list w' v l c /\ others_same w w' v /\ alive (books w') = alive (books w) + es /\ blocks (books w') = blocks (books w) + bs.
  Lemma insert_step w v l c i a f : holds_list w v l c -> 0 <= i <= zlen l ->
    let h := inserted E husk torn f l c i a in
    exists w', tstep E husk torn w (TInsert v i a) f = Ok (w', if thrown h then YThrown else YInt i) /\
      after w w' v (cl h) (cc h) (zlen (cl h) - zlen l + Z.of_nat (le h)) (own (cc h) - own c + Z.of_nat (lb h)).
  Proof.
    intros (x & N & S) Hi. cbv zeta. destruct (insert_spec E husk torn (books w) f x l c i a S Hi) as (x' & Q & S').
    unfold tstep. cbn [tstep_raw]. unfold tvar. rewrite N. cbn [bind]. rewrite Q. cbn [bind]. eexists. split; [reflexivity|].
    split; [|split; [|split; reflexivity]].
    - exists x'. cbn [tvars]. split; [|exact S']. apply upd_same. eapply nth_error_lt; exact N.
    - intros u D. cbn [tvars]. apply upd_other; congruence.
  Qed.
  Lemma remove_step w v l c i f : holds_list w v l c -> 0 <= i < zlen l ->
    let h := removed E husk torn f l c i in
    exists w', tstep E husk torn w (TRemoveAt v i) f = Ok (w', if thrown h then YThrown else YBool true) /\
      after w w' v (cl h) (cc h) (zlen (cl h) - zlen l + Z.of_nat (le h)) (own (cc h) - own c + Z.of_nat (lb h)).
  Proof.
    intros (x & N & S) Hi. cbv zeta. destruct (remove_spec E husk torn (books w) f x l c i S Hi) as (x' & Q & S').
    unfold tstep. cbn [tstep_raw]. unfold tvar. rewrite N. cbn [bind]. rewrite Q. cbn [bind]. eexists. split; [reflexivity|].
    split; [|split; [|split; reflexivity]].
    - exists x'. cbn [tvars]. split; [|exact S']. apply upd_same. eapply nth_error_lt; exact N.
    - intros u D. cbn [tvars]. apply upd_other; congruence.
  Qed.
  Lemma hits_some k n : (k < n)%nat -> hits (Some k) n = Some k.
  Proof. intros H. cbn [hits]. now replace (k <? n)%nat with true by lia. Qed.

  Lemma growth w v l i a k : holds_list w v l (zlen l) -> 0 <= i <= zlen l -> (k < length l)%nat ->
    exists w', tstep E husk torn w (TInsert v i a) (Some k) = Ok (w', YThrown) /\
      holds_list w' v (map husk (firstn k l) ++ skipn k l) (zlen l) /\ others_same w w' v /\
      alive (books w') = alive (books w) + Z.of_nat k /\ blocks (books w') = blocks (books w) + 1.
  Proof.
    intros H Hi Hk. destruct (insert_step w v l (zlen l) i a (Some k) H Hi) as (w' & Q & H1 & H2 & H3 & H4).
    unfold inserted in *. replace (zlen l <? zlen l + 1) with true in * by lia. rewrite hits_some in * by exact Hk.
    cbn [thrown cl cc le lb] in *. rewrite hollowed_length in H3. exists w'. split; [exact Q|]. split; [exact H1|]. split; [exact H2|].
    split; [lia|]. change (Z.of_nat 1) with 1 in H4. lia.
  Qed.
  Lemma in_place w v l1 y x l2 e c i a : holds_list w v (l1 ++ y :: x :: l2 ++ [e]) c -> zlen (l1 ++ y :: x :: l2 ++ [e]) < c ->
    0 <= i <= zlen l1 ->
    exists w', tstep E husk torn w (TInsert v i a) (Some (length l2 + 2)%nat) = Ok (w', YThrown) /\
      holds_list w' v (l1 ++ y :: torn (husk x) y :: x :: l2) c /\ others_same w w' v /\
      alive (books w') = alive (books w) + 1 /\ blocks (books w') = blocks (books w).
  Proof.
    intros H Hc Hi. set (l := l1 ++ y :: x :: l2 ++ [e]) in *.
    assert (L : zlen l = zlen l1 + zlen l2 + 3) by (unfold l; rewrite zlen_app, !zlen_cons, zlen_app; change (zlen [e]) with 1; lia).
    pose proof (zlen_nonneg l2) as P2.
    destruct (insert_step w v l c i a (Some (length l2 + 2)%nat) H) as (w' & Q & H1 & H2 & H3 & H4); [lia|].
    unfold inserted in *. replace (c <? zlen l + 1) with false in * by lia.
    rewrite hits_some in * by (unfold zlen in *; lia). rewrite Nat.add_comm in *. cbn [Nat.add] in *.
    cbn [thrown cl cc le lb] in *.
    assert (PP : pushed E husk torn (S (S (length l2))) l = l1 ++ y :: torn (husk x) y :: x :: l2).
    { pose proof (pushed_split E husk torn l1 [] y (x :: l2) e) as PS. cbn [app length hd map] in PS. exact PS. }
    rewrite PP in *. assert (L' : zlen (l1 ++ y :: torn (husk x) y :: x :: l2) = zlen l) by (rewrite zlen_app, !zlen_cons; lia).
    rewrite L' in *. exists w'. split; [exact Q|]. split; [exact H1|]. split; [exact H2|]. change (Z.of_nat 1) with 1 in *. change (Z.of_nat 0) with 0 in *. lia.
  Qed.
  Lemma removal w v l1 x l2 y z l3 c : holds_list w v (l1 ++ x :: l2 ++ y :: z :: l3) c ->
    exists w', tstep E husk torn w (TRemoveAt v (zlen l1)) (Some (length l2 + 1)%nat) = Ok (w', YThrown) /\
      holds_list w' v (l1 ++ l2 ++ y :: torn (husk y) z :: z :: l3) c /\ others_same w w' v /\
      alive (books w') = alive (books w) /\ blocks (books w') = blocks (books w).
  Proof.
    intros H. set (l := l1 ++ x :: l2 ++ y :: z :: l3) in *. pose proof (zlen_nonneg l1) as P1. pose proof (zlen_nonneg l2) as P2. pose proof (zlen_nonneg l3) as P3.
    assert (L : zlen l = zlen l1 + zlen l2 + zlen l3 + 3) by (unfold l; rewrite zlen_app, zlen_cons, zlen_app, !zlen_cons; lia).
    destruct (remove_step w v l c (zlen l1) (Some (length l2 + 1)%nat) H) as (w' & Q & H1 & H2 & H3 & H4); [lia|].
    unfold removed in *. rewrite hits_some in * by (unfold zlen in *; lia). cbn [thrown cl cc le lb] in *.
    assert (PP : pulled E husk torn (Z.to_nat (zlen l1)) (length l2 + 1) l = l1 ++ l2 ++ y :: torn (husk y) z :: z :: l3).
    { rewrite zlen_to_nat. unfold l. rewrite pulled_split by (rewrite app_length; cbn [length]; lia). f_equal.
      rewrite Nat.add_1_r. rewrite pulls_S by (rewrite app_length; cbn [length]; lia).
      rewrite skipn_app, skipn_all, Nat.sub_diag. cbn [app skipn].
      change (y :: z :: l3) with ([y] ++ z :: l3). rewrite (app_assoc l2).
      replace (S (length l2)) with (length (l2 ++ [y])) by (rewrite app_length; cbn [length]; lia).
      rewrite firstn_app, Nat.sub_diag, firstn_all. cbn [firstn]. rewrite app_nil_r, <- app_assoc. reflexivity. }
    rewrite PP in *. assert (L' : zlen (l1 ++ l2 ++ y :: torn (husk y) z :: z :: l3) = zlen l) by (rewrite !zlen_app, !zlen_cons; lia).
    rewrite L' in *. exists w'. split; [exact Q|]. split; [exact H1|]. split; [exact H2|]. change (Z.of_nat 0) with 0 in *. lia.
  Qed.
  Lemma remove_range_step w v l c i n f : holds_list w v l c -> 0 <= i -> 0 <= n -> i + n <= zlen l -> zlen l < 2 ^ 63 ->
    let h := removed_range E husk torn f l c i n in
    exists w', tstep E husk torn w (TRemoveRange v i n) f = Ok (w', if thrown h then YThrown else YBool true) /\
      after w w' v (cl h) (cc h) (zlen (cl h) - zlen l + Z.of_nat (le h)) (own (cc h) - own c + Z.of_nat (lb h)).
  Proof.
    intros (x & N & S) Hi Hn Hl Ho. cbv zeta.
    destruct (remove_range_spec E husk torn (books w) f x l c i n S Hi Hn Hl) as (x' & Q & S'); [lia|].
    unfold tstep. cbn [tstep_raw]. unfold tvar. rewrite N. cbn [bind]. rewrite Q. cbn [bind]. eexists. split; [reflexivity|].
    split; [|split; [|split; reflexivity]].
    - exists x'. cbn [tvars]. split; [|exact S']. apply upd_same. eapply nth_error_lt; exact N.
    - intros u D. cbn [tvars]. apply upd_other; congruence.
  Qed.
  Lemma range_removal w v l1 d1 x d2 l2 y l3 c : holds_list w v (l1 ++ (d1 ++ x :: d2) ++ l2 ++ y :: l3) c -> length l2 = length d1 ->
    zlen (l1 ++ (d1 ++ x :: d2) ++ l2 ++ y :: l3) < 2 ^ 63 ->
    exists w', tstep E husk torn w (TRemoveRange v (zlen l1) (zlen (d1 ++ x :: d2))) (Some (length l2)) = Ok (w', YThrown) /\
      holds_list w' v (l1 ++ l2 ++ torn x y :: d2 ++ map husk l2 ++ y :: l3) c /\ others_same w w' v /\
      alive (books w') = alive (books w) /\ blocks (books w') = blocks (books w).
  Proof.
    intros H Ld Ho. set (d := d1 ++ x :: d2) in *. set (l := l1 ++ d ++ l2 ++ y :: l3) in *.
    pose proof (zlen_nonneg l1) as P1. pose proof (zlen_nonneg l2) as P2. pose proof (zlen_nonneg l3) as P3. pose proof (zlen_nonneg d) as P4.
    assert (L : zlen l = zlen l1 + zlen d + zlen l2 + zlen l3 + 1) by (unfold l; rewrite !zlen_app, zlen_cons; lia).
    assert (Nd : d <> []) by (unfold d; destruct d1; discriminate).
    assert (Pd : 1 <= zlen d) by (destruct d; [congruence|rewrite zlen_cons; pose proof (zlen_nonneg d); lia]).
    destruct (remove_range_step w v l c (zlen l1) (zlen d) (Some (length l2)) H) as (w' & Q & H1 & H2 & H3 & H4); [lia..|].
    unfold removed_range in *. replace (zlen d =? 0) with false in * by lia. rewrite hits_some in * by (unfold zlen in *; lia). cbn [thrown cl cc le lb] in *.
    assert (PP : dragged E husk torn (Z.to_nat (zlen l1)) (Z.to_nat (zlen d)) (length l2) l = l1 ++ l2 ++ torn x y :: d2 ++ map husk l2 ++ y :: l3).
    { rewrite !zlen_to_nat. unfold l. rewrite dragged_split by (try exact Nd; rewrite app_length; cbn [length]; lia). f_equal.
      rewrite drags_form by (try exact Nd; rewrite app_length; cbn [length]; lia).
      rewrite firstn_app, Nat.sub_diag, firstn_all. cbn [firstn]. rewrite app_nil_r. f_equal.
      assert (SK : skipn (length l2) (l2 ++ y :: l3) = y :: l3) by (rewrite skipn_app, skipn_all, Nat.sub_diag; reflexivity). rewrite SK.
      assert (SD : skipn (length l2) (d ++ map husk (l2 ++ y :: l3)) = x :: d2 ++ map husk (l2 ++ y :: l3)).
      { unfold d. rewrite Ld, <- app_assoc, skipn_app, skipn_all, Nat.sub_diag. reflexivity. }
      rewrite SD. assert (Ll : length d = S (length d2 + length l2)) by (unfold d; rewrite app_length; cbn [length]; lia). rewrite Ll. cbn [firstn].
      rewrite map_app, app_assoc.
      replace (length d2 + length l2)%nat with (length (d2 ++ map husk l2)) by (rewrite app_length, map_length; lia).
      rewrite firstn_app, Nat.sub_diag, firstn_all. cbn [firstn]. rewrite app_nil_r, <- app_assoc. reflexivity. }
    rewrite PP in *. assert (L' : zlen (l1 ++ l2 ++ torn x y :: d2 ++ map husk l2 ++ y :: l3) = zlen l).
    { rewrite !zlen_app, zlen_cons, !zlen_app, zlen_cons, zlen_map, L. unfold d. rewrite zlen_app, zlen_cons. unfold zlen. rewrite Ld. lia. }
    rewrite L' in *. exists w'. split; [exact Q|]. split; [exact H1|]. split; [exact H2|]. change (Z.of_nat 0) with 0 in *. lia.
  Qed.
  Lemma shrinking w v l1 x l2 c k : holds_list w v (l1 ++ x :: l2) c -> shrinks c (zlen (l1 ++ l2)) = true -> (k < length (l1 ++ l2))%nat ->
    exists w', tstep E husk torn w (TRemoveAt v (zlen l1)) (Some (length l2 + k)%nat) = Ok (w', YThrown) /\
      holds_list w' v (map husk (firstn k (l1 ++ l2)) ++ skipn k (l1 ++ l2)) c /\ others_same w w' v /\
      alive (books w') = alive (books w) - 1 + Z.of_nat k /\ blocks (books w') = blocks (books w) + 1.
  Proof.
    intros H Hs Hk. pose proof (zlen_nonneg l1) as P1. pose proof (zlen_nonneg l2) as P2.
    assert (L : zlen (l1 ++ x :: l2) = zlen (l1 ++ l2) + 1) by (rewrite !zlen_app, !zlen_cons; lia).
    destruct (remove_step w v _ c (zlen l1) (Some (length l2 + k)%nat) H) as (w' & Q & H1 & H2 & H3 & H4); [rewrite zlen_app, zlen_cons; lia|].
    unfold removed in *. rewrite (ztake_app E), (zdrop_app1 E) in *. rewrite zlen_to_nat in *.
    replace (length (l1 ++ x :: l2) - length l1 - 1)%nat with (length l2) in * by (rewrite app_length; cbn [length]; lia).
    replace (hits (Some (length l2 + k)%nat) (length l2)) with (@None nat) in *
      by (cbn [hits]; replace (length l2 + k <? length l2)%nat with false by lia; reflexivity).
    replace (zlen (l1 ++ x :: l2) - 1) with (zlen (l1 ++ l2)) in * by lia. rewrite Hs in *.
    cbn [past] in *. replace (length l2 + k - length l2)%nat with k in * by lia. rewrite hits_some in * by exact Hk.
    cbn [thrown cl cc le lb] in *. rewrite hollowed_length in H3. exists w'. split; [exact Q|]. split; [exact H1|]. split; [exact H2|].
    change (Z.of_nat 1) with 1 in *. lia.
  Qed.

  (* ---- no exception: the sequences of LstSpec ------------------------------------------- *)
  Definition erase (s : sworld E) : seqs E := map (option_map fst) (svars s).
  Lemma upd_map {X Y} (f : X -> Y) l : forall n x, map f (upd l n x) = upd (map f l) n (f x).
  Proof. induction l as [|y l IH]; intros [|n] x; cbn [upd map]; try reflexivity. now rewrite IH. Qed.
  Lemma sread_erase s v : sread E (erase s) v = match svar s v with Ok (l, c) => Ok l | _ => UB end.
  Proof. unfold sread, svar, erase. rewrite nth_error_map. destruct (nth_error (svars s) v) as [[[l c]|]|]; reflexivity. Qed.
  Lemma sfree_erase s v : sfree E (erase s) v = svfree s v.
  Proof. unfold sfree, svfree, erase. rewrite nth_error_map. destruct (nth_error (svars s) v) as [[[l c]|]|]; reflexivity. Qed.
  Lemma svar_cases (s : sworld E) v : svar s v = UB \/ exists l c, svar s v = Ok (l, c).
  Proof. unfold svar. destruct (nth_error (svars s) v) as [[[l c]|]|]; eauto. Qed.
  Lemma svfree_cases (s : sworld E) v : svfree s v = UB \/ svfree s v = Ok tt.
  Proof. unfold svfree. destruct (nth_error (svars s) v) as [[[l c]|]|]; eauto. Qed.

  Definition lossless (s : sworld E) : Prop := selems s = 0%nat /\ sbufs s = 0%nat.
  Lemma calm_raw s o : lossless s ->
    match sstep_raw E (fun _ _ => false) (erase s) (plain o) with
    | Ok (t, y) => exists s', tsstep_raw E husk torn s o None = Ok (s', answer y) /\ erase s' = t /\ lossless s'
    | Err => tsstep_raw E husk torn s o None = Err
    | _ => True
    end.
  Proof.
    intros (L1 & L2).
    assert (KE : forall vs, erase (keep s vs) = map (option_map fst) vs) by reflexivity.
    assert (KL : forall vs, lossless (keep s vs)) by (intros; split; assumption).
    destruct o; cbn [plain sstep_raw tsstep_raw].
    - rewrite sfree_erase. destruct (svfree_cases s v) as [->| ->]; cbn [bind]; auto. eexists. split; [reflexivity|]. rewrite KE, upd_map. auto.
    - rewrite sfree_erase, sread_erase. destruct (svfree_cases s v) as [->| ->]; cbn [bind]; auto.
      destruct (svar_cases s w) as [->|(l & c & ->)]; cbn [bind]; auto. eexists. split; [reflexivity|]. rewrite KE, !upd_map. auto.
    - rewrite !sread_erase. destruct (svar_cases s v) as [->|(l & c & ->)]; cbn [bind]; auto.
      destruct (svar_cases s w) as [->|(l' & c' & ->)]; cbn [bind]; auto. eexists. split; [reflexivity|]. rewrite KE, !upd_map. auto.
    - rewrite sread_erase. destruct (svar_cases s v) as [->|(l & c & ->)]; cbn [bind]; auto. eexists. split; [reflexivity|]. rewrite KE, upd_map. auto.
    - rewrite sread_erase. destruct (svar_cases s v) as [->|(l & c & ->)]; cbn [bind]; auto.
      unfold changed, inserted, hits. destruct (c <? zlen l + 1); cbn [cl cc le lb thrown]; eexists; (split; [reflexivity|]);
      unfold erase, lossless; cbn [svars selems sbufs]; rewrite upd_map; (split; [|lia]); cbn [option_map fst];
      unfold ztake, zdrop; rewrite zlen_to_nat, firstn_all, skipn_all; reflexivity.
    - rewrite sread_erase. destruct (svar_cases s v) as [->|(l & c & ->)]; cbn [bind]; auto. unfold sinsert.
      destruct ((0 <=? i) && (i <=? zlen l)); cbn [bind]; auto.
      unfold changed, inserted, hits. destruct (c <? zlen l + 1); cbn [cl cc le lb thrown]; eexists; (split; [reflexivity|]);
      unfold erase, lossless; cbn [svars selems sbufs]; rewrite upd_map; (split; [|lia]); reflexivity.
    - rewrite sread_erase. destruct (svar_cases s v) as [->|(l & c & ->)]; cbn [bind]; auto.
      destruct ((0 <=? i) && (i <? zlen l)); cbn [bind]; auto.
      unfold changed, removed, hits, past. destruct (shrinks c (zlen l - 1)); cbn [cl cc le lb thrown]; eexists; (split; [reflexivity|]);
      unfold erase, lossless; cbn [svars selems sbufs]; rewrite upd_map; (split; [|lia]); reflexivity.
    - rewrite sread_erase. destruct (svar_cases s v) as [->|(l & c & ->)]; cbn [bind]; auto. unfold sremove.
      destruct ((0 <=? i) && (i <=? zlen l)) eqn:Q; cbn [bind]; auto.
      destruct (negb ((- 2 ^ 63 <=? i + n) && (i + n <? 2 ^ 63))) eqn:Q1; cbn [bind]; auto.
      destruct (i + n <? 0) eqn:Q2; cbn [bind orb]; auto. destruct (n <? 0) eqn:Q3; cbn [bind]; auto.
      destruct (i + n <=? zlen l) eqn:Q4; cbn [bind].
      + replace (zlen l <? i + n) with false by lia.
        unfold changed, removed_range, hits, past. destruct (shrinks c (zlen l - n)); cbn [cl cc le lb thrown]; eexists; (split; [reflexivity|]);
        unfold erase, lossless; cbn [svars selems sbufs]; rewrite upd_map; (split; [|lia]); reflexivity.
      + replace (zlen l <? i + n) with true by lia. reflexivity.
    - rewrite sread_erase. destruct (svar_cases s v) as [->|(l & c & ->)]; cbn [bind]; auto. eexists. split; [reflexivity|]. rewrite KE, upd_map. auto.
    - rewrite sread_erase. destruct (svar_cases s v) as [->|(l & c & ->)]; cbn [bind]; auto.
      destruct (sset E l i a) as [m| | |]; cbn [bind]; auto. eexists. split; [reflexivity|]. rewrite KE, upd_map. auto.
    - rewrite sread_erase. destruct (svar_cases s v) as [->|(l & c & ->)]; cbn [bind]; auto.
      destruct (znth l i); cbn [bind]; auto. eexists. split; [reflexivity|]. split; [reflexivity|]. now split.
    - rewrite sread_erase. destruct (svar_cases s v) as [->|(l & c & ->)]; cbn [bind]; auto.
      eexists. split; [reflexivity|]. split; [reflexivity|]. now split.
  Qed.
  Lemma calm_run os : forall s t ys, lossless s -> srun E (fun _ _ => false) (erase s) (map plain os) = Ok (t, ys) ->
    exists s', tsrun E husk torn s (map (fun o => (o, None)) os) = Ok (s', map answer ys) /\ erase s' = t /\ lossless s'.
  Proof.
    induction os as [|o os IH]; intros s t ys L Q; cbn [map srun tsrun] in *.
    - exists s. assert (erase s = t /\ [] = ys) as [<- <-] by (split; congruence). auto.
    - apply bind_ok in Q. destruct Q as ([t1 y1] & Q1 & Q). apply bind_ok in Q. destruct Q as ([t2 ys2] & Q2 & Q).
      assert (exists s1, tsstep E husk torn s o None = Ok (s1, answer y1) /\ erase s1 = t1 /\ lossless s1) as (s1 & -> & Et & Ls).
      { pose proof (calm_raw s o L) as K. unfold sstep in Q1. unfold tsstep.
        destruct (sstep_raw E (fun _ _ => false) (erase s) (plain o)) as [[t' y']| | |]; try discriminate.
        - destruct K as (s' & -> & K1 & K2). exists s'. assert (t' = t1 /\ y' = y1) as [<- <-] by (split; congruence). auto.
        - rewrite K. exists s. assert (erase s = t1 /\ RError = y1) as [<- <-] by (split; congruence). auto. }
      cbn [bind]. subst t1. destruct (IH s1 t2 ys2 Ls Q2) as (s2 & -> & E2 & L2). cbn [bind]. exists s2.
      split; [|split; [congruence|exact L2]]. assert (ys = y1 :: ys2) as -> by congruence. reflexivity.
  Qed.
  Lemma calm n os t ys : srun E (fun _ _ => false) (repeat None n) (map plain os) = Ok (t, ys) ->
    exists w, trun E husk torn (tinit n) (map (fun o => (o, None)) os) = Ok (w, map answer ys) /\
      Forall2 (fun x l => match x, l with Some x, Some l => exists c, tshows x l c | None, None => True | _, _ => False end) (tvars w) t /\
      alive (books w) = fold_right (fun l n => match l with Some l => zlen l + n | None => n end) 0 t.
  Proof.
    intros Q. assert (Es : erase (sinit n) = repeat None n) by (unfold erase, sinit; cbn [svars]; clear; induction n; cbn; congruence).
    rewrite <- Es in Q. destruct (calm_run os (sinit n) t ys) as (s & R & <- & L1 & L2); [split; reflexivity|exact Q|].
    destruct (exact_run n _ _ _ R) as (w & Rw & H & A & _). exists w. split; [exact Rw|]. rewrite L1, Z.add_0_r in A. split.
    - unfold all_show, erase in *. clear - H. induction H as [|x y xs ys Hx H IH]; cbn [map]; constructor; auto.
      destruct x as [x|], y as [[l c]|]; cbn [option_map fst]; eauto.
    - rewrite A. unfold erase, listed. clear. induction (svars s) as [|[[l c]|] vs IH]; cbn [map fold_right option_map fst]; rewrite <- ?IH; reflexivity.
  Qed.

End P.

(* elements that are copied, and whose throwing assignments change nothing *)
Section Copying.
  Variable E : Type.
  Let husk := fun e : E => e.
  Let torn := fun old _ : E => old.
  Lemma copying_growth w v (l : list E) i a k : holds_list w v l (zlen l) -> 0 <= i <= zlen l -> (k < length l)%nat ->
    exists w', tstep E husk torn w (TInsert v i a) (Some k) = Ok (w', YThrown) /\
      holds_list w' v l (zlen l) /\ others_same w w' v /\
      alive (books w') = alive (books w) + Z.of_nat k /\ blocks (books w') = blocks (books w) + 1.
  Proof.
    intros H Hi Hk. destruct (growth E husk torn w v l i a k H Hi Hk) as (w' & Q & H1 & R).
    exists w'. split; [exact Q|]. split; [|exact R]. unfold husk in H1. rewrite map_id, firstn_skipn in H1. exact H1.
  Qed.
  Lemma copying_removal w v l1 (x : E) l2 y z l3 c : holds_list w v (l1 ++ x :: l2 ++ y :: z :: l3) c ->
    exists w', tstep E husk torn w (TRemoveAt v (zlen l1)) (Some (length l2 + 1)%nat) = Ok (w', YThrown) /\
      holds_list w' v (l1 ++ l2 ++ y :: y :: z :: l3) c /\ others_same w w' v /\
      alive (books w') = alive (books w) /\ blocks (books w') = blocks (books w).
  Proof. exact (removal E husk torn w v l1 x l2 y z l3 c). Qed.
  Lemma copying_range w v l1 d1 (x : E) d2 l2 y l3 c : holds_list w v (l1 ++ (d1 ++ x :: d2) ++ l2 ++ y :: l3) c -> length l2 = length d1 ->
    zlen (l1 ++ (d1 ++ x :: d2) ++ l2 ++ y :: l3) < 2 ^ 63 ->
    exists w', tstep E husk torn w (TRemoveRange v (zlen l1) (zlen (d1 ++ x :: d2))) (Some (length l2)) = Ok (w', YThrown) /\
      holds_list w' v (l1 ++ l2 ++ x :: d2 ++ l2 ++ y :: l3) c /\ others_same w w' v /\
      alive (books w') = alive (books w) /\ blocks (books w') = blocks (books w).
  Proof.
    intros H1 H2 H3. destruct (range_removal E husk torn w v l1 d1 x d2 l2 y l3 c H1 H2 H3) as (w' & Q & H & R).
    exists w'. split; [exact Q|]. split; [|exact R]. unfold husk in H. rewrite map_id in H. exact H.
  Qed.
  Lemma copying_in_place w v l1 (y : E) x l2 e c i a : holds_list w v (l1 ++ y :: x :: l2 ++ [e]) c ->
    zlen (l1 ++ y :: x :: l2 ++ [e]) < c -> 0 <= i <= zlen l1 ->
    exists w', tstep E husk torn w (TInsert v i a) (Some (length l2 + 2)%nat) = Ok (w', YThrown) /\
      holds_list w' v (l1 ++ y :: x :: x :: l2) c /\ others_same w w' v /\
      alive (books w') = alive (books w) + 1 /\ blocks (books w') = blocks (books w).
  Proof. exact (in_place E husk torn w v l1 y x l2 e c i a). Qed.
End Copying.
