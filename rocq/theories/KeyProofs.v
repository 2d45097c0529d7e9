From Coq Require Import ZifyBool ZifyNat Permutation.
From Verif Require Import Base BaseFacts LstModel LstSpec LstProofs SrtModel SrtSpec SrtProofs DctModel DctSpec DctProofs QsModel QsProofs.
From Verif Require StrModel StrSpec StrProofs.
From Verif Require Import DateModel TupModel KeyModel KeySpec.
Open Scope Z_scope.

Lemma key_ind2 (P : key -> Prop) : P KInt -> P KText -> P KDate -> P KPtr -> (forall k, P k -> P (KNullable k)) ->
  (forall k v, P k -> P v -> P (KPair k v)) -> (forall ks, Forall P ks -> P (KTuple ks)) -> forall k, P k.
Proof.
  intros H1 H2 H3 H4 H5 H6 H7. fix IH 1. intros [| | | |k|k v|ks]; [exact H1|exact H2|exact H3|exact H4|exact (H5 k (IH k))|exact (H6 k v (IH k) (IH v))|].
  apply H7. induction ks as [|k ks IHks]; constructor; [apply IH|exact IHks].
Qed.

Definition to_ord (c : comparison) : ord := match c with Lt => Less | Eq => Equal | Gt => Greater end.
Lemma read_to_ord d : read_ord (to_ord d) = Some d. Proof. now destruct d. Qed.
Lemma zord_to a b : zord a b = to_ord (a ?= b). Proof. unfold zord. now destruct (a ?= b). Qed.

Lemma text_order a : forall b, text_compare a b = to_ord (dictionary_order a b).
Proof.
  assert (G : forall a b m, m = Z.to_nat (if zlen a <? zlen b then zlen a else zlen b) ->
    (if nonzero (units a b m) then units a b m else zord (zlen a) (zlen b)) = to_ord (dictionary_order a b)).
  { clear a. induction a as [|x a IH]; intros [|y b] m E; cbn [dictionary_order].
    - destruct m; reflexivity.
    - replace (units [] (y :: b) m) with Equal by (destruct m; reflexivity). cbn [nonzero]. rewrite zord_to.
      replace (zlen (@nil Z) ?= zlen (y :: b)) with Lt; [reflexivity|]. symmetry. rewrite Z.compare_lt_iff. unfold zlen. cbn [length]. lia.
    - replace (units (x :: a) [] m) with Equal by (destruct m; reflexivity). cbn [nonzero]. rewrite zord_to.
      replace (zlen (x :: a) ?= zlen (@nil Z)) with Gt; [reflexivity|]. symmetry. rewrite Z.compare_gt_iff. unfold zlen. cbn [length]. lia.
    - destruct m as [|m]; [destruct (zlen (x :: a) <? zlen (y :: b)) eqn:L; unfold zlen in *; cbn [length] in *; lia|].
      cbn [units]. cbv zeta. rewrite zord_to.
      destruct (x ?= y) eqn:C; cbn [to_ord nonzero then_by]; auto.
      rewrite <- (IH b m).
      + destruct (nonzero (units a b m)); auto. rewrite !zord_to. f_equal. rewrite !zlen_cons.
        destruct (Z.compare_spec (1 + zlen a) (1 + zlen b)), (Z.compare_spec (zlen a) (zlen b)); auto; lia.
      + destruct (zlen (x :: a) <? zlen (y :: b)) eqn:L; destruct (zlen a <? zlen b) eqn:L'; unfold zlen in *; cbn [length] in *; lia. }
  intros b. unfold text_compare. cbv zeta. now apply G.
Qed.

(* the folds of Tuple *)
Lemma compare_from_stop o es : nonzero o = true -> forall a b, compare_from o es a b = o.
Proof.
  revert o. induction es as [|e es IH]; intros o H a b; cbn [compare_from]; auto. rewrite IH; unfold mul; now rewrite H.
Qed.
Lemma compare_from_go o es : nonzero o = false -> forall a b, compare_from o es a b = compare es a b.
Proof. destruct o; cbn [nonzero]; try discriminate. reflexivity. Qed.

Lemma pair_ord o1 o2 : (if nonzero (to_ord o1) then to_ord o1 else if nonzero (to_ord o2) then to_ord o2 else Equal) = to_ord (then_by o1 o2).
Proof. now destruct o1, o2. Qed.
Lemma cmp_order k : forall a b, cmp (elem_of k) a b = to_ord (order k a b).
Proof.
  induction k as [| | | |k IH|k v IHk IHv|ks F] using key_ind2; intros a b.
  - exact (zord_to a b).
  - exact (text_order a b).
  - cbn. unfold dcompare. now destruct (osInternal a ?= osInternal b).
  - exact (zord_to a b).
  - cbn. unfold nullable_compare. destruct a as [x|], b as [y|]; [apply IH|reflexivity..].
  - cbn. unfold pair_compare. cbv zeta. rewrite IHk, IHv. exact (pair_ord _ _).
  - induction F as [|k ks Hk F IH]; [reflexivity|].
    change (compare_from (mul Equal (cmp (elem_of k) (fst a) (fst b))) (map elem_of ks) (snd a) (snd b) =
            to_ord (then_by (order k (fst a) (fst b)) (order (KTuple ks) (snd a) (snd b)))).
    unfold mul. cbn [nonzero]. rewrite Hk. destruct (order k (fst a) (fst b)) eqn:E; cbn [to_ord then_by].
    + rewrite <- IH. now apply compare_from_go.
    + now apply compare_from_stop.
    + now apply compare_from_stop.
Qed.
Lemma key_cmp_order k a b : key_cmp k a b = Some (order k a b).
Proof. unfold key_cmp. rewrite cmp_order. apply read_to_ord. Qed.

(* total preorders *)
Lemma zcompare_total {B : Type} (f : B -> Z) : total_order (fun a b => f a ?= f b).
Proof. split; [intros a b; now rewrite Z.compare_antisym|]. intros a b d H1 H2. rewrite Z.compare_le_iff in *. lia. Qed.
Lemma then_by_total {B C D : Type} (f : D -> B) (g : D -> C) c1 c2 : @total_order B c1 -> @total_order C c2 ->
  total_order (fun a b => then_by (c1 (f a) (f b)) (c2 (g a) (g b))).
Proof.
  intros T1 T2. split.
  - intros a b. rewrite (to_opp c1 T1 (f a)), (to_opp c2 T2 (g a)). now destruct (c1 (f a) (f b)).
  - intros a b d H1 H2.
    destruct (c1 (f a) (f b)) eqn:E1; cbn [then_by] in H1; try congruence;
    destruct (c1 (f b) (f d)) eqn:E2; cbn [then_by] in H2; try congruence.
    + assert (E : c1 (f a) (f d) = Eq).
      { pose proof (to_trans c1 T1 (f a) (f b) (f d)) as P. pose proof (to_trans c1 T1 (f d) (f b) (f a)) as Q.
        rewrite (to_opp c1 T1 (f b) (f d)), (to_opp c1 T1 (f a) (f b)), (to_opp c1 T1 (f a) (f d)), E1, E2 in Q. cbn [CompOpp] in Q.
        rewrite E1, E2 in P. destruct (c1 (f a) (f d)); [reflexivity|exfalso; apply Q; cbn; congruence|exfalso; apply P; congruence]. }
      rewrite E. cbn [then_by]. now apply (to_trans c2 T2 (g a) (g b) (g d)).
    + assert (E : c1 (f a) (f d) = Lt) by (apply (le_lt_trans B c1 T1 (f a) (f b) (f d)); congruence). rewrite E. cbn. congruence.
    + assert (E : c1 (f a) (f d) = Lt) by (apply (lt_le_trans B c1 T1 (f a) (f b) (f d)); congruence). rewrite E. cbn. congruence.
    + assert (E : c1 (f a) (f d) = Lt) by (apply (lt_le_trans B c1 T1 (f a) (f b) (f d)); congruence). rewrite E. cbn. congruence.
Qed.
Lemma dictionary_lex a : forall b, dictionary_order a b = StrSpec.lex a b.
Proof.
  induction a as [|x a IH]; intros [|y b]; cbn [dictionary_order StrSpec.lex]; [reflexivity..|]. rewrite IH. now destruct (x ?= y).
Qed.
Lemma dictionary_total : total_order dictionary_order.
Proof.
  split.
  - intros a b. rewrite (dictionary_lex a b), (dictionary_lex b a). apply StrProofs.lex_antisym.
  - intros a b d. rewrite (dictionary_lex a b), (dictionary_lex b d), (dictionary_lex a d). intros H1 H2.
    destruct (StrSpec.lex a b) eqn:E1; [|destruct (StrSpec.lex b d) eqn:E2|contradiction].
    + apply StrProofs.lex_eq in E1. now subst b.
    + apply StrProofs.lex_eq in E2. subst d. rewrite E1. discriminate.
    + rewrite (StrProofs.lex_trans a b d E1 E2). discriminate.
    + contradiction.
Qed.
Lemma order_total k : total_order (order k).
Proof.
  induction k as [| | | |k IH|k v IHk IHv|ks F] using key_ind2.
  - exact (zcompare_total (fun a => a)).
  - exact dictionary_total.
  - exact (zcompare_total osInternal).
  - exact (zcompare_total (fun a => a)).
  - split.
    + intros [a|] [b|]; cbn; auto. apply (to_opp _ IH).
    + intros [a|] [b|] [d|]; cbn; try congruence. apply (to_trans _ IH).
  - exact (then_by_total fst snd _ _ IHk IHv).
  - induction F as [|k ks Hk F IH].
    + split; cbn; congruence.
    + exact (then_by_total fst snd _ _ Hk IH).
Qed.

(* == and <=> agree *)
Lemma then_by_eq a b : then_by a b = Eq <-> a = Eq /\ b = Eq.
Proof. destruct a, b; cbn; intuition congruence. Qed.
Lemma equal_from_and es : forall r a b, equal_from r es a b = r && equal es a b.
Proof.
  induction es as [|e es IH]; intros r a b; cbn [equal_from equal]; [unfold equal; cbn; now rewrite andb_true_r|].
  unfold equal. cbn [equal_from]. rewrite IH. symmetry. rewrite IH. cbn [andb]. now rewrite andb_assoc.
Qed.
Lemma equal_order k : forall a b, eqe (elem_of k) a b = true <-> order k a b = Eq.
Proof.
  induction k as [| | | |k IH|k v IHk IHv|ks F] using key_ind2; intros a b.
  - cbn. now rewrite Z.compare_eq_iff, Z.eqb_eq.
  - cbn. unfold text_equal. rewrite text_order. destruct (dictionary_order a b); cbn; intuition congruence.
  - cbn. unfold dequal. now rewrite Z.compare_eq_iff, Z.eqb_eq.
  - cbn. now rewrite Z.compare_eq_iff, Z.eqb_eq.
  - cbn. unfold nullable_equal. destruct a as [x|], b as [y|]; try apply IH; intuition congruence.
  - cbn. unfold pair_equal. rewrite andb_true_iff, IHk, IHv, then_by_eq. reflexivity.
  - induction F as [|k ks Hk F IH]; [cbn; intuition congruence|].
    change (equal_from (eqe (elem_of k) (fst a) (fst b)) (map elem_of ks) (snd a) (snd b) = true <->
            then_by (order k (fst a) (fst b)) (order (KTuple ks) (snd a) (snd b)) = Eq).
    rewrite equal_from_and, andb_true_iff, Hk, then_by_eq. rewrite <- IH. reflexivity.
Qed.
Lemma text_strings h s l t m : StrProofs.holds h s l -> StrProofs.holds h t m ->
  exists d, StrModel.compare h s t = Ok d /\ text_compare l m = to_ord d.
Proof. intros H1 H2. exists (StrSpec.lex l m). split; [now apply StrProofs.compare_spec|]. now rewrite text_order, dictionary_lex. Qed.
