From Verif Require Import Base TupModel TupSpec.

Lemma from_nonzero es : forall o a b, nonzero o = true -> compare_from o es a b = o.
Proof.
  induction es as [|e es IH]; intros o a b H; cbn [compare_from]; [reflexivity|]. unfold mul. rewrite H. auto.
Qed.
Lemma compare_cons e es a b : compare (e :: es) a b =
  if nonzero (cmp e (fst a) (fst b)) then cmp e (fst a) (fst b) else compare es (snd a) (snd b).
Proof.
  unfold compare. cbn [compare_from]. unfold mul at 1. cbn [nonzero]. destruct (cmp e (fst a) (fst b)); cbn [nonzero]; auto using from_nonzero.
Qed.
Lemma compare_lex es : forall a b, compare es a b = first_difference (results es a b).
Proof.
  induction es as [|e es IH]; intros a b; [reflexivity|]. rewrite compare_cons, IH. unfold first_difference. cbn [results find].
  destruct (nonzero (cmp e (fst a) (fst b))); reflexivity.
Qed.
Lemma equal_false es : forall a b, equal_from false es a b = false.
Proof. induction es as [|e es IH]; intros a b; cbn [equal_from andb]; auto. Qed.
Lemma equal_iff es : forall a b, equal es a b = true <-> all_equal es a b.
Proof.
  unfold equal. induction es as [|e es IH]; intros a b; cbn [equal_from all_equal]; [tauto|]. cbn [andb].
  destruct (eqe e (fst a) (fst b)); [rewrite IH; tauto|]. rewrite equal_false. split; [discriminate|intros [? _]; discriminate].
Qed.
Lemma opp_inv o : opposite (opposite o) = o.
Proof. destruct o; reflexivity. Qed.
Section laws.
  Context {A : Type} (c : A -> A -> ord) (P : partial_order c).
  Lemma eq_sym_c x y : c x y = Equal -> c y x = Equal.
  Proof. intros H. rewrite (po_flip c P), H. reflexivity. Qed.
  Lemma eq_right x y z : c y z = Equal -> c x y = c x z.
  Proof.
    intros H. rewrite (po_flip c P y x), (po_flip c P z x). f_equal. symmetry. now apply (po_equal c P).
  Qed.
End laws.
Lemma tuple_partial es : Forall (fun e => partial_order (cmp e)) es -> partial_order (compare es).
Proof.
  induction es as [|e es IH]; intros H; [constructor; cbn; auto; discriminate|]. inversion H as [|? ? He Hes]; subst. specialize (IH Hes).
  constructor.
  - intros a b. rewrite !compare_cons. rewrite (po_flip _ He). destruct (cmp e (fst a) (fst b)); cbn [opposite nonzero]; auto. apply (po_flip _ IH).
  - intros x y z. rewrite !compare_cons. destruct (cmp e (fst x) (fst y)) eqn:E1; cbn [nonzero]; try discriminate.
    + intros _. destruct (cmp e (fst y) (fst z)) eqn:E2; cbn [nonzero]; try discriminate.
      * rewrite (po_less _ He _ _ _ E1 E2). reflexivity.
      * intros _. rewrite <- (eq_right _ He _ _ _ E2), E1. reflexivity.
    + intros Q. rewrite (po_equal _ He _ _ _ E1). destruct (cmp e (fst x) (fst z)); cbn [nonzero]; auto. apply (po_less _ IH). exact Q.
  - intros x y z. rewrite !compare_cons. destruct (cmp e (fst x) (fst y)) eqn:E1; cbn [nonzero]; try discriminate.
    intros Q. rewrite (po_equal _ He _ _ _ E1). destruct (cmp e (fst x) (fst z)); cbn [nonzero]; auto. apply (po_equal _ IH). exact Q.
Qed.
Lemma tuple_total es : Forall (fun e => total_order (cmp e)) es -> total_order (compare es).
Proof.
  intros H. constructor.
  - apply tuple_partial. eapply Forall_impl; [|exact H]. intros e T. apply T.
  - induction es as [|e es IH]; intros a; [reflexivity|]. inversion H as [|? ? He Hes]; subst.
    rewrite compare_cons, (to_refl _ He). cbn [nonzero]. auto.
  - induction es as [|e es IH]; intros a b; [cbn; discriminate|]. inversion H as [|? ? He Hes]; subst.
    rewrite compare_cons. pose proof (to_total _ He (fst a) (fst b)). destruct (cmp e (fst a) (fst b)); cbn [nonzero]; auto; discriminate.
Qed.
Lemma tuple_consistent es : Forall (fun e => forall a b, eqe e a b = true <-> cmp e a b = Equal) es ->
  forall a b, equal es a b = true <-> compare es a b = Equal.
Proof.
  intros H a b. rewrite equal_iff. induction es as [|e es IH]; [cbn; tauto|]. inversion H as [|? ? He Hes]; subst.
  rewrite compare_cons. cbn [all_equal]. rewrite IH, He by auto. destruct (cmp e (fst a) (fst b)); cbn [nonzero]; split; try tauto; try (intros [? ?]; congruence); discriminate.
Qed.
Lemma pair_is_tuple k v a b : pair_compare k v a b = compare [k; v] (fst a, (snd a, tt)) (fst b, (snd b, tt)) /\
  pair_equal k v a b = equal [k; v] (fst a, (snd a, tt)) (fst b, (snd b, tt)).
Proof.
  split.
  - rewrite !compare_cons. unfold pair_compare. cbn [fst snd]. destruct (cmp k (fst a) (fst b)); cbn [nonzero]; auto.
  - unfold pair_equal, equal. cbn [equal_from fst snd andb]. reflexivity.
Qed.
Lemma pair_lex k v a b : pair_compare k v a b = first_difference [cmp k (fst a) (fst b); cmp v (snd a) (snd b)].
Proof. rewrite (proj1 (pair_is_tuple k v a b)), compare_lex. reflexivity. Qed.
Lemma pair_total k v : total_order (cmp k) -> total_order (cmp v) -> total_order (pair_compare k v).
Proof.
  intros K V. pose proof (tuple_total [k; v] ltac:(constructor; [assumption|constructor; [assumption|constructor]])) as T.
  constructor; [constructor|..]; intros; rewrite ?(fun a b => proj1 (pair_is_tuple k v a b)) in *.
  - apply (po_flip _ (to_partial _ T)).
  - eapply (po_less _ (to_partial _ T)); eauto.
  - eapply (po_equal _ (to_partial _ T)); eauto.
  - apply (to_refl _ T).
  - apply (to_total _ T).
Qed.

(* ---- categories ------------------------------------------------------------------------- *)
Lemma number_pos c l : Nat.ltb 0 (number c l) = true <-> In c l.
Proof.
  unfold number. rewrite Nat.ltb_lt. split.
  - intros H. destruct (filter (is_cat c) l) as [|x r] eqn:E; [cbn in H; inversion H|].
    assert (In x (filter (is_cat c) l)) as I by (rewrite E; cbn; auto). apply filter_In in I. destruct I as [I J]. destruct c, x; cbn in J; try discriminate; auto.
  - intros H. assert (In c (filter (is_cat c) l)) as I by (apply filter_In; split; [auto|destruct c; reflexivity]).
    destruct (filter (is_cat c) l); [destruct I|cbn; apply Nat.lt_0_succ].
Qed.
Lemma ordering_common l : common l (ordering_of l).
Proof.
  intros x I. unfold ordering_of, selection.
  destruct (Nat.ltb 0 (number Partial l)) eqn:P; [destruct x; reflexivity|].
  destruct (Nat.ltb 0 (number Weak l)) eqn:W; [|destruct x; reflexivity].
  destruct x; auto. apply number_pos in I. congruence.
Qed.
Lemma ordering_strongest l : (exists c, In c l /\ c <> Strong) -> strongest_common l (ordering_of l).
Proof.
  intros (c & I & N). split; [apply ordering_common|]. intros d H. unfold ordering_of, selection.
  destruct (Nat.ltb 0 (number Partial l)) eqn:P.
  - apply number_pos in P. specialize (H _ P). destruct d; auto.
  - destruct (Nat.ltb 0 (number Weak l)) eqn:W.
    + apply number_pos in W. specialize (H _ W). destruct d; auto.
    + exfalso. destruct c; [congruence| |]; apply number_pos in I; congruence.
Qed.
Lemma ordering_all_strong l : Forall (fun c => c = Strong) l -> strongest_common l Strong /\ ordering_of l = Partial.
Proof.
  intros H. rewrite Forall_forall in H. split.
  - split; [intros x I; rewrite (H x I); reflexivity|]. intros d _. destruct d; reflexivity.
  - unfold ordering_of, selection.
    destruct (Nat.ltb 0 (number Partial l)) eqn:P; [reflexivity|].
    destruct (Nat.ltb 0 (number Weak l)) eqn:W; [|reflexivity]. apply number_pos in W. apply H in W. discriminate.
Qed.
Definition zcmp (a b : Z) : ord := match (a ?= b)%Z with Lt => Less | Eq => Equal | Gt => Greater end.
Definition zelem : elem := mkElem Z Strong zcmp Z.eqb.
Lemma zcmp_total : total_order zcmp.
Proof.
  unfold zcmp. constructor; [constructor|..].
  - intros a b. rewrite Z.compare_antisym. destruct (a ?= b)%Z; reflexivity.
  - intros x y z. destruct (Z.compare_spec x y), (Z.compare_spec y z), (Z.compare_spec x z); try discriminate; auto; lia.
  - intros x y z. destruct (Z.compare_spec x y); try discriminate. now subst.
  - intros a. now rewrite Z.compare_refl.
  - intros a b. destruct (a ?= b)%Z; discriminate.
Qed.
