From Coq Require Import ZifyBool ZifyNat.
From Verif Require Import Base BaseFacts LstModel LstSpec LstProofs DctProofs AnyProofs LeqModel LeqSpec.
Open Scope Z_scope.

Section Leq.
  Context (A K St : Type) (eqv : St -> A -> K -> St * option bool).
  Notation shows := (lst_shows A). Notation searched := (searched A K St eqv). Notation eloop := (eloop A K St eqv).

  Lemma searched_next l a b st st1 f st2 : eqv st b a = (st1, Some false) -> searched l a st1 f st2 ->
    searched (b :: l) a st (match f with At l1 c l2 => At (b :: l1) c l2 | f => f end) st2.
  Proof.
    intros E [l1 c l2 s1 s2 -> D Q|s1 D|l1 c l2 s1 s2 -> D Q].
    - eapply sd_at; [reflexivity| |exact Q]. econstructor; eauto.
    - apply sd_nowhere. econstructor; eauto.
    - eapply (sd_thrown A K St eqv (b :: l1 ++ c :: l2) a st (b :: l1)); [reflexivity| |exact Q]. econstructor; eauto.
  Qed.
  Definition place (i : Z) (f : finding A) : option Z := match f with At l1 _ _ => Some (i + zlen l1) | Nowhere => Some (-1) | Thrown => None end.
  Lemma eloop_ok a t : forall l2 l1 i n st, i = zlen l1 -> n = length l2 ->
    exists f st', eloop (map Live (l1 ++ l2) ++ repeat Raw t) a i n st = Ok (st', place i f) /\ searched l2 a st f st'.
  Proof.
    induction l2 as [|y l2 IH]; intros l1 i n st Hi ->; cbn [length LeqModel.eloop].
    - exists Nowhere, st. split; [reflexivity|]. apply sd_nowhere. constructor.
    - rewrite read_live by auto. cbn [bind]. destruct (eqv st y a) as [st1 [[|]|]] eqn:E.
      + exists (At [] y l2), st1. split; [cbn [place]; do 3 f_equal; cbn; lia|]. eapply sd_at; [reflexivity|constructor|exact E].
      + replace (l1 ++ y :: l2) with ((l1 ++ [y]) ++ l2) by (now rewrite <- app_assoc).
        destruct (IH (l1 ++ [y]) (i + 1) (length l2) st1) as (f & st2 & R & Sf); [rewrite zlen_app, zlen_cons; cbn; lia|auto|]. rewrite R.
        eexists; exists st2. split; [|eapply searched_next; eauto]. destruct f; cbn [place]; auto. rewrite zlen_cons. do 3 f_equal. lia.
      + exists Thrown, st1. split; [reflexivity|]. eapply (sd_thrown A K St eqv (y :: l2) a st []); [reflexivity|constructor|exact E].
  Qed.
  Lemma eindex_ok x l a st : shows x l -> exists f st', eindex A K St eqv x a st = Ok (st', position A f) /\ searched l a st f st'.
  Proof.
    intros (C & _ & k & B). unfold eindex. rewrite C, B, zlen_to_nat. destruct (eloop_ok a k l [] 0 (length l) st) as (f & st' & R & Sf); auto.
    exists f, st'. cbn [app] in R. rewrite R. split; [|exact Sf]. destruct f; reflexivity.
  Qed.
  Lemma earray_ok x l a st : arr_shows A x (map Some l) -> exists f st', earray A K St eqv x a st = Ok (st', position A f) /\ searched l a st f st'.
  Proof.
    intros (C & B). assert (E : abuf x = map Live l).
    { clear C. revert B. generalize (abuf x). induction l as [|y l IH]; intros m B; inversion B; subst; auto. cbn [map]. f_equal; auto. }
    unfold earray. rewrite C, E, zlen_map, zlen_to_nat. destruct (eloop_ok a 0 l [] 0 (length l) st) as (f & st' & R & Sf); auto.
    exists f, st'. cbn [app repeat] in R. rewrite app_nil_r in R. rewrite R. split; [|exact Sf]. destruct f; reflexivity.
  Qed.

  Ltac fin := do 4 eexists; (split; [reflexivity|]); (split; [eassumption|]).
  Lemma estep_ok x l o st : shows x l ->
    exists y st' r l', estep A K St eqv x st o = Ok (y, st', r) /\ shows y l' /\ eq_step A K St eqv l st o l' st' r.
  Proof.
    intros H. destruct (H) as (C & _). pose proof (zlen_nonneg l). destruct o as [a|i a|i a|i| |i| |a|a|a]; cbn [estep].
    - rewrite C. assert (H' : shows x (l ++ [])) by (now rewrite app_nil_r). destruct (insert_mid A x l [] a H') as (y & E & S'). rewrite E. cbn [bind eplain]. fin. constructor.
    - destruct (Z_le_dec 0 i); [destruct (Z_le_dec i (zlen l))|].
      2,3: replace (insert A x i a) with (@Err (lst A)) by (symmetry; apply (insert_err A x l i a H); lia); cbn [bind eplain]; fin; apply eq_insert_err; lia.
      destruct (split_at A l i) as (p & q & El & Ei & _ & _); [lia|]. subst l i. destruct (insert_mid A x p q a H) as (y & E & S'). rewrite E. cbn [bind eplain]. fin. constructor.
    - destruct (Z_le_dec 0 i); [destruct (Z_lt_dec i (zlen l))|].
      2,3: replace (set A x i a) with (@Err (lst A)) by (symmetry; apply (set_err A x l i a H); lia); cbn [bind eplain]; fin; apply eq_set_err; lia.
      destruct (zsplit1 l i) as (p & b & q & El & Ei & _ & _); [lia|]. subst l i. destruct (set_mid A x p b q a H) as (y & E & S'). rewrite E. cbn [bind eplain]. fin. constructor.
    - destruct (Z_le_dec 0 i); [destruct (Z_lt_dec i (zlen l))|].
      2,3: replace (remove_at A x i) with (@Err (lst A)) by (symmetry; apply (remove_at_err A x l i H); lia); cbn [bind eplain]; fin; apply eq_remove_at_err; lia.
      destruct (zsplit1 l i) as (p & b & q & El & Ei & _ & _); [lia|]. subst l i. destruct (remove_mid A x p b q H) as (y & E & S'). rewrite E. cbn [bind eplain]. fin. constructor.
    - destruct (clear_ok A x l H) as (y & E & S'). rewrite E. cbn [bind eplain]. fin. constructor.
    - rewrite (get_ok A x l i H). destruct (Z_le_dec 0 i); [destruct (Z_lt_dec i (zlen l))|].
      2,3: rewrite znth_none by lia; cbn [bind eplain]; fin; apply eq_get_err; lia.
      destruct (zsplit1 l i) as (p & b & q & El & Ei & N & _); [lia|]. subst l i. rewrite N. cbn [bind eplain]. fin. constructor.
    - rewrite C. fin. constructor.
    - destruct (eindex_ok x l a st H) as (f & st' & E & Sf). rewrite E. cbn [bind]. destruct f; cbn [position]; fin; econstructor; eauto.
    - destruct (eindex_ok x l a st H) as (f & st' & E & Sf). rewrite E. cbn [bind]. destruct f as [l1 b l2| |]; cbn [position].
      + pose proof (zlen_nonneg l1). replace (zlen l1 =? -1) with false by lia. fin. eapply eq_contains; eauto.
      + fin. eapply eq_contains_none; eauto.
      + fin. eapply eq_contains_err; eauto.
    - destruct (eindex_ok x l a st H) as (f & st' & E & Sf). rewrite E. cbn [bind]. destruct f as [l1 b l2| |]; cbn [position].
      + assert (El : l = l1 ++ b :: l2) by (inversion Sf; auto). subst l. pose proof (zlen_nonneg l1). pose proof (zlen_nonneg l2). rewrite C.
        replace ((zlen l1 >=? 0) && (zlen l1 <? zlen (l1 ++ b :: l2))) with true by (rewrite zlen_app, zlen_cons; lia).
        destruct (remove_mid A x l1 b l2 H) as (y & E' & S'). rewrite E'. cbn [bind eplain]. fin. eapply eq_remove; eauto.
      + cbn [Z.geb Z.compare andb]. fin. eapply eq_remove_none; eauto.
      + fin. eapply eq_remove_err; eauto.
  Qed.
  Lemma erun_ok os : forall x l st, shows x l ->
    exists y st' rs l', erun A K St eqv x st os = Ok (y, st', rs) /\ shows y l' /\ eq_run A K St eqv l st os l' st' rs.
  Proof.
    induction os as [|o os IH]; intros x l st H; cbn [erun].
    - fin. constructor.
    - destruct (estep_ok x l o st H) as (y & st1 & r & l1 & E & S1 & R1). rewrite E. cbn [bind].
      destruct (IH y l1 st1 S1) as (z & st2 & rs & l2 & E2 & S2 & R2). rewrite E2. cbn [bind]. fin. econstructor; eauto.
  Qed.
  Lemma any_equality_ok st os :
    exists y st' rs l, erun A K St eqv empty_lst st os = Ok (y, st', rs) /\ lst_shows A y l /\ eq_run A K St eqv [] st os l st' rs.
  Proof. apply erun_ok. apply empty_shows. Qed.

  (* the outcome is determined *)
  Lemma denied_split a l1 : forall st l1' b b' l2 l2' s1 s2 s1' s2' c c', l1 ++ b :: l2 = l1' ++ b' :: l2' ->
    denied A K St eqv a st l1 s1 -> eqv s1 b a = (s2, c) -> c <> Some false ->
    denied A K St eqv a st l1' s1' -> eqv s1' b' a = (s2', c') -> c' <> Some false -> l1 = l1' /\ b = b' /\ l2 = l2' /\ s2 = s2' /\ c = c'.
  Proof.
    induction l1 as [|y l1 IH]; intros st l1' b b' l2 l2' s1 s2 s1' s2' c c' E D Q N D' Q' N'; inversion D; subst; clear D; destruct l1' as [|y' l1']; inversion D'; subst; clear D'; cbn [app] in E; injection E as <- E.
    - subst. rewrite Q in Q'. injection Q' as <- <-. auto.
    - rewrite Q in H2. injection H2 as -> ->. easy.
    - rewrite Q' in H2. injection H2 as -> ->. easy.
    - match goal with X : eqv ?s ?y ?k = _, Y : eqv ?s ?y ?k = _ |- _ => rewrite X in Y; injection Y as <- end.
      match goal with X : denied _ _ _ _ _ ?s l1 _, Y : denied _ _ _ _ _ ?s l1' _ |- _ => destruct (IH _ _ _ _ _ _ _ _ _ _ _ _ E X Q N Y Q' N') as (-> & -> & -> & -> & ->) end. auto.
  Qed.
  Lemma denied_whole a l1 : forall st b l2 s1 s2 c s', denied A K St eqv a st l1 s1 -> eqv s1 b a = (s2, c) -> c <> Some false -> ~ denied A K St eqv a st (l1 ++ b :: l2) s'.
  Proof.
    induction l1 as [|y l1 IH]; intros st b l2 s1 s2 c s' D Q N D'; inversion D; subst; inversion D'; subst.
    - rewrite Q in H2. injection H2 as -> ->. easy.
    - match goal with X : eqv ?s ?y ?k = _, Y : eqv ?s ?y ?k = _ |- _ => rewrite X in Y; injection Y as <- end. eapply IH; eauto.
  Qed.
  Lemma denied_det a l : forall st s s', denied A K St eqv a st l s -> denied A K St eqv a st l s' -> s = s'.
  Proof.
    induction l as [|y l IH]; intros st s s' D D'; inversion D; subst; inversion D'; subst; auto.
    match goal with X : eqv ?s ?y ?k = _, Y : eqv ?s ?y ?k = _ |- _ => rewrite X in Y; injection Y as <- end. eauto.
  Qed.
  Lemma searched_det l a st f s f' s' : searched l a st f s -> searched l a st f' s' -> f = f' /\ s = s'.
  Proof.
    intros H H'. inversion H; subst; inversion H'; subst;
    try (exfalso; match goal with
      | D : denied _ _ _ _ _ _ ?p _, Q : eqv _ ?b _ = (_, ?c), W : denied _ _ _ _ _ _ (?p ++ ?b :: _) _ |- _ => eapply (denied_whole _ _ _ _ _ _ _ _ _ D Q); [discriminate|exact W] end);
    try match goal with
      | D : denied _ _ _ _ _ _ ?p _, Q : eqv _ ?b _ = (_, ?c), E : ?p ++ ?b :: _ = ?p' ++ ?b' :: _, D' : denied _ _ _ _ _ _ ?p' _, Q' : eqv _ ?b' _ = (_, ?c') |- _ =>
        destruct (denied_split _ _ _ _ _ _ _ _ _ _ _ _ _ _ E D Q ltac:(discriminate) D' Q' ltac:(discriminate)) as (? & ? & ? & ? & ?); subst; auto; try discriminate end.
    split; [reflexivity|]. eapply denied_det; eauto.
  Qed.
End Leq.

Lemma eloop_agrees (A : Type) e (m : list (slot A)) a : forall n i,
  eloop A A unit (fixed_eq e) m a i n tt = (do z <- index_loop A e m a i n; Ok (tt, Some z)).
Proof.
  induction n as [|n IH]; intros i; cbn [eloop index_loop]; [reflexivity|]. destruct (read A m i); cbn [bind fixed_eq]; try reflexivity.
  destruct (e a0 a); [reflexivity|]. apply IH.
Qed.
Lemma equality_agrees (A : Type) e (x : lst A) a :
  eindex A A unit (fixed_eq e) x a tt = (do z <- index_of A e x a; Ok (tt, Some z)).
Proof. apply eloop_agrees. Qed.
Lemma array_equality_agrees (A : Type) e (x : arr A) a :
  earray A A unit (fixed_eq e) x a tt = (do z <- a_index_of A e x a; Ok (tt, Some z)).
Proof. apply eloop_agrees. Qed.
Lemma both_agree (A : Type) e (a : A) :
  (forall x, eindex A A unit (fixed_eq e) x a tt = (do z <- index_of A e x a; Ok (tt, Some z))) /\
  (forall x, earray A A unit (fixed_eq e) x a tt = (do z <- a_index_of A e x a; Ok (tt, Some z))).
Proof. split; intros x; [apply equality_agrees|apply array_equality_agrees]. Qed.
