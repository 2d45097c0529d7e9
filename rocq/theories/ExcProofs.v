(* Proofs about ExcModel.  Every operation changes the number of elements of a buffer as it changes the count, so a
   list that counts one too many stays like that until its elements are moved or destroyed, which is undefined. *)
From Coq Require Import ZifyBool ZifyNat.
From Verif Require Import Base BaseFacts LstModel LstSpec LstProofs SrtModel SrtSpec DctModel DctSpec DctProofs ExcModel ExcSpec.
Open Scope Z_scope.

Section Count.
  Variable A : Type.
  Notation el := (elements A).
  Definition one (s : slot A) : Z := match s with Raw => 0 | _ => 1 end.

  Lemma el_cons s m : el (s :: m) = el m + one s.
  Proof. destruct s; cbn [elements one]; lia. Qed.
  Lemma el_pos m : 0 <= el m.
  Proof. induction m as [|s m IH]; [cbn; lia|rewrite el_cons; destruct s; cbn [one]; lia]. Qed.
  Lemma el_app m1 m2 : el (m1 ++ m2) = el m1 + el m2.
  Proof. induction m1 as [|s m IH]; [reflexivity|]. cbn [app]. rewrite !el_cons, IH. lia. Qed.
  Lemma el_raw n : el (repeat Raw n) = 0.
  Proof. induction n; [reflexivity|exact IHn]. Qed.
  Lemma el_live l : el (map Live l) = zlen l.
  Proof. induction l as [|a l IH]; [reflexivity|]. cbn [map]. rewrite el_cons, IH. cbn [one]. unfold zlen. cbn [length]. lia. Qed.
  Lemma el_upd m n s t : nth_error m n = Some s -> el (upd m n t) = el m - one s + one t.
  Proof.
    revert n. induction m as [|u m IH]; intros [|n] H; try discriminate; cbn [nth_error upd] in *.
    - injection H as ->. rewrite !el_cons. lia.
    - rewrite !el_cons, (IH _ H). lia.
  Qed.
  Lemma upd_nil (m : mem A) n t : upd m n t = [] -> m = [].
  Proof. destruct m, n; cbn; congruence. Qed.
  Lemma aget_inv (m : mem A) i s : aget m i = Ok s -> nth_error m (Z.to_nat i) = Some s /\ 0 <= i.
  Proof. unfold aget, znth. destruct (i <? 0) eqn:E; [discriminate|]. destruct nth_error eqn:N; [|discriminate]. intro H. injection H as ->. split; [reflexivity|lia]. Qed.
  Lemma aset_inv (m : mem A) i s m' : aset m i s = Ok m' -> m' = upd m (Z.to_nat i) s.
  Proof. unfold aset. destruct (_ && _); congruence. Qed.
  (* each primitive: the change of the number of elements, and a buffer stays a buffer *)
  Definition moves_to (m m' : mem A) (d : Z) : Prop := el m' = el m + d /\ (m' = [] -> m = []).
  Lemma mt_refl m : moves_to m m 0.
  Proof. split; [lia|auto]. Qed.
  Lemma mt_trans m1 m2 m3 d1 d2 : moves_to m1 m2 d1 -> moves_to m2 m3 d2 -> moves_to m1 m3 (d1 + d2).
  Proof. intros [H1 N1] [H2 N2]. split; [lia|auto]. Qed.
  Lemma mt_upd (m : mem A) n s t : nth_error m n = Some s -> moves_to m (upd m n t) (one t - one s).
  Proof. intro H. split; [rewrite (el_upd _ _ _ _ H); lia|apply upd_nil]. Qed.

  Ltac peel H := match type of H with bind ?x _ = Ok _ => let E := fresh "E" in destruct x eqn:E; cbn [bind] in H; try discriminate end.
  Lemma mt_construct m i s m' : construct A m i s = Ok m' -> moves_to m m' (one s).
  Proof.
    unfold construct. intro H. peel H. destruct a; cbn [is_raw] in H; try discriminate.
    apply aget_inv in E. apply aset_inv in H. subst. pose proof (mt_upd _ _ _ s (proj1 E)) as M. cbn [one] in M. now replace (one s) with (one s - 0) by lia.
  Qed.
  Lemma mt_move_out m i m' s : move_out A m i = Ok (m', s) -> moves_to m m' 0 /\ one s = 1.
  Proof.
    unfold move_out. intro H. peel H. apply aget_inv in E. destruct a; cbn [is_raw] in H; try discriminate; peel H; apply aset_inv in E0; injection H as <- <-; subst;
      (split; [|reflexivity]); exact (mt_upd _ _ _ Moved (proj1 E)).
  Qed.
  Lemma mt_assign m i s m' : assign A m i s = Ok m' -> one s = 1 -> moves_to m m' 0.
  Proof.
    unfold assign. intros H O. peel H. apply aget_inv in E. destruct a; cbn [is_raw] in H; try discriminate; apply aset_inv in H; subst;
      pose proof (mt_upd _ _ _ s (proj1 E)) as M; cbn [one] in M; now replace 0 with (one s - 1) by lia.
  Qed.
  Lemma mt_destroy m i m' : destroy A m i = Ok m' -> moves_to m m' (-1).
  Proof.
    unfold destroy. intro H. peel H. apply aget_inv in E. destruct a; cbn [is_raw] in H; try discriminate; apply aset_inv in H; subst;
      exact (mt_upd _ _ _ Raw (proj1 E)).
  Qed.
  Lemma mt_copy xs : forall m i m', copy_ctors A m i xs = Ok m' -> moves_to m m' (zlen xs).
  Proof.
    induction xs as [|x xs IH]; intros m i m' H; cbn [copy_ctors] in H; [injection H as <-; apply mt_refl|]. peel H.
    replace (zlen (x :: xs)) with (1 + zlen xs) by (unfold zlen; cbn [length]; lia). eapply mt_trans; [exact (mt_construct _ _ _ _ E)|exact (IH _ _ _ H)].
  Qed.
  Lemma mt_across n : forall d i s j d' s', move_across A d i s j n = Ok (d', s') -> moves_to d d' (Z.of_nat n) /\ moves_to s s' 0.
  Proof.
    induction n as [|n IH]; intros d i s j d' s' H; cbn [move_across] in H; [injection H as <- <-; split; apply mt_refl|].
    peel H. destruct a as [s1 e]. peel H. destruct (mt_move_out _ _ _ _ E) as [M1 O]. pose proof (mt_construct _ _ _ _ E0) as M2. rewrite O in M2.
    destruct (IH _ _ _ _ _ _ H) as [M3 M4]. split.
    - replace (Z.of_nat (S n)) with (1 + Z.of_nat n) by lia. exact (mt_trans _ _ _ _ _ M2 M3).
    - exact (mt_trans _ _ _ 0 0 M1 M4).
  Qed.
  Lemma mt_within n : forall m i j m', move_within A m i j n = Ok m' -> moves_to m m' (Z.of_nat n).
  Proof.
    induction n as [|n IH]; intros m i j m' H; cbn [move_within] in H; [injection H as <-; apply mt_refl|].
    peel H. destruct a as [s1 e]. peel H. destruct (mt_move_out _ _ _ _ E) as [M1 O]. pose proof (mt_construct _ _ _ _ E0) as M2. rewrite O in M2.
    replace (Z.of_nat (S n)) with (0 + 1 + Z.of_nat n) by lia. exact (mt_trans _ _ _ _ _ (mt_trans _ _ _ _ _ M1 M2) (IH _ _ _ _ H)).
  Qed.
  Lemma mt_fwd n : forall m i j m', assign_fwd A m i j n = Ok m' -> moves_to m m' 0.
  Proof.
    induction n as [|n IH]; intros m i j m' H; cbn [assign_fwd] in H; [injection H as <-; apply mt_refl|].
    peel H. destruct a as [s1 e]. peel H. destruct (mt_move_out _ _ _ _ E) as [M1 O]. pose proof (mt_assign _ _ _ _ E0 O) as M2.
    exact (mt_trans _ _ _ 0 0 (mt_trans _ _ _ 0 0 M1 M2) (IH _ _ _ _ H)).
  Qed.
  Lemma mt_bwd n : forall m i j m', assign_bwd A m i j n = Ok m' -> moves_to m m' 0.
  Proof.
    induction n as [|n IH]; intros m i j m' H; cbn [assign_bwd] in H; [injection H as <-; apply mt_refl|].
    peel H. destruct a as [s1 e]. peel H. destruct (mt_move_out _ _ _ _ E) as [M1 O]. pose proof (mt_assign _ _ _ _ E0 O) as M2.
    exact (mt_trans _ _ _ 0 0 (mt_trans _ _ _ 0 0 M1 M2) (IH _ _ _ _ H)).
  Qed.
  Lemma mt_overlapped m i j n m' : assign_overlapped A m i j n = Ok m' -> moves_to m m' 0.
  Proof. unfold assign_overlapped. destruct (_ <? _); [apply mt_fwd|]. destruct (_ >? _); [apply mt_bwd|]. intro H. injection H as <-. apply mt_refl. Qed.
  Lemma mt_dtors n : forall m i m', dtors A m i n = Ok m' -> moves_to m m' (- Z.of_nat n).
  Proof.
    induction n as [|n IH]; intros m i m' H; cbn [dtors] in H; [injection H as <-; apply mt_refl|]. peel H.
    replace (- Z.of_nat (S n)) with (-1 + - Z.of_nat n) by lia. exact (mt_trans _ _ _ _ _ (mt_destroy _ _ _ E) (IH _ _ _ H)).
  Qed.
  Lemma el_alloc n : el (allocate A n) = 0.
  Proof. unfold allocate. destruct (_ <=? _); [reflexivity|apply el_raw]. Qed.
  Lemma alloc_nil n : allocate A n = [] -> n <= 0.
  Proof. unfold allocate. destruct (_ <=? _) eqn:E; [lia|]. destruct (Z.to_nat n) eqn:N; [lia|discriminate]. Qed.

  (* counts too many, and has a buffer *)
  Definition gone (x : lst A) : Prop := torn A x /\ buf x <> [].
  Lemma gone_dtors x m : gone x -> dtors A (buf x) 0 (Z.to_nat (count x)) = Ok m -> False.
  Proof. intros [T _] H. destruct (mt_dtors _ _ _ _ H) as [M _]. unfold torn in T. pose proof (el_pos m). lia. Qed.
  Lemma gone_destruct x u : gone x -> destruct A x = Ok u -> False.
  Proof. intros G H. unfold destruct in H. destruct (buf x) eqn:B; [now destruct G|]. rewrite <- B in H. peel H. exact (gone_dtors x _ G E). Qed.
  Lemma gone_clear x y : gone x -> clear A x = Ok y -> False.
  Proof. intros G H. unfold clear in H. peel H. exact (gone_dtors x _ G E). Qed.
  Lemma gone_release x old y : el (buf x) < Z.max old (count x) -> buf x <> [] -> release A x old = Ok y -> gone y.
  Proof.
    intros T N H. unfold release in H. destruct (buf x) as [|e0 b0]; [easy|]. set (bx := e0 :: b0) in *. clearbody bx. clear e0 b0.
    peel H. rename a into m.
    assert (M : el m < count x /\ m <> []).
    { destruct (count x <? old) eqn:L.
      - destruct (mt_dtors _ _ _ _ E) as [M1 M2]. split; [lia|auto].
      - injection E as <-. split; [lia|easy]. }
    destruct M as (T' & N'). pose proof (el_pos m).
    destruct (_ && _); [|injection H as <-; split; [exact T'|exact N']].
    destruct (count x <? cap x * 5 / 8) eqn:C; [|injection H as <-; split; [exact T'|exact N']].
    peel H. destruct a as [nb m1]. peel H. peel H. injection H as <-. destruct (mt_across _ _ _ _ _ _ _ E0) as [_ M2]. destruct (mt_dtors _ _ _ _ E1) as [M3 _].
    exfalso. destruct M2 as [M2 _]. pose proof (el_pos a). lia.
  Qed.
  Lemma gone_remove_at x i y : gone x -> remove_at A x i = Ok y -> gone y.
  Proof.
    intros [T N] H. unfold remove_at in H. destruct (_ && _) eqn:R; [|discriminate]. peel H. destruct (mt_overlapped _ _ _ _ _ E) as [M1 M2].
    apply gone_release in H; [exact H|cbn [buf count]; unfold torn in T; lia|cbn [buf]; auto].
  Qed.
  Lemma gone_remove_range x i n y : gone x -> remove_range A x i n = Ok y -> gone y.
  Proof.
    intros [T N] H. unfold remove_range in H.
    match type of H with (if ?b then _ else _) = _ => destruct b eqn:R; [|discriminate] end.
    match type of H with (if ?b then _ else _) = _ => destruct b; [discriminate|] end.
    match type of H with (if ?b then _ else _) = _ => destruct b eqn:R2; [|discriminate] end.
    peel H. destruct (mt_overlapped _ _ _ _ _ E) as [M1 M2]. apply gone_release in H; [exact H|cbn [buf count]; unfold torn in T; lia|cbn [buf]; auto].
  Qed.
  (* the buffer after making room for one element *)
  Lemma room x i y : 0 <= i <= count x -> insert_uninitialized A x i 1 = Ok y -> count y = count x + 1 /\
    ((el (buf y) = el (buf x) /\ (buf y = [] -> buf x = [])) \/ (el (buf x) >= count x /\ el (buf y) = count x /\ buf y <> [])).
  Proof.
    intros R H. unfold insert_uninitialized in H. destruct (count x + 1 >? cap x) eqn:C.
    - replace (count x + 1 <? cap x) with false in H by lia. peel H. destruct a as [nb m]. peel H. destruct a as [nb2 m2]. peel H. peel H. injection H as <-.
      cbn [count buf]. split; [reflexivity|]. right.
      destruct (mt_across _ _ _ _ _ _ _ E) as [[P1 Q1] [P2 Q2]], (mt_across _ _ _ _ _ _ _ E0) as [[P3 Q3] [P4 Q4]], (mt_dtors _ _ _ _ E1) as [P5 Q5].
      pose proof (el_pos a). rewrite el_alloc in P1. split; [lia|split; [lia|]]. intro Z. apply Q3, Q1, alloc_nil in Z. revert Z. clear - R. intro. Z.to_euclidean_division_equations; lia.
    - destruct (i <? count x) eqn:I.
      + destruct (1 >=? count x - i) eqn:K.
        * peel H. peel H. injection H as <-. cbn [count buf]. split; [reflexivity|]. left.
          destruct (mt_within _ _ _ _ _ E) as [P1 Q1], (mt_dtors _ _ _ _ E0) as [P2 Q2]. split; [lia|auto].
        * peel H. peel H. peel H. injection H as <-. cbn [count buf]. split; [reflexivity|]. left.
          destruct (mt_within _ _ _ _ _ E) as [P1 Q1], (mt_overlapped _ _ _ _ _ E0) as [P2 Q2], (mt_dtors _ _ _ _ E1) as [P3 Q3]. split; [lia|auto].
      + injection H as <-. cbn [count buf]. split; [reflexivity|]. left. split; [lia|auto].
  Qed.
  Lemma gone_room x i y : gone x -> 0 <= i <= count x -> insert_uninitialized A x i 1 = Ok y -> gone y.
  Proof. intros [T N] R H. destruct (room x i y R H) as [C [[E1 E2]|[E _]]]; unfold torn in T; [|lia]. split; [unfold torn; lia|auto]. Qed.
  Lemma gone_insert_throws x i y : gone x -> insert_throws A x i = Ok y -> gone y.
  Proof. intros G H. unfold insert_throws in H. destruct (_ && _) eqn:R; [|discriminate]. exact (gone_room x i y G ltac:(lia) H). Qed.
  Lemma gone_insert x i a y : gone x -> insert A x i a = Ok y -> gone y.
  Proof.
    intros [T N] H. unfold insert in H. destruct (_ && _) eqn:R; [|discriminate]. peel H. peel H. injection H as <-.
    destruct (room x i a0 ltac:(lia) E) as [C [[E1 E2]|[E1 _]]]; unfold torn in T; [|lia].
    destruct (mt_copy _ _ _ _ E0) as [M1 M2]. split; [unfold torn; cbn [count buf]; change (zlen [a]) with 1 in M1; lia|cbn [buf]; auto].
  Qed.
  Lemma gone_set x i a y : gone x -> set A x i a = Ok y -> gone y.
  Proof.
    intros [T N] H. unfold set in H. destruct (_ && _); [|discriminate]. peel H. injection H as <-.
    destruct (mt_assign _ _ _ _ E eq_refl) as [M1 M2]. split; [unfold torn in *; cbn [count buf]; lia|cbn [buf]; auto].
  Qed.
  Lemma gone_remove (eqb : A -> A -> bool) x a y b : gone x -> remove A eqb x a = Ok (y, b) -> gone y.
  Proof.
    intros G H. unfold remove in H. peel H. destruct (_ && _); [|congruence]. peel H. injection H as <- _. exact (gone_remove_at x _ _ G E0).
  Qed.
  (* a failed insertion into a proper list *)
  Lemma throws_gone x l i : lst_shows A x l -> 0 <= i <= zlen l -> exists y, insert_throws A x i = Ok y /\ gone y.
  Proof.
    intros Hx R. unfold insert_throws. replace ((i >=? 0) && (i <=? count x)) with true by (destruct Hx as (Hc & _); lia).
    destruct (split_at A l i R) as (l1 & l2 & E1 & E2 & E3 & E4).
    destruct (insert_uninit_spec A x l i l1 l2 Hx E1 (eq_sym E2)) as (k & c & mv & Hy & _).
    eexists. split; [exact Hy|]. split.
    - unfold torn. cbn [count buf]. rewrite el_app, el_cons, el_app, !el_live, el_raw. cbn [one]. subst l. unfold zlen. rewrite app_length. lia.
    - cbn [buf]. destruct (map Live l1); discriminate.
  Qed.
End Count.

Section Worlds.
  Variable A : Type.
  Variable eqb : A -> A -> bool.
  Variable dflt : option A.
  Ltac peel H := match type of H with bind ?x _ = Ok _ => let E := fresh "E" in destruct x eqn:E; cbn [bind] in H; try discriminate end.

  Definition has_gone (s : vars A) : Prop := exists v x, nth_error s v = Some (Some x) /\ gone A x.
  Lemma gone_torn s : has_gone s -> has_torn A s.
  Proof. intros (v & x & H & T & _). exists v, x. auto. Qed.
  Lemma var_some s v x : var A s v = Ok x -> nth_error s v = Some (Some x).
  Proof. unfold var. destruct (nth_error s v) as [[y|]|]; congruence. Qed.
  Lemma free_none s v u : free_var A s v = Ok u -> nth_error s v = Some None.
  Proof. unfold free_var. destruct (nth_error s v) as [[y|]|]; congruence. Qed.
  Lemma nth_lt {B} (l : list B) n x : nth_error l n = Some x -> (n < length l)%nat.
  Proof. intro H. apply nth_error_Some. congruence. Qed.
  (* changing one list: the torn list is another one, or stays torn *)
  Lemma gone_upd s v x y : has_gone s -> nth_error s v = Some (Some x) -> (gone A x -> gone A y) -> has_gone (upd s v (Some y)).
  Proof.
    intros (u & z & Hz & G) Hx Hy. destruct (Nat.eq_dec u v) as [->|N].
    - exists v, y. rewrite upd_same by (eapply nth_lt; exact Hx). split; [reflexivity|]. apply Hy. congruence.
    - exists u, z. rewrite upd_other by congruence. auto.
  Qed.
  Lemma gone_step_raw s o s' r : has_gone s -> step_raw A eqb s o = Ok (s', r) -> has_gone s'.
  Proof.
    intros G H. destruct o; cbn [step_raw] in H.
    - peel H. apply free_none in E. injection H as <- <-. destruct G as (u & z & Hz & G). exists u, z. rewrite upd_other by congruence. auto.
    - peel H. peel H. apply free_none in E. apply var_some in E0. injection H as <- <-. destruct G as (u & z & Hz & G).
      destruct (Nat.eq_dec u w) as [->|N].
      + exists v, z. rewrite upd_other by congruence. rewrite upd_same by (eapply nth_lt; exact E). split; congruence.
      + exists u, z. rewrite !upd_other by congruence. auto.
    - peel H. peel H. peel H. apply var_some in E. apply var_some in E0. injection H as <- <-. destruct G as (u & z & Hz & G).
      destruct (Nat.eq_dec u v) as [->|N]; [exfalso; assert (z = a) by congruence; subst; exact (gone_destruct A a _ G E1)|].
      destruct (Nat.eq_dec u w) as [->|N2].
      + exists v, z. rewrite upd_other by congruence. rewrite upd_same by (eapply nth_lt; exact E). split; congruence.
      + exists u, z. rewrite !upd_other by congruence. auto.
    - peel H. peel H. apply var_some in E. injection H as <- <-. destruct G as (u & z & Hz & G).
      destruct (Nat.eq_dec u v) as [->|N]; [exfalso; assert (z = a) by congruence; subst; exact (gone_destruct A a _ G E0)|].
      exists u, z. rewrite upd_other by congruence. auto.
    - peel H. peel H. apply var_some in E. injection H as <- <-. exact (gone_upd _ _ _ _ G E (fun g => gone_insert A _ _ _ _ g E0)).
    - peel H. peel H. apply var_some in E. injection H as <- <-. exact (gone_upd _ _ _ _ G E (fun g => gone_insert A _ _ _ _ g E0)).
    - peel H. peel H. apply var_some in E. injection H as <- <-. exact (gone_upd _ _ _ _ G E (fun g => gone_remove_at A _ _ _ g E0)).
    - peel H. peel H. apply var_some in E. injection H as <- <-. exact (gone_upd _ _ _ _ G E (fun g => gone_remove_range A _ _ _ _ g E0)).
    - peel H. peel H. destruct a1 as [y b]. apply var_some in E. injection H as <- <-. exact (gone_upd _ _ _ _ G E (fun g => gone_remove A eqb _ _ _ _ g E0)).
    - peel H. peel H. apply var_some in E. injection H as <- <-. exact (gone_upd _ _ _ _ G E (fun g => False_ind _ (gone_clear A _ _ g E0))).
    - peel H. peel H. apply var_some in E. injection H as <- <-. exact (gone_upd _ _ _ _ G E (fun g => gone_set A _ _ _ _ g E0)).
    - peel H. peel H. injection H as <- <-. exact G.
    - peel H. injection H as <- <-. exact G.
    - peel H. peel H. injection H as <- <-. exact G.
    - peel H. peel H. injection H as <- <-. exact G.
  Qed.
  Lemma gone_step s o s' r : has_gone s -> step A eqb s o = Ok (s', r) -> has_gone s'.
  Proof.
    intros G H. unfold step in H. destruct (step_raw A eqb s o) as [[s1 r1]| | |] eqn:E; try discriminate.
    - injection H as <- <-. exact (gone_step_raw _ _ _ _ G E).
    - injection H as <- <-. exact G.
  Qed.
  Lemma gone_xstep w o w' r : has_gone (xl w) -> xstep A eqb dflt w o = Ok (w', r) -> has_gone (xl w').
  Proof.
    intros G H. unfold xstep in H. destruct (xstep_raw A eqb dflt w o) as [[w1 r1]| | |] eqn:X; try discriminate;
      injection H as <- <-; [|exact G]. destruct o; cbn [xstep_raw] in X.
    - peel X. destruct a as [s q]. injection X as <- <-. cbn [xl]. exact (gone_step _ _ _ _ G E).
    - peel X. peel X. apply var_some in E. injection X as <- <-. exact (gone_upd _ _ _ _ G E (fun g => gone_insert_throws A _ _ _ g E0)).
    - peel X. peel X. apply var_some in E. injection X as <- <-. exact (gone_upd _ _ _ _ G E (fun g => gone_insert_throws A _ _ _ g E0)).
    - peel X. peel X. apply var_some in E. injection X as <- <-. exact (gone_upd _ _ _ _ G E (fun g => gone_set A _ _ _ _ g E0)).
    - peel X. destruct a as [s q]. injection X as <- <-. exact G.
    - peel X. peel X. destruct a0; injection X as <- <-; exact G.
    - peel X. peel X. destruct a0; injection X as <- <-; exact G.
    - peel X. peel X. destruct a0 as [y [m|]]; injection X as <- <-; exact G.
    - peel X. peel X. injection X as <- <-. exact G.
  Qed.
  Lemma gone_xrun os : forall w w' rs, has_gone (xl w) -> xrun A eqb dflt w os = Ok (w', rs) -> has_gone (xl w').
  Proof.
    induction os as [|o os IH]; intros w w' rs G H; cbn [xrun] in H; [injection H as <- <-; exact G|].
    peel H. destruct a as [w1 r]. peel H. destruct a as [w2 rs2]. injection H as <- <-. exact (IH _ _ _ (gone_xstep _ _ _ _ G E) E0).
  Qed.

  (* ---- programs without failed insertions -------------------------------------- *)
  Lemma default_x_all n : forall m i k, (n <= k)%nat -> default_ctors_x A dflt m i n k = do m <- default_ctors A dflt m i n; Ok (Done m).
  Proof.
    induction n as [|n IH]; intros m i k L; [reflexivity|]. destruct k as [|k]; [lia|]. cbn [default_ctors_x default_ctors].
    destruct construct as [m1| | |]; cbn [bind]; [apply IH; lia|reflexivity..].
  Qed.
  Lemma default_x_some n : forall m i k, (k < n)%nat -> default_ctors_x A dflt m i n k = do m <- default_ctors A dflt m i k; Ok (ThrownAt m).
  Proof.
    induction n as [|n IH]; intros m i k L; [lia|]. destruct k as [|k]; [reflexivity|]. cbn [default_ctors_x default_ctors].
    destruct construct as [m1| | |]; cbn [bind]; [apply IH; lia|reflexivity..].
  Qed.
  Lemma copy_x_all xs : forall m i k, (length xs <= k)%nat -> copy_ctors_x A m i xs k = do m <- copy_ctors A m i xs; Ok (Done m).
  Proof.
    induction xs as [|x xs IH]; intros m i k L; [reflexivity|]. cbn [length] in L. destruct k as [|k]; [lia|]. cbn [copy_ctors_x copy_ctors].
    destruct construct as [m1| | |]; cbn [bind]; [apply IH; lia|reflexivity..].
  Qed.
  Lemma copy_x_some xs : forall m i k, (k < length xs)%nat -> copy_ctors_x A m i xs k = do m <- copy_ctors A m i (firstn k xs); Ok (ThrownAt m).
  Proof.
    induction xs as [|x xs IH]; intros m i k L; cbn [length] in L; [lia|]. destruct k as [|k]; [reflexivity|]. cbn [copy_ctors_x copy_ctors firstn].
    destruct construct as [m1| | |]; cbn [bind]; [apply IH; lia|reflexivity..].
  Qed.
  Lemma a_new_x_all n k : 0 <= n -> n <= Z.of_nat k -> a_new_x A dflt n k = do x <- a_new A dflt n; Ok (inl x).
  Proof.
    intros Hn Hk. unfold a_new_x, a_new. replace (n >=? 0) with true by lia. rewrite default_x_all by lia. now destruct default_ctors.
  Qed.
  Lemma a_new_x_some n k : Z.of_nat k < n -> exists m, a_new_x A dflt n k = Ok (inr m) /\ lost_shows A m (repeat dflt k).
  Proof.
    intros Hk. unfold a_new_x. replace (n >=? 0) with true by lia. rewrite default_x_some by lia.
    rewrite allocate_pos by lia. rewrite (repeat_split (@Raw A) (Z.to_nat n) k (Z.to_nat n - k)) by lia.
    pose proof (default_ctors_at A dflt k [] (repeat Raw (Z.to_nat n - k)) 0 eq_refl) as D. cbn [app] in D. rewrite D. cbn [bind].
    eexists. split; [reflexivity|]. exists (repeat (dslot A dflt) k), (Z.to_nat n - k)%nat. split; [reflexivity|].
    apply Forall2_repeat, dslot_shows.
  Qed.
  Lemma a_from_x_all src n k : 0 <= n <= zlen src -> n <= Z.of_nat k -> a_from_x A src n k = do x <- a_from A src n; Ok (inl x).
  Proof.
    intros Hn Hk. unfold a_from_x, a_from. replace (n >=? 0) with true by lia. replace (n <=? zlen src) with true by lia.
    rewrite copy_x_all by (rewrite firstn_length; lia). now destruct copy_ctors.
  Qed.
  Lemma live_shows (l : list A) : Forall2 (slot_shows A) (map Live l) (map Some l).
  Proof. induction l; constructor; [reflexivity|exact IHl]. Qed.
  Lemma a_from_x_some src n k : 0 <= n <= zlen src -> Z.of_nat k < n -> exists m, a_from_x A src n k = Ok (inr m) /\ lost_shows A m (map Some (firstn k src)).
  Proof.
    intros Hn Hk. unfold a_from_x. replace (n >=? 0) with true by lia. replace (n <=? zlen src) with true by lia.
    rewrite copy_x_some by (rewrite firstn_length; unfold zlen in Hn; lia). rewrite firstn_firstn. replace (Nat.min k (Z.to_nat n)) with k by lia.
    rewrite allocate_pos by lia. rewrite (repeat_split (@Raw A) (Z.to_nat n) k (Z.to_nat n - k)) by lia.
    pose proof (copy_ctors_at A (firstn k src) [] (repeat Raw (Z.to_nat n - k)) 0 k eq_refl) as D. cbn [app] in D. rewrite D by (rewrite firstn_length; unfold zlen in Hn; lia). cbn [bind].
    eexists. split; [reflexivity|]. exists (map Live (firstn k src)), (Z.to_nat n - k)%nat. split; [reflexivity|apply live_shows].
  Qed.
  Lemma a_resize_x_all x l n k : arr_shows A x l -> 0 <= n -> n - zlen l <= Z.of_nat k -> a_resize_x A dflt x n k = do y <- a_resize A dflt x n; Ok (y, None).
  Proof.
    intros (Hc & _) Hn Hk. unfold a_resize_x, a_resize. replace (n >=? 0) with true by lia. cbv zeta. destruct (n <? acount x) eqn:L; [reflexivity|].
    destruct move_across as [[nb m]| | |]; cbn [bind]; try reflexivity. rewrite default_x_all by lia.
    destruct default_ctors as [nb1| | |]; cbn [bind]; try reflexivity. destruct dtors as [m1| | |]; cbn [bind]; try reflexivity. now destruct deallocate.
  Qed.
  Lemma moved_shows n : Forall2 (slot_shows A) (repeat Moved n) (repeat None n).
  Proof. apply Forall2_repeat. cbn [slot_shows]. discriminate. Qed.
  Lemma a_resize_x_some x l n k : arr_shows A x l -> Z.of_nat k < n - zlen l -> exists y m, a_resize_x A dflt x n k = Ok (y, Some m) /\
    arr_shows A y (repeat None (length l)) /\ lost_shows A m (l ++ repeat dflt k).
  Proof.
    intros (Hc & Hs) Hk. pose proof (Zle_0_nat (length l)) as P. fold (zlen l) in P. pose proof (Forall2_len _ _ _ Hs) as Hl.
    unfold a_resize_x. replace (n >=? 0) with true by lia. cbv zeta. rewrite Hc. replace (n <? zlen l) with false by lia.
    rewrite allocate_pos by lia. rewrite (repeat_split (@Raw A) (Z.to_nat n) (Z.to_nat (zlen l)) (Z.to_nat (n - zlen l))) by (unfold zlen in *; lia).
    pose proof (move_across_at A (abuf x) [] (repeat Raw (Z.to_nat (n - zlen l))) [] [] 0 0 (Z.to_nat (zlen l)) eq_refl eq_refl) as M.
    rewrite app_nil_r in M. cbn [app] in M. rewrite Hl in M. rewrite M; [|unfold zlen; lia|exact (shows_full A _ _ Hs)]. cbn [bind]. clear M.
    rewrite default_x_some by lia. rewrite (repeat_split (@Raw A) (Z.to_nat (n - zlen l)) k (Z.to_nat (n - zlen l) - k)) by lia.
    rewrite (default_ctors_at A dflt k (abuf x) (repeat Raw (Z.to_nat (n - zlen l) - k)) (zlen l)) by (unfold zlen; lia). cbn [bind].
    do 2 eexists. split; [reflexivity|]. split.
    - split; [cbn [acount]; unfold zlen; now rewrite repeat_length|]. cbn [abuf]. replace (length l) with (Z.to_nat (zlen l)) by (unfold zlen; lia). rewrite app_nil_r. apply moved_shows.
    - exists (abuf x ++ repeat (dslot A dflt) k), (Z.to_nat (n - zlen l) - k)%nat. split; [now rewrite <- app_assoc|].
      apply Forall2_app; [exact Hs|apply Forall2_repeat, dslot_shows].
  Qed.
  Definition xsim (r : res (xworld A * xout A)) (q : res (sworld A * xout A)) : Prop :=
    match q with
    | Ok (t', y) => exists w', r = Ok (w', y) /\ xshows A w' t'
    | Err => r = Err
    | UB => True
    | NoFuel => False
    end.
  Lemma xstep_raw_sim w t o : xshows A w t -> xsim (xstep_raw A eqb dflt w o) (sxstep_raw A eqb dflt t o).
  Proof.
    intros (HL & HA & HX).
    assert (UA : forall s t v x l, ashows A s t -> arr_shows A x l -> ashows A (upd s v (Some x)) (upd t v (Some l)))
      by (intros; now apply Forall2_upd).
    assert (UL : forall s t v x l, shows A s t -> lst_shows A x l -> shows A (upd s v (Some x)) (upd t v (Some l)))
      by (intros; now apply Forall2_upd).
    destruct o; cbn [xstep_raw sxstep_raw].
    - unfold sstep. pose proof (step_raw_sim A eqb _ _ o HL) as K. unfold step. destruct (sstep_raw A eqb (sl t) o) as [[t1 y]| | |]; cbn [sim] in K.
      + destruct K as (s' & K & Hs). rewrite K. cbn [bind xsim]. eexists. split; [reflexivity|]. repeat split; assumption.
      + rewrite K. cbn [bind xsim]. eexists. split; [reflexivity|]. repeat split; assumption.
      + exact I.
      + contradiction.
    - pose proof (var_shows A _ _ v HL) as V. destruct (var A (xl w) v) as [x| | |], (sread A (sl t) v) as [l| | |]; try contradiction; [|exact I]. destruct V as (Sh & _). cbn [bind].
      destruct ((0 <=? i) && (i <=? zlen l)) eqn:R; [exact I|]. cbn [xsim]. unfold insert_throws. destruct Sh as (C & _). rewrite C. now replace ((i >=? 0) && (i <=? zlen l)) with false by lia.
    - exact I.
    - pose proof (var_shows A _ _ v HL) as V. destruct (var A (xl w) v) as [x| | |], (sread A (sl t) v) as [l| | |]; try contradiction; [|exact I]. destruct V as (Sh & _). cbn [bind].
      unfold sset. destruct ((0 <=? i) && (i <? zlen l)) eqn:R; cbn [bind xsim]; unfold set_throws.
      + destruct (set_ok A x l i a Sh) as (y & Hy & Sh'); [lia|]. rewrite Hy. cbn [bind]. eexists. split; [reflexivity|]. split; [apply UL; assumption|split; assumption].
      + unfold set. destruct Sh as (C & _). rewrite C. now replace ((i >=? 0) && (i <? zlen l)) with false by lia.
    - unfold asstep. pose proof (astep_raw_sim A eqb dflt _ _ o HA) as K. unfold astep. destruct (asstep_raw A eqb dflt (sa t) o) as [[t1 y]| | |]; cbn [asim] in K.
      + destruct K as (s' & K & Hs). rewrite K. cbn [bind xsim]. eexists. split; [reflexivity|]. repeat split; assumption.
      + rewrite K. cbn [bind xsim]. eexists. split; [reflexivity|]. repeat split; assumption.
      + exact I.
      + contradiction.
    - destruct (afree_shows A _ _ v HA) as (F & [G|G]); rewrite F, G; cbn [bind]; [|exact I]. destruct (size <? 0) eqn:N; cbn [xsim].
      + unfold a_new_x. now replace (size >=? 0) with false by lia.
      + destruct (Z.of_nat k <? size) eqn:K; cbn [xsim].
        * destruct (a_new_x_some size k ltac:(lia)) as (m & Hm & Sm). rewrite Hm. cbn [bind]. eexists. split; [reflexivity|]. split; [assumption|split; [assumption|]]. constructor; assumption.
        * rewrite a_new_x_all by lia. destruct (a_new_ok A dflt size) as (x & Hx & Sx); [lia|]. rewrite Hx. cbn [bind]. eexists. split; [reflexivity|]. split; [assumption|split; [apply UA; assumption|assumption]].
    - destruct (afree_shows A _ _ v HA) as (F & [G|G]); rewrite F, G; cbn [bind]; [|exact I]. destruct (size <? 0) eqn:N; cbn [xsim].
      + unfold a_from_x. now replace (size >=? 0) with false by lia.
      + destruct (size <=? zlen src) eqn:L; cbn [xsim]; [|exact I]. destruct (Z.of_nat k <? size) eqn:K; cbn [xsim].
        * destruct (a_from_x_some src size k ltac:(lia) ltac:(lia)) as (m & Hm & Sm). rewrite Hm. cbn [bind]. eexists. split; [reflexivity|]. split; [assumption|split; [assumption|]]. constructor; assumption.
        * rewrite a_from_x_all by lia. destruct (a_from_ok A src size) as (x & Hx & Sx); [lia|]. rewrite Hx. cbn [bind]. eexists. split; [reflexivity|]. split; [assumption|split; [apply UA; assumption|assumption]].
    - pose proof (avar_shows A _ _ v HA) as V. destruct (avar A (xa w) v) as [x| | |], (asread A (sa t) v) as [l| | |]; try contradiction; [|exact I]. cbn [bind].
      destruct (size <? 0) eqn:N; cbn [xsim]; [unfold a_resize_x; now replace (size >=? 0) with false by lia|].
      destruct (Z.of_nat k <? size - zlen l) eqn:K; cbn [xsim].
      + destruct (a_resize_x_some x l size k V ltac:(lia)) as (y & m & Hy & Sy & Sm). rewrite Hy. cbn [bind]. eexists. split; [reflexivity|]. split; [assumption|split; [apply UA; assumption|]]. constructor; assumption.
      + rewrite (a_resize_x_all x l size k V) by lia. destruct (a_resize_ok A dflt x l size V) as (y & Hy & Sy); [lia|]. rewrite Hy. cbn [bind]. eexists. split; [reflexivity|]. split; [assumption|split; [apply UA; assumption|assumption]].
    - pose proof (avar_shows A _ _ v HA) as V. destruct (avar A (xa w) v) as [x| | |], (asread A (sa t) v) as [l| | |]; try contradiction; [|exact I]. cbn [bind].
      destruct ((0 <=? i) && (i <? zlen l)) eqn:E; cbn [xsim].
      + destruct (a_set_ok A eqb x l i a V) as (y & R & Sh'); [lia|]. rewrite R. cbn [bind]. eexists. split; [reflexivity|]. split; [assumption|split; [apply UA; assumption|assumption]].
      + unfold a_set. destruct V as (C & _). rewrite C. now replace ((i >=? 0) && (i <? zlen l)) with false by lia.
  Qed.
  Lemma xstep_sim w t o t' y : xshows A w t -> sxstep A eqb dflt t o = Ok (t', y) -> exists w', xstep A eqb dflt w o = Ok (w', y) /\ xshows A w' t'.
  Proof.
    intros H E. pose proof (xstep_raw_sim w t o H) as K. unfold xsim in K. unfold sxstep in E. unfold xstep.
    destruct (sxstep_raw A eqb dflt t o) as [[t1 y1]| | |]; try discriminate.
    - destruct K as (s' & R & S'). assert (t1 = t' /\ y1 = y) as [-> ->] by (split; congruence). rewrite R. eauto.
    - rewrite K. assert (t = t' /\ XRet RError = y) as [-> <-] by (split; congruence). eauto.
  Qed.
  Lemma xrun_sim os : forall w t t' ys, xshows A w t -> sxrun A eqb dflt t os = Ok (t', ys) -> exists w', xrun A eqb dflt w os = Ok (w', ys) /\ xshows A w' t'.
  Proof.
    induction os as [|o os IH]; intros s t t' ys H E; cbn [sxrun xrun] in *.
    - assert (t = t' /\ [] = ys) as [-> <-] by (split; congruence). eauto.
    - apply bind_ok in E. destruct E as ([t1 y1] & E1 & E). apply bind_ok in E. destruct E as ([t2 ys2] & E2 & E).
      destruct (xstep_sim _ _ _ _ _ H E1) as (s1 & R1 & H1). destruct (IH _ _ _ _ H1 E2) as (s2 & R2 & H2).
      rewrite R1. cbn [bind]. rewrite R2. cbn [bind]. exists s2. split; [congruence|]. congruence.
  Qed.
  Lemma xhistory n m os t ys : sxrun A eqb dflt (sxstart A n m) os = Ok (t, ys) ->
    exists w, xrun A eqb dflt (xstart A n m) os = Ok (w, ys) /\ xshows A w t.
  Proof. apply xrun_sim. split; [apply shows_none|split; [apply ashows_none|constructor]]. Qed.

  Lemma xrun_app os1 os2 : forall w, xrun A eqb dflt w (os1 ++ os2) =
    do (w1, r1) <- xrun A eqb dflt w os1; do (w2, r2) <- xrun A eqb dflt w1 os2; Ok (w2, r1 ++ r2).
  Proof.
    induction os1 as [|o os1 IH]; intro w; cbn [xrun app bind].
    - destruct (xrun A eqb dflt w os2) as [[w2 r2]| | |]; reflexivity.
    - destruct (xstep A eqb dflt w o) as [[w1 r]| | |]; cbn [bind]; try reflexivity. rewrite IH.
      destruct (xrun A eqb dflt w1 os1) as [[w2 r1]| | |]; cbn [bind]; try reflexivity.
      destruct (xrun A eqb dflt w2 os2) as [[w3 r2]| | |]; reflexivity.
  Qed.
  (* the state right after a failed insertion *)
  Lemma insert_effect x l i : lst_shows A x l -> 0 <= i <= zlen l -> exists y k, insert_throws A x i = Ok y /\
    buf y = map Live (ztake A i l) ++ Raw :: map Live (zdrop A i l) ++ repeat Raw k /\ count y = zlen l + 1.
  Proof.
    intros Hx R. unfold insert_throws. replace ((i >=? 0) && (i <=? count x)) with true by (destruct Hx as (Hc & _); lia).
    destruct (split_at A l i R) as (l1 & l2 & E1 & E2 & E3 & E4).
    destruct (insert_uninit_spec A x l i l1 l2 Hx E1 (eq_sym E2)) as (k & c & mv & Hy & _).
    exists (mkLst (map Live l1 ++ Raw :: map Live l2 ++ repeat Raw k) (zlen l + 1) c mv), k. rewrite Hy. subst l1 l2. auto.
  Qed.
  Lemma failed_insert n m os t ys v l i : sxrun A eqb dflt (sxstart A n m) os = Ok (t, ys) -> nth_error (sl t) v = Some (Some l) -> 0 <= i <= zlen l ->
    exists w, xrun A eqb dflt (xstart A n m) os = Ok (w, ys) /\
      forall o, (o = XInsertThrows v i \/ o = XAddThrows v /\ i = zlen l) ->
        exists y k, xstep A eqb dflt w o = Ok (mkXW (upd (xl w) v (Some y)) (xa w) (lost w), XThrown) /\
          buf y = map Live (ztake A i l) ++ Raw :: map Live (zdrop A i l) ++ repeat Raw k /\ count y = zlen l + 1.
  Proof.
    intros H Hv Hi. destruct (xhistory n m os t ys H) as (w & R & (HL & _)). exists w. split; [exact R|].
    pose proof (var_shows A _ _ v HL) as V. unfold sread in V. rewrite Hv in V. destruct (var A (xl w) v) as [x| | |] eqn:Ev; try contradiction. destruct V as (Sh & Hx & _).
    destruct (insert_effect x l i Sh Hi) as (y & k & Hy & E). intros o Ho. exists y, k. split; [|exact E].
    unfold xstep. destruct Ho as [->|(-> & ->)]; cbn [xstep_raw]; rewrite Ev; cbn [bind].
    - rewrite Hy. reflexivity.
    - replace (count x) with (zlen l) by (destruct Sh as (C & _); lia). rewrite Hy. reflexivity.
  Qed.
  Lemma no_return n m os1 t ys v l i o os2 w rs :
    sxrun A eqb dflt (sxstart A n m) os1 = Ok (t, ys) -> nth_error (sl t) v = Some (Some l) -> 0 <= i <= zlen l ->
    (o = XInsertThrows v i \/ o = XAddThrows v) ->
    xrun A eqb dflt (xstart A n m) (os1 ++ o :: os2) = Ok (w, rs) -> has_torn A (xl w).
  Proof.
    intros H Hv Hi Ho R. destruct (xhistory n m os1 t ys H) as (w1 & R1 & (HL & _)). rewrite xrun_app, R1 in R. cbn [bind xrun] in R.
    pose proof (var_shows A _ _ v HL) as V. unfold sread in V. rewrite Hv in V. destruct (var A (xl w1) v) as [x| | |] eqn:Ev; try contradiction. destruct V as (Sh & Hx & _).
    peel R. destruct a as [w3 r3]. injection R as <- <-. peel E. destruct a as [w2 r2]. peel E. destruct a as [w4 r4]. injection E as <- <-.
    apply gone_torn. apply (gone_xrun os2 w2 w4 r4); [|exact E1].
    assert (G : exists j, 0 <= j <= zlen l /\ xstep_raw A eqb dflt w1 o = do y <- insert_throws A x j; Ok (mkXW (upd (xl w1) v (Some y)) (xa w1) (lost w1), XThrown)).
    { destruct Ho as [->| ->]; cbn [xstep_raw]; rewrite Ev; cbn [bind].
      - exists i. split; [exact Hi|reflexivity].
      - exists (count x). split; [|reflexivity]. destruct Sh as (C & _). unfold zlen in *. lia. }
    destruct G as (j & Hj & G). destruct (throws_gone A x l j Sh Hj) as (y & Hy & Gy). rewrite Hy in G. cbn [bind] in G.
    unfold xstep in E0. rewrite G in E0. injection E0 as <- <-. cbn [xl]. exists v, y. split; [|exact Gy].
    apply upd_same. exact (nth_lt _ _ _ Hx).
  Qed.
  (* no program that destroys its lists is defined *)
  Lemma no_end n m os1 t ys v l i o os2 w rs :
    sxrun A eqb dflt (sxstart A n m) os1 = Ok (t, ys) -> nth_error (sl t) v = Some (Some l) -> 0 <= i <= zlen l ->
    (o = XInsertThrows v i \/ o = XAddThrows v) ->
    Forall (fun x => x = None) (xl w) ->
    xrun A eqb dflt (xstart A n m) (os1 ++ o :: os2) <> Ok (w, rs).
  Proof.
    intros H Hv Hi Ho F R. destruct (no_return _ _ _ _ _ _ _ _ _ _ _ _ H Hv Hi Ho R) as (u & x & Hx & _).
    apply nth_error_In in Hx. rewrite Forall_forall in F. specialize (F _ Hx). discriminate.
  Qed.
End Worlds.

Section Dicts.
  Variable K V : Type.
  Variable c : K -> K -> comparison.
  Variable TO : total_order c.
  Notation cmp := (fun a b => Some (c a b)).
  Ltac peel H := match type of H with bind ?x _ = Ok _ => let E := fresh "E" in destruct x eqn:E; cbn [bind] in H; try discriminate end.

  Lemma gone_s_insert (x : lst K) i a y : gone K x -> 0 <= i <= count x -> s_insert K x i a = Ok y -> gone K y.
  Proof.
    intros G R H. unfold s_insert in H. apply (gone_insert K x i a y G). unfold insert. replace ((i >=? 0) && (i <=? count x)) with true by lia. exact H.
  Qed.
  Lemma gone_s_add (f : K -> K -> option comparison) (x : lst K) a y i : gone K x -> s_add K f x a = Ok (y, i) -> gone K y.
  Proof.
    intros G H. unfold s_add in H. destruct (count x =? 0) eqn:C0.
    - peel H. injection H as <- <-. exact (gone_s_insert x 0 a _ G ltac:(lia) E).
    - peel H. destruct a0 as [r oi]. destruct (_ && _) eqn:R; [|discriminate]. peel H. cbv zeta in H. peel H. injection H as <- <-.
      refine (gone_s_insert _ _ _ _ G _ E1). destruct (f a0 a) as [[| |]|]; lia.
  Qed.
  Lemma gone_s_add_throws (f : K -> K -> option comparison) (x : lst K) a y : gone K x -> s_add_throws K f x a = Ok y -> gone K y.
  Proof.
    intros G H. unfold s_add_throws in H. destruct (count x =? 0) eqn:C0.
    - exact (gone_room K x 0 _ G ltac:(lia) H).
    - peel H. destruct a0 as [r oi]. destruct (_ && _) eqn:R; [|discriminate]. peel H. cbv zeta in H.
      refine (gone_room K _ _ _ G _ H). destruct (f a0 a) as [[| |]|]; lia.
  Qed.
  (* adding is making room and then constructing *)
  Lemma add_throws (f : K -> K -> option comparison) (x : lst K) a y i : s_add K f x a = Ok (y, i) -> exists z, s_add_throws K f x a = Ok z /\
    copy_ctors K (buf z) i [a] = Ok (buf y) /\ count y = count z.
  Proof.
    intro H. unfold s_add in H. unfold s_add_throws. destruct (count x =? 0).
    - peel H. injection H as <- <-. unfold s_insert in E. peel E. peel E. injection E as <-. eexists. split; [reflexivity|]. split; [eassumption|reflexivity].
    - peel H. destruct a0 as [r oi].  cbn [bind]. destruct ((oi >=? 0) && (oi <? count x)); [|discriminate]. peel H. cbn [bind]. cbv zeta in *. peel H. injection H as <- <-.
      unfold s_insert in E1. peel E1. peel E1. injection E1 as <-. eexists. split; [eassumption || reflexivity|]. split; [eassumption|reflexivity].
  Qed.
  Lemma add_throws_gone (f : K -> K -> option comparison) (x : lst K) a y i l : s_add K f x a = Ok (y, i) -> lst_shows K y l ->
    exists z, s_add_throws K f x a = Ok z /\ gone K z.
  Proof.
    intros H (C & _ & k & B). destruct (add_throws f x a y i H) as (z & Hz & Hc & Cz). exists z. split; [exact Hz|].
    destruct (mt_copy K _ _ _ _ Hc) as [M _]. rewrite B, el_app, el_live, el_raw in M. change (zlen [a]) with 1 in M. split; [unfold torn; lia|].
    intro N. rewrite N in Hc. cbn [copy_ctors] in Hc. unfold construct, aget, znth in Hc. destruct (i <? 0); [discriminate|]. destruct (Z.to_nat i); discriminate.
  Qed.
  Definition d_gone (d : dict K V) : Prop := gone K (keys d) \/ gone V (vals d).
  Lemma d_gone_torn d : d_gone d -> dict_torn d.
  Proof. intros [[T _]|[T _]]; [now left|now right]. Qed.
  Lemma late_inv {B} (r : res B) b : late r = Ok b -> r = Ok b.
  Proof. destruct r; cbn [late]; congruence. Qed.
  Lemma d_gone_step_raw d o d' r : d_gone d -> d_step_raw K V cmp d o = Ok (d', r) -> d_gone d'.
  Proof.
    intros G H. destruct o; cbn [d_step_raw] in H.
    - unfold d_add in H. peel H. injection H as <- <-. peel E. destruct (negb _); [discriminate|]. peel E. destruct a1 as [ks j]. peel E. injection E as <-. apply late_inv in E2.
      destruct G as [G|G]; [left; exact (gone_s_add _ _ _ _ _ G E1)|right; exact (gone_insert V _ _ _ _ G E2)].
    - unfold d_set in H. peel H. injection H as <- <-. peel E. destruct (_ =? _).
      + peel E. destruct a1 as [ks j]. peel E. injection E as <-. apply late_inv in E2.
        destruct G as [G|G]; [left; exact (gone_s_add _ _ _ _ _ G E1)|right; exact (gone_insert V _ _ _ _ G E2)].
      + peel E. injection E as <-. destruct G as [G|G]; [left; exact G|right; exact (gone_set V _ _ _ _ G E1)].
    - unfold d_remove in H. peel H. destruct a as [d1 b]. injection H as <- <-. peel E. destruct (negb _); [|injection E as <- <-; exact G].
      peel E. peel E. injection E as <- <-. apply late_inv in E2.
      destruct G as [G|G]; [left; exact (gone_remove_at K _ _ _ G E1)|right; exact (gone_remove_at V _ _ _ G E2)].
    - unfold d_clear in H. peel H. injection H as <- <-. peel E. peel E. injection E as <-. apply late_inv in E1.
      destruct G as [G|G]; [destruct (gone_clear K _ _ G E0)|destruct (gone_clear V _ _ G E1)].
    - peel H. injection H as <- <-. exact G.
    - peel H. injection H as <- <-. exact G.
    - injection H as <- <-. exact G.
    - peel H. injection H as <- <-. exact G.
    - peel H. injection H as <- <-. exact G.
  Qed.
  Lemma d_gone_step d o d' r : d_gone d -> d_step K V cmp d o = Ok (d', r) -> d_gone d'.
  Proof.
    intros G H. unfold d_step in H. destruct (d_step_raw K V cmp d o) as [[s1 r1]| | |] eqn:E; try discriminate.
    - injection H as <- <-. exact (d_gone_step_raw _ _ _ _ G E).
    - injection H as <- <-. exact G.
  Qed.
  Lemma d_gone_xstep d o d' r : d_gone d -> xd_step K V cmp d o = Ok (d', r) -> d_gone d'.
  Proof.
    intros G H. unfold xd_step in H. destruct (xd_step_raw K V cmp d o) as [[w1 r1]| | |] eqn:X; try discriminate;
      injection H as <- <-; [|exact G]. destruct o; cbn [xd_step_raw] in X.
    - peel X. destruct a as [s q]. injection X as <- <-. exact (d_gone_step _ _ _ _ G E).
    - peel X. destruct (negb _); [discriminate|]. peel X. injection X as <- <-. destruct G as [G|G]; [left; exact (gone_s_add_throws _ _ _ _ G E0)|right; exact G].
    - peel X. destruct (negb _); [discriminate|]. peel X. destruct a0 as [ks j]. peel X. injection X as <- <-. apply late_inv in E1.
      destruct G as [G|G]; [left; exact (gone_s_add _ _ _ _ _ G E0)|right; exact (gone_insert_throws V _ _ _ G E1)].
    - peel X. destruct (_ =? _).
      + peel X. destruct a0 as [ks j]. peel X. injection X as <- <-. apply late_inv in E1.
        destruct G as [G|G]; [left; exact (gone_s_add _ _ _ _ _ G E0)|right; exact (gone_insert_throws V _ _ _ G E1)].
      + peel X. injection X as <- <-. destruct G as [G|G]; [left; exact G|right; exact (gone_set V _ _ _ _ G E0)].
  Qed.
  Lemma d_gone_xrun os : forall d d' rs, d_gone d -> xd_run K V cmp d os = Ok (d', rs) -> d_gone d'.
  Proof.
    induction os as [|o os IH]; intros w w' rs G H; cbn [xd_run] in H; [injection H as <- <-; exact G|].
    peel H. destruct a as [w1 r]. peel H. destruct a as [w2 rs2]. injection H as <- <-. exact (IH _ _ _ (d_gone_xstep _ _ _ _ G E) E0).
  Qed.
  Lemma d_gone_destruct d u : d_gone d -> d_destruct K V d = Ok u -> False.
  Proof. intros G H. unfold d_destruct in H. peel H. destruct G as [G|G]; [exact (gone_destruct K _ _ G H)|exact (gone_destruct V _ _ G E)]. Qed.

  (* programs in which only assignments to the values of present keys throw *)
  Lemma xd_calm os : forall d, xd_run K V cmp d (map XDict os) =
    do (d', rs) <- d_run K V cmp d os; Ok (d', map XDRet rs).
  Proof.
    induction os as [|o os IH]; intro d; cbn [map xd_run d_run]; [reflexivity|]. unfold xd_step. cbn [xd_step_raw].
    assert (N : d_step K V cmp d o <> Err) by (unfold d_step; destruct (d_step_raw K V cmp d o) as [[]| | |]; discriminate).
    destruct (d_step K V cmp d o) as [[d1 r]| | |]; cbn [bind]; try reflexivity; [|congruence]. rewrite IH.
    destruct (d_run K V cmp d1 os) as [[d2 rs]| | |]; reflexivity.
  Qed.
  Lemma xd_app os1 os2 : forall w, xd_run K V cmp w (os1 ++ os2) =
    do (w1, r1) <- xd_run K V cmp w os1; do (w2, r2) <- xd_run K V cmp w1 os2; Ok (w2, r1 ++ r2).
  Proof.
    induction os1 as [|o os1 IH]; intro w; cbn [xd_run app bind].
    - destruct (xd_run K V cmp w os2) as [[w2 r2]| | |]; reflexivity.
    - destruct (xd_step K V cmp w o) as [[w1 r]| | |]; cbn [bind]; try reflexivity. rewrite IH.
      destruct (xd_run K V cmp w1 os1) as [[w2 r1]| | |]; cbn [bind]; try reflexivity.
      destruct (xd_run K V cmp w2 os2) as [[w3 r2]| | |]; reflexivity.
  Qed.
  Lemma absent_of_lookup (d : dict K V) m k : d_shows K V c d m -> lookup K V c k m = None ->
    (exists m1 m2, absent K V c m k m1 m2) /\ s_index_of K cmp (keys d) k = Ok (-1).
  Proof.
    intros (HK & HV & Ha) L. destruct (index_cases K V c TO _ _ k HK Ha) as [(m1 & k0 & v0 & m2 & F & E)|(m1 & m2 & F & E)].
    - rewrite (lookup_found K V c _ _ _ _ _ _ F) in L. discriminate.
    - split; [eauto|exact E].
  Qed.
  Lemma d_throws d m k o : d_shows K V c d m -> lookup K V c k m = None ->
    (o = XDAddKeyThrows k \/ o = XDAddValueThrows k \/ exists v, o = XDSetValueThrows k v) ->
    exists d', xd_step K V cmp d o = Ok (d', XDThrown) /\ d_gone d'.
  Proof.
    intros H L Ho. destruct (absent_of_lookup d m k H L) as ((m1 & m2 & F) & E). destruct H as (HK & HV & Ha).
    destruct (add_absent K V c TO _ _ _ _ _ HK Ha F) as (ks & n1 & n2 & (En & _) & Ea & Sk).
    assert (G : exists vs, late (insert_throws V (vals d) (zlen n1)) = Ok vs /\ gone V vs).
    { destruct (throws_gone V (vals d) (map snd m) (zlen n1) HV) as (vs & Hv & Gv).
      - rewrite En, map_app. unfold zlen. rewrite app_length, !map_length. lia.
      - exists vs. rewrite Hv. auto. }
    destruct G as (vs & Hv & Gv). unfold xd_step. destruct Ho as [->|[->|(v & ->)]]; cbn [xd_step_raw]; rewrite E; cbn [bind Z.eqb Pos.eqb negb].
    - destruct (add_throws_gone _ _ _ _ _ _ Ea Sk) as (z & Hz & Gz). rewrite Hz. cbn [bind]. eexists. split; [reflexivity|]. left. exact Gz.
    - rewrite Ea. cbn [bind]. rewrite Hv. cbn [bind]. eexists. split; [reflexivity|]. right. exact Gv.
    - rewrite Ea. cbn [bind]. rewrite Hv. cbn [bind]. eexists. split; [reflexivity|]. right. exact Gv.
  Qed.
  Lemma d_no_return os1 k o os2 : lookup K V c k (fst (md_run K V c [] os1)) = None ->
    (o = XDAddKeyThrows k \/ o = XDAddValueThrows k \/ exists v, o = XDSetValueThrows k v) ->
    (exists d rs, xd_run K V cmp empty_dict (map XDict os1 ++ [o]) = Ok (d, rs)) /\
    forall d rs, xd_run K V cmp empty_dict (map XDict os1 ++ o :: os2) = Ok (d, rs) -> dict_torn d /\ forall u, d_destruct K V d <> Ok u.
  Proof.
    intros L Ho. destruct (d_run_ok K V c TO os1 empty_dict [] (d_empty K V c)) as (d1 & R1 & S1).
    destruct (d_throws d1 _ k o S1 L Ho) as (d2 & R2 & G2). split.
    - rewrite xd_app, xd_calm, R1. cbn [bind xd_run]. rewrite R2. cbn [bind]. eauto.
    - intros d rs H. rewrite xd_app, xd_calm, R1 in H. cbn [bind xd_run] in H. rewrite R2 in H. cbn [bind] in H.
      peel H. destruct a as [d3 r3]. injection H as <- <-. peel E. destruct a as [d4 r4]. injection E as <- <-.
      pose proof (d_gone_xrun _ _ _ _ G2 E0) as G. split; [exact (d_gone_torn _ G)|]. intros u Hu. exact (d_gone_destruct _ _ G Hu).
  Qed.
  Lemma d_set_throws os1 k v v0 : lookup K V c k (fst (md_run K V c [] os1)) = Some v0 ->
    exists d1 rs d2, d_run K V cmp empty_dict os1 = Ok (d1, rs) /\ xd_step K V cmp d1 (XDSetValueThrows k v) = Ok (d2, XDThrown) /\
      d_step K V cmp d1 (DSet k v) = Ok (d2, OBool true).
  Proof.
    intro L. destruct (d_run_ok K V c TO os1 empty_dict [] (d_empty K V c)) as (d1 & R1 & S1).
    destruct (d_step_ok K V c TO d1 _ (DSet k v) S1) as (d2 & R2 & S2). cbn [md_step md_step_raw snd] in R2.
    exists d1, (snd (md_run K V c [] os1)), d2. split; [exact R1|]. split; [|exact R2].
    unfold d_step in R2. cbn [d_step_raw] in R2. unfold d_set in R2. unfold xd_step. cbn [xd_step_raw].
    destruct S1 as (HK & HV & Ha). destruct (index_cases K V c TO _ _ k HK Ha) as [(m1 & k0 & w0 & m2 & F & E)|(m1 & m2 & F & E)].
    - rewrite E in *. cbn [bind] in *. pose proof (Zle_0_nat (length m1)). unfold zlen in *. replace (Z.of_nat (length m1) =? -1) with false in * by lia.
      destruct (set V (vals d1) (Z.of_nat (length m1)) v) as [vs| | |]; cbn [bind] in *; congruence.
    - rewrite (lookup_absent K V c _ _ _ _ F) in L. discriminate.
  Qed.
  Lemma d_calm os d rs : d_run K V cmp empty_dict os = Ok (d, rs) -> d_destruct K V d = Ok tt.
  Proof.
    intro H. destruct (d_run_ok K V c TO os empty_dict [] (d_empty K V c)) as (d1 & R1 & HK & HV & _). assert (d = d1) by congruence. subst d1.
    unfold d_destruct. rewrite (destruct_ok V _ _ HV). cbn [bind]. exact (destruct_ok K _ _ HK).
  Qed.
End Dicts.

Definition x_demo : list (xop Z) :=
  [XList (LNew 0); XList (LAdd 0 5); XSetThrows 0 0 7; XList (LGet 0 0); XSetThrows 0 3 7; XArrFrom 0 [1; 2; 3] 3 5; XArrResize 0 6 2;
   XArr (ACount 0); XArrNew 1 4 3; XArrNew 1 2 9; XArrSetThrows 1 1 8; XArr (AGet 1 1); XArr (ADestroy 0); XArr (ADestroy 1); XList (LDestroy 0)].
Lemma x_demo_ok : sxrun Z Z.eqb (Some 0) (sxstart Z 1 2) x_demo
  = Ok (mkSW [None] [None; None] [[Some 0; Some 0; Some 0]; [Some 1; Some 2; Some 3; Some 0; Some 0]],
     [XRet RNone; XRet (RInt 0); XThrown; XRet (RVal 7); XRet RError; XRet RNone; XThrown; XRet (RInt 3); XThrown; XRet RNone; XThrown; XRet (RVal 8);
      XRet RNone; XRet RNone; XRet RNone]).
Proof. reflexivity. Qed.
Lemma x_insert_ex : exists t w ys rs, sxrun Z Z.eqb (Some 0) (sxstart Z 1 0) [XList (LNew 0); XList (LAdd 0 5)] = Ok (t, ys) /\
  nth_error (sl t) 0 = Some (Some [5]) /\
  xrun Z Z.eqb (Some 0) (xstart Z 1 0) ([XList (LNew 0); XList (LAdd 0 5)] ++ XInsertThrows 0 0 :: [XList (LGet 0 1); XList (LCount 0)]) = Ok (w, rs) /\
  skipn 2 rs = [XThrown; XRet (RVal 5); XRet (RInt 2)].
Proof. do 4 eexists. split; [reflexivity|]. split; [reflexivity|]. split; reflexivity. Qed.
Lemma x_dict_ex : total_order Z.compare /\
  lookup Z Z Z.compare 3 (fst (md_run Z Z Z.compare [] [DAdd 2 20; DAdd 1 10])) = None /\
  lookup Z Z Z.compare 1 (fst (md_run Z Z Z.compare [] [DAdd 2 20; DAdd 1 10])) = Some 10.
Proof. split; [exact Z_total|]. split; reflexivity. Qed.
