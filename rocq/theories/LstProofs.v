From Coq Require Import ZifyBool ZifyNat.
From Verif Require Import Base BaseFacts LstModel LstSpec.
Open Scope Z_scope.

Ltac zl := autorewrite with zl in *.
#[export] Hint Rewrite @zlen_app @zlen_cons @zlen_nil @zlen_map @zlen_repeat : zl.

Section Lst.
  Variable A : Type.
  Notation slot := (slot A).
  Notation mem := (mem A).

  Definition full (xs : list slot) := Forall (fun s => s <> Raw) xs.
  Lemma full_live (l : list A) : full (map Live l).
  Proof. apply Forall_forall. intros s Hs. apply in_map_iff in Hs. destruct Hs as (x & <- & _). discriminate. Qed.
  Lemma full_moved n : full (repeat Moved n).
  Proof. apply Forall_forall. intros s Hs. apply repeat_spec in Hs. subst. discriminate. Qed.
  Lemma not_raw (s : slot) : s <> Raw -> is_raw A s = false.
  Proof. destruct s; cbn; congruence. Qed.
  Lemma repeat_snoc {B} (x : B) n : repeat x n ++ [x] = x :: repeat x n.
  Proof. induction n; cbn; congruence. Qed.

  Lemma construct_at a b i s : i = zlen a -> construct A (a ++ Raw :: b) i s = Ok (a ++ s :: b).
  Proof. intros H. unfold construct. rewrite aget_app by exact H. cbn. now apply aset_app. Qed.
  Lemma move_out_at a x b i : i = zlen a -> x <> Raw ->
    move_out A (a ++ x :: b) i = Ok (a ++ Moved :: b, x).
  Proof.
    intros H N. unfold move_out. rewrite aget_app by exact H. cbn [bind]. rewrite not_raw by exact N.
    rewrite aset_app by exact H. reflexivity.
  Qed.
  Lemma assign_at a x b i s : i = zlen a -> x <> Raw -> assign A (a ++ x :: b) i s = Ok (a ++ s :: b).
  Proof. intros H N. unfold assign. rewrite aget_app by exact H. cbn [bind]. rewrite not_raw by exact N. now apply aset_app. Qed.
  Lemma destroy_at a x b i : i = zlen a -> x <> Raw -> destroy A (a ++ x :: b) i = Ok (a ++ Raw :: b).
  Proof. intros H N. unfold destroy. rewrite aget_app by exact H. cbn [bind]. rewrite not_raw by exact N. now apply aset_app. Qed.

  Lemma dtors_at : forall xs a b i n, i = zlen a -> n = length xs -> full xs ->
    dtors A (a ++ xs ++ b) i n = Ok (a ++ repeat Raw n ++ b).
  Proof.
    induction xs as [|x xs IH]; intros a b i n Hi Hn F; subst n; cbn [length dtors repeat app]; auto.
    inversion F; subst. rewrite destroy_at by auto. cbn [bind].
    replace (a ++ Raw :: xs ++ b) with ((a ++ [Raw]) ++ xs ++ b) by (now rewrite <- app_assoc).
    rewrite IH; [now rewrite <- app_assoc|zl; lia|auto|auto].
  Qed.
  Lemma copy_ctors_at : forall (xs : list A) a b i n, i = zlen a -> n = length xs ->
    copy_ctors A (a ++ repeat Raw n ++ b) i xs = Ok (a ++ map Live xs ++ b).
  Proof.
    induction xs as [|x xs IH]; intros a b i n Hi Hn; subst n; cbn [length copy_ctors repeat map app]; auto.
    rewrite construct_at by auto. cbn [bind].
    replace (a ++ Live x :: repeat Raw (length xs) ++ b) with ((a ++ [Live x]) ++ repeat Raw (length xs) ++ b) by (now rewrite <- app_assoc).
    rewrite IH; [now rewrite <- app_assoc|zl; lia|auto].
  Qed.
  Lemma move_across_at : forall xs a b c d i j n, i = zlen a -> j = zlen c -> n = length xs -> full xs ->
    move_across A (a ++ repeat Raw n ++ b) i (c ++ xs ++ d) j n =
      Ok (a ++ xs ++ b, c ++ repeat Moved n ++ d).
  Proof.
    induction xs as [|x xs IH]; intros a b c d i j n Hi Hj Hn F; subst n; cbn [length move_across repeat app]; auto.
    inversion F; subst. rewrite move_out_at by auto. cbn [bind]. rewrite construct_at by auto. cbn [bind].
    replace (a ++ x :: repeat Raw (length xs) ++ b) with ((a ++ [x]) ++ repeat Raw (length xs) ++ b) by (now rewrite <- app_assoc).
    replace (c ++ Moved :: xs ++ d) with ((c ++ [Moved]) ++ xs ++ d) by (now rewrite <- app_assoc).
    rewrite IH; [now rewrite <- !app_assoc|zl; lia|zl; lia|auto|auto].
  Qed.
  (* source left of the destination, not overlapping *)
  Lemma move_within_at : forall xs a b c i j n, j = zlen a -> i = zlen a + zlen xs + zlen c -> n = length xs -> full xs ->
    move_within A (a ++ xs ++ c ++ repeat Raw n ++ b) i j n = Ok (a ++ repeat Moved n ++ c ++ xs ++ b).
  Proof.
    induction xs as [|x xs IH]; intros a b c i j n Hj Hi Hn F; subst n; cbn [length move_within repeat app]; auto.
    inversion F; subst. rewrite move_out_at by auto. cbn [bind].
    replace (a ++ Moved :: xs ++ c ++ Raw :: repeat Raw (length xs) ++ b)
      with ((a ++ Moved :: xs ++ c) ++ Raw :: repeat Raw (length xs) ++ b) by (repeat (rewrite <- app_assoc; cbn [app]); reflexivity).
    rewrite construct_at by (zl; lia). cbn [bind].
    replace ((a ++ Moved :: xs ++ c) ++ x :: repeat Raw (length xs) ++ b)
      with ((a ++ [Moved]) ++ xs ++ (c ++ [x]) ++ repeat Raw (length xs) ++ b)
      by (repeat (rewrite <- app_assoc; cbn [app]); reflexivity).
    rewrite IH; [now rewrite <- !app_assoc|zl; lia|zl; lia|auto|auto].
  Qed.
  Lemma assign_fwd_at : forall xs a ys b i j n, i = zlen a -> j = zlen a + zlen ys -> n = length xs ->
    full xs -> full ys -> ys <> [] ->
    exists t, length t = length ys /\ full t /\
      assign_fwd A (a ++ ys ++ xs ++ b) i j n = Ok (a ++ xs ++ t ++ b).
  Proof.
    induction xs as [|x xs IH]; intros a ys b i j n Hi Hj Hn F G Y; subst n; cbn [length assign_fwd app].
    - exists ys. auto.
    - inversion F; subst. destruct ys as [|y ys]; [congruence|]. inversion G; subst.
      replace (a ++ (y :: ys) ++ x :: xs ++ b) with ((a ++ y :: ys) ++ x :: xs ++ b) by (now rewrite <- app_assoc).
      rewrite move_out_at by (zl; auto; lia). cbn [bind]. rewrite <- app_assoc. cbn [app].
      rewrite assign_at by auto. cbn [bind].
      destruct (IH (a ++ [x]) (ys ++ [Moved]) b (zlen a + 1) (zlen a + zlen (y :: ys) + 1) (length xs))
        as (t & L & Ft & E); auto; try (zl; lia).
      + apply Forall_app. split; auto. constructor; [discriminate|constructor].
      + destruct ys; discriminate.
      + exists t. split; [rewrite L, app_length; cbn; lia|split; [exact Ft|]].
        rewrite <- !app_assoc in E. cbn [app] in E. exact E.
  Qed.
  Lemma assign_bwd_at : forall xs a ys b i j n, j = zlen a -> i = zlen a + zlen ys -> n = length xs ->
    full xs -> full ys -> ys <> [] ->
    exists t, length t = length ys /\ full t /\
      assign_bwd A (a ++ xs ++ ys ++ b) i j n = Ok (a ++ t ++ xs ++ b).
  Proof.
    induction xs as [|x xs IH] using rev_ind; intros a ys b i j n Hj Hi Hn F G Y; subst n; cbn [length assign_bwd app].
    - exists ys. auto.
    - rewrite app_length, Nat.add_1_r. cbn [assign_bwd]. apply Forall_app in F. destruct F as [F1 F2]. inversion F2; subst.
      destruct (exists_last Y) as (ys' & y & ->). apply Forall_app in G. destruct G as [G1 G2]. inversion G2; subst.
      replace (a ++ (xs ++ [x]) ++ (ys' ++ [y]) ++ b) with ((a ++ xs) ++ x :: (ys' ++ [y]) ++ b)
        by (now rewrite <- !app_assoc).
      rewrite move_out_at by (zl; unfold zlen; auto; lia). cbn [bind].
      replace ((a ++ xs) ++ Moved :: (ys' ++ [y]) ++ b) with ((a ++ xs ++ Moved :: ys') ++ y :: b)
        by (repeat (rewrite <- app_assoc; cbn [app]); reflexivity).
      rewrite assign_at by (zl; unfold zlen; auto; lia). cbn [bind].
      destruct (IH a (Moved :: ys') (x :: b) (zlen a + zlen (ys' ++ [y])) (zlen a) (length xs))
        as (t & L & Ft & E); auto; try (zl; lia).
      + constructor; [discriminate|auto].
      + discriminate.
      + exists t. split; [rewrite L, app_length; cbn; lia|split; [exact Ft|]].
        repeat (rewrite <- app_assoc; cbn [app]). exact E.
  Qed.

  Lemma all_raw n : forallb (is_raw A) (repeat Raw n) = true.
  Proof. induction n; cbn; auto. Qed.
  Lemma deallocate_raw n : deallocate A (repeat Raw n) = Ok tt.
  Proof. unfold deallocate. now rewrite all_raw. Qed.
  Lemma allocate_pos n : 0 <= n -> allocate A n = repeat Raw (Z.to_nat n).
  Proof. intros H. unfold allocate. destruct (n <=? 0) eqn:E; auto. replace n with 0 by lia. reflexivity. Qed.
  Lemma repeat_split {B} (x : B) n p k : n = (p + k)%nat -> repeat x n = repeat x p ++ repeat x k.
  Proof. intros ->. apply repeat_app. Qed.

  Lemma release_spec x l t k : count x = zlen l -> zlen (buf x) = cap x -> full t ->
    buf x = map Live l ++ t ++ repeat Raw k ->
    exists y, release A x (zlen l + zlen t) = Ok y /\ lst_shows A y l.
  Proof.
    intros C Z F B. unfold release.
    destruct (buf x) as [|s0 b0] eqn:EB.
    { exists x. split; [reflexivity|]. symmetry in B. apply app_eq_nil in B. destruct B as [B1 B2].
      apply map_eq_nil in B1. subst l. repeat split; auto; [now rewrite EB|]. exists 0%nat. now rewrite EB. }
    rewrite <- EB in *. clear EB s0 b0. cbv zeta.
    assert (D : (if count x <? zlen l + zlen t then dtors A (buf x) (count x) (Z.to_nat (zlen l + zlen t - count x)) else Ok (buf x))
      = Ok (map Live l ++ repeat Raw (length t + k))).
    { destruct (count x <? zlen l + zlen t) eqn:E.
      - rewrite B. rewrite (dtors_at t); auto; [|zl; lia|unfold zlen in *; lia].
        do 2 f_equal. rewrite <- repeat_app. f_equal. unfold zlen in *; lia.
      - assert (t = []) by (destruct t; auto; zl; pose proof (zlen_nonneg t); lia). subst t. rewrite B. reflexivity. }
    rewrite D. cbn [bind].
    assert (K : lst_shows A (mkLst (map Live l ++ repeat Raw (length t + k)) (count x) (cap x) (moves x)) l).
    { split; [exact C|]. cbn [buf cap count]. split; [|eauto]. rewrite <- Z, B. zl. unfold zlen. lia. }
    destruct ((count x <=? cap x / 2) && (count x <=? 8)); [|eauto].
    destruct (count x <? cap x * 5 / 8) eqn:E2; [|eauto].
    pose proof (zlen_nonneg l). pose proof (zlen_nonneg (buf x)).
    rewrite allocate_pos by lia. set (nc := cap x * 5 / 8) in *.
    rewrite (repeat_split _ (Z.to_nat nc) (length l) (Z.to_nat nc - length l)) by (unfold zlen in *; lia).
    pose proof (move_across_at (map Live l) [] (repeat Raw (Z.to_nat nc - length l)) [] (repeat Raw (length t + k)) 0 0 (length l)) as M.
    cbn [app] in M. replace (Z.to_nat (count x)) with (length l) by (unfold zlen in *; lia).
    rewrite M; auto; [|now rewrite map_length|apply full_live]. cbn [bind].
    pose proof (dtors_at (repeat Moved (length l)) [] (repeat Raw (length t + k)) 0 (length l)) as M2.
    cbn [app] in M2. rewrite M2; auto; [|now rewrite repeat_length|apply full_moved]. cbn [bind].
    rewrite <- repeat_app, deallocate_raw. cbn [bind]. eexists. split; [reflexivity|].
    split; [exact C|]. cbn [buf cap count]. split; [|eauto]. zl. unfold zlen in *. lia.
  Qed.

  Lemma insert_uninit_spec x l i l1 l2 : lst_shows A x l -> l = l1 ++ l2 -> i = zlen l1 ->
    exists k cap' mv, insert_uninitialized A x i 1 =
      Ok (mkLst (map Live l1 ++ Raw :: map Live l2 ++ repeat Raw k) (zlen l + 1) cap' mv) /\
      cap' = zlen l + 1 + Z.of_nat k.
  Proof.
    intros (C & Z & k & B) El Ei. unfold insert_uninitialized. cbv zeta.
    assert (Ln : zlen l = zlen l1 + zlen l2) by (subst l; zl; reflexivity).
    assert (Lc : zlen l + Z.of_nat k = cap x) by (rewrite <- Z, B; zl; reflexivity).
    pose proof (zlen_nonneg l1) as P1. pose proof (zlen_nonneg l2) as P2.
    rewrite C, B, El, map_app, <- !app_assoc. rewrite <- El.
    destruct (zlen l + 1 >? cap x) eqn:E.
    - replace (zlen l + 1 <? cap x) with false by lia.
      rewrite allocate_pos by lia. set (nc := (zlen l + 1) * 5 / 4 + 1) in *.
      assert (Hnc : zlen l + 1 <= nc) by (unfold nc; lia). clearbody nc.
      set (r := (Z.to_nat nc - length l - 1)%nat).
      assert (EL : length l = (length l1 + length l2)%nat) by (subst l; now rewrite app_length).
      replace (Z.to_nat nc) with (length l1 + (1 + (length l2 + r)))%nat by (unfold r, zlen in *; lia).
      rewrite (repeat_app Raw (length l1)).
      pose proof (move_across_at (map Live l1) [] (repeat Raw (1 + (length l2 + r))) [] (map Live l2 ++ repeat Raw k) 0 0 (length l1)) as M.
      cbn [app] in M. replace (Z.to_nat i) with (length l1) by (unfold zlen in *; lia).
      rewrite M; auto; [|now rewrite map_length|apply full_live]. cbn [bind]. clear M.
      rewrite repeat_app. cbn [repeat].
      replace (map Live l1 ++ [Raw] ++ repeat Raw (length l2 + r)) with
        ((map Live l1 ++ [Raw]) ++ repeat Raw (length l2) ++ repeat (@Raw A) r) by (rewrite <- repeat_app, <- app_assoc; reflexivity).
      replace (Z.to_nat (zlen l - i)) with (length l2) by (unfold zlen in *; lia).
      rewrite (move_across_at (map Live l2)); auto; [|zl; lia|zl; unfold zlen in *; lia|now rewrite map_length|apply full_live].
      cbn [bind].
      pose proof (dtors_at (repeat Moved (length l1) ++ repeat Moved (length l2)) [] (repeat Raw k) 0 (length l)) as M.
      cbn [app] in M. rewrite <- app_assoc in M.
      replace (Z.to_nat (zlen l)) with (length l) by (unfold zlen in *; lia).
      rewrite M; auto; [|rewrite app_length, !repeat_length; lia|apply Forall_app; split; apply full_moved]. cbn [bind].
      rewrite <- repeat_app, deallocate_raw. cbn [bind].
      exists r, nc. eexists. split; [rewrite <- app_assoc; reflexivity|]. unfold r, zlen in *. lia.
    - destruct k as [|k]; [lia|]. cbn [repeat].
      destruct (i <? zlen l) eqn:E1.
      + destruct (1 >=? zlen l - i) eqn:E2.
        * destruct l2 as [|y [|y' l2']]; [zl; lia| |zl; pose proof (zlen_nonneg l2'); lia].
          replace (zlen l - i) with 1 by (zl; lia). change (Z.to_nat 1) with 1%nat.
          pose proof (move_within_at (map Live [y]) (map Live l1) (repeat Raw k) [] (i + 1) i 1) as M.
          cbn [app map repeat] in M |- *. rewrite M; auto; [|zl; lia|zl; lia|repeat constructor; discriminate]. cbn [bind].
          pose proof (dtors_at [Moved] (map Live l1) (Live y :: repeat Raw k) i 1) as M2.
          cbn [app repeat] in M2. rewrite M2; auto; [|zl; lia|repeat constructor; discriminate]. cbn [bind].
          exists k. do 2 eexists. split; [reflexivity|]. zl. lia.
        * assert (NE : l2 <> []) by (intros ->; zl; lia).
          destruct (exists_last NE) as (l3 & y & E3). rewrite E3, map_app, <- app_assoc. cbn [map app].
          change (Z.to_nat 1) with 1%nat.
          assert (L3 : zlen l2 = zlen l3 + 1) by (rewrite E3; zl; lia).
          pose proof (move_within_at [Live y] (map Live l1 ++ map Live l3) (repeat Raw k) [] (zlen l) (zlen l - 1) 1) as M.
          cbn [app repeat] in M. rewrite <- !app_assoc in M.
          rewrite M; auto; [|zl; lia|zl; lia|repeat constructor; discriminate]. cbn [bind]. clear M.
          unfold assign_overlapped. replace (i + 1 <? i) with false by lia. replace (i + 1 >? i) with true by lia.
          destruct (assign_bwd_at (map Live l3) (map Live l1) [Moved] (Live y :: repeat Raw k) (i + 1) i (Z.to_nat (zlen l - i - 1)))
            as (t & Lt & Ft & Et); auto; try (zl; lia).
          { rewrite map_length. unfold zlen in *. lia. } { apply full_live. } { repeat constructor; discriminate. } { discriminate. }
          cbn [app] in Et. rewrite Et. cbn [bind].
          pose proof (dtors_at t (map Live l1) (map Live l3 ++ Live y :: repeat Raw k) i 1) as M.
          rewrite M; [|zl; lia|rewrite Lt; reflexivity|exact Ft]. cbn [bind repeat app].
          exists k. do 2 eexists. split; [rewrite <- app_assoc; reflexivity|]. zl. lia.
      + destruct l2 as [|y l2]; [|zl; pose proof (zlen_nonneg l2); lia]. cbn [map app].
        exists k. do 2 eexists. split; [reflexivity|]. zl. lia.
  Qed.

  Lemma split_at (l : list A) i : 0 <= i <= zlen l -> exists l1 l2, l = l1 ++ l2 /\ zlen l1 = i /\ l1 = ztake A i l /\ l2 = zdrop A i l.
  Proof. exact (zsplit l i). Qed.

  Lemma insert_at x l i (a : A) : lst_shows A x l -> 0 <= i <= zlen l ->
    exists y, insert A x i a = Ok y /\ lst_shows A y (ztake A i l ++ a :: zdrop A i l).
  Proof.
    intros H Hi. destruct (split_at l i Hi) as (l1 & l2 & E & L1 & -> & ->).
    destruct H as (C & Z & k0 & B). unfold insert. rewrite C. replace ((i >=? 0) && (i <=? zlen l)) with true by lia.
    destruct (insert_uninit_spec x l i _ _ (conj C (conj Z (ex_intro _ k0 B))) E (eq_sym L1)) as (k & c' & mv & R & Hc).
    rewrite R. cbn [bind buf count cap moves].
    pose proof (copy_ctors_at [a] (map Live (ztake A i l)) (map Live (zdrop A i l) ++ repeat Raw k) i 1) as M.
    cbn [repeat app map] in M. rewrite M; [|zl; lia|auto]. cbn [bind]. eexists. split; [reflexivity|].
    assert (EL : zlen l = zlen (ztake A i l) + zlen (zdrop A i l)) by (rewrite E at 1; zl; reflexivity).
    split; [cbn [count]; zl; lia|]. cbn [buf cap]. split.
    - zl. lia.
    - exists k. rewrite map_app, <- app_assoc. reflexivity.
  Qed.

  Lemma remove_core x l i n : lst_shows A x l -> 0 <= i -> 0 <= n -> i + n <= zlen l ->
    exists y, (do m <- assign_overlapped A (buf x) i (i + n) (count x - i - n);
        release A (mkLst m (count x - n) (cap x) (moves x + (count x - i - n))) (count x)) = Ok y /\
      lst_shows A y (ztake A i l ++ zdrop A (i + n) l).
  Proof.
    intros (C & Z & k & B) Hi Hn Hl. rewrite C.
    destruct (split_at l i) as (l1 & l2 & E & L1 & E1 & E2); [lia|].
    destruct (split_at l2 n) as (l3 & l4 & E' & L3 & E3 & E4).
    { rewrite E in Hl. zl. lia. }
    assert (E5 : zdrop A (i + n) l = l4).
    { rewrite E4, E2. unfold zdrop. rewrite skipn_skipn. f_equal. lia. }
    rewrite E5, <- E1. clear E1 E2 E3 E4 E5.
    assert (ELn : zlen l = zlen l1 + zlen l3 + zlen l4) by (rewrite E, E'; zl; lia).
    assert (Lc : zlen l + Z.of_nat k = cap x) by (rewrite <- Z, B; zl; reflexivity).
    pose proof (zlen_nonneg l4).
    assert (exists t, zlen t = zlen l3 /\ full t /\
       assign_overlapped A (buf x) i (i + n) (zlen l - i - n) = Ok (map Live (l1 ++ l4) ++ t ++ repeat Raw k)) as (t & Lt & Ft & Et).
    { rewrite B, E, E', !map_app, <- !app_assoc. unfold assign_overlapped.
      destruct l3 as [|y l3].
      - zl. replace (i <? i + n) with false by lia. replace (i >? i + n) with false by lia.
        exists []. split; [reflexivity|split; [constructor|]]. now rewrite <- app_assoc.
      - zl. pose proof (zlen_nonneg l3). replace (i <? i + n) with true by lia.
        destruct (assign_fwd_at (map Live l4) (map Live l1) (map Live (y :: l3)) (repeat Raw k) i (i + n)
                   (Z.to_nat (zlen l1 + (1 + zlen l3 + zlen l4) - i - n)))
          as (t & L & F & R); auto; try (zl; lia); try apply full_live; try discriminate.
        + rewrite map_length. unfold zlen in *. lia.
        + exists t. split; [|split; [exact F|rewrite <- app_assoc; exact R]]. unfold zlen. rewrite L. cbn [map length]. rewrite map_length. lia. }
    rewrite Et. cbn [bind].
    destruct (release_spec (mkLst (map Live (l1 ++ l4) ++ t ++ repeat Raw k) (zlen l - n) (cap x) (moves x + (zlen l - i - n))) (l1 ++ l4) t k)
      as (y & R & S); auto.
    - cbn [count]. zl. lia.
    - cbn [buf cap]. zl. lia.
    - replace (zlen (l1 ++ l4) + zlen t) with (zlen l) in R by (zl; lia). eauto.
  Qed.

  Lemma remove_range_at x l i n : lst_shows A x l -> 0 <= i -> 0 <= n -> i + n <= zlen l -> i + n < 2 ^ 63 ->
    exists y, remove_range A x i n = Ok y /\ lst_shows A y (ztake A i l ++ zdrop A (i + n) l).
  Proof.
    intros H Hi Hn Hl Ho. unfold remove_range. destruct (H) as (C & _). 
    replace ((i >=? 0) && (i <=? count x)) with true by lia.
    replace ((- 2 ^ 63 <=? i + n) && (i + n <? 2 ^ 63)) with true by lia.
    replace ((i + n >=? 0) && (i + n <=? count x)) with true by lia. cbn [negb].
    now apply remove_core.
  Qed.
  Lemma remove_at_at x l i : lst_shows A x l -> 0 <= i < zlen l ->
    exists y, remove_at A x i = Ok y /\ lst_shows A y (ztake A i l ++ zdrop A (i + 1) l).
  Proof.
    intros H Hi. unfold remove_at. destruct (H) as (C & _).
    replace ((i >=? 0) && (i <? count x)) with true by lia. apply remove_core; auto; lia.
  Qed.
  Lemma destroy_all x l : lst_shows A x l ->
    exists m, dtors A (buf x) 0 (Z.to_nat (count x)) = Ok m /\ deallocate A m = Ok tt.
  Proof.
    intros (C & Z & k & B). rewrite C, B, zlen_to_nat.
    pose proof (dtors_at (map Live l) [] (repeat Raw k) 0 (length l)) as M. cbn [app] in M.
    rewrite M; auto; [|now rewrite map_length|apply full_live]. eexists. split; [reflexivity|].
    rewrite <- repeat_app. apply deallocate_raw.
  Qed.
  Lemma destruct_ok x l : lst_shows A x l -> destruct A x = Ok tt.
  Proof.
    intros H. destruct (destroy_all x l H) as (m & E & D). unfold destruct. destruct (buf x) eqn:EB; auto.
    rewrite <- EB in *. rewrite E. exact D.
  Qed.
  Lemma empty_shows : lst_shows A empty_lst [].
  Proof. repeat split. now exists 0%nat. Qed.
  Lemma clear_ok x l : lst_shows A x l -> exists y, clear A x = Ok y /\ lst_shows A y [].
  Proof.
    intros H. destruct (destroy_all x l H) as (m & E & D). unfold clear. rewrite E. cbn [bind]. rewrite D.
    eexists. split; [reflexivity|]. repeat split. now exists 0%nat.
  Qed.
  Lemma read_live (l1 : list A) x l2 k i : i = zlen l1 ->
    read A (map Live (l1 ++ x :: l2) ++ repeat Raw k) i = Ok x.
  Proof.
    intros ->. unfold read. rewrite map_app, <- app_assoc. cbn [map app]. rewrite aget_app; [reflexivity|]. now zl.
  Qed.
  Lemma get_ok x l i : lst_shows A x l -> get A x i = match znth l i with Some a => Ok a | None => Err end.
  Proof.
    intros (C & Z & k & B). unfold get. rewrite C. destruct ((i >=? 0) && (i <? zlen l)) eqn:E.
    - destruct (zsplit1 l i) as (a & y & b & E1 & L & N & _); [lia|]. rewrite N, B, E1. now apply read_live.
    - unfold znth. destruct (i <? 0) eqn:E0; auto.
      destruct (nth_error l (Z.to_nat i)) eqn:N; auto. apply nth_error_lt in N. unfold zlen in E. lia.
  Qed.
  Lemma set_ok x l i (a : A) : lst_shows A x l -> 0 <= i < zlen l ->
    exists y, set A x i a = Ok y /\ lst_shows A y (ztake A i l ++ a :: zdrop A (i + 1) l).
  Proof.
    intros (C & Z & k & B) Hi. unfold set. rewrite C. replace ((i >=? 0) && (i <? zlen l)) with true by lia.
    destruct (zsplit1 l i Hi) as (l1 & y & l2 & E1 & L & _ & E2 & E3).
    unfold ztake, zdrop. rewrite <- E2, <- E3, B, E1, map_app, <- app_assoc. cbn [map app].
    rewrite assign_at; [|zl; lia|discriminate]. cbn [bind]. eexists. split; [reflexivity|].
    split; [cbn [count]; zl; lia|]. cbn [buf cap]. split.
    - rewrite <- Z, B, E1. zl. lia.
    - exists k. rewrite map_app, <- app_assoc. reflexivity.
  Qed.
  (* ---- C17 ------------------------------------------------------------------ *)
  Lemma insert_uninit_cap x i y : insert_uninitialized A x i 1 = Ok y ->
    count y = count x + 1 /\
    ((count x + 1 <= cap x /\ cap y = cap x /\ (i = count x -> moves y = moves x)) \/
     (count x + 1 > cap x /\ cap y = (count x + 1) * 5 / 4 + 1 /\ moves y = moves x + count x)).
  Proof.
    unfold insert_uninitialized. cbv zeta. intros E.
    Ltac peel E := repeat (let a := fresh in let F := fresh in apply bind_ok in E; destruct E as (a & F & E); match type of a with prod _ _ => destruct a | _ => idtac end).
    destruct (count x + 1 >? cap x) eqn:E1.
    - replace (count x + 1 <? cap x) with false in E by lia. peel E.
      assert (K : forall a b : lst A, Ok a = Ok b -> a = b) by congruence. apply K in E. subst y. cbn [count cap moves].
      split; [reflexivity|right]. lia.
    - assert (K : forall a b : lst A, Ok a = Ok b -> a = b) by congruence.
      destruct (i <? count x) eqn:E2.
      + destruct (1 >=? count x - i); peel E; apply K in E; subst y; cbn [count cap moves]; (split; [reflexivity|left]); lia.
      + apply K in E. subst y. cbn [count cap moves]. split; [reflexivity|left]. lia.
  Qed.
  Lemma insert_cap x i a y : insert A x i a = Ok y ->
    count y = count x + 1 /\
    ((count x + 1 <= cap x /\ cap y = cap x /\ (i = count x -> moves y = moves x)) \/
     (count x + 1 > cap x /\ cap y = (count x + 1) * 5 / 4 + 1 /\ moves y = moves x + count x)).
  Proof.
    unfold insert. destruct ((i >=? 0) && (i <=? count x)); [|discriminate]. intros E.
    apply bind_ok in E. destruct E as (z & E1 & E). apply bind_ok in E. destruct E as (m & E2 & E).
    apply insert_uninit_cap in E1. assert (y = mkLst m (count z) (cap z) (moves z)) as -> by congruence. exact E1.
  Qed.
  Lemma growth x l i a y : lst_shows A x l -> insert A x i a = Ok y -> cap y <> cap x -> 4 * cap y > 5 * cap x.
  Proof.
    intros (C & Z & k & B) E N. apply insert_cap in E. destruct E as (_ & [(?&?&?)|(H1 & H2 & H3)]); [congruence|].
    rewrite H2. assert (count x <= cap x) by (rewrite C, <- Z, B; zl; lia). lia.
  Qed.
  Lemma append_inv l : forall x l0, lst_shows A x l0 ->
    moves x <= 5 * count x - Z.max 0 (5 * count x - 4 * cap x) -> cap x <= count x * 5 / 4 + 1 ->
    exists y, append_all A x l = Ok y /\ lst_shows A y (l0 ++ l) /\
      moves y <= 5 * count y - Z.max 0 (5 * count y - 4 * cap y) /\ cap y <= count y * 5 / 4 + 1.
  Proof.
    induction l as [|a l IH]; intros x l0 H P Q; unfold append_all; cbn [fold_left].
    - exists x. rewrite app_nil_r. auto.
    - cbn [bind]. destruct (H) as (C & Z & k & B). pose proof (zlen_nonneg l0).
      destruct (insert_at x l0 (count x) a H) as (y & E & S'); [lia|]. rewrite E.
      rewrite C in S'. unfold ztake, zdrop in S'. rewrite zlen_to_nat, firstn_all, skipn_all in S'.
      apply insert_cap in E. destruct E as (E1 & E2).
      assert (count x <= cap x) by (rewrite C, <- Z, B; zl; lia).
      destruct (IH y (l0 ++ [a]) S') as (z & R & T & U & V).
      + destruct E2 as [(F1 & F2 & F3)|(F1 & F2 & F3)]; [rewrite F3 by reflexivity|]; lia.
      + destruct E2 as [(F1 & F2 & F3)|(F1 & F2 & F3)]; [lia|]. rewrite F2, E1. lia.
      + exists z. rewrite <- app_assoc in T. auto.
  Qed.
  Lemma append_cost l : exists y, append_all A empty_lst l = Ok y /\ lst_shows A y l /\
      moves y <= 5 * zlen l /\ cap y <= zlen l * 5 / 4 + 1.
  Proof.
    destruct (append_inv l empty_lst [] empty_shows) as (y & E & H & M & Cc); cbn [empty_lst moves count cap]; try lia.
    exists y. split; [exact E|split; [exact H|]]. destruct H as (C & _). cbn [app] in C. rewrite C in M, Cc. lia.
  Qed.
  (* ---- C18 ------------------------------------------------------------------ *)
  Lemma get_err x l i : lst_shows A x l -> (get A x i = Err <-> ~ 0 <= i < zlen l).
  Proof.
    intros H. rewrite (get_ok x l i H). unfold znth. split.
    - destruct (i <? 0) eqn:E; [lia|]. destruct (nth_error l (Z.to_nat i)) eqn:N; [discriminate|].
      apply nth_error_None in N. unfold zlen. lia.
    - intros N. destruct (i <? 0) eqn:E; auto. replace (nth_error l (Z.to_nat i)) with (@None A); auto.
      symmetry. apply nth_error_None. unfold zlen in N. lia.
  Qed.
  Lemma set_err x l i a : lst_shows A x l -> (set A x i a = Err <-> ~ 0 <= i < zlen l).
  Proof.
    intros H. split.
    - intros E N. destruct (set_ok x l i a H N) as (y & E' & _). congruence.
    - intros N. unfold set. destruct H as (C & _). rewrite C. now replace ((i >=? 0) && (i <? zlen l)) with false by lia.
  Qed.
  Lemma insert_err x l i a : lst_shows A x l -> (insert A x i a = Err <-> ~ 0 <= i <= zlen l).
  Proof.
    intros H. split.
    - intros E N. destruct (insert_at x l i a H N) as (y & E' & _). congruence.
    - intros N. unfold insert. destruct H as (C & _). rewrite C. now replace ((i >=? 0) && (i <=? zlen l)) with false by lia.
  Qed.
  Lemma remove_at_err x l i : lst_shows A x l -> (remove_at A x i = Err <-> ~ 0 <= i < zlen l).
  Proof.
    intros H. split.
    - intros E N. destruct (remove_at_at x l i H N) as (y & E' & _). congruence.
    - intros N. unfold remove_at. destruct H as (C & _). rewrite C. now replace ((i >=? 0) && (i <? zlen l)) with false by lia.
  Qed.
  Lemma remove_range_err x l i n : lst_shows A x l -> 0 <= n -> i + n < 2 ^ 63 ->
    (remove_range A x i n = Err <-> ~ (0 <= i /\ i + n <= zlen l)).
  Proof.
    intros H Hn Ho. split.
    - intros E N. destruct (remove_range_at x l i n H) as (y & E' & _); try lia. congruence.
    - intros N. unfold remove_range. destruct H as (C & _). rewrite C.
      destruct ((i >=? 0) && (i <=? zlen l)) eqn:E1; auto.
      replace ((- 2 ^ 63 <=? i + n) && (i + n <? 2 ^ 63)) with true by lia. cbn [negb].
      now replace ((i + n >=? 0) && (i + n <=? zlen l)) with false by lia.
  Qed.
  Lemma assign_raw (m : list slot) i s : (0 <= i < zlen m -> znth m i = Some Raw) -> assign A m i s = UB.
  Proof.
    intros H. unfold assign, aget. destruct (znth m i) as [y|] eqn:E; [|reflexivity].
    assert (R : 0 <= i < zlen m).
    { unfold znth in E. destruct (i <? 0) eqn:E0; [discriminate|]. apply nth_error_lt in E. unfold zlen. lia. }
    specialize (H R). assert (y = Raw) by congruence. subst. reflexivity.
  Qed.
  (* a negative length passes the checks and then writes past the last element *)
  Lemma remove_range_negative x l i n : lst_shows A x l -> 0 <= i <= zlen l -> n < 0 -> 0 <= i + n ->
    zlen l < 2 ^ 63 -> remove_range A x i n = UB.
  Proof.
    intros (C & Z & k & B) Hi Hn Hin Ho. unfold remove_range. rewrite C.
    replace ((i >=? 0) && (i <=? zlen l)) with true by lia.
    replace ((- 2 ^ 63 <=? i + n) && (i + n <? 2 ^ 63)) with true by lia.
    replace ((i + n >=? 0) && (i + n <=? zlen l)) with true by lia. cbn [negb].
    unfold assign_overlapped. replace (i <? i + n) with false by lia. replace (i >? i + n) with true by lia.
    replace (Z.to_nat (zlen l - i - n)) with (S (Z.to_nat (zlen l - i - n - 1))) by lia. cbn [assign_bwd].
    set (p := Z.of_nat (Z.to_nat (zlen l - i - n - 1))). assert (Hp : p = zlen l - i - n - 1) by (unfold p; lia). clearbody p.
    replace (i + n + p) with (zlen l - 1) by lia. replace (i + p) with (zlen l + (- n - 1)) by lia.
    assert (NE : l <> []) by (intros ->; zl; lia). destruct (exists_last NE) as (l1 & y & El).
    rewrite B, El, map_app, <- app_assoc. cbn [map app].
    rewrite move_out_at; [|zl; lia|discriminate]. cbn [bind].
    rewrite assign_raw; [reflexivity|]. zl. intros Hr. rewrite znth_z by lia.
    rewrite nth_error_app2 by (rewrite map_length; unfold zlen in *; lia). rewrite map_length.
    replace (Z.to_nat (zlen l1 + (1 + 0) + (- n - 1)) - length l1)%nat with (S (Z.to_nat (- n - 1))) by (unfold zlen in *; lia).
    cbn [nth_error]. apply nth_error_repeat. unfold zlen in *. lia.
  Qed.
  Lemma remove_range_any x l i n : lst_shows A x l -> zlen l < 2 ^ 63 -> - 2 ^ 63 <= n ->
    if (i <? 0) || (zlen l <? i) then remove_range A x i n = Err
    else if 2 ^ 63 <=? i + n then remove_range A x i n = UB
    else if (i + n <? 0) || (zlen l <? i + n) then remove_range A x i n = Err
    else if n <? 0 then remove_range A x i n = UB
    else exists y, remove_range A x i n = Ok y /\ lst_shows A y (ztake A i l ++ zdrop A (i + n) l).
  Proof.
    intros H L N. destruct ((i <? 0) || (zlen l <? i)) eqn:E1.
    { unfold remove_range. destruct H as (C & _). rewrite C. now replace ((i >=? 0) && (i <=? zlen l)) with false by lia. }
    destruct (2 ^ 63 <=? i + n) eqn:E2.
    { unfold remove_range. destruct H as (C & _). rewrite C. replace ((i >=? 0) && (i <=? zlen l)) with true by lia. now replace ((- 2 ^ 63 <=? i + n) && (i + n <? 2 ^ 63)) with false by lia. }
    destruct ((i + n <? 0) || (zlen l <? i + n)) eqn:E3.
    { unfold remove_range. destruct H as (C & _). rewrite C. replace ((i >=? 0) && (i <=? zlen l)) with true by lia. replace ((- 2 ^ 63 <=? i + n) && (i + n <? 2 ^ 63)) with true by lia. cbn [negb].
      now replace ((i + n >=? 0) && (i + n <=? zlen l)) with false by lia. }
    destruct (n <? 0) eqn:E4; [apply (remove_range_negative x l); auto; lia|apply remove_range_at; auto; lia].
  Qed.


  Variable eqb : A -> A -> bool.
  Lemma first_pos_range (a : A) l : -1 <= first_pos A eqb a l < zlen l.
  Proof.
    induction l as [|x l IH]; cbn [first_pos]; zl; [lia|]. pose proof (zlen_nonneg l).
    destruct (eqb x a); [lia|]. cbv zeta. destruct (first_pos A eqb a l =? -1) eqn:E; lia.
  Qed.
  Lemma index_loop_spec (a : A) k : forall l2 l1 i n, i = zlen l1 -> n = length l2 ->
    index_loop A eqb (map Live (l1 ++ l2) ++ repeat Raw k) a i n =
      Ok (if first_pos A eqb a l2 =? -1 then -1 else i + first_pos A eqb a l2).
  Proof.
    induction l2 as [|x l2 IH]; intros l1 i n Hi Hn; subst n; cbn [length index_loop first_pos]; auto.
    rewrite read_live by auto. cbn [bind]. destruct (eqb x a).
    - replace (0 =? -1) with false by lia. f_equal. lia.
    - cbv zeta. replace (l1 ++ x :: l2) with ((l1 ++ [x]) ++ l2) by (now rewrite <- app_assoc).
      rewrite IH; [|zl; lia|auto]. pose proof (first_pos_range a l2). pose proof (zlen_nonneg l2).
      destruct (first_pos A eqb a l2 =? -1) eqn:E; [reflexivity|].
      replace (first_pos A eqb a l2 + 1 =? -1) with false by lia. f_equal. lia.
  Qed.
  Lemma index_of_ok x l (a : A) : lst_shows A x l -> index_of A eqb x a = Ok (first_pos A eqb a l).
  Proof.
    intros (C & Z & k & B). unfold index_of. rewrite C, B, zlen_to_nat.
    rewrite (index_loop_spec a k l []); auto. destruct (first_pos A eqb a l =? -1) eqn:E; f_equal; lia.
  Qed.
  Lemma first_pos_existsb (a : A) l : negb (first_pos A eqb a l =? -1) = existsb (fun x => eqb x a) l.
  Proof.
    induction l as [|x l IH]; cbn [first_pos existsb]; auto. destruct (eqb x a); auto. cbv zeta. rewrite <- IH.
    pose proof (first_pos_range a l). destruct (first_pos A eqb a l =? -1) eqn:E; cbn; lia.
  Qed.

  (* ---- simulation ---------------------------------------------------------- *)
  Definition vshows (x : option (lst A)) (l : option (list A)) : Prop :=
    match x, l with Some x, Some l => lst_shows A x l | None, None => True | _, _ => False end.
  Lemma Forall2_nth {B C} (R : B -> C -> Prop) s t n : Forall2 R s t ->
    match nth_error s n, nth_error t n with Some x, Some y => R x y | None, None => True | _, _ => False end.
  Proof. intros H. revert n. induction H; intros [|n]; cbn; auto. apply IHForall2. Qed.
  Lemma Forall2_upd {B C} (R : B -> C -> Prop) s t n x y : Forall2 R s t -> R x y -> Forall2 R (upd s n x) (upd t n y).
  Proof. intros H. revert n. induction H; intros [|n] Hr; cbn; auto. Qed.
  Lemma upd_id {B} (l : list B) n x : nth_error l n = Some x -> upd l n x = l.
  Proof. revert n. induction l; intros [|n] H; cbn in *; try congruence. now rewrite IHl. Qed.

  Lemma var_shows s t v : shows A s t ->
    match var A s v, sread A t v with
    | Ok x, Ok l => lst_shows A x l /\ nth_error s v = Some (Some x) /\ nth_error t v = Some (Some l)
    | UB, UB => True | _, _ => False end.
  Proof.
    intros H. unfold var, sread. pose proof (Forall2_nth _ _ _ v H) as N. cbv beta in N.
    destruct (nth_error s v) as [[x|]|], (nth_error t v) as [[l|]|]; tauto.
  Qed.
  Lemma free_shows s t v : shows A s t -> free_var A s v = sfree A t v.
  Proof.
    intros H. unfold free_var, sfree. pose proof (Forall2_nth _ _ _ v H) as N. cbv beta in N.
    destruct (nth_error s v) as [[x|]|], (nth_error t v) as [[l|]|]; tauto.
  Qed.

  Definition sim (r : res (vars A * out A)) (q : res (seqs A * out A)) : Prop :=
    match q with
    | Ok (t', y) => exists s', r = Ok (s', y) /\ shows A s' t'
    | Err => r = Err
    | UB => True
    | NoFuel => False
    end.
  Lemma step_raw_sim s t o : shows A s t -> sim (step_raw A eqb s o) (sstep_raw A eqb t o).
  Proof.
    intros H.
    assert (U : forall s t v x l, shows A s t -> lst_shows A x l -> shows A (upd s v (Some x)) (upd t v (Some l)))
      by (intros; now apply Forall2_upd).
    Ltac getv H v x l Sh := let V := fresh "V" in pose proof (var_shows _ _ v H) as V;
      destruct (var A _ v) as [x| | |], (sread A _ v) as [l| | |]; try contradiction; [|exact I];
      destruct V as (Sh & ? & ?); cbn [bind].
    destruct o; cbn [step_raw sstep_raw].
    - rewrite (free_shows _ _ v H). destruct (sfree A t v) eqn:E; cbn [bind sim]; auto.
      + eexists. split; [reflexivity|]. apply U; auto. apply empty_shows.
      + unfold sfree in E. destruct (nth_error t v) as [[?|]|]; discriminate.
    - rewrite (free_shows _ _ v H). destruct (sfree A t v) eqn:E; cbn [bind sim]; auto.
      2:{ unfold sfree in E. destruct (nth_error t v) as [[?|]|]; discriminate. }
      getv H w x l Sh. eexists. split; [reflexivity|]. apply U; auto. apply empty_shows.
    - getv H v x l Sh. getv H w x' l' S'. rewrite (destruct_ok _ _ Sh). cbn [bind].
      eexists. split; [reflexivity|]. apply U; auto. apply empty_shows.
    - getv H v x l Sh. rewrite (destruct_ok _ _ Sh). cbn [bind].
      eexists. split; [reflexivity|]. apply Forall2_upd; auto.
    - getv H v x l Sh. pose proof (zlen_nonneg l). destruct Sh as (C & Sh). 
      destruct (insert_at x l (count x) a (conj C Sh)) as (y & E & S'); [lia|]. rewrite E. cbn [bind].
      rewrite C in S' |- *. unfold ztake, zdrop in S'. rewrite zlen_to_nat, firstn_all, skipn_all in S'.
      eexists. split; [reflexivity|]. auto.
    - getv H v x l Sh. unfold sinsert. destruct ((0 <=? i) && (i <=? zlen l)) eqn:Hi; cbn [bind sim].
      + destruct (insert_at x l i a Sh) as (y & E & S'); [lia|]. rewrite E. cbn [bind]. eauto.
      + unfold insert. destruct Sh as (C & _). rewrite C. now replace ((i >=? 0) && (i <=? zlen l)) with false by lia.
    - getv H v x l Sh. destruct ((0 <=? i) && (i <? zlen l)) eqn:Hi; cbn [bind sim].
      + destruct (remove_at_at x l i Sh) as (y & E & S'); [lia|]. rewrite E. cbn [bind]. eauto.
      + unfold remove_at. destruct Sh as (C & _). rewrite C. now replace ((i >=? 0) && (i <? zlen l)) with false by lia.
    - getv H v x l Sh. unfold sremove. destruct ((0 <=? i) && (i <=? zlen l)) eqn:Hi; cbn [bind sim].
      + destruct ((- 2 ^ 63 <=? i + n) && (i + n <? 2 ^ 63)) eqn:Ho; cbn [negb sim bind]; auto.
        destruct (i + n <? 0) eqn:Hneg; cbn [bind sim].
        * unfold remove_range. destruct Sh as (C & _). rewrite C.
          replace ((i >=? 0) && (i <=? zlen l)) with true by lia.
          rewrite Ho. cbn [negb]. now replace (i + n >=? 0) with false by lia.
        * destruct (n <? 0) eqn:Hn; cbn [bind sim]; auto.
          destruct (i + n <=? zlen l) eqn:Hl; cbn [bind sim].
          -- destruct (remove_range_at x l i n Sh) as (y & E & S'); try lia. rewrite E. cbn [bind]. eauto.
          -- unfold remove_range. destruct Sh as (C & _). rewrite C.
             replace ((i >=? 0) && (i <=? zlen l)) with true by lia.
             replace ((- 2 ^ 63 <=? i + n) && (i + n <? 2 ^ 63)) with true by lia.
             now replace ((i + n >=? 0) && (i + n <=? zlen l)) with false by lia.
      + unfold remove_range. destruct Sh as (C & _). rewrite C. now replace ((i >=? 0) && (i <=? zlen l)) with false by lia.
    - getv H v x l Sh. unfold remove. rewrite (index_of_ok _ _ _ Sh). cbn [bind].
      pose proof (first_pos_range a l) as R. destruct (Sh) as (C & _). rewrite C.
      destruct (first_pos A eqb a l =? -1) eqn:E.
      + replace (first_pos A eqb a l >=? 0) with false by lia. cbn [andb bind sim].
        eexists. split; [reflexivity|]. rewrite upd_id by assumption. exact H.
      + replace ((first_pos A eqb a l >=? 0) && (first_pos A eqb a l <? zlen l)) with true by lia.
        destruct (remove_at_at x l (first_pos A eqb a l) Sh) as (y & E' & S'); [lia|]. rewrite E'. cbn [bind sim]. eauto.
    - getv H v x l Sh. destruct (clear_ok x l Sh) as (y & E & S'). rewrite E. cbn [bind sim]. eauto.
    - getv H v x l Sh. unfold sset. destruct ((0 <=? i) && (i <? zlen l)) eqn:Hi; cbn [bind sim].
      + destruct (set_ok x l i a Sh) as (y & E & S'); [lia|]. rewrite E. cbn [bind]. eauto.
      + unfold set. destruct Sh as (C & _). rewrite C. now replace ((i >=? 0) && (i <? zlen l)) with false by lia.
    - getv H v x l Sh. rewrite (get_ok _ _ i Sh). destruct (znth l i); cbn [bind sim]; eauto.
    - getv H v x l Sh. destruct Sh as (C & _). rewrite C. cbn [sim]. eauto.
    - getv H v x l Sh. rewrite (index_of_ok _ _ _ Sh). cbn [bind sim]. eauto.
    - getv H v x l Sh. rewrite (index_of_ok _ _ _ Sh). cbn [bind sim]. rewrite first_pos_existsb. eauto.
  Qed.

  Lemma sfree_shape t v : sfree A t v = Ok tt \/ sfree A t v = UB.
  Proof. unfold sfree. destruct (nth_error t v) as [[?|]|]; auto. Qed.
  Lemma step_sim s t o t' y : shows A s t -> sstep A eqb t o = Ok (t', y) ->
    exists s', step A eqb s o = Ok (s', y) /\ shows A s' t'.
  Proof.
    intros H E. pose proof (step_raw_sim s t o H) as K. unfold sim in K. unfold sstep in E. unfold step.
    destruct (sstep_raw A eqb t o) as [[t1 y1]| | |]; try discriminate.
    - destruct K as (s' & R & S'). assert (t1 = t' /\ y1 = y) as [-> ->] by (split; congruence).
      rewrite R. eauto.
    - rewrite K. assert (t = t' /\ RError = y) as [-> <-] by (split; congruence). eauto.
  Qed.
  Lemma run_sim os : forall s t t' ys, shows A s t -> srun A eqb t os = Ok (t', ys) ->
    exists s', run A eqb s os = Ok (s', ys) /\ shows A s' t'.
  Proof.
    induction os as [|o os IH]; intros s t t' ys H E; cbn [srun run] in *.
    - assert (t = t' /\ [] = ys) as [-> <-] by (split; congruence). eauto.
    - apply bind_ok in E. destruct E as ([t1 y1] & E1 & E). apply bind_ok in E. destruct E as ([t2 ys2] & E2 & E).
      destruct (step_sim _ _ _ _ _ H E1) as (s1 & R1 & H1). destruct (IH _ _ _ _ H1 E2) as (s2 & R2 & H2).
      rewrite R1. cbn [bind]. rewrite R2. cbn [bind]. exists s2. split; [congruence|]. congruence.
  Qed.
  Lemma shows_none n : shows A (repeat None n) (repeat None n).
  Proof. induction n; constructor; auto. Qed.
  Lemma list_refines n os t' ys : srun A eqb (repeat None n) os = Ok (t', ys) ->
    exists s', run A eqb (repeat None n) os = Ok (s', ys) /\ shows A s' t'.
  Proof. intros E. eapply run_sim; eauto. apply shows_none. Qed.
  Lemma lst_shows_exact x l : lst_shows A x l -> exact_slots A x.
  Proof.
    intros (C & Z & k & B). unfold exact_slots. rewrite C, B. zl. pose proof (zlen_nonneg l). split; [lia|].
    intros i Hi. rewrite znth_z by lia. split; intros Hl.
    - rewrite nth_error_app1 by (rewrite map_length; unfold zlen in *; lia). rewrite nth_error_map.
      destruct (nth_error l (Z.to_nat i)) as [a|] eqn:E; [eexists; reflexivity|].
      apply nth_error_None in E. unfold zlen in *. lia.
    - rewrite nth_error_app2 by (rewrite map_length; unfold zlen in *; lia). rewrite map_length.
      apply nth_error_repeat. unfold zlen in *. lia.
  Qed.
  Lemma list_slots n os t' ys s' ys' v x : srun A eqb (repeat None n) os = Ok (t', ys) ->
    run A eqb (repeat None n) os = Ok (s', ys') -> nth_error s' v = Some (Some x) -> exact_slots A x.
  Proof.
    intros E R N. destruct (list_refines _ _ _ _ E) as (s1 & R1 & H1).
    assert (s1 = s') by congruence. subst s1. pose proof (Forall2_nth _ _ _ v H1) as F. cbv beta in F.
    rewrite N in F. destruct (nth_error t' v) as [[l|]|]; try contradiction. eapply lst_shows_exact; eauto.
  Qed.
  Lemma list_destroy n os t' ys s' ys' v x : srun A eqb (repeat None n) os = Ok (t', ys) ->
    run A eqb (repeat None n) os = Ok (s', ys') -> nth_error s' v = Some (Some x) -> destruct A x = Ok tt.
  Proof.
    intros E R N. destruct (list_refines _ _ _ _ E) as (s1 & R1 & H1).
    assert (s1 = s') by congruence. subst s1. pose proof (Forall2_nth _ _ _ v H1) as F. cbv beta in F.
    rewrite N in F. destruct (nth_error t' v) as [[l|]|]; try contradiction. eapply destruct_ok; eauto.
  Qed.

  Lemma cap_ge_count n os t' ys s' ys' v x : srun A eqb (repeat None n) os = Ok (t', ys) ->
    run A eqb (repeat None n) os = Ok (s', ys') -> nth_error s' v = Some (Some x) ->
    0 <= count x <= cap x /\ zlen (buf x) = cap x.
  Proof.
    intros E R N. destruct (list_refines _ _ _ _ E) as (s1 & R1 & H1).
    assert (s1 = s') by congruence. subst s1. pose proof (Forall2_nth _ _ _ v H1) as F. cbv beta in F.
    rewrite N in F. destruct (nth_error t' v) as [[l|]|]; try contradiction.
    destruct F as (C & Z & k & B). rewrite C, <- Z, B. zl. pose proof (zlen_nonneg l). lia.
  Qed.

  (* ---- arrays --------------------------------------------------------------- *)
  Variable dflt : option A.
  Definition dslot : slot := match dflt with Some d => Live d | None => Moved end.
  Lemma default_ctors_at : forall n a b i, i = zlen a ->
    default_ctors A dflt (a ++ repeat Raw n ++ b) i n = Ok (a ++ repeat dslot n ++ b).
  Proof.
    induction n as [|n IH]; intros a b i Hi; cbn [default_ctors repeat app]; auto.
    rewrite construct_at by auto. cbn [bind]. fold dslot.
    replace (a ++ dslot :: repeat Raw n ++ b) with ((a ++ [dslot]) ++ repeat Raw n ++ b) by (now rewrite <- app_assoc).
    rewrite IH; [now rewrite <- app_assoc|zl; lia].
  Qed.
  Lemma shows_full m l : Forall2 (slot_shows A) m l -> full m.
  Proof. induction 1 as [|s e m l Hs _ IH]; constructor; auto. destruct e; cbn in Hs; subst; auto; discriminate. Qed.
  Lemma dslot_shows : slot_shows A dslot dflt.
  Proof. unfold dslot. destruct dflt; cbn; [reflexivity|discriminate]. Qed.
  Lemma Forall2_len {B C} (R : B -> C -> Prop) s t : Forall2 R s t -> length s = length t.
  Proof. induction 1; cbn; congruence. Qed.
  Lemma Forall2_repeat {B C} (R : B -> C -> Prop) x y n : R x y -> Forall2 R (repeat x n) (repeat y n).
  Proof. induction n; cbn; auto. Qed.
  Lemma empty_arr_shows : arr_shows A empty_arr [].
  Proof. split; [reflexivity|constructor]. Qed.
  Lemma a_new_ok n : 0 <= n -> exists x, a_new A dflt n = Ok x /\ arr_shows A x (repeat dflt (Z.to_nat n)).
  Proof.
    intros H. unfold a_new. replace (n >=? 0) with true by lia. rewrite allocate_pos by lia.
    pose proof (default_ctors_at (Z.to_nat n) [] [] 0 eq_refl) as M. cbn [app] in M. rewrite !app_nil_r in M. rewrite M.
    cbn [bind]. eexists. split; [reflexivity|]. split; [cbn [acount]; zl; lia|]. apply Forall2_repeat, dslot_shows.
  Qed.
  Lemma a_from_ok src n : 0 <= n <= zlen src ->
    exists x, a_from A src n = Ok x /\ arr_shows A x (map Some (ztake A n src)).
  Proof.
    intros H. unfold a_from. replace (n >=? 0) with true by lia. replace (n <=? zlen src) with true by lia.
    rewrite allocate_pos by lia. fold (ztake A n src).
    assert (L : length (ztake A n src) = Z.to_nat n) by (unfold ztake; rewrite firstn_length; unfold zlen in *; lia).
    pose proof (copy_ctors_at (ztake A n src) [] [] 0 (Z.to_nat n) eq_refl (eq_sym L)) as M. cbn [app] in M.
    rewrite !app_nil_r in M. rewrite M. cbn [bind]. eexists. split; [reflexivity|]. split.
    - cbn [acount]. zl. unfold zlen. lia.
    - cbn [abuf]. generalize (ztake A n src). intros l. induction l; constructor; cbn; auto.
  Qed.
  Lemma a_dtors m l n : Forall2 (slot_shows A) m l -> n = zlen l ->
    dtors A m 0 (Z.to_nat n) = Ok (repeat Raw (length m)).
  Proof.
    intros H Hn. pose proof (Forall2_len _ _ _ H) as L.
    pose proof (dtors_at m [] [] 0 (length m) eq_refl eq_refl (shows_full _ _ H)) as M. cbn [app] in M.
    rewrite !app_nil_r in M. replace (Z.to_nat n) with (length m) by (unfold zlen in *; lia). exact M.
  Qed.
  Lemma a_destruct_ok x l : arr_shows A x l -> a_destruct A x = Ok tt.
  Proof.
    intros (C & H). unfold a_destruct. destruct (abuf x) as [|s0 b0] eqn:EB; [reflexivity|]. rewrite <- EB in *.
    rewrite (a_dtors _ _ _ H C). cbn [bind]. apply deallocate_raw.
  Qed.
  Lemma a_split m l i : Forall2 (slot_shows A) m l -> 0 <= i < zlen l ->
    exists m1 s m2 l1 e l2, m = m1 ++ s :: m2 /\ l = l1 ++ e :: l2 /\ zlen m1 = i /\ zlen l1 = i /\ znth l i = Some e /\
      slot_shows A s e /\ Forall2 (slot_shows A) m1 l1 /\ Forall2 (slot_shows A) m2 l2.
  Proof.
    intros H Hi. destruct (zsplit1 l i Hi) as (l1 & e & l2 & -> & L & N & _).
    apply Forall2_app_inv_r in H. destruct H as (m1 & m2' & H1 & H2 & ->). inversion H2; subst.
    exists m1, x, l, l1, e, l2. repeat split; auto. unfold zlen. now rewrite (Forall2_len _ _ _ H1).
  Qed.
  Lemma upd_split {B} (l1 : list B) e l2 i y : zlen l1 = i -> upd (l1 ++ e :: l2) (Z.to_nat i) y = l1 ++ y :: l2.
  Proof. intros <-. rewrite zlen_to_nat. apply upd_app2. Qed.
  Lemma a_get_ok x l i : arr_shows A x l -> a_get A x i = match znth l i with Some (Some a) => Ok a | Some None => a_get A x i | None => Err end.
  Proof.
    intros (C & H). unfold a_get. rewrite C. destruct ((i >=? 0) && (i <? zlen l)) eqn:E.
    - destruct (a_split _ _ i H) as (m1 & s & m2 & l1 & e & l2 & Em & El & L1 & L2 & N & Hs & _); [lia|]. rewrite N.
      destruct e as [a|]; auto. cbn in Hs. subst s. unfold read. rewrite Em, aget_app by auto. reflexivity.
    - unfold znth. destruct (i <? 0) eqn:E0; auto.
      destruct (nth_error l (Z.to_nat i)) eqn:N; auto. apply nth_error_lt in N. unfold zlen in E. lia.
  Qed.
  Lemma a_set_ok x l i a : arr_shows A x l -> 0 <= i < zlen l ->
    exists y, a_set A x i a = Ok y /\ arr_shows A y (upd l (Z.to_nat i) (Some a)).
  Proof.
    intros (C & H) Hi. unfold a_set. rewrite C. replace ((i >=? 0) && (i <? zlen l)) with true by lia.
    destruct (a_split _ _ i H Hi) as (m1 & s & m2 & l1 & e & l2 & Em & El & L1 & L2 & N & Hs & F1 & F2).
    rewrite Em. rewrite assign_at; auto. 2:{ destruct e; cbn in Hs; subst; auto; discriminate. }
    cbn [bind]. eexists. split; [reflexivity|]. rewrite El, upd_split by auto. split.
    - cbn [acount]. zl. lia.
    - cbn [abuf]. apply Forall2_app; auto. constructor; auto. reflexivity.
  Qed.
  Lemma a_index_loop a : forall m2 l2, Forall2 (slot_shows A) m2 l2 -> forall m1 i n, i = zlen m1 -> n = length m2 ->
    afirst_pos A eqb a l2 <> UB ->
    exists r, afirst_pos A eqb a l2 = Ok r /\ -1 <= r /\
      index_loop A eqb (m1 ++ m2) a i n = Ok (if r =? -1 then -1 else i + r).
  Proof.
    induction 1 as [|s e m2 l2 Hs H IH]; intros m1 i n Hi Hn N; subst n; cbn [length index_loop afirst_pos] in *.
    - exists (-1). repeat split; auto. lia.
    - destruct e as [x|]; [|congruence]. cbn in Hs. subst s. unfold read at 1. rewrite aget_app by auto. cbn [bind].
      destruct (eqb x a).
      + exists 0. repeat split; auto; try lia. replace (0 =? -1) with false by lia. f_equal. lia.
      + destruct (IH (m1 ++ [Live x]) (i + 1) (length m2)) as (r & E & Hr & R); [zl; lia|auto|intros F; rewrite F in N; apply N; reflexivity|].
        rewrite E. cbn [bind]. rewrite <- app_assoc in R. cbn [app] in R. rewrite R. eexists. split; [reflexivity|].
        destruct (r =? -1) eqn:E1; split; try lia; auto.
        replace (r + 1 =? -1) with false by lia. f_equal. lia.
  Qed.
  Lemma a_index_of_ok x l a : arr_shows A x l -> afirst_pos A eqb a l <> UB -> a_index_of A eqb x a = afirst_pos A eqb a l.
  Proof.
    intros (C & H) N. unfold a_index_of. rewrite C.
    destruct (a_index_loop a _ _ H [] 0 (length (abuf x)) eq_refl eq_refl N) as (r & E & Hr & R). cbn [app] in R.
    replace (Z.to_nat (zlen l)) with (length (abuf x)) by (rewrite zlen_to_nat; apply (Forall2_len _ _ _ H)).
    rewrite R, E. destruct (r =? -1) eqn:E1; f_equal; lia.
  Qed.
  Lemma a_resize_ok x l n : arr_shows A x l -> 0 <= n ->
    exists y, a_resize A dflt x n = Ok y /\ arr_shows A y (firstn (Z.to_nat n) l ++ repeat dflt (Z.to_nat (n - zlen l))).
  Proof.
    intros (C & H) Hn. unfold a_resize. rewrite C. replace (n >=? 0) with true by lia. cbv zeta.
    rewrite allocate_pos by lia. pose proof (Forall2_len _ _ _ H) as L. destruct (n <? zlen l) eqn:E.
    - destruct (zsplit l n) as (l1 & l2 & El & L1 & E1 & E2); [lia|]. rewrite <- E1.
      rewrite El in H. apply Forall2_app_inv_r in H. destruct H as (m1 & m2 & H1 & H2 & Em). rewrite Em.
      pose proof (Forall2_len _ _ _ H1) as Lm1.
      pose proof (move_across_at m1 [] [] [] m2 0 0 (Z.to_nat n) eq_refl eq_refl) as M. cbn [app] in M.
      rewrite !app_nil_r in M. rewrite M; [|unfold zlen in *; lia|eapply shows_full; eauto]. cbn [bind].
      pose proof (dtors_at (repeat Moved (Z.to_nat n) ++ m2) [] [] 0 (Z.to_nat (zlen l)) eq_refl) as M2. cbn [app] in M2.
      rewrite !app_nil_r in M2. rewrite M2.
      + cbn [bind]. rewrite deallocate_raw. cbn [bind]. eexists. split; [reflexivity|].
        replace (Z.to_nat (n - zlen l)) with 0%nat by lia. cbn [repeat]. rewrite app_nil_r. split; [cbn [acount]; lia|exact H1].
      + rewrite app_length, repeat_length, zlen_to_nat, <- L, Em, app_length. unfold zlen in *. lia.
      + apply Forall_app. split; [apply full_moved|eapply shows_full; eauto].
    - rewrite (repeat_split Raw (Z.to_nat n) (length (abuf x)) (Z.to_nat (n - zlen l))) by (unfold zlen in *; lia).
      replace (Z.to_nat (zlen l)) with (length (abuf x)) by (rewrite zlen_to_nat; exact L).
      pose proof (move_across_at (abuf x) [] (repeat Raw (Z.to_nat (n - zlen l))) [] [] 0 0 (length (abuf x)) eq_refl eq_refl eq_refl (shows_full _ _ H)) as M.
      cbn [app] in M. rewrite !app_nil_r in M. rewrite M. cbn [bind].
      pose proof (default_ctors_at (Z.to_nat (n - zlen l)) (abuf x) [] (zlen l)) as M2. rewrite !app_nil_r in M2.
      rewrite M2 by (unfold zlen; lia). cbn [bind].
      pose proof (dtors_at (repeat Moved (length (abuf x))) [] [] 0 (length (abuf x)) eq_refl) as M3. cbn [app] in M3.
      rewrite !app_nil_r in M3. rewrite M3; [|now rewrite repeat_length|apply full_moved]. cbn [bind].
      rewrite deallocate_raw. cbn [bind]. eexists. split; [reflexivity|].
      rewrite firstn_all2 by (unfold zlen in *; lia). split; [cbn [acount]; zl; lia|].
      cbn [abuf]. apply Forall2_app; auto. apply Forall2_repeat, dslot_shows.
  Qed.

  Lemma avar_shows s t v : ashows A s t ->
    match avar A s v, asread A t v with
    | Ok x, Ok l => arr_shows A x l
    | UB, UB => True | _, _ => False end.
  Proof.
    intros H. unfold avar, asread. pose proof (Forall2_nth _ _ _ v H) as N. cbv beta in N.
    destruct (nth_error s v) as [[x|]|], (nth_error t v) as [[l|]|]; tauto.
  Qed.
  Lemma afree_shows s t v : ashows A s t -> afree A s v = asfree A t v /\ (asfree A t v = Ok tt \/ asfree A t v = UB).
  Proof.
    intros H. unfold afree, asfree. pose proof (Forall2_nth _ _ _ v H) as N. cbv beta in N.
    destruct (nth_error s v) as [[x|]|], (nth_error t v) as [[l|]|]; tauto.
  Qed.
  Definition asim (r : res (avars A * out A)) (q : res (aseqs A * out A)) : Prop :=
    match q with
    | Ok (t', y) => exists s', r = Ok (s', y) /\ ashows A s' t'
    | Err => r = Err
    | UB => True
    | NoFuel => False
    end.
  Lemma afirst_pos_shape a l : (exists z, afirst_pos A eqb a l = Ok z) \/ afirst_pos A eqb a l = UB.
  Proof.
    induction l as [|[x|] l IH]; cbn [afirst_pos]; eauto. destruct (eqb x a); eauto.
    destruct IH as [(z & ->)| ->]; cbn; eauto.
  Qed.
  Lemma astep_raw_sim s t o : ashows A s t -> asim (astep_raw A eqb dflt s o) (asstep_raw A eqb dflt t o).
  Proof.
    intros H.
    assert (U : forall s t v x l, ashows A s t -> arr_shows A x l -> ashows A (upd s v (Some x)) (upd t v (Some l)))
      by (intros; now apply Forall2_upd).
    Ltac getav H v x l Sh := let V := fresh "V" in pose proof (avar_shows _ _ v H) as V;
      destruct (avar A _ v) as [x| | |], (asread A _ v) as [l| | |]; try contradiction; [|exact I];
      rename V into Sh; cbn [bind].
    Ltac getfree H v := let V := fresh in let W := fresh in destruct (afree_shows _ _ v H) as (V & [W|W]);
      rewrite V, W; cbn [bind]; [|exact I].
    destruct o; cbn [astep_raw asstep_raw].
    - getfree H v. destruct (0 <=? size) eqn:E; cbn [asim].
      + destruct (a_new_ok size) as (x & R & Sh); [lia|]. rewrite R. cbn [bind]. eauto.
      + unfold a_new. now replace (size >=? 0) with false by lia.
    - getfree H v. destruct (size <? 0) eqn:E; cbn [asim].
      + unfold a_from. now replace (size >=? 0) with false by lia.
      + destruct (size <=? zlen src) eqn:E2; cbn [asim]; auto.
        destruct (a_from_ok src size) as (x & R & Sh); [lia|]. rewrite R. cbn [bind]. eauto.
    - getfree H v. getav H w x l Sh. eexists. split; [reflexivity|]. apply U; auto. apply empty_arr_shows.
    - getav H v x l Sh. getav H w x' l' Sh'. rewrite (a_destruct_ok _ _ Sh). cbn [bind].
      eexists. split; [reflexivity|]. apply U; auto. apply empty_arr_shows.
    - getav H v x l Sh. rewrite (a_destruct_ok _ _ Sh). cbn [bind]. eexists. split; [reflexivity|]. apply Forall2_upd; auto.
    - getav H v x l Sh. destruct ((0 <=? i) && (i <? zlen l)) eqn:E; cbn [asim].
      + destruct (a_set_ok x l i a Sh) as (y & R & Sh'); [lia|]. rewrite R. cbn [bind]. eauto.
      + unfold a_set. destruct Sh as (C & _). rewrite C. now replace ((i >=? 0) && (i <? zlen l)) with false by lia.
    - getav H v x l Sh. destruct (size <? 0) eqn:E; cbn [asim].
      + unfold a_resize. now replace (size >=? 0) with false by lia.
      + destruct (a_resize_ok x l size Sh) as (y & R & Sh'); [lia|]. rewrite R. cbn [bind]. eauto.
    - getav H v x l Sh. pose proof (a_get_ok _ _ i Sh) as R. destruct (znth l i) as [[a|]|]; cbn [asim]; auto; rewrite R; cbn [bind]; eauto.
    - getav H v x l Sh. destruct Sh as (C & _). rewrite C. cbn [asim]. eauto.
    - getav H v x l Sh. destruct (afirst_pos_shape a l) as [(z & E)|E].
      + rewrite (a_index_of_ok _ _ _ Sh) by congruence. rewrite E. cbn [bind asim]. eauto.
      + rewrite E. exact I.
    - getav H v x l Sh. destruct (afirst_pos_shape a l) as [(z & E)|E].
      + rewrite (a_index_of_ok _ _ _ Sh) by congruence. rewrite E. cbn [bind asim]. eauto.
      + rewrite E. exact I.
  Qed.
  Lemma astep_sim s t o t' y : ashows A s t -> asstep A eqb dflt t o = Ok (t', y) ->
    exists s', astep A eqb dflt s o = Ok (s', y) /\ ashows A s' t'.
  Proof.
    intros H E. pose proof (astep_raw_sim s t o H) as K. unfold asim in K. unfold asstep in E. unfold astep.
    destruct (asstep_raw A eqb dflt t o) as [[t1 y1]| | |]; try discriminate.
    - destruct K as (s' & R & S'). assert (t1 = t' /\ y1 = y) as [-> ->] by (split; congruence).
      rewrite R. eauto.
    - rewrite K. assert (t = t' /\ RError = y) as [-> <-] by (split; congruence). eauto.
  Qed.
  Lemma arun_sim os : forall s t t' ys, ashows A s t -> asrun A eqb dflt t os = Ok (t', ys) ->
    exists s', arun A eqb dflt s os = Ok (s', ys) /\ ashows A s' t'.
  Proof.
    induction os as [|o os IH]; intros s t t' ys H E; cbn [asrun arun] in *.
    - assert (t = t' /\ [] = ys) as [-> <-] by (split; congruence). eauto.
    - apply bind_ok in E. destruct E as ([t1 y1] & E1 & E). apply bind_ok in E. destruct E as ([t2 ys2] & E2 & E).
      destruct (astep_sim _ _ _ _ _ H E1) as (s1 & R1 & H1). destruct (IH _ _ _ _ H1 E2) as (s2 & R2 & H2).
      rewrite R1. cbn [bind]. rewrite R2. cbn [bind]. exists s2. split; [congruence|]. congruence.
  Qed.
  Lemma ashows_none n : ashows A (repeat None n) (repeat None n).
  Proof. induction n; constructor; auto. Qed.
  Lemma array_refines n os t' ys : asrun A eqb dflt (repeat None n) os = Ok (t', ys) ->
    exists s', arun A eqb dflt (repeat None n) os = Ok (s', ys) /\ ashows A s' t'.
  Proof. intros E. eapply arun_sim; eauto. apply ashows_none. Qed.
  Lemma array_slots n os t' ys s' ys' v x : asrun A eqb dflt (repeat None n) os = Ok (t', ys) ->
    arun A eqb dflt (repeat None n) os = Ok (s', ys') -> nth_error s' v = Some (Some x) ->
    exact_aslots A x /\ a_destruct A x = Ok tt.
  Proof.
    intros E R N. destruct (array_refines _ _ _ _ E) as (s1 & R1 & H1).
    assert (s1 = s') by congruence. subst s1. pose proof (Forall2_nth _ _ _ v H1) as F. cbv beta in F.
    rewrite N in F. destruct (nth_error t' v) as [[l|]|]; try contradiction. split; [|eapply a_destruct_ok; eauto].
    destruct F as (C & F). split.
    - rewrite C. unfold zlen. now rewrite (Forall2_len _ _ _ F).
    - intros i Hc. pose proof (shows_full _ _ F) as G. unfold znth in Hc. destruct (i <? 0); [discriminate|].
      apply nth_error_In in Hc. unfold full in G. rewrite Forall_forall in G. now apply (G Raw).
  Qed.
  Lemma a_get_err x l i : arr_shows A x l -> (a_get A x i = Err <-> ~ 0 <= i < zlen l).
  Proof.
    intros (C & H). unfold a_get. rewrite C. split.
    - intros E N. replace ((i >=? 0) && (i <? zlen l)) with true in E by lia. unfold read, aget in E.
      destruct (znth (abuf x) i) as [[| |]|]; discriminate.
    - intros N. now replace ((i >=? 0) && (i <? zlen l)) with false by lia.
  Qed.
  Lemma a_set_err x l i a : arr_shows A x l -> (a_set A x i a = Err <-> ~ 0 <= i < zlen l).
  Proof.
    intros H. split.
    - intros E N. destruct (a_set_ok x l i a H N) as (y & R & _). congruence.
    - intros N. unfold a_set. destruct H as (C & _). rewrite C. now replace ((i >=? 0) && (i <? zlen l)) with false by lia.
  Qed.
  Lemma a_resize_err x l n : arr_shows A x l -> (a_resize A dflt x n = Err <-> n < 0).
  Proof.
    intros H. split.
    - intros E. destruct (Z.ltb_spec n 0); auto. destruct (a_resize_ok x l n H) as (y & R & _); [lia|]. congruence.
    - intros N. unfold a_resize. now replace (n >=? 0) with false by lia.
  Qed.
End Lst.
