From Coq Require Import Permutation.
From Verif Require Import Base BaseFacts LzyModel LzySpec LzyProofs LstModel LstSpec LstProofs SrtModel SrtSpec SrtProofs CpyModel CpySpec.
Open Scope Z_scope.

Section Copy.
  Variable A : Type.
  Variable dflt : option A.
  Variable c : A -> A -> comparison.
  Let cmp := fun a b => Some (c a b).

  Lemma src_count_ok s (m : list A) : src_shows s m -> src_count A s = zlen m.
  Proof.
    destruct s as [x|x|l n]; cbn [src_shows src_count].
    - intros [C _]. now rewrite C, zlen_map.
    - now intros [C _].
    - intros [H ->]. unfold zlen in *. rewrite firstn_length. lia.
  Qed.
  Lemma src_get_ok s (m : list A) k v : src_shows s m -> nth_error m k = Some v -> src_get A s (Z.of_nat k) = Ok v.
  Proof.
    destruct s as [x|x|l n]; cbn [src_shows src_get]; intros H E.
    - rewrite (a_get_ok A x _ _ H), znth_nat, nth_error_map, E. reflexivity.
    - rewrite (get_ok A x _ _ H), znth_nat, E. reflexivity.
    - destruct H as [H ->]. rewrite znth_nat. assert (L := nth_error_lt _ _ _ E). rewrite firstn_length in L.
      rewrite <- (firstn_skipn (Z.to_nat n) l), nth_error_app1, E; auto. rewrite firstn_length. lia.
  Qed.

  (* writing a value at position (length done) of an array that holds done ++ rest *)
  Lemma a_set_next y (done : list (option A)) e rest v : arr_shows A y (done ++ e :: rest) ->
    exists y', a_set A y (zlen done) v = Ok y' /\ arr_shows A y' (done ++ Some v :: rest).
  Proof.
    intros H. destruct (a_set_ok A (fun _ _ => true) y _ (zlen done) v H) as (y' & E & S'); [rewrite zlen_app, zlen_cons; pose proof (zlen_nonneg done); pose proof (zlen_nonneg rest); lia|].
    exists y'. split; auto. now rewrite (upd_split done e rest _ _ eq_refl) in S'.
  Qed.
  Lemma set_loop_ok s (m : list A) (old : list (option A)) : src_shows s m -> forall n k y rest, (k + n = length m)%nat -> length rest = n ->
    arr_shows A y (old ++ map Some (firstn k m) ++ rest) ->
    exists y', set_loop A y s (zlen old) (Z.of_nat k) n = Ok y' /\ arr_shows A y' (old ++ map Some m).
  Proof.
    intros HS. induction n as [|n IH]; intros k y rest Hk Hr H; cbn [set_loop].
    - exists y. split; auto. destruct rest; [|discriminate]. rewrite firstn_all2, app_nil_r in H by lia. exact H.
    - destruct rest as [|e rest]; [discriminate|]. destruct (nth_lt _ m k) as (v & Ev); [lia|]. rewrite (src_get_ok _ _ _ _ HS Ev). cbn [bind].
      rewrite app_assoc in H. destruct (a_set_next _ _ _ _ v H) as (y' & E & H').
      replace (zlen (old ++ map Some (firstn k m))) with (zlen old + Z.of_nat k) in E by (rewrite zlen_app; unfold zlen; rewrite map_length, firstn_length; lia).
      rewrite E. cbn [bind]. replace (Z.of_nat k + 1) with (Z.of_nat (S k)) by lia. apply (IH (S k) y' rest); [lia|cbn [length] in Hr; lia|].
      rewrite (firstn_S _ _ _ _ Ev), map_app, <- !app_assoc in *. cbn [map app]. exact H'.
  Qed.
  Lemma resize_room x (l : list (option A)) (append : bool) n : arr_shows A x l ->
    exists y rest, a_resize A dflt x ((if append then acount x else 0) + Z.of_nat n) = Ok y /\ length rest = n /\ arr_shows A y (kept append l ++ rest) /\
      (if append then acount x else 0) = zlen (kept append l).
  Proof.
    intros H. destruct (H) as [C _]. pose proof (zlen_nonneg l). 
    destruct (a_resize_ok A dflt x l ((if append then acount x else 0) + Z.of_nat n) H) as (y & E & H'); [destruct append; lia|].
    destruct append; cbn [kept].
    - exists y, (repeat dflt n). split; auto. split; [apply repeat_length|]. split; [|auto].
      rewrite C in H'. rewrite firstn_all2 in H' by (unfold zlen; lia). replace (Z.to_nat (zlen l + Z.of_nat n - zlen l)) with n in H' by lia. exact H'.
    - exists y, (firstn n l ++ repeat dflt (n - length l)). split; auto. split; [rewrite app_length, firstn_length, repeat_length; lia|]. split; [|reflexivity].
      cbn [app]. replace (Z.to_nat (0 + Z.of_nat n)) with n in H' by lia. replace (Z.to_nat (0 + Z.of_nat n - zlen l)) with (n - length l)%nat in H' by (unfold zlen; lia). exact H'.
  Qed.
  Lemma copy_arr_ra_ok x l s m append : arr_shows A x l -> src_shows s m ->
    exists y, copy_arr_ra A dflt x s append = Ok y /\ arr_shows A y (kept append l ++ map Some m).
  Proof.
    intros H HS. unfold copy_arr_ra. rewrite (src_count_ok _ _ HS). unfold zlen at 1.
    destruct (resize_room x l append (length m) H) as (y & rest & E & Hr & H' & Ei). rewrite E. cbn [bind]. rewrite Ei. rewrite zlen_to_nat.
    apply (set_loop_ok s m (kept append l) HS (length m) 0 y rest); auto.
  Qed.

  Lemma add_list x l v : lst_shows A x l -> exists y, add A cmp KList x v = Ok y /\ lst_shows A y (l ++ [v]).
  Proof.
    intros H. cbn [add]. destruct (H) as [C _]. destruct (insert_at A x l (count x) v H) as (y & E & H'); [rewrite C; pose proof (zlen_nonneg l); lia|].
    exists y. split; auto. rewrite C in H'. unfold ztake, zdrop in H'. rewrite firstn_all2, skipn_all2 in H' by (unfold zlen; lia). exact H'.
  Qed.
  Lemma clear_kept x l (append : bool) : lst_shows A x l -> exists y, (if append then Ok x else clear A x) = Ok y /\ lst_shows A y (kept append l).
  Proof. intros H. destruct append; [eauto|]. now apply clear_ok with l. Qed.
  Lemma add_loop_ok s (m : list A) (R : lst A -> list A -> Prop) k :
    (forall x l v, R x l -> exists y l', add A cmp k x v = Ok y /\ R y l' /\ Permutation l' (l ++ [v]) /\ (k = KList -> l' = l ++ [v])) ->
    src_shows s m -> forall n j y l, (j + n = length m)%nat -> R y l ->
    exists y' l', add_loop A cmp k y s (Z.of_nat j) n = Ok y' /\ R y' l' /\ Permutation l' (l ++ skipn j m) /\ (k = KList -> l' = l ++ skipn j m).
  Proof.
    intros HA HS. induction n as [|n IH]; intros j y l Hj H; cbn [add_loop].
    - exists y, l. rewrite skipn_all2, app_nil_r by lia. auto.
    - destruct (nth_lt _ m j) as (v & Ev); [lia|]. rewrite (src_get_ok _ _ _ _ HS Ev). cbn [bind].
      destruct (HA y l v H) as (y1 & l1 & E & H1 & P1 & L1). rewrite E. cbn [bind]. replace (Z.of_nat j + 1) with (Z.of_nat (S j)) by lia.
      destruct (IH (S j) y1 l1) as (y2 & l2 & E2 & H2 & P2 & L2); auto; [lia|]. exists y2, l2. split; auto. split; auto.
      rewrite (skipn_cons _ _ _ _ Ev). change (v :: skipn (S j) m) with ([v] ++ skipn (S j) m). rewrite app_assoc. split.
      + rewrite P2. now apply Permutation_app_tail.
      + intros K. rewrite (L2 K), (L1 K). reflexivity.
  Qed.
  Lemma add_enum_ok (m : list A) i0 rs P (HM : LzyProofs.sim m i0 rs P) (R : lst A -> list A -> Prop) k :
    (forall x l v, R x l -> exists y l', add A cmp k x v = Ok y /\ R y l' /\ Permutation l' (l ++ [v]) /\ (k = KList -> l' = l ++ [v])) ->
    forall n j y l e, (length m - j = n)%nat -> P (Some j) e -> R y l ->
    exists y' l', yields (fun f => add_enum A cmp f k y e) y' /\ R y' l' /\ Permutation l' (l ++ skipn j m) /\ (k = KList -> l' = l ++ skipn j m).
  Proof.
    intros HA. induction n as [|n IH]; intros j y l e Hj HP H; pose proof (s_bound _ _ _ _ HM _ _ HP).
    - assert (j = length m) by lia. subst j. destruct (s_end _ _ _ _ HM _ HP) as (e' & Y & _). exists y, l. rewrite skipn_all, app_nil_r. split; auto.
      eapply y_step; [intros f; cbn [add_enum]; reflexivity|]. eapply y_bind; [exact Y|]. apply y_ret.
    - destruct (s_next _ _ _ _ HM _ _ HP) as (e' & Y & HP'); [lia|]. destruct (s_cur _ _ _ _ HM _ _ HP') as (v & Ev & Ec).
      destruct (HA y l v H) as (y1 & l1 & E & H1 & P1 & L1). destruct (IH (S j) y1 l1 e') as (y2 & l2 & E2 & H2 & P2 & L2); auto; [lia|]. exists y2, l2. split.
      { eapply y_step; [intros f; cbn [add_enum]; reflexivity|]. eapply y_bind; [exact Y|]. cbv beta iota. rewrite Ec. cbn [bind]. rewrite E. cbn [bind]. exact E2. }
      split; auto. rewrite (skipn_cons _ _ _ _ Ev). change (v :: skipn (S j) m) with ([v] ++ skipn (S j) m). rewrite app_assoc. split.
      + rewrite P2. now apply Permutation_app_tail.
      + intros K. rewrite (L2 K), (L1 K). reflexivity.
  Qed.
  Lemma add_R_list x l v : lst_shows A x l -> exists y l', add A cmp KList x v = Ok y /\ lst_shows A y l' /\ Permutation l' (l ++ [v]) /\ (KList = KList -> l' = l ++ [v]).
  Proof. intros H. destruct (add_list x l v H) as (y & E & H'). exists y, (l ++ [v]). auto. Qed.
  Lemma add_R_sorted (TO : total_order c) x l v : lst_shows A x l /\ ascending A c l ->
    exists y l', add A cmp KSorted x v = Ok y /\ (lst_shows A y l' /\ ascending A c l') /\ Permutation l' (l ++ [v]) /\ (KSorted = KList -> l' = l ++ [v]).
  Proof.
    intros [H Ha]. cbn [add]. destruct (s_add_ok A c TO x l v H Ha) as (y & l1 & l2 & E & Es & H' & Ha' & _). unfold cmp. rewrite Es. cbn [bind].
    exists y, (l1 ++ v :: l2). split; auto. split; auto. split; [|discriminate]. subst l. rewrite <- app_assoc. apply Permutation_app_head. apply Permutation_cons_append.
  Qed.
  Lemma copy_lst_ra_ok x l s m append : lst_shows A x l -> src_shows s m ->
    exists y, copy_lst_ra A cmp KList x s append = Ok y /\ lst_shows A y (kept append l ++ m).
  Proof.
    intros H HS. unfold copy_lst_ra. destruct (clear_kept x l append H) as (x' & E & H'). rewrite E. cbn [bind]. rewrite (src_count_ok _ _ HS), zlen_to_nat.
    destruct (add_loop_ok s m _ KList add_R_list HS (length m) 0 x' _ eq_refl H') as (y & l' & E2 & H2 & _ & L). exists y. split; auto. rewrite (L eq_refl) in H2. exact H2.
  Qed.
  Lemma copy_srt_ra_ok x l s m append : total_order c -> lst_shows A x l -> ascending A c l -> src_shows s m ->
    exists y r, copy_lst_ra A cmp KSorted x s append = Ok y /\ lst_shows A y r /\ ascending A c r /\ Permutation r (kept append l ++ m).
  Proof.
    intros TO H Ha HS. unfold copy_lst_ra. destruct (clear_kept x l append H) as (x' & E & H'). rewrite E. cbn [bind]. rewrite (src_count_ok _ _ HS), zlen_to_nat.
    assert (Ha' : ascending A c (kept append l)) by (destruct append; [exact Ha|constructor]).
    destruct (add_loop_ok s m _ KSorted (add_R_sorted TO) HS (length m) 0 x' _ eq_refl (conj H' Ha')) as (y & l' & E2 & [H2 H3] & P & _). exists y, l'. auto.
  Qed.
  Lemma copy_lst_en_ok x l (p : pipe A) append : lst_shows A x l -> tame p ->
    exists y, yields (fun f => copy_lst_en A cmp f KList x p append) y /\ lst_shows A y (kept append l ++ denote p).
  Proof.
    intros H T. unfold copy_lst_en. destruct (clear_kept x l append H) as (x' & E & H'). destruct (build_ok A p T) as (e & i & Y & (P & HS & HP) & _).
    destruct (add_enum_ok _ _ _ P HS _ KList add_R_list _ 0 x' _ e eq_refl HP H') as (y & l' & Y2 & H2 & _ & L). exists y. split; [|rewrite (L eq_refl) in H2; exact H2].
    rewrite E. cbn [bind]. eapply y_bind; [exact Y|]. exact Y2.
  Qed.
  Lemma copy_srt_en_ok x l (p : pipe A) append : total_order c -> lst_shows A x l -> ascending A c l -> tame p ->
    exists y r, yields (fun f => copy_lst_en A cmp f KSorted x p append) y /\ lst_shows A y r /\ ascending A c r /\ Permutation r (kept append l ++ denote p).
  Proof.
    intros TO H Ha T. unfold copy_lst_en. destruct (clear_kept x l append H) as (x' & E & H'). destruct (build_ok A p T) as (e & i & Y & (P & HS & HP) & _).
    assert (Ha' : ascending A c (kept append l)) by (destruct append; [exact Ha|constructor]).
    destruct (add_enum_ok _ _ _ P HS _ KSorted (add_R_sorted TO) _ 0 x' _ e eq_refl HP (conj H' Ha')) as (y & l' & Y2 & [H2 H3] & Pm & _). exists y, l'. split; [|auto].
    rewrite E. cbn [bind]. eapply y_bind; [exact Y|]. exact Y2.
  Qed.
  Lemma set_enum_ok (m : list A) i0 rs P (HM : LzyProofs.sim m i0 rs P) (old : list (option A)) : forall n j y e rest, (length m - j = n)%nat -> length rest = n -> P (Some j) e ->
    arr_shows A y (old ++ map Some (firstn j m) ++ rest) ->
    exists y', yields (fun f => set_enum A f y (zlen old + Z.of_nat j) e) y' /\ arr_shows A y' (old ++ map Some m).
  Proof.
    induction n as [|n IH]; intros j y e rest Hj Hr HP H; pose proof (s_bound _ _ _ _ HM _ _ HP).
    - assert (j = length m) by lia. subst j. destruct (s_end _ _ _ _ HM _ HP) as (e' & Y & _). exists y. split.
      + eapply y_step; [intros f; cbn [set_enum]; reflexivity|]. eapply y_bind; [exact Y|]. apply y_ret.
      + destruct rest; [|discriminate]. rewrite firstn_all, app_nil_r in H. exact H.
    - destruct rest as [|o rest]; [discriminate|]. destruct (s_next _ _ _ _ HM _ _ HP) as (e' & Y & HP'); [lia|]. destruct (s_cur _ _ _ _ HM _ _ HP') as (v & Ev & Ec).
      rewrite app_assoc in H. destruct (a_set_next _ _ _ _ v H) as (y' & E & H').
      replace (zlen (old ++ map Some (firstn j m))) with (zlen old + Z.of_nat j) in E by (rewrite zlen_app; unfold zlen; rewrite map_length, firstn_length; lia).
      destruct (IH (S j) y' e' rest) as (y2 & Y2 & H2); [lia|cbn [length] in Hr; lia|exact HP'| |].
      { rewrite (firstn_S _ _ _ _ Ev), map_app, <- !app_assoc in *. cbn [map app]. exact H'. }
      exists y2. split; auto. eapply y_step; [intros f; cbn [set_enum]; reflexivity|]. eapply y_bind; [exact Y|]. cbv beta iota. rewrite Ec. cbn [bind]. rewrite E. cbn [bind].
      replace (zlen old + Z.of_nat j + 1) with (zlen old + Z.of_nat (S j)) by lia. exact Y2.
  Qed.
  Lemma copy_arr_en_ok x l (p : pipe A) append : arr_shows A x l -> tame p ->
    exists y, yields (fun f => copy_arr_en A dflt f x p append) y /\ arr_shows A y (kept append l ++ map Some (denote p)).
  Proof.
    intros H T. destruct (build_ok A p T) as (e & i & Y & (P & HS & HP) & _).
    destruct (resize_room x l append (length (denote p)) H) as (y & rest & E & Hr & H' & Ei).
    destruct (set_enum_ok _ _ _ P HS (kept append l) _ 0 y e rest eq_refl ltac:(lia) HP) as (y' & Y2 & H2); [exact H'|].
    exists y'. split; auto. unfold copy_arr_en. eapply y_bind; [exact Y|]. cbv beta. eapply y_bind; [apply (count_ok _ _ _ _ _ HS _ 0 e 0 eq_refl HP)|]. cbv beta zeta.
    rewrite Nat.sub_0_r, Z.add_0_l, E. cbn [bind]. eapply y_bind; [exact Y|]. cbv beta. rewrite Ei. rewrite Z.add_0_r in Y2. exact Y2.
  Qed.
  Lemma read_loop_ok x (l : list A) : arr_shows A x (map Some l) -> forall n k, (k + n = length l)%nat -> read_loop A x (Z.of_nat k) n = Ok (skipn k l).
  Proof.
    intros H. induction n as [|n IH]; intros k Hk; cbn [read_loop]; [now rewrite skipn_all2 by lia|]. destruct (nth_lt _ l k) as (v & Ev); [lia|].
    rewrite (a_get_ok A x _ _ H), znth_nat, nth_error_map, Ev. cbn [option_map bind]. replace (Z.of_nat k + 1) with (Z.of_nat (S k)) by lia. rewrite IH by lia. cbn [bind].
    now rewrite (skipn_cons _ _ _ _ Ev).
  Qed.
  Lemma copy_string_ok (ds : list A) s m append : src_shows s m -> copy_string A dflt ds s append = Ok (kept append ds ++ m).
  Proof.
    intros HS. unfold copy_string. destruct (a_from_ok A ds (zlen ds)) as (x & E & H); [pose proof (zlen_nonneg ds); lia|]. rewrite E. cbn [bind].
    unfold ztake in H. rewrite zlen_to_nat, firstn_all in H. destruct (copy_arr_ra_ok x _ s m append H HS) as (y & E2 & H2). rewrite E2. cbn [bind].
    assert (K : kept append (map Some ds) ++ map Some m = map Some (kept append ds ++ m)) by (destruct append; cbn [kept]; now rewrite ?map_app). rewrite K in H2.
    destruct (H2) as [C _]. rewrite zlen_map in C. rewrite C. destruct (zlen (kept append ds ++ m) =? 0) eqn:Z0.
    - destruct (kept append ds ++ m); [reflexivity|]. rewrite zlen_cons in Z0. pose proof (zlen_nonneg l). lia.
    - rewrite zlen_to_nat. exact (read_loop_ok y _ H2 _ 0 eq_refl).
  Qed.
  Lemma copy_self_empties x l : lst_shows A x l -> exists y, copy_self A x false = Ok y /\ lst_shows A y [].
  Proof.
    intros H. unfold copy_self. destruct (clear_ok A x l H) as (y & E & H'). rewrite E. cbn [bind]. destruct (H') as [C _]. rewrite C. cbn [zlen length Z.of_nat Z.to_nat add_own_loop]. eauto.
  Qed.
End Copy.
Lemma copy_self_dangles : exists x : lst Z, lst_shows Z x [7] /\ copy_self Z x true = UB.
Proof. exists (mkLst [Live 7] 1 1 0). split; [|reflexivity]. split; [reflexivity|]. split; [reflexivity|]. now exists 0%nat. Qed.
Lemma copy_negative_slice : exists x y : arr Z, arr_shows Z x [Some 1; Some 2; Some 3] /\ copy_arr_ra Z None x (RSlice [] (-1)) true = Ok y /\ arr_shows Z y [Some 1; Some 2].
Proof.
  exists (mkArr [Live 1; Live 2; Live 3] 3), (mkArr [Live 1; Live 2] 2). split; [split; [reflexivity|repeat constructor]|]. split; [reflexivity|split; [reflexivity|repeat constructor]].
Qed.
