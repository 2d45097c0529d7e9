From Coq Require Import ZifyBool ZifyNat.
From Verif Require Import Base BaseFacts LstModel LstSpec LstProofs SrtModel SrtSpec SrtProofs DctModel DctSpec DctProofs EnuSpec EnuProofs OwnProofs EngModel EngSpec.
Open Scope Z_scope.

Section MapV.
  Variable K A B : Type.
  Variable c : K -> K -> comparison.
  Variable f : A -> B.
  Notation mapv := (map (fun ka : K * A => (fst ka, f (snd ka)))).
  Lemma lookup_mapv k m : lookup K B c k (mapv m) = option_map f (lookup K A c k m).
  Proof. induction m as [|[k0 a] m IH]; [reflexivity|]. cbn [map fst snd lookup]. destruct (c k0 k); auto. Qed.
  Lemma put_mapv k a m : mapv (put K A c k a m) = put K B c k (f a) (mapv m).
  Proof. induction m as [|[k0 a0] m IH]; [reflexivity|]. cbn [map fst snd put]. destruct (c k0 k); cbn [map fst snd]; auto. now rewrite IH. Qed.
  Lemma del_mapv k m : mapv (del K A c k m) = del K B c k (mapv m).
  Proof. induction m as [|[k0 a0] m IH]; [reflexivity|]. cbn [map fst snd del]. destruct (c k0 k); cbn [map fst snd]; auto; now rewrite IH. Qed.
  Lemma keys_mapv (m : fmap K A) : map fst (mapv m) = map fst m.
  Proof. rewrite map_map. apply map_ext. reflexivity. Qed.
End MapV.

Section Eng.
  Variable K V : Type.
  Variable c : K -> K -> comparison.
  Variable TO : total_order c.
  Variable veq : V -> V -> bool.
  Notation cmp := (fun a b => Some (c a b)).
  Notation B := (box V).
  Notation contents := (contents K V).
  Notation ids m := (map (fun kb : K * B => bid (snd kb)) m).

  Definition boxes (g : group K V) (vg : nat -> nat) (m : fmap K B) : Prop :=
    Forall (fun kb => exists x, nth_error (gheap g) (bid (snd kb)) = Some (Some x) /\ cap x = broom (snd kb) /\ vg (bid (snd kb)) = bgen (snd kb)) m.
  Definition R (g : group K V) (vg : nat -> nat) (t : hst K V) : Prop :=
    g_shows K V c g (contents (hm t)) /\ cap (gkeys g) = hroom t /\ lst_shows nat (gvals g) (ids (hm t)) /\ boxes g vg (hm t) /\
    hnext t = length (gheap g) /\ forall p, (length (gheap g) <= p)%nat -> vg p = O.

  Lemma shows_fun {A} (x : lst A) l l' : lst_shows A x l -> lst_shows A x l' -> l = l'.
  Proof.
    intros (C & _ & k & E) (C' & _ & k' & E'). assert (L : length l = length l') by (unfold zlen in *; lia). rewrite E in E'. clear - L E'.
    revert l' L E'. induction l as [|a l IH]; intros [|a' l'] L E'; try discriminate L; [reflexivity|].
    cbn [map app] in E'. injection E' as -> E'. f_equal. apply IH; auto.
  Qed.

  Lemma R_parts g vg t : R g vg t ->
    lst_shows K (gkeys g) (map fst (hm t)) /\ ascending_keys K B c (hm t) /\ NoDup (ids (hm t)) /\
    Forall (fun kb => bvals (snd kb) <> []) (hm t) /\
    Forall (fun kb => exists x, nth_error (gheap g) (bid (snd kb)) = Some (Some x) /\ lst_shows V x (bvals (snd kb)) /\
              cap x = broom (snd kb) /\ vg (bid (snd kb)) = bgen (snd kb)) (hm t) /\
    (forall p x, nth_error (gheap g) p = Some (Some x) -> In p (ids (hm t))).
  Proof.
    intros ((ps & HK & HP & HC & ND & HL & Ha & HN) & _ & HI & HB & _).
    assert (ps = ids (hm t)) by (eapply shows_fun; eauto). subst ps.
    unfold EngSpec.contents in *. rewrite keys_mapv in HK. unfold ascending_keys in *. rewrite keys_mapv in Ha.
    split; [exact HK|]. split; [exact Ha|]. split; [exact ND|]. split; [now rewrite Forall_map in HN|]. split; [|exact HL].
    clear - HC HB. induction (hm t) as [|[k b] m IH]; [constructor|]. cbn [map fst snd] in *.
    inversion HC as [|? ? ? ? (x & E & S') HC']; subst. inversion HB as [|? ? (x' & E' & C' & G') HB']; subst. cbn [fst snd] in *.
    constructor; [|now apply IH]. cbn [snd]. assert (x' = x) by congruence. subst x'. exists x. auto.
  Qed.

  Lemma vgen_same g g' vg p : nth_error (gheap g') p = nth_error (gheap g) p -> vgen_after K V g g' vg p = vg p.
  Proof. intros E. unfold vgen_after. rewrite E. destruct (nth_error (gheap g) p) as [[x|]|]; auto. now rewrite Z.eqb_refl. Qed.
  Lemma boxes_keep g g' vg m : boxes g vg m -> (forall p, In p (ids m) -> nth_error (gheap g') p = nth_error (gheap g) p) ->
    boxes g' (vgen_after K V g g' vg) m.
  Proof.
    unfold boxes. rewrite !Forall_forall. intros H E kb Hi. destruct (H kb Hi) as (x & Ex & Cx & Gx).
    assert (In (bid (snd kb)) (ids m)) as Hi' by (apply in_map_iff; eauto). exists x. rewrite E by auto. rewrite vgen_same by auto. auto.
  Qed.
  Lemma vgen_new g g' vg p : (length (gheap g) <= p)%nat -> vg p = O -> vgen_after K V g g' vg p = O.
  Proof. intros L E. unfold vgen_after. apply nth_error_None in L. now rewrite L. Qed.

  Definition mutates (o : gop K V) : bool := match o with GAdd _ _ | GRemove _ | GRemoveValue _ _ | GClear => true | _ => false end.
  Lemma query_same g o g' r : mutates o = false -> g_step K V cmp veq g o = Ok (g', r) -> g' = g.
  Proof.
    intros M E. unfold g_step in E.
    assert (X : match g_step_raw K V cmp veq g o with Ok (a, _) => a = g | _ => True end).
    { destruct o; try discriminate M; cbn [g_step_raw]; repeat match goal with |- context [bind ?r _] => destruct r; cbn [bind]; auto end; reflexivity. }
    destruct (g_step_raw K V cmp veq g o) as [[a b]| | |]; try discriminate; congruence.
  Qed.

  Lemma R_query g vg t : R g vg t -> R g (vgen_after K V g g vg) t.
  Proof.
    intros (H1 & H2 & H3 & H4 & H5 & H6). do 3 (split; [assumption|]). split; [now apply boxes_keep|]. split; [assumption|].
    intros p L. apply vgen_new; auto.
  Qed.
  Lemma contents_spec t o : fst (mg_step K V c veq (contents (hm t)) o) = contents (hm (h_group K V c veq t o)).
  Proof.
    unfold mg_step. assert (L : forall k, lookup K (list V) c k (contents (hm t)) = option_map bvals (lookup K B c k (hm t))) by (intros; apply lookup_mapv).
    destruct o as [k v|k|k v| |k|k v| |i|k|k i]; cbn [mg_step_raw h_group fst]; rewrite ?L; unfold h_add, h_remove, h_remove_value.
    - destruct (lookup K B c k (hm t)) as [b|]; cbn [option_map set_box new_box hm]; unfold EngSpec.contents; now rewrite put_mapv.
    - destruct (lookup K B c k (hm t)) as [b|]; cbn [option_map drop_box hm]; [|reflexivity]. unfold EngSpec.contents. now rewrite del_mapv.
    - destruct (lookup K B c k (hm t)) as [b|] eqn:E; cbn [option_map fst]; [|reflexivity].
      destruct (remove_first V veq v (bvals b)) as [|a l] eqn:Er; cbn [drop_box set_box hm]; unfold EngSpec.contents; [now rewrite del_mapv|].
      rewrite put_mapv. unfold take_from. destruct (existsb (fun x => veq x v) (bvals b)) eqn:Ex; cbn [bvals]; [now rewrite Er|].
      f_equal. rewrite <- Er. clear - Ex. induction (bvals b) as [|x l IH]; [reflexivity|]. cbn [existsb remove_first] in *.
      apply orb_false_iff in Ex. destruct Ex as [-> Ex]. f_equal. auto.
    - reflexivity.
    - destruct (option_map bvals (lookup K B c k (hm t))); reflexivity.
    - reflexivity.
    - reflexivity.
    - destruct (znth (contents (hm t)) i) as [[? ?]|]; reflexivity.
    - destruct (option_map bvals (lookup K B c k (hm t))); reflexivity.
    - destruct (option_map bvals (lookup K B c k (hm t))) as [vs|]; [destruct (znth vs i)|]; reflexivity.
  Qed.

  Lemma at_split g vg t m1 k0 b m2 : R g vg t -> hm t = m1 ++ (k0, b) :: m2 ->
    (exists x, nth_error (gheap g) (bid b) = Some (Some x) /\ lst_shows V x (bvals b) /\ cap x = broom b /\ vg (bid b) = bgen b) /\
    bvals b <> [] /\ ~ In (bid b) (ids m1) /\ ~ In (bid b) (ids m2) /\ get nat (gvals g) (zlen m1) = Ok (bid b).
  Proof.
    intros HR E. destruct (R_parts _ _ _ HR) as (_ & _ & ND & HN & HB & _). destruct HR as (_ & _ & HI & _).
    rewrite E in *. rewrite map_app in ND. rewrite map_app in HI. cbn [map snd] in ND, HI.
    apply Forall_app in HN. destruct HN as [_ HN]. apply Forall_inv in HN.
    apply Forall_app in HB. destruct HB as [_ HB]. apply Forall_inv in HB. cbn [snd] in *.
    destruct (NoDup_mid _ _ _ ND) as (N1 & N2 & _). split; [exact HB|]. split; [exact HN|]. split; [exact N1|]. split; [exact N2|].
    pose proof (get_mid nat _ _ _ _ HI) as G. now rewrite zlen_map in G.
  Qed.

  Lemma add_found g vg t k v m1 k0 b m2 : R g vg t -> found K B c (hm t) k m1 k0 b m2 -> s_index_of K cmp (gkeys g) k = Ok (zlen m1) ->
    exists y, g_add K V cmp g k v = Ok (setcell K V g (bid b) (Some y)) /\ cap y = grown (broom b) (zlen (bvals b ++ [v])).
  Proof.
    intros HR F E. destruct (at_split _ _ _ _ _ _ _ HR (proj1 F)) as ((x & Ex & Sx & Cx & Gx) & _ & _ & _ & G).
    unfold g_add. rewrite E. cbn [bind]. pose proof (zlen_nonneg m1). replace (zlen m1 =? -1) with false by lia.
    rewrite G. cbn [bind]. unfold deref. rewrite Ex. cbn [late bind].
    destruct (append_last V x _ v Sx) as (y & Ey & Sy). rewrite (late_ok y _ Ey). cbn [bind]. exists y. split; [reflexivity|].
    rewrite <- Cx. eapply insert_room; eauto.
  Qed.
  Lemma add_missing g vg t k v m1 m2 : R g vg t -> absent K B c (hm t) k m1 m2 -> s_index_of K cmp (gkeys g) k = Ok (-1) ->
    let m' := put K B c k (mkBox (length (gheap g)) (grown 0 1) 0 [v]) (hm t) in
    exists ks vs w, g_add K V cmp g k v = Ok (setcell K V (mkGroup ks vs (gheap g ++ [Some empty_lst])) (length (gheap g)) (Some w)) /\
      cap ks = grown (cap (gkeys g)) (zlen m') /\ lst_shows nat vs (ids m') /\ cap w = grown 0 1 /\
      exists n1 n2, hm t = n1 ++ n2 /\ m' = n1 ++ (k, mkBox (length (gheap g)) (grown 0 1) 0 [v]) :: n2.
  Proof.
    intros HR F E m'. destruct (R_parts _ _ _ HR) as (HK & Ha & _). destruct HR as (_ & _ & HI & _).
    unfold g_add. rewrite E. cbn [bind Z.eqb Pos.eqb].
    destruct (add_absent K B c TO _ _ _ _ _ HK Ha F) as (y & n1 & n2 & Hn & Ea & Sy). rewrite Ea. cbn [bind].
    pose proof (put_absent K B c _ _ _ _ (mkBox (length (gheap g)) (grown 0 1) 0 [v]) Hn) as Pm. fold m' in Pm.
    pose proof (proj1 Hn) as Em. assert (HI' := HI). rewrite Em, map_app in HI'.
    destruct (insert_mid nat _ _ _ (length (gheap g)) HI') as (z & Ez & Sz). rewrite zlen_map in Ez.
    rewrite (late_ok z _ Ez). cbn [bind]. unfold deref. cbn [gheap]. rewrite nth_error_app2 by lia. rewrite Nat.sub_diag.
    cbn [nth_error late bind]. destruct (append_last V _ _ v (empty_shows V)) as (w & Ew & Sw). rewrite (late_ok w _ Ew). cbn [bind].
    exists y, z, w. split; [reflexivity|]. split.
    { rewrite (s_add_room K c _ _ _ _ Ea). destruct Sy as (C & _). rewrite C. f_equal. rewrite Pm. zl. rewrite ?zlen_map. lia. }
    split; [rewrite Pm, map_app; exact Sz|]. split.
    { change 0 with (cap (@empty_lst V)). change 1 with (zlen [v]). eapply insert_room; eauto; apply empty_shows. }
    exists n1, n2. auto.
  Qed.
  Lemma drop_found g vg t k m1 k0 b m2 : R g vg t -> found K B c (hm t) k m1 k0 b m2 ->
    exists ks vs, remove_at K (gkeys g) (zlen m1) = Ok ks /\ remove_at nat (gvals g) (zlen m1) = Ok vs /\
      cap ks = shrunk (cap (gkeys g)) (zlen (m1 ++ m2)) /\ lst_shows nat vs (ids (m1 ++ m2)).
  Proof.
    intros HR F. destruct (R_parts _ _ _ HR) as (HK & Ha & _). destruct HR as (_ & _ & HI & _).
    rewrite (proj1 F), map_app in HK. rewrite (proj1 F), map_app in HI. cbn [map fst snd] in HK, HI.
    destruct (remove_mid K _ _ _ _ HK) as (y & Ey & Sy). destruct (remove_mid nat _ _ _ _ HI) as (z & Ez & Sz).
    exists y, z. rewrite zlen_map in Ey. rewrite zlen_map in Ez. split; [exact Ey|]. split; [exact Ez|]. split.
    - rewrite (remove_at_room K _ _ _ _ HK Ey). destruct Sy as (C & _). rewrite C. f_equal. zl. rewrite ?zlen_map. lia.
    - now rewrite map_app.
  Qed.
  Lemma remove_found g vg t k m1 k0 b m2 : R g vg t -> found K B c (hm t) k m1 k0 b m2 -> s_index_of K cmp (gkeys g) k = Ok (zlen m1) ->
    exists ks vs, g_remove K V cmp g k = Ok (setcell K V (mkGroup ks vs (gheap g)) (bid b) None, true) /\
      cap ks = shrunk (cap (gkeys g)) (zlen (m1 ++ m2)) /\ lst_shows nat vs (ids (m1 ++ m2)).
  Proof.
    intros HR F E. destruct (at_split _ _ _ _ _ _ _ HR (proj1 F)) as ((x & Ex & Sx & Cx & Gx) & _ & _ & _ & G).
    destruct (drop_found _ _ _ _ _ _ _ _ HR F) as (ks & vs & E1 & E2 & Ck & Sv). exists ks, vs.
    unfold g_remove. rewrite E. cbn [bind]. pose proof (zlen_nonneg m1). replace (zlen m1 =? -1) with false by lia. cbn [negb].
    rewrite E1. cbn [bind]. rewrite (late_ok _ _ G). cbn [bind]. rewrite (late_ok _ _ E2). cbn [bind]. unfold delete, deref. cbn [gheap].
    rewrite Ex. cbn [bind]. rewrite (destruct_ok V x _ Sx). cbn [late bind]. auto.
  Qed.
  Lemma take_spec x l v y ok : lst_shows V x l -> remove V veq x v = Ok (y, ok) ->
    lst_shows V y (remove_first V veq v l) /\ cap y = if existsb (fun a => veq a v) l then shrunk (cap x) (zlen (remove_first V veq v l)) else cap x.
  Proof.
    intros H E. destruct (remove_val_ok V veq x l v H) as (y' & b' & E' & S'). assert (y' = y) by congruence. subst y'. split; [exact S'|].
    unfold remove in E. rewrite (index_of_ok V veq x l v H) in E. cbn [bind] in E. destruct (H) as (C & _). rewrite C in E.
    pose proof (first_pos_range V veq v l) as Rg. pose proof (first_pos_existsb V veq v l) as Fe.
    destruct (first_pos V veq v l =? -1) eqn:En.
    - replace (first_pos V veq v l >=? 0) with false in E by lia. cbn [andb] in E. assert (y = x) by congruence. subst y.
      cbn [negb] in Fe. rewrite <- Fe. reflexivity.
    - replace ((first_pos V veq v l >=? 0) && (first_pos V veq v l <? zlen l)) with true in E by lia.
      apply bind_ok in E. destruct E as (z & Ez & E). assert (z = y) by congruence. subst z.
      cbn [negb] in Fe. rewrite <- Fe. rewrite (remove_at_room V _ _ _ _ H Ez). destruct S' as (Cy & _). now rewrite Cy.
  Qed.
  Lemma remove_value_found g vg t k v m1 k0 b m2 : R g vg t -> found K B c (hm t) k m1 k0 b m2 -> s_index_of K cmp (gkeys g) k = Ok (zlen m1) ->
    exists w, cap w = broom (take_from V veq b v) /\
      match remove_first V veq v (bvals b) with
      | [] => exists ks vs, g_remove_value K V cmp veq g k v = Ok (setcell K V (mkGroup ks vs (upd (gheap g) (bid b) (Some w))) (bid b) None, true) /\
                cap ks = shrunk (cap (gkeys g)) (zlen (m1 ++ m2)) /\ lst_shows nat vs (ids (m1 ++ m2))
      | _ => g_remove_value K V cmp veq g k v = Ok (setcell K V g (bid b) (Some w), true)
      end.
  Proof.
    intros HR F E. destruct (at_split _ _ _ _ _ _ _ HR (proj1 F)) as ((x & Ex & Sx & Cx & Gx) & _ & _ & _ & G).
    destruct (remove_val_ok V veq x _ v Sx) as (w & ok & Ew & Sw). destruct (take_spec _ _ _ _ _ Sx Ew) as [_ Cw]. exists w.
    split.
    { unfold take_from. rewrite Cw, Cx. destruct (existsb (fun a => veq a v) (bvals b)); reflexivity. }
    assert (Hp := nth_error_lt _ _ _ Ex). destruct (Sw) as (Cn & _).
    assert (Q : g_remove_value K V cmp veq g k v =
      if zlen (remove_first V veq v (bvals b)) =? 0 then
        do ks <- late (remove_at K (gkeys g) (zlen m1));
        do vs <- late (remove_at nat (gvals g) (zlen m1));
        do g <- late (delete K V (mkGroup ks vs (upd (gheap g) (bid b) (Some w))) (bid b));
        Ok (g, true)
      else Ok (setcell K V g (bid b) (Some w), true)).
    { unfold g_remove_value. rewrite E. cbn [bind]. pose proof (zlen_nonneg m1). replace (zlen m1 =? -1) with false by lia. cbn [negb].
      rewrite G. cbn [bind]. unfold deref at 1. rewrite Ex. cbn [bind]. rewrite Ew. cbn [bind]. cbv zeta. rewrite Cn. reflexivity. }
    rewrite Q. clear Q.
    destruct (remove_first V veq v (bvals b)) as [|a l] eqn:Er.
    - cbn [zlen length Z.of_nat Z.eqb]. destruct (drop_found _ _ _ _ _ _ _ _ HR F) as (ks & vs & E1 & E2 & Ck & Sv). exists ks, vs.
      rewrite (late_ok _ _ E1). cbn [bind]. rewrite (late_ok _ _ E2). cbn [bind]. unfold delete, deref. cbn [gheap].
      rewrite upd_same by auto. cbn [bind]. rewrite (destruct_ok V w _ Sw). cbn [late bind]. auto.
    - rewrite zlen_cons. pose proof (zlen_nonneg l). replace (1 + zlen l =? 0) with false by lia. reflexivity.
  Qed.

  Lemma set_keep g vg p y m : boxes g vg m -> ~ In p (ids m) -> forall ks vs, boxes (mkGroup ks vs (upd (gheap g) p y)) (vgen_after K V g (mkGroup ks vs (upd (gheap g) p y)) vg) m.
  Proof. intros H N ks vs. apply boxes_keep; [exact H|]. intros q Hq. cbn [gheap]. apply upd_other. congruence. Qed.
  Lemma boxes_parts g vg m1 k0 b m2 : boxes g vg (m1 ++ (k0, b) :: m2) -> boxes g vg m1 /\ boxes g vg m2.
  Proof. intros H. apply Forall_app in H. destruct H as [H1 H2]. inversion H2; subst. now split. Qed.

  Lemma same_box g vg t k v m1 k0 b m2 y b' : R g vg t -> found K B c (hm t) k m1 k0 b m2 -> bid b' = bid b -> cap y = broom b' ->
    bgen b' = moved (broom b) (broom b') (bgen b) ->
    g_shows K V c (setcell K V g (bid b) (Some y)) (contents (hm (set_box K V c t k b'))) ->
    v = setcell K V g (bid b) (Some y) -> R v (vgen_after K V g v vg) (set_box K V c t k b').
  Proof.
    intros HR F Hi Hc Hg Sg ->. destruct (at_split _ _ _ _ _ _ _ HR (proj1 F)) as ((x & Ex & Sx & Cx & Gx) & _ & N1 & N2 & G).
    assert (Hp := nth_error_lt _ _ _ Ex). destruct HR as (H1 & H2 & H3 & H4 & H5 & H6). rewrite (proj1 F) in H4.
    destruct (boxes_parts _ _ _ _ _ _ H4) as [B1 B2].
    split; [exact Sg|]. split; [exact H2|]. cbn [set_box hm gvals setcell gheap hnext]. rewrite (put_found K B c _ _ _ _ _ _ b' F). split.
    { rewrite (proj1 F) in H3. rewrite map_app in *. cbn [map snd] in *. now rewrite Hi. }
    split.
    { apply Forall_app. split; [|constructor].
      - apply (set_keep g vg); auto.
      - cbn [snd setcell gheap]. rewrite Hi. exists y. rewrite upd_same by auto. split; [reflexivity|]. split; [exact Hc|].
        unfold vgen_after. cbn [gheap setcell]. rewrite Ex, upd_same by auto. rewrite Hg, Cx, Hc, Gx. reflexivity.
      - apply (set_keep g vg); auto. }
    split; [now rewrite upd_length|]. intros p L. rewrite upd_length in L. apply vgen_new; auto.
  Qed.
  Lemma drop_ok g vg t k m1 k0 b m2 g' : R g vg t -> found K B c (hm t) k m1 k0 b m2 ->
    cap (gkeys g') = shrunk (cap (gkeys g)) (zlen (m1 ++ m2)) -> lst_shows nat (gvals g') (ids (m1 ++ m2)) ->
    length (gheap g') = length (gheap g) -> (forall p, p <> bid b -> nth_error (gheap g') p = nth_error (gheap g) p) ->
    g_shows K V c g' (contents (hm (drop_box K V c t k))) -> R g' (vgen_after K V g g' vg) (drop_box K V c t k).
  Proof.
    intros HR F Ck Sv Lh Hk Sg. destruct (at_split _ _ _ _ _ _ _ HR (proj1 F)) as (_ & _ & N1 & N2 & G).
    destruct HR as (H1 & H2 & H3 & H4 & H5 & H6). rewrite (proj1 F) in H4. destruct (boxes_parts _ _ _ _ _ _ H4) as [B1 B2].
    split; [exact Sg|]. cbn [drop_box hm hroom hnext]. rewrite (del_found K B c _ _ _ _ _ _ F). split; [now rewrite Ck, H2|]. split; [exact Sv|].
    split.
    { apply Forall_app. split; apply boxes_keep; auto; intros p Hp; apply Hk; congruence. }
    split; [congruence|]. intros p L. apply vgen_new; [congruence|]. apply H6. congruence.
  Qed.

  Lemma core g vg t o : R g vg t -> exists g', g_step K V cmp veq g o = Ok (g', snd (mg_step K V c veq (contents (hm t)) o)) /\
    R g' (vgen_after K V g g' vg) (h_group K V c veq t o).
  Proof.
    intros HR. destruct (g_step_ok K V c TO veq g _ o (proj1 HR)) as (g' & E & Sg). exists g'. split; [exact E|].
    rewrite contents_spec in Sg. destruct (mutates o) eqn:M.
    2:{ apply (query_same _ _ _ _ M) in E. subst g'. destruct o; try discriminate M; cbn [h_group]; now apply R_query. }
    destruct (R_parts _ _ _ HR) as (HK & Ha & _).
    assert (KK : forall (a b : group K V) (p q : dout K V), Ok (a, p) = Ok (b, q) -> a = b) by (intros; congruence).
    assert (Same : g' = g -> hm (h_group K V c veq t o) = hm t -> hroom (h_group K V c veq t o) = hroom t -> hnext (h_group K V c veq t o) = hnext t -> R g' (vgen_after K V g g' vg) (h_group K V c veq t o)).
    { intros -> X1 X2 X3. destruct (R_query _ _ _ HR) as (Q1 & Q2 & Q3 & Q4 & Q5 & Q6). unfold R. rewrite X1, X2, X3. auto 10. }
    unfold g_step in E. destruct o as [k v|k|k v| |k|k v| |i|k|k i]; try discriminate M; cbn [g_step_raw h_group] in *.
    - unfold h_add in *. destruct (index_cases K B c TO _ _ k HK Ha) as [(m1 & k0 & b & m2 & F & Ei)|(m1 & m2 & F & Ei)].
      + rewrite (lookup_found K B c _ _ _ _ _ _ F) in *. destruct (add_found _ _ _ _ v _ _ _ _ HR F Ei) as (y & Ey & Cy).
        rewrite Ey in E. cbn [bind] in E. apply KK in E. subst g'. eapply (same_box g vg t k _ m1 k0 b m2 y); eauto; reflexivity.
      + rewrite (lookup_absent K B c _ _ _ _ F) in *. destruct (add_missing _ _ _ _ v _ _ HR F Ei) as (ks & vs & w & Ey & Ck & Sv & Cw & n1 & n2 & En & Em).
        rewrite Ey in E. cbn [bind] in E. apply KK in E. subst g'. destruct HR as (H1 & H2 & H3 & H4 & H5 & H6).
        split; [exact Sg|]. cbn [new_box hm hroom hnext gkeys gvals gheap setcell]. rewrite H5. split; [now rewrite Ck, H2|]. split; [exact Sv|].
        assert (forall m, boxes g vg m -> (forall p, In p (ids m) -> (p < length (gheap g))%nat) ->
          boxes (setcell K V (mkGroup ks vs (gheap g ++ [Some empty_lst])) (length (gheap g)) (Some w))
            (vgen_after K V g (setcell K V (mkGroup ks vs (gheap g ++ [Some empty_lst])) (length (gheap g)) (Some w)) vg) m) as BK.
        { intros m Bm Hl. apply boxes_keep; [exact Bm|]. intros p Hp. apply Hl in Hp. cbn [setcell gheap]. rewrite upd_other by lia. now rewrite nth_error_app1. }
        assert (Lt : forall p, In p (ids (hm t)) -> (p < length (gheap g))%nat).
        { intros p Hp. apply in_map_iff in Hp. destruct Hp as (kb & <- & Hi). unfold boxes in H4. rewrite Forall_forall in H4.
          destruct (H4 _ Hi) as (x & Ex & _). eapply nth_error_lt; eauto. }
        split.
        { rewrite Em. rewrite En in H4, Lt. apply Forall_app in H4. destruct H4 as [B1 B2]. rewrite map_app in Lt. apply Forall_app. split; [|constructor].
          - apply BK; auto. intros p Hp. apply Lt. apply in_or_app. now left.
          - cbn [snd bid broom bgen setcell gheap]. exists w. rewrite upd_same by (rewrite app_length; cbn [length]; lia). split; [reflexivity|]. split; [exact Cw|].
            apply vgen_new; auto.
          - apply BK; auto. intros p Hp. apply Lt. apply in_or_app. now right. }
        split; [rewrite upd_length, app_length; cbn [length]; lia|]. intros p L. rewrite upd_length, app_length in L. cbn [length] in L.
        apply vgen_new; [lia|]. apply H6. lia.
    - unfold h_remove in *. destruct (index_cases K B c TO _ _ k HK Ha) as [(m1 & k0 & b & m2 & F & Ei)|(m1 & m2 & F & Ei)].
      + rewrite (lookup_found K B c _ _ _ _ _ _ F) in *. destruct (remove_found _ _ _ _ _ _ _ _ HR F Ei) as (ks & vs & Ey & Ck & Sv).
        rewrite Ey in E. cbn [bind] in E. apply KK in E. subst g'. eapply drop_ok; eauto; cbn [setcell gheap]; [apply upd_length|]. intros p Np. now apply upd_other; auto.
      + rewrite (lookup_absent K B c _ _ _ _ F) in *. unfold g_remove in E. rewrite Ei in E. cbn [bind Z.eqb Pos.eqb negb] in E. apply KK in E. auto.
    - unfold h_remove_value in *. destruct (index_cases K B c TO _ _ k HK Ha) as [(m1 & k0 & b & m2 & F & Ei)|(m1 & m2 & F & Ei)].
      + rewrite (lookup_found K B c _ _ _ _ _ _ F) in *. destruct (remove_value_found _ _ _ _ v _ _ _ _ HR F Ei) as (w & Cw & Q).
        destruct (remove_first V veq v (bvals b)) as [|a l] eqn:Er.
        * destruct Q as (ks & vs & Ey & Ck & Sv). rewrite Ey in E. cbn [bind] in E. apply KK in E. subst g'.
          eapply drop_ok; eauto; cbn [setcell gheap]; [now rewrite !upd_length|]. intros p Np. now rewrite !upd_other by auto.
        * rewrite Q in E. cbn [bind] in E. apply KK in E. subst g'.
          eapply (same_box g vg t k _ m1 k0 b m2 w); eauto; unfold take_from; destruct (existsb (fun x => veq x v) (bvals b)); cbn [bid bgen broom]; auto.
          unfold moved. now rewrite Z.eqb_refl.
      + rewrite (lookup_absent K B c _ _ _ _ F) in *. unfold g_remove_value in E. rewrite Ei in E. cbn [bind Z.eqb Pos.eqb negb] in E. apply KK in E. auto.
    - destruct HR as (H1 & H2 & H3 & H4 & H5 & H6).
      destruct (clear_ok K _ _ HK) as (ks & Ek & _).
      assert (CL : forall A (x : lst A) y, clear A x = Ok y -> cap y = 0).
      { intros A x y Ec. unfold clear in Ec. apply bind_ok in Ec. destruct Ec as (mm & _ & Ec). apply bind_ok in Ec. destruct Ec as (u & _ & Ec).
        assert (y = mkLst [] 0 0 (moves x)) as -> by congruence. reflexivity. }
      destruct H1 as (ps & _ & HP & HC & ND & HL & _). unfold g_clear in E.
      assert (Cv : count (gvals g) = zlen ps) by apply HP. rewrite Cv, zlen_to_nat in E.
      destruct (delete_all_ok K V ps [] g HP ND) as (g1 & E1 & G1 & G2 & G3 & G4).
      { intros p Hp. apply in_split in Hp. destruct Hp as (ps1 & ps2 & ->). apply Forall2_app_inv_l in HC.
        destruct HC as (m1 & m2 & _ & C2 & _). inversion C2 as [|? kv ? ? (x & Ex & Sx) _]; subst. eauto. }
      change (zlen []) with 0 in E1. rewrite E1 in E. cbn [bind] in E. rewrite G1, G2 in E.
      destruct (clear_ok nat _ _ HP) as (z & Ez & Sz). rewrite (late_ok _ _ Ek) in E. cbn [bind] in E. rewrite (late_ok _ _ Ez) in E. cbn [bind] in E.
      apply KK in E. subst g'. split; [exact Sg|]. cbn [gkeys gvals gheap hm hroom hnext map]. split; [eapply CL; eauto|]. split; [exact Sz|].
      split; [constructor|]. split; [congruence|]. intros p L. apply vgen_new; [lia|]. apply H6. lia.
  Qed.

  (* ---- references and enumerators ---- *)
  Definition sane (p : pos) : Prop :=
    let '(k, v, o) := p in -1 <= k /\ -1 <= v /\ match o with Some ((_, i), (_, _, j)) => 0 <= i /\ 0 <= j | None => True end.
  Definition look (x : gen) : pos := (ek x, ev x, ec x).
  Definition Sim (s : gst K V) (t : hst K V) : Prop :=
    R (gx s) (gvgen s) t /\ gkgen s = hgen t /\ map look (ges s) = hes t /\ Forall sane (hes t).

  Lemma znth_split {A} (l : list A) i a : znth l i = Some a -> exists l1 l2, l = l1 ++ a :: l2 /\ zlen l1 = i.
  Proof.
    intros H. pose proof (znth_in l i a H) as Hi. rewrite znth_z in H by lia. apply nth_error_split in H.
    destruct H as (l1 & l2 & -> & L). exists l1, l2. split; [reflexivity|]. unfold zlen. lia.
  Qed.
  Lemma keys_count g vg t : R g vg t -> count (gkeys g) = zlen (hm t).
  Proof. intros HR. destruct (R_parts _ _ _ HR) as ((C & _) & _). now rewrite C, zlen_map. Qed.

  Lemma key_at_ok s t p : Sim s t -> 0 <= snd p -> key_at K V s p = key_there K V t p.
  Proof.
    intros (HR & Hg & _) Hp. unfold key_at, key_there. rewrite Hg. destruct (Nat.eqb (fst p) (hgen t)); [|reflexivity].
    destruct (R_parts _ _ _ HR) as (HK & _). rewrite (read_at K _ _ _ HK Hp), znth_map. now destruct (znth (hm t) (snd p)) as [[k b]|].
  Qed.
  Lemma find_id (m : fmap K B) q : match find (fun kb => Nat.eqb (bid (snd kb)) q) m with
    | Some kb => In kb m /\ bid (snd kb) = q
    | None => ~ In q (ids m)
    end.
  Proof.
    induction m as [|kb m IH]; cbn [find map]; [auto|]. destruct (Nat.eqb (bid (snd kb)) q) eqn:E.
    - apply Nat.eqb_eq in E. split; [now left|exact E].
    - apply Nat.eqb_neq in E. destruct (find _ m).
      + destruct IH. split; [now right|assumption].
      + intros [H|H]; auto.
  Qed.
  Lemma find_here g vg t kb : R g vg t -> In kb (hm t) -> find (fun x => Nat.eqb (bid (snd x)) (bid (snd kb))) (hm t) = Some kb.
  Proof.
    intros HR Hi. destruct (R_parts _ _ _ HR) as (_ & _ & ND & _). pose proof (find_id (hm t) (bid (snd kb))) as H.
    destruct (find _ (hm t)) as [kb'|].
    - destruct H as [Hi' E]. f_equal. clear - ND Hi Hi' E. induction (hm t) as [|x m IH]; [destruct Hi|]. cbn [map] in ND. inversion ND as [|? ? N1 N2]; subst.
      assert (X : forall y, In y m -> bid (snd x) <> bid (snd y)) by (intros y Hy Ey; apply N1; rewrite Ey; apply (in_map (fun kb => bid (snd kb))); exact Hy).
      destruct Hi as [->|Hi], Hi' as [->|Hi']; auto.
      + exfalso. exact (X _ Hi' (eq_sym E)).
      + exfalso. exact (X _ Hi E).
    - exfalso. apply H. now apply (in_map (fun x => bid (snd x))).
  Qed.
  Lemma value_at_ok s t q n j : Sim s t -> 0 <= j -> value_at K V s (q, n, j) = value_there K V t (q, n, j).
  Proof.
    intros (HR & _) Hj. unfold value_at, value_there, deref. pose proof (find_id (hm t) q) as F.
    destruct (R_parts _ _ _ HR) as (_ & _ & _ & _ & HB & HL).
    destruct (find _ (hm t)) as [[k b]|].
    - destruct F as [Hi <-]. cbn [snd]. rewrite Forall_forall in HB. destruct (HB _ Hi) as (x & Ex & Sx & _ & Gx). cbn [snd] in *.
      rewrite Ex. cbn [bind]. rewrite Gx. destruct (Nat.eqb n (bgen b)); [|reflexivity]. now rewrite (read_at V _ _ _ Sx Hj).
    - destruct (nth_error (gheap (gx s)) q) as [[x|]|] eqn:E; auto. exfalso. apply F. eapply HL; eauto.
  Qed.
  Lemma value_alive t q n j v g vg : R g vg t -> value_there K V t (q, n, j) = Ok v -> (q < length (gheap g))%nat.
  Proof.
    intros HR. unfold value_there. pose proof (find_id (hm t) q) as F. destruct (find _ (hm t)) as [[k b]|]; [|discriminate]. intros _.
    destruct F as [Hi <-]. destruct (R_parts _ _ _ HR) as (_ & _ & _ & _ & HB & _). rewrite Forall_forall in HB.
    destruct (HB _ Hi) as (x & Ex & _). eapply nth_error_lt; eauto.
  Qed.

  Definition kfit (a : kref K) := match a with KRef (_, i) => 0 <= i | KNow _ => True end.
  Definition vfit (a : vref V) := match a with VRef (_, _, j) => 0 <= j | VNow _ => True end.
  Lemma cur_ok s t e : Sim s t -> cur K V s e = current K V t e /\ forall p, current K V t e = Ok p -> 0 <= snd (fst p) /\ 0 <= snd (snd p).
  Proof.
    intros (_ & _ & He & Hs). unfold cur, gen_of, current. rewrite <- He, nth_error_map.
    destruct (nth_error (ges s) e) as [x|] eqn:E; cbn [option_map bind look]; [|split; [reflexivity|discriminate]].
    assert (sane (look x)) as Sx by (rewrite <- He in Hs; rewrite Forall_map in Hs; eapply (nth_Forall (fun x => sane (look x))); eauto).
    unfold look, sane in Sx. destruct (ec x) as [[[a i] [[q n] j]]|].
    - split; [reflexivity|]. intros p Hp. injection Hp as <-. cbn [fst snd]. lia.
    - split; [reflexivity|]. intros p Hp. discriminate Hp.
  Qed.
  Lemma kbind_ok s t a : Sim s t -> kbind K V s a = key_arg K V t a /\ forall r, key_arg K V t a = Ok r -> kfit r.
  Proof.
    intros HS. destruct a as [k|e|i]; cbn [kbind key_arg].
    - split; [reflexivity|]. intros r Hr. assert (r = KNow k) as -> by congruence. exact I.
    - destruct (cur_ok s t e HS) as [-> Hc]. destruct (current K V t e) as [[[n i] p]| | |]; cbn [bind fst]; (split; [reflexivity|]); try discriminate.
      intros r Hr. assert (r = KRef (n, i)) as -> by congruence. destruct (Hc _ eq_refl). assumption.
    - destruct HS as (HR & Hg & _). rewrite (keys_count _ _ _ HR), Hg. destruct (znth (hm t) i) as [kb|] eqn:E.
      + pose proof (znth_in _ _ _ E). replace ((i >=? 0) && (i <? zlen (hm t))) with true by lia. split; [reflexivity|].
        intros r Hr. assert (r = KRef (hgen t, i)) as -> by congruence. cbn [kfit]. lia.
      + assert (~ 0 <= i < zlen (hm t)) as N by (intros N; destruct (znth_some _ _ N); congruence).
        replace ((i >=? 0) && (i <? zlen (hm t))) with false by lia. split; [reflexivity|discriminate].
  Qed.
  Lemma index_look g vg t k : R g vg t ->
    match lookup K B c k (hm t) with
    | Some b => exists m1 k0 m2, found K B c (hm t) k m1 k0 b m2 /\ s_index_of K cmp (gkeys g) k = Ok (zlen m1)
    | None => (exists m1 m2, absent K B c (hm t) k m1 m2) /\ s_index_of K cmp (gkeys g) k = Ok (-1)
    end.
  Proof.
    intros HR. destruct (R_parts _ _ _ HR) as (HK & Ha & _).
    destruct (index_cases K B c TO _ _ k HK Ha) as [(m1 & k0 & b & m2 & F & Ei)|(m1 & m2 & F & Ei)].
    - rewrite (lookup_found K B c _ _ _ _ _ _ F). eauto 6.
    - rewrite (lookup_absent K B c _ _ _ _ F). eauto.
  Qed.
  Lemma vbind_ok s t a : Sim s t -> vbind K V cmp s a = value_arg K V c t a /\ forall r, value_arg K V c t a = Ok r -> vfit r.
  Proof.
    intros HS. destruct a as [v|e|k i]; cbn [vbind value_arg].
    - split; [reflexivity|]. intros r Hr. assert (r = VNow v) as -> by congruence. exact I.
    - destruct (cur_ok s t e HS) as [-> Hc]. destruct (current K V t e) as [[p [[q n] i]]| | |]; cbn [bind snd]; (split; [reflexivity|]); try discriminate.
      intros r Hr. assert (r = VRef (q, n, i)) as -> by congruence. destruct (Hc _ eq_refl). assumption.
    - destruct HS as (HR & Hg & _). pose proof (index_look _ _ _ k HR) as X. destruct (lookup K B c k (hm t)) as [b|].
      + destruct X as (m1 & k0 & m2 & F & ->). cbn [bind]. destruct (at_split _ _ _ _ _ _ _ HR (proj1 F)) as ((x & Ex & Sx & Cx & Gx) & _ & _ & _ & ->).
        cbn [bind]. unfold deref. rewrite Ex. cbn [bind]. destruct (Sx) as (Cn & _). rewrite Cn, Gx. destruct (znth (bvals b) i) as [v|] eqn:E.
        * pose proof (znth_in _ _ _ E). replace ((i >=? 0) && (i <? zlen (bvals b))) with true by lia. split; [reflexivity|].
          intros r Hr. assert (r = VRef (bid b, bgen b, i)) as -> by congruence. cbn [vfit]. lia.
        * assert (~ 0 <= i < zlen (bvals b)) as N by (intros N; destruct (znth_some _ _ N); congruence).
          replace ((i >=? 0) && (i <? zlen (bvals b))) with false by lia. split; [reflexivity|discriminate].
      + destruct X as (_ & ->). cbn [bind]. destruct HR as (_ & _ & HI & _). rewrite (get_neg nat _ _ HI). split; [reflexivity|discriminate].
  Qed.
  Lemma kread_ok s t a : Sim s t -> kfit a -> kread K V s a = key_now K V t a /\ (key_now K V t a = UB \/ exists k, key_now K V t a = Ok k).
  Proof.
    intros HS Hf. destruct a as [k|[n i]]; cbn [kread key_now kfit] in *; [eauto|]. rewrite (key_at_ok s t (n, i) HS Hf). split; [reflexivity|].
    unfold key_there. cbn [fst snd]. destruct (Nat.eqb n (hgen t)); [|auto]. destruct (znth (hm t) i) as [[k b]|]; eauto.
  Qed.
  Lemma vread_ok s t a : Sim s t -> vfit a -> vread K V s a = value_now K V t a /\ (value_now K V t a = UB \/ exists v, value_now K V t a = Ok v).
  Proof.
    intros HS Hf. destruct a as [v|[[q n] j]]; cbn [vread value_now vfit] in *; [eauto|]. rewrite (value_at_ok s t q n j HS Hf). split; [reflexivity|].
    unfold value_there. destruct (find _ (hm t)) as [[k b]|]; [|auto]. destruct (Nat.eqb n (bgen b)); [|auto]. destruct (znth (bvals b) j); eauto.
  Qed.
  Lemma known_key t n i k : ascending_keys K B c (hm t) -> key_there K V t (n, i) = Ok k -> lookup K B c k (hm t) <> None.
  Proof.
    intros Ha. unfold key_there. cbn [fst snd]. destruct (Nat.eqb n (hgen t)); [|discriminate]. destruct (znth (hm t) i) as [[k0 b]|] eqn:E; [|discriminate].
    intros Hk. assert (k0 = k) by congruence. subst k0. apply znth_split in E. destruct E as (m1 & m2 & E & _).
    assert (F : found K B c (hm t) k m1 k b m2) by (apply (found_iff K B c TO); auto; apply (eq_refl_c _ c TO)).
    rewrite (lookup_found K B c _ _ _ _ _ _ F). discriminate.
  Qed.

  Lemma add_arg_ok s t ka va : Sim s t -> kfit ka -> vfit va ->
    match (do k <- key_now K V t ka; do v <- value_now K V t va;
           if match lookup K B c k (hm t) with Some b => stays V b va | None => true end then Ok (k, v) else UB) with
    | Ok (k, v) => add_arg K V cmp s ka va = g_add K V cmp (gx s) k v
    | _ => add_arg K V cmp s ka va = UB
    end.
  Proof.
    intros HS Fk Fv. unfold add_arg. destruct (kread_ok s t ka HS Fk) as [-> [-> |(k & Ek)]]; [reflexivity|]. rewrite Ek. cbn [bind].
    destruct (vread_ok s t va HS Fv) as [Ev Dv]. rewrite Ev. pose proof HS as (HR & _). pose proof (index_look _ _ _ k HR) as X.
    destruct (lookup K B c k (hm t)) as [b|] eqn:El.
    - destruct X as (m1 & k0 & m2 & F & Ei). destruct (at_split _ _ _ _ _ _ _ HR (proj1 F)) as ((x & Ex & Sx & Cx & Gx) & _ & _ & _ & G).
      pose proof (zlen_nonneg m1).
      assert (GA : forall v, g_add K V cmp (gx s) k v = do y <- late (insert V x (count x) v); Ok (setcell K V (gx s) (bid b) (Some y))).
      { intros v. unfold g_add. rewrite Ei. cbn [bind]. replace (zlen m1 =? -1) with false by lia. rewrite G. cbn [bind].
        unfold deref. rewrite Ex. reflexivity. }
      rewrite Ei. cbn [bind]. replace (zlen m1 =? -1) with false by lia. rewrite G. cbn [bind].
      unfold deref. rewrite Ex. cbn [late bind]. destruct Dv as [-> |(v & Hv)]; [reflexivity|]. rewrite Hv. cbn [bind].
      destruct va as [v'|[[q n] j]]; cbn [stays].
      + cbn [value_now] in Hv. assert (v' = v) by congruence. subst v'. now rewrite GA.
      + destruct (Nat.eqb (bid b) q) eqn:Eq; cbn [negb orb]; [|now rewrite GA]. apply Nat.eqb_eq in Eq. subst q.
        assert (In (k0, b) (hm t)) as Hi by (rewrite (proj1 F); apply in_or_app; right; now left).
        pose proof (find_here _ _ _ _ HR Hi) as Fd. cbn [snd] in Fd. cbn [value_now value_there] in Hv. rewrite Fd in Hv.
        destruct (Nat.eqb n (bgen b)); [|discriminate]. destruct (znth (bvals b) j) as [w|] eqn:Ew; [|discriminate]. assert (w = v) by congruence. subst w.
        rewrite (insert_own_spec V x _ _ j Sx). unfold OwnSpec.seen_by_insert. destruct (Sx) as (Cn & _). rewrite Cn, Cx, Ew.
        pose proof (znth_in _ _ _ Ew). replace ((0 <=? zlen (bvals b)) && (zlen (bvals b) <=? zlen (bvals b))) with true by lia. cbn [negb].
        destruct (zlen (bvals b) <? broom b) eqn:Er.
        * replace (broom b <=? zlen (bvals b)) with false by lia. replace (j <? zlen (bvals b)) with true by lia. rewrite GA, Cn. reflexivity.
        * replace (broom b <=? zlen (bvals b)) with true by lia. reflexivity.
    - destruct X as ((m1 & m2 & F) & Ei).
      destruct ka as [k'|[n i]].
      2:{ exfalso. destruct (R_parts _ _ _ HR) as (_ & Ha & _). exact (known_key t n i k Ha Ek El). }
      destruct (R_parts _ _ _ HR) as (HK & Ha & _). pose proof HR as (_ & _ & HI & _).
      destruct (add_absent K B c TO _ _ _ _ _ HK Ha F) as (y & n1 & n2 & Hn & Ea & Sy).
      assert (HI' := HI). rewrite (proj1 Hn), map_app in HI'.
      destruct (insert_mid nat _ _ _ (length (gheap (gx s))) HI') as (z & Ez & Sz). rewrite zlen_map in Ez. apply (late_ok z) in Ez.
      set (g1 := mkGroup y z (gheap (gx s) ++ [Some empty_lst])). set (p := length (gheap (gx s))) in *.
      assert (D : deref K V g1 p = Ok empty_lst) by (unfold deref; cbn [gheap g1]; rewrite nth_error_app2, Nat.sub_diag by (unfold p; lia); reflexivity).
      assert (GA : forall v, g_add K V cmp (gx s) k v = do w <- late (insert V empty_lst (count (@empty_lst V)) v); Ok (setcell K V g1 p (Some w))).
      { intros v. unfold g_add. rewrite Ei. cbn [bind Z.eqb Pos.eqb]. rewrite Ea. cbn [bind]. fold p. rewrite Ez. cbn [bind]. fold g1. rewrite D. reflexivity. }
      rewrite Ei. cbn [bind Z.eqb Pos.eqb]. rewrite Ea. cbn [bind]. rewrite Ez. cbn [bind]. fold g1. rewrite D. cbn [late bind].
      destruct Dv as [-> |(v & Hv)]; [reflexivity|]. rewrite Hv. cbn [bind]. rewrite GA.
      destruct va as [v'|[[q n] j]]; cbn [value_now] in Hv; [assert (v' = v) by congruence; now subst v'|].
      pose proof (value_alive _ _ _ _ _ _ _ HR Hv). replace (Nat.eqb p q) with false; [reflexivity|].
      symmetry. apply Nat.eqb_neq. unfold p. lia.
  Qed.

  Lemma hgen_group t o : hgen (h_group K V c veq t o) = moved (hroom t) (hroom (h_group K V c veq t o)) (hgen t).
  Proof.
    assert (Y : hgen t = moved (hroom t) (hroom t) (hgen t)) by (unfold moved; now rewrite Z.eqb_refl).
    destruct o as [k v|k|k v| |k|k v| |i|k|k i]; cbn [h_group]; auto; unfold h_add, h_remove, h_remove_value;
      destruct (lookup K (box V) c k (hm t)) as [b|]; auto. destruct (remove_first V veq v (bvals b)); auto.
  Qed.
  Lemma hes_group t o : hes (h_group K V c veq t o) = hes t.
  Proof.
    destruct o as [k v|k|k v| |k|k v| |i|k|k i]; cbn [h_group]; auto; unfold h_add, h_remove, h_remove_value;
      destruct (lookup K (box V) c k (hm t)) as [b|]; auto. destruct (remove_first V veq v (bvals b)); auto.
  Qed.
  Lemma core_sim s t o : Sim s t -> exists g', g_step K V cmp veq (gx s) o = Ok (g', snd (mg_step K V c veq (contents (hm t)) o)) /\
    Sim (with_group K V s g') (h_group K V c veq t o).
  Proof.
    intros (HR & Hg & He & Hs). destruct (core _ _ _ o HR) as (g' & E & HR'). exists g'. split; [exact E|].
    unfold Sim, with_group. cbn [gx gkgen gvgen ges]. rewrite hes_group. split; [exact HR'|]. split; [|auto].
    rewrite hgen_group. unfold kgen_after, moved. destruct HR as (_ & C & _). destruct HR' as (_ & C' & _). now rewrite C, C', Hg.
  Qed.

  Lemma hstep_next s t x : Sim s t -> sane (look x) ->
    let '(k, v, b) := following K V (hm t) (ek x) (ev x) in
    next_loop K V s (if ek x =? -1 then mkGen 0 (ev x) (ec x) else x) (S (S (Z.to_nat (count (gkeys (gx s)))))) =
      Ok (mkGen k v (if b then place K V t k v else ec x), Some b) /\ sane (k, v, if b then place K V t k v else ec x).
  Proof.
    intros (HR & Hg & _) Hx. unfold following. set (x0 := if ek x =? -1 then _ else x).
    assert (E0 : ek x0 = (if ek x =? -1 then 0 else ek x) /\ ev x0 = ev x /\ ec x0 = ec x) by (unfold x0; destruct (ek x =? -1); auto).
    destruct E0 as (E1 & E2 & E3). rewrite <- E1, <- E2, <- E3. unfold look, sane in Hx. rewrite <- E2, <- E3 in Hx.
    assert (Hk : 0 <= ek x0) by (rewrite E1; destruct (ek x =? -1) eqn:?; lia). destruct Hx as (_ & Hv & Hc). clearbody x0. clear E1 E2 E3 x.
    pose proof (keys_count _ _ _ HR) as N.
    cbn [next_loop]. rewrite N. destruct (znth (hm t) (ek x0)) as [[k0 b]|] eqn:E.
    2:{ assert (~ ek x0 < zlen (hm t)) by (intros L; destruct (znth_some (hm t) (ek x0)) as (? & ?); [lia|congruence]).
        replace (ek x0 <? zlen (hm t)) with false by lia. split; [now destruct x0|]. unfold sane. split; [lia|]. auto. }
    pose proof (znth_in _ _ _ E) as L. replace (ek x0 <? zlen (hm t)) with true by lia. cbn [ek ev ec].
    assert (U : forall k1 v1 b1, 0 <= v1 -> znth (hm t) k1 = Some b1 -> get nat (gvals (gx s)) k1 = Ok (bid (snd b1)) /\
      (exists z, deref K V (gx s) (bid (snd b1)) = Ok z /\ count z = zlen (bvals (snd b1))) /\ bvals (snd b1) <> [] /\
      (v1 < zlen (bvals (snd b1)) -> update_gen K V s (mkGen k1 v1 (ec x0)) = Ok (mkGen k1 v1 (place K V t k1 v1), true) /\ sane (k1, v1, place K V t k1 v1))).
    { intros k1 v1 [k2 b2] Hv1 E1. cbn [snd]. pose proof (znth_in _ _ _ E1) as L1. pose proof E1 as E1'. apply znth_split in E1. destruct E1 as (m1 & m2 & Em & <-).
      destruct (at_split _ _ _ _ _ _ _ HR Em) as ((z & Ez & Sz & _ & Gz) & NE & _ & _ & G). destruct Sz as (Cz & _).
      assert (D : deref K V (gx s) (bid b2) = Ok z) by (unfold deref; now rewrite Ez).
      split; [exact G|]. split; [eauto|]. split; [exact NE|]. intros Lv. unfold update_gen, place. cbn [ek ev ec]. rewrite N, G, E1'. cbn [bind].
      replace (zlen m1 <? zlen (hm t)) with true by lia. rewrite D. cbn [bind]. rewrite Cz. replace (v1 <? zlen (bvals b2)) with true by lia.
      replace ((zlen m1 >=? 0) && (v1 >=? 0)) with true by lia. rewrite Hg, Gz. split; [reflexivity|]. unfold sane. lia. }
    destruct (U (ek x0) (ev x0 + 1) _ ltac:(lia) E) as (G & (z & D & Cz) & NE & Up). cbn [snd] in *. rewrite G, D. cbn [bind]. rewrite Cz.
    destruct (ev x0 + 1 <? zlen (bvals b)) eqn:Lv.
    { destruct (Up ltac:(lia)) as [-> Sn]. cbn [bind]. split; [reflexivity|exact Sn]. }
    cbn [next_loop ek ev ec]. destruct (ek x0 + 1 <? zlen (hm t)) eqn:Lk.
    - destruct (znth_some (hm t) (ek x0 + 1)) as ([k1 b1] & E1); [lia|].
      destruct (U (ek x0 + 1) 0 _ ltac:(lia) E1) as (G1 & (z1 & D1 & Cz1) & NE1 & Up1). cbn [snd] in *.
      assert (0 < zlen (bvals b1)) by (destruct (bvals b1) as [|a l]; [congruence|]; rewrite zlen_cons; pose proof (zlen_nonneg l); lia).
      rewrite G1, D1. cbn [bind]. rewrite Cz1. replace (-1 + 1) with 0 by lia. replace (0 <? zlen (bvals b1)) with true by lia.
      destruct (Up1 ltac:(lia)) as [-> Sn]. cbn [bind]. split; [reflexivity|exact Sn].
    - split; [reflexivity|]. unfold sane. split; [lia|]. split; [lia|exact Hc].
  Qed.
  Lemma hstep_index s t k v : Sim s t -> -1 <= k ->
    g_index K V (gx s) (mkGEnum k v None) = Ok (if (0 <=? k) && (k <? zlen (hm t)) then before K V (hm t) k + v else -1).
  Proof.
    intros (HR & _) Hk. destruct ((0 <=? k) && (k <? zlen (hm t))) eqn:L.
    - destruct (znth_some (hm t) k) as ([k1 b1] & E1); [lia|]. apply znth_split in E1. destruct E1 as (m1 & m2 & Em & <-).
      pose proof (proj1 HR) as Sg. rewrite Em in Sg. unfold EngSpec.contents in Sg. rewrite map_app in Sg. cbn [map] in Sg.
      pose proof (g_index_ok K V c _ _ _ _ v None Sg) as X. rewrite zlen_map in X. rewrite X. unfold before. rewrite Em, ztake_app_len. reflexivity.
    - unfold g_index. cbn [g_key]. now rewrite (keys_count _ _ _ HR), L.
  Qed.

  Lemma move_sim s t e x : Sim s t -> sane (look x) -> Sim (set_gen K V s e x) (h_move K V t e (look x)).
  Proof.
    intros (HR & Hg & He & Hs) Hx. unfold Sim, set_gen, h_move. cbn [gx gkgen gvgen ges hgen hes]. split; [exact HR|]. split; [exact Hg|].
    split; [rewrite <- He; apply map_upd|]. now apply Forall_upd.
  Qed.
  Lemma gen_ok s t e : Sim s t -> match nth_error (hes t) e with
    | Some p => exists x, gen_of K V s e = Ok x /\ look x = p /\ sane p
    | None => gen_of K V s e = UB
    end.
  Proof.
    intros (_ & _ & He & Hs). unfold gen_of. destruct (nth_error (hes t) e) as [p|] eqn:E.
    - pose proof (nth_Forall sane _ _ _ Hs E). rewrite <- He, nth_error_map in E. destruct (nth_error (ges s) e) as [x|]; [|discriminate].
      injection E as <-. eauto.
    - rewrite <- He, nth_error_map in E. now destruct (nth_error (ges s) e).
  Qed.

  Lemma current_stops t e : current K V t e <> NoFuel.
  Proof. unfold current. destruct (nth_error (hes t) e) as [[[? ?] [?|]]|]; discriminate. Qed.
  Lemma key_arg_stops t a : key_arg K V t a <> NoFuel.
  Proof.
    destruct a as [k|e|i]; cbn [key_arg]; [discriminate| |destruct (znth (hm t) i); discriminate].
    pose proof (current_stops t e). destruct (current K V t e); cbn [bind]; congruence.
  Qed.
  Lemma value_arg_stops t a : value_arg K V c t a <> NoFuel.
  Proof.
    destruct a as [v|e|k i]; cbn [value_arg]; [discriminate| |].
    - pose proof (current_stops t e). destruct (current K V t e); cbn [bind]; congruence.
    - destruct (lookup K (box V) c k (hm t)) as [b|]; [|discriminate]. destruct (znth (bvals b) i); discriminate.
  Qed.
  Lemma hstep_ok s t o : Sim s t ->
    match hsstep_raw K V c veq t o with
    | Ok (t', r) => exists s', hstep_raw K V cmp veq s o = Ok (s', r) /\ Sim s' t'
    | Err => hstep_raw K V cmp veq s o = Err
    | UB => hstep_raw K V cmp veq s o = UB
    | NoFuel => False
    end.
  Proof.
    intros HS. pose proof HS as (HR & _). destruct o as [o|ka va|ka|ka va|e|e f|e|e|e|e|e]; cbn [hsstep_raw hstep_raw].
    - destruct (core_sim s t o HS) as (g' & -> & HS'). exists (with_group K V s g'). split; [reflexivity|exact HS'].
    - destruct (kbind_ok s t ka HS) as [-> Fk]. destruct (key_arg K V t ka) as [ka'| | |] eqn:Ek; cbn [bind]; auto.
      2:{ exact (key_arg_stops _ _ Ek). }
      destruct (vbind_ok s t va HS) as [-> Fv]. destruct (value_arg K V c t va) as [va'| | |] eqn:Ev; cbn [bind]; auto.
       2:{ exact (value_arg_stops _ _ Ev). }
      pose proof (add_arg_ok s t ka' va' HS (Fk _ eq_refl) (Fv _ eq_refl)) as A.
      destruct (kread_ok s t ka' HS (Fk _ eq_refl)) as [_ [Ek'|(k & Ek')]]; rewrite Ek' in *; cbn [bind] in *; [now rewrite A|].
      destruct (vread_ok s t va' HS (Fv _ eq_refl)) as [_ [Ev'|(v & Ev')]]; rewrite Ev' in *; cbn [bind] in *; [now rewrite A|].
      destruct (match lookup K B c k (hm t) with Some b => stays V b va' | None => true end); [|now rewrite A].
      rewrite A. destruct (core_sim s t (GAdd k v) HS) as (g' & E & HS'). unfold g_step in E. cbn [g_step_raw] in E.
      destruct (g_add K V cmp (gx s) k v) as [g1| | |]; cbn [bind] in *; try discriminate.
      assert (g1 = g') by congruence. subst g1. eauto.
    - destruct (kbind_ok s t ka HS) as [-> Fk]. destruct (key_arg K V t ka) as [ka'| | |] eqn:Ek; cbn [bind]; auto.
       2:{ exact (key_arg_stops _ _ Ek). }
      rewrite (keys_count _ _ _ HR). destruct (hm t) as [|kb m] eqn:Em; [cbn; eauto|]. rewrite <- Em.
      replace (zlen (hm t) =? 0) with false by (rewrite Em, zlen_cons; pose proof (zlen_nonneg m); lia).
      destruct (kread_ok s t ka' HS (Fk _ eq_refl)) as [-> [Ek'|(k & Ek')]]; rewrite Ek' in *; cbn [bind] in *; [reflexivity|].
      destruct (core_sim s t (GRemove k) HS) as (g' & E & HS'). unfold g_step in E. cbn [g_step_raw] in E. unfold mg_step in E. cbn [mg_step_raw] in E.
      unfold EngSpec.contents in E. rewrite lookup_mapv in E.
      destruct (g_remove K V cmp (gx s) k) as [[g1 b1]| | |]; cbn [bind] in *;
        destruct (lookup K (box V) c k (hm t)) as [b|]; cbn [option_map snd] in E; try discriminate.
      all: assert (g1 = g') by congruence; subst g1; assert (X : b1 = true \/ b1 = false) by (destruct b1; auto); exists (with_group K V s g'); (split; [congruence|exact HS']).
    - destruct (kbind_ok s t ka HS) as [-> Fk]. destruct (key_arg K V t ka) as [ka'| | |] eqn:Ek; cbn [bind]; auto.
       2:{ exact (key_arg_stops _ _ Ek). }
      destruct (vbind_ok s t va HS) as [-> Fv]. destruct (value_arg K V c t va) as [va'| | |] eqn:Ev; cbn [bind]; auto.
       2:{ exact (value_arg_stops _ _ Ev). }
      rewrite (keys_count _ _ _ HR). destruct (hm t) as [|kb m] eqn:Em; [cbn; eauto|]. rewrite <- Em.
      replace (zlen (hm t) =? 0) with false by (rewrite Em, zlen_cons; pose proof (zlen_nonneg m); lia).
      destruct (kread_ok s t ka' HS (Fk _ eq_refl)) as [-> [Ek'|(k & Ek')]]; rewrite Ek' in *; cbn [bind] in *; [reflexivity|].
      pose proof (index_look _ _ _ k HR) as X. destruct (lookup K (box V) c k (hm t)) as [b|] eqn:El.
      2:{ destruct X as (_ & ->). cbn [bind Z.eqb Pos.eqb]. eauto. }
      destruct X as (m1 & k0 & m2 & F & ->). cbn [bind]. pose proof (zlen_nonneg m1). replace (zlen m1 =? -1) with false by lia.
      destruct (vread_ok s t va' HS (Fv _ eq_refl)) as [-> [Ev'|(v & Ev')]]; rewrite Ev' in *; cbn [bind] in *; [reflexivity|].
      destruct (core_sim s t (GRemoveValue k v) HS) as (g' & E & HS'). unfold g_step in E. cbn [g_step_raw] in E. unfold mg_step in E. cbn [mg_step_raw] in E.
      unfold EngSpec.contents in E. rewrite lookup_mapv, El in E. cbn [option_map snd] in E.
      destruct (g_remove_value K V cmp veq (gx s) k v) as [[g1 b1]| | |]; cbn [bind] in *; try discriminate.
      assert (g1 = g') by congruence; subst g1. exists (with_group K V s g'). split; [congruence|exact HS'].
    - unfold with_pos. pose proof (gen_ok s t e HS) as G. destruct (nth_error (hes t) e) as [[[k v] p]|]; [|now rewrite G].
      destruct G as (x & -> & _). cbn [bind]. eexists. split; [reflexivity|]. apply (move_sim s t e (mkGen (-1) (-1) None) HS). unfold look, sane. cbn [ek ev ec]. lia.
    - unfold with_pos. pose proof (gen_ok s t e HS) as G. destruct (nth_error (hes t) e) as [p0|]; [|now rewrite G].
      destruct G as (x & -> & _). cbn [bind]. pose proof (gen_ok s t f HS) as G. destruct (nth_error (hes t) f) as [[[k v] p]|]; [|now rewrite G].
      destruct G as (y & -> & Ly & Sy). cbn [bind]. unfold look in Ly. assert (ek y = k) by congruence. assert (ev y = v) by congruence. subst k v.
      eexists. split; [reflexivity|]. apply (move_sim s t e (mkGen (ek y) (ev y) None) HS). unfold look, sane in *. cbn [ek ev ec]. lia.
    - unfold with_pos. pose proof (gen_ok s t e HS) as G. destruct (nth_error (hes t) e) as [[[k v] p]|]; [|now rewrite G].
      destruct G as (x & -> & Lx & Sx). cbn [bind]. rewrite <- Lx in Sx. pose proof (hstep_next s t x HS Sx) as X.
      unfold look in Lx. assert (ek x = k) by congruence. assert (ev x = v) by congruence. assert (ec x = p) by congruence. subst k v p.
      destruct (following K V (hm t) (ek x) (ev x)) as [[k' v'] b]. destruct X as [-> Sn]. cbn [bind]. eexists. split; [reflexivity|].
      apply (move_sim s t e (mkGen k' v' (if b then place K V t k' v' else ec x)) HS Sn).
    - unfold with_pos. pose proof (gen_ok s t e HS) as G. destruct (nth_error (hes t) e) as [[[k v] p]|]; [|now rewrite G].
      destruct G as (x & -> & Lx & Sx). cbn [bind]. unfold look in Lx. assert (ek x = k) by congruence. assert (ev x = v) by congruence. subst k v.
      rewrite (hstep_index s t _ _ HS (proj1 Sx)). cbn [bind]. eauto.
    - unfold with_pos. pose proof (gen_ok s t e HS) as G. destruct (nth_error (hes t) e) as [[[k v] p]|]; [|now rewrite G].
      destruct G as (x & -> & Lx & Sx). cbn [bind]. unfold look in Lx. assert (ec x = p) by congruence. subst p.
      unfold update_gen. cbn [ek ev ec]. rewrite (keys_count _ _ _ HR). pose proof (zlen_nonneg (hm t)). replace (-1 <? zlen (hm t)) with true by lia.
      pose proof HR as (_ & _ & HI & _). rewrite (get_neg nat _ _ HI). cbn [bind]. eexists. split; [reflexivity|].
      apply (move_sim s t e (mkGen (-1) (-1) (ec x)) HS). unfold look, sane in *. cbn [ek ev ec]. split; [lia|]. split; [lia|apply Sx].
    - destruct (cur_ok s t e HS) as [-> Hc]. destruct (current K V t e) as [p| | |] eqn:Ec; cbn [bind]; auto.
       2:{ exact (current_stops _ _ Ec). }
      destruct (Hc _ eq_refl). rewrite (key_at_ok s t _ HS) by assumption. unfold key_there. destruct (Nat.eqb _ _); [|reflexivity].
      destruct (znth (hm t) (snd (fst p))) as [[k b]|]; cbn [bind]; eauto.
    - destruct (cur_ok s t e HS) as [-> Hc]. destruct (current K V t e) as [p| | |] eqn:Ec; cbn [bind]; auto.
       2:{ exact (current_stops _ _ Ec). }
      destruct (Hc _ eq_refl). destruct p as [kp [[q n] j]]. cbn [fst snd] in *. rewrite (value_at_ok s t _ _ _ HS) by assumption. unfold value_there.
      destruct (find _ (hm t)) as [[k b]|]; [|reflexivity]. destruct (Nat.eqb _ _); [|reflexivity]. destruct (znth (bvals b) j); cbn [bind]; eauto.
  Qed.

  Lemma sstep_sim s t o : Sim s t ->
    match hsstep K V c veq t o with
    | Ok (t', r) => exists s', hstep K V cmp veq s o = Ok (s', r) /\ Sim s' t'
    | UB => hstep K V cmp veq s o = UB
    | _ => False
    end.
  Proof.
    intros HS. pose proof (hstep_ok s t o HS) as H. unfold hsstep, hstep. destruct (hsstep_raw K V c veq t o) as [[t' r]| | |]; auto.
    - destruct H as (s' & -> & HS'). eauto.
    - rewrite H. eauto.
    - now rewrite H.
  Qed.
  Lemma srun_sim os : forall s t, Sim s t ->
    match hsrun K V c veq t os with
    | Ok (t', rs) => exists s', hrun K V cmp veq s os = Ok (s', rs) /\ Sim s' t'
    | UB => hrun K V cmp veq s os = UB
    | _ => False
    end.
  Proof.
    induction os as [|o os IH]; intros s t HS; cbn [hsrun hrun]; [eauto|]. pose proof (sstep_sim s t o HS) as H.
    destruct (hsstep K V c veq t o) as [[t1 r]| | |]; cbn [bind]; auto; [|now rewrite H].
    destruct H as (s1 & -> & HS1). cbn [bind]. specialize (IH s1 t1 HS1). destruct (hsrun K V c veq t1 os) as [[t2 rs]| | |]; cbn [bind]; auto; [|now rewrite IH].
    destruct IH as (s2 & -> & HS2). cbn [bind]. eauto.
  Qed.
  Lemma start_sim n : Sim (hstart K V n) (hsstart K V n).
  Proof.
    unfold Sim, hstart, hsstart, R. cbn [gx gkgen gvgen ges hm hroom hgen hnext hes]. split; [|split; [reflexivity|split]].
    - split; [exact (g_empty K V c)|]. split; [reflexivity|]. split; [exact (empty_shows nat)|]. split; [constructor|]. split; [reflexivity|auto].
    - induction n as [|n IH]; [reflexivity|]. cbn [repeat map]. now rewrite IH.
    - induction n as [|n IH]; cbn [repeat]; constructor; auto. unfold sane. lia.
  Qed.
  Lemma sim_shows s t : Sim s t -> h_shows K V c s t.
  Proof. intros ((H1 & H2 & H3 & H4 & _) & Hg & He & _). unfold h_shows. auto 10. Qed.

  Lemma group_history n os :
    outs (hrun K V cmp veq (hstart K V n) os) = outs (hsrun K V c veq (hsstart K V n) os) /\
    (forall t rs, hsrun K V c veq (hsstart K V n) os = Ok (t, rs) ->
       exists s, hrun K V cmp veq (hstart K V n) os = Ok (s, rs) /\ h_shows K V c s t).
  Proof.
    pose proof (srun_sim os _ _ (start_sim n)) as H. destruct (hsrun K V c veq (hsstart K V n) os) as [[t rs]| | |]; try contradiction.
    - destruct H as (s & E & HS). rewrite E. split; [reflexivity|]. intros t' rs' E'. assert (t = t' /\ rs = rs') as [-> ->] by (split; congruence).
      eauto using sim_shows.
    - rewrite H. split; [reflexivity|]. discriminate.
  Qed.
  Lemma own_history os :
    outs (hrun K V cmp veq (hstart K V 0) os) = outs (hsrun K V c veq (hsstart K V 0) os) /\
    (forall t rs, hsrun K V c veq (hsstart K V 0) os = Ok (t, rs) ->
       exists s, hrun K V cmp veq (hstart K V 0) os = Ok (s, rs) /\ g_shows K V c (gx s) (contents (hm t))).
  Proof.
    destruct (group_history 0 os) as [E H]. split; [exact E|]. intros t rs Ht. destruct (H t rs Ht) as (s & Es & Hs & _). eauto.
  Qed.

  (* no undefined behaviour without the current elements of enumerators *)
  Lemma fresh_key s t a r : Sim s t -> own_key K a -> key_arg K V t a = Ok r -> exists k, key_now K V t r = Ok k.
  Proof.
    intros _ Ho E. destruct a as [k|e|i]; cbn [own_key key_arg] in *; [|contradiction|].
    - assert (r = KNow k) as -> by congruence. cbn [key_now]. eauto.
    - destruct (znth (hm t) i) as [[k b]|] eqn:Ei; [|discriminate]. assert (r = KRef (hgen t, i)) as -> by congruence.
      cbn [key_now]. unfold key_there. cbn [fst snd]. rewrite Nat.eqb_refl, Ei. eauto.
  Qed.
  Lemma fresh_value s t a r : Sim s t -> own_value K V a -> value_arg K V c t a = Ok r -> exists v, value_now K V t r = Ok v.
  Proof.
    intros (HR & _) Ho E. destruct a as [v|e|k i]; cbn [own_value value_arg] in *; [|contradiction|].
    - assert (r = VNow v) as -> by congruence. cbn [value_now]. eauto.
    - pose proof (index_look _ _ _ k HR) as X. destruct (lookup K B c k (hm t)) as [b|]; [|discriminate]. destruct X as (m1 & k0 & m2 & F & _).
      destruct (znth (bvals b) i) as [v|] eqn:Ei; [|discriminate]. assert (r = VRef (bid b, bgen b, i)) as -> by congruence. cbn [value_now value_there].
      assert (In (k0, b) (hm t)) as Hi by (rewrite (proj1 F); apply in_or_app; right; now left).
      pose proof (find_here _ _ _ _ HR Hi) as Fd. cbn [snd] in Fd. rewrite Fd, Nat.eqb_refl, Ei. eauto.
  Qed.
  Lemma key_arg_defined t a : own_key K a -> key_arg K V t a <> UB.
  Proof. destruct a as [k|e|i]; cbn [own_key key_arg]; [discriminate|contradiction|]. destruct (znth (hm t) i); discriminate. Qed.
  Lemma value_arg_defined t a : own_value K V a -> value_arg K V c t a <> UB.
  Proof.
    destruct a as [v|e|k i]; cbn [own_value value_arg]; [discriminate|contradiction|]. destruct (lookup K B c k (hm t)) as [b|]; [|discriminate].
    destruct (znth (bvals b) i); discriminate.
  Qed.
  Lemma step_defined s t o n : Sim s t -> length (hes t) = n -> no_current K V c n o -> hsstep K V c veq t o <> UB.
  Proof.
    intros HS L Hn. pose proof HS as (HR & _).
    assert (N : forall e f, (e < n)%nat -> (forall k v p, f k v p <> UB) -> with_pos K V t e f <> UB).
    { intros e f Le Hf. unfold with_pos. destruct (nth_error (hes t) e) as [[[k v] p]|] eqn:E; [apply Hf|]. apply nth_error_None in E. lia. }
    assert (hsstep_raw K V c veq t o <> UB); [|unfold hsstep; destruct (hsstep_raw K V c veq t o); congruence].
    destruct o as [o|ka va|ka|ka va|e|e f|e|e|e|e|e]; cbn [hsstep_raw no_current] in *.
    - discriminate.
    - destruct Hn as (Hk & Hv & Ha). pose proof (key_arg_defined t ka Hk). destruct (key_arg K V t ka) as [ra| | |] eqn:Ek; cbn [bind]; try congruence.
      pose proof (value_arg_defined t va Hv). destruct (value_arg K V c t va) as [rv| | |] eqn:Ev; cbn [bind]; try congruence.
      destruct (fresh_key _ _ _ _ HS Hk Ek) as (k & Ek'). destruct (fresh_value _ _ _ _ HS Hv Ev) as (v & Ev'). rewrite Ek', Ev'. cbn [bind].
      assert (match lookup K B c k (hm t) with Some b => stays V b rv | None => true end = true) as ->; [|discriminate].
      pose proof (index_look _ _ _ k HR) as X. destruct (lookup K B c k (hm t)) as [b|]; [|reflexivity].
      destruct va as [v0|e|k' i]; cbn [value_arg own_value apart] in *; [|contradiction|].
      { assert (rv = VNow v0) as -> by congruence. reflexivity. }
      pose proof (index_look _ _ _ k' HR) as X'. destruct (lookup K B c k' (hm t)) as [b'|]; [|discriminate]. destruct (znth (bvals b') i); [|discriminate].
      assert (rv = VRef (bid b', bgen b', i)) as -> by congruence. cbn [stays]. apply orb_true_iff. left. apply negb_true_iff, Nat.eqb_neq. intros Eb.
      destruct ka as [k1|e|j]; [|contradiction|contradiction]. cbn [key_arg] in Ek. assert (ra = KNow k1) as -> by congruence. cbn [key_now] in Ek'.
      assert (k1 = k) by congruence. subst k1. apply Ha. destruct X as (m1 & k0 & m2 & F & _). destruct X' as (m1' & k0' & m2' & F' & _).
      assert (In (k0, b) (hm t)) as Hi by (rewrite (proj1 F); apply in_or_app; right; now left).
      assert (In (k0', b') (hm t)) as Hi' by (rewrite (proj1 F'); apply in_or_app; right; now left).
      pose proof (find_here _ _ _ _ HR Hi) as Fd. pose proof (find_here _ _ _ _ HR Hi') as Fd'. cbn [snd] in Fd, Fd'. rewrite Eb in Fd.
      assert (k0 = k0') by congruence. subst k0'. destruct F as (_ & F & _). destruct F' as (_ & F' & _).
      apply (eq_trans_c K c TO _ k0); [apply (eq_sym_c K c TO); exact F|exact F'].
    - pose proof (key_arg_defined t ka Hn). destruct (key_arg K V t ka) as [ra| | |] eqn:Ek; cbn [bind]; try congruence.
      destruct (fresh_key _ _ _ _ HS Hn Ek) as (k & ->). destruct (hm t); discriminate.
    - destruct Hn as (Hk & Hv). pose proof (key_arg_defined t ka Hk). destruct (key_arg K V t ka) as [ra| | |] eqn:Ek; cbn [bind]; try congruence.
      pose proof (value_arg_defined t va Hv). destruct (value_arg K V c t va) as [rv| | |] eqn:Ev; cbn [bind]; try congruence.
      destruct (fresh_key _ _ _ _ HS Hk Ek) as (k & ->). destruct (fresh_value _ _ _ _ HS Hv Ev) as (v & ->). cbn [bind].
      destruct (hm t); [discriminate|]. destruct (lookup K B c k (p :: f)); discriminate.
    - apply N; [exact Hn|]. discriminate.
    - destruct Hn as [H1 H2]. destruct (nth_error (hes t) e) eqn:E; [|apply nth_error_None in E; lia]. apply N; [exact H2|]. discriminate.
    - apply N; [exact Hn|]. intros k v p. destruct (following K V (hm t) k v) as [[? ?] ?]. discriminate.
    - apply N; [exact Hn|]. discriminate.
    - apply N; [exact Hn|]. discriminate.
    - contradiction.
    - contradiction.
  Qed.
  Lemma step_enums t o t' r : hsstep K V c veq t o = Ok (t', r) -> length (hes t') = length (hes t).
  Proof.
    unfold hsstep. intros H. destruct (hsstep_raw K V c veq t o) as [[t1 r1]| | |] eqn:E; try discriminate.
    2:{ now assert (t' = t) as -> by congruence. }
    assert (t1 = t') by congruence. subst t1. clear H.
    assert (W : forall e f, with_pos K V t e f = Ok (t', r1) -> (forall k v p, f k v p = Ok (t', r1) -> length (hes t') = length (hes t)) -> length (hes t') = length (hes t)).
    { intros e f. unfold with_pos. destruct (nth_error (hes t) e) as [[[k v] p]|]; [eauto|discriminate]. }
    assert (G : forall o, t' = h_group K V c veq t o -> length (hes t') = length (hes t)) by (intros o' ->; now rewrite hes_group).
    assert (M : forall e p, t' = h_move K V t e p -> length (hes t') = length (hes t)) by (intros e p ->; apply upd_length).
    destruct o as [o|ka va|ka|ka va|e|e f|e|e|e|e|e]; cbn [hsstep_raw] in E.
    - apply (G o). congruence.
    - destruct (key_arg K V t ka) as [ra| | |]; try discriminate E. destruct (value_arg K V c t va) as [rv| | |]; try discriminate E. cbn [bind] in E.
      destruct (key_now K V t ra) as [k| | |]; try discriminate E. destruct (value_now K V t rv) as [v| | |]; try discriminate E. cbn [bind] in E.
      destruct (match lookup K (box V) c k (hm t) with Some _ => _ | None => _ end); [|discriminate E]. apply (G (GAdd k v)). cbn [h_group]. congruence.
    - destruct (key_arg K V t ka) as [ra| | |]; try discriminate E. cbn [bind] in E. destruct (hm t); [now assert (t' = t) as -> by congruence|].
      destruct (key_now K V t ra) as [k| | |]; try discriminate E. apply (G (GRemove k)). cbn [h_group bind] in *. congruence.
    - destruct (key_arg K V t ka) as [ra| | |]; try discriminate E. destruct (value_arg K V c t va) as [rv| | |]; try discriminate E. cbn [bind] in E.
      destruct (hm t); [now assert (t' = t) as -> by congruence|].
      destruct (key_now K V t ra) as [k| | |]; try discriminate E. cbn [bind] in E. destruct (lookup K (box V) c k (p :: f)); [|now assert (t' = t) as -> by congruence].
      destruct (value_now K V t rv) as [v| | |]; try discriminate E. apply (G (GRemoveValue k v)). cbn [h_group bind] in *. congruence.
    - apply (W _ _ E). intros k v p H. eapply M. symmetry. assert (X : forall (a b : hst K V) (x y : hres K V), Ok (a, x) = Ok (b, y) -> a = b) by (intros; congruence). eapply X. exact H.
    - destruct (nth_error (hes t) e); [|discriminate]. apply (W _ _ E). intros k v q H. eapply M. symmetry. assert (X : forall (a b : hst K V) (x y : hres K V), Ok (a, x) = Ok (b, y) -> a = b) by (intros; congruence). eapply X. exact H.
    - apply (W _ _ E). intros k v p H. destruct (following K V (hm t) k v) as [[k' v'] b]. eapply M. symmetry. assert (X : forall (a b : hst K V) (x y : hres K V), Ok (a, x) = Ok (b, y) -> a = b) by (intros; congruence). eapply X. exact H.
    - apply (W _ _ E). intros k v p H. now assert (t' = t) as -> by congruence.
    - apply (W _ _ E). intros k v p H. eapply M. symmetry. assert (X : forall (a b : hst K V) (x y : hres K V), Ok (a, x) = Ok (b, y) -> a = b) by (intros; congruence). eapply X. exact H.
    - destruct (current K V t e) as [p| | |]; try discriminate E. cbn [bind] in E. destruct (key_there K V t (fst p)); try discriminate E. cbn [bind] in E. now assert (t' = t) as -> by congruence.
    - destruct (current K V t e) as [p| | |]; try discriminate E. cbn [bind] in E. destruct (value_there K V t (snd p)); try discriminate E. cbn [bind] in E. now assert (t' = t) as -> by congruence.
  Qed.
  Lemma group_enumerators n os : Forall (no_current K V c n) os -> exists s rs, hrun K V cmp veq (hstart K V n) os = Ok (s, rs).
  Proof.
    assert (L : length (hes (hsstart K V n)) = n) by apply repeat_length. pose proof (start_sim n) as HS.
    revert HS L. generalize (hstart K V n) (hsstart K V n). induction os as [|o os IH]; intros s t HS L F; cbn [hrun]; [eauto|].
    inversion F as [|? ? Fo Fs]; subst. pose proof (step_defined s t o _ HS eq_refl Fo) as D. pose proof (sstep_sim s t o HS) as H.
    destruct (hsstep K V c veq t o) as [[t1 r]| | |] eqn:E; try contradiction.
    destruct H as (s1 & -> & HS1). cbn [bind]. destruct (IH s1 t1 HS1 (step_enums _ _ _ _ E) Fs) as (s2 & rs & ->). cbn [bind]. eauto.
  Qed.

  (* a value of a key stays where it is as long as only other keys are changed *)
  Lemma put_keeps (m : fmap K B) k' x k0 b : c k0 k' <> Eq -> In (k0, b) m -> In (k0, b) (put K B c k' x m).
  Proof.
    intros N. induction m as [|[k1 b1] m IH]; cbn [put]; [contradiction|]. intros [H|H].
    - assert (k1 = k0) by congruence. assert (b1 = b) by congruence. subst k1 b1. destruct (c k0 k'); [congruence|now left|right; now left].
    - destruct (c k1 k'); [right|right|right; right]; auto.
  Qed.
  Lemma del_keeps (m : fmap K B) k' k0 b : c k0 k' <> Eq -> In (k0, b) m -> In (k0, b) (del K B c k' m).
  Proof.
    intros N. induction m as [|[k1 b1] m IH]; cbn [del]; [contradiction|]. intros [H|H].
    - assert (k1 = k0) by congruence. assert (b1 = b) by congruence. subst k1 b1. destruct (c k0 k'); [congruence|now left|now left].
    - destruct (c k1 k'); [|right|right]; auto.
  Qed.
  Definition held (t : hst K V) (e : nat) (k : K) (v : V) : Prop :=
    exists b kk vv kp j, In (k, b) (hm t) /\ nth_error (hes t) e = Some (kk, vv, Some (kp, (bid b, bgen b, j))) /\ znth (bvals b) j = Some v.
  Lemma group_keeps t o k b : elsewhere K V c k (HGroup o) -> In (k, b) (hm t) -> In (k, b) (hm (h_group K V c veq t o)).
  Proof.
    assert (X : forall k', c k' k <> Eq -> c k k' <> Eq) by (intros k' N E; apply N; now apply (eq_sym_c K c TO)).
    destruct o as [k' v|k'|k' v| |k'|k' v| |i|k'|k' i]; cbn [elsewhere h_group]; auto; try contradiction; unfold h_add, h_remove, h_remove_value; intros N Hi;
      (destruct (lookup K (box V) c k' (hm t)) as [b'|]; [|auto]).
    - apply put_keeps; auto.
    - cbn [new_box hm]. apply put_keeps; auto.
    - apply del_keeps; auto.
    - destruct (remove_first V veq v (bvals b')); [apply del_keeps|apply put_keeps]; auto.
  Qed.
  Lemma held_step t o t' r e k v : hsstep K V c veq t o = Ok (t', r) -> elsewhere K V c k o -> ~ moves_enum K V e o -> held t e k v -> held t' e k v.
  Proof.
    unfold hsstep. intros H He Hm Hh. destruct (hsstep_raw K V c veq t o) as [[t1 r1]| | |] eqn:E; try discriminate.
    2:{ now assert (t' = t) as -> by congruence. }
    assert (t1 = t') by congruence. subst t1. clear H.
    assert (X : forall (a b : hst K V) (x y : hres K V), Ok (a, x) = Ok (b, y) -> b = a) by (intros; congruence).
    assert (Same : t' = t -> held t' e k v) by now intros ->.
    assert (G : forall o, elsewhere K V c k (HGroup o) -> t' = h_group K V c veq t o -> held t' e k v).
    { intros o' Ho ->. destruct Hh as (b & kk & vv & kp & j & Hi & Hn & Hz). exists b, kk, vv, kp, j. rewrite hes_group. split; [now apply group_keeps|auto]. }
    assert (M : forall e' p, e <> e' -> t' = h_move K V t e' p -> held t' e k v).
    { intros e' p Ne ->. destruct Hh as (b & kk & vv & kp & j & Hi & Hn & Hz). exists b, kk, vv, kp, j. split; [exact Hi|]. split; [|exact Hz].
      cbn [h_move hes]. rewrite upd_other by auto. exact Hn. }
    assert (W : forall e' f, with_pos K V t e' f = Ok (t', r1) -> (forall k' v' p, f k' v' p = Ok (t', r1) -> held t' e k v) -> held t' e k v).
    { intros e' f. unfold with_pos. destruct (nth_error (hes t) e') as [[[k' v'] p]|]; [eauto|discriminate]. }
    destruct o as [o|ka va|ka|ka va|e'|e' f|e'|e'|e'|e'|e']; cbn [hsstep_raw moves_enum] in *.
    - apply (G o He). eapply X. exact E.
    - destruct ka as [k'|?|?]; cbn [elsewhere] in He; try contradiction. cbn [key_arg bind] in E. destruct (value_arg K V c t va) as [rv| | |]; try discriminate E. cbn [bind key_now] in E.
      destruct (value_now K V t rv) as [v'| | |]; try discriminate E. cbn [bind] in E.
      destruct (match lookup K (box V) c k' (hm t) with Some _ => _ | None => _ end); [|discriminate E]. apply (G (GAdd k' v')); [exact He|]. eapply X. exact E.
    - destruct ka as [k'|?|?]; cbn [elsewhere] in He; try contradiction. cbn [key_arg bind key_now] in E. destruct (hm t); [apply Same; eapply X; exact E|].
      apply (G (GRemove k')); [exact He|]. eapply X. exact E.
    - destruct ka as [k'|?|?]; cbn [elsewhere] in He; try contradiction. cbn [key_arg bind] in E. destruct (value_arg K V c t va) as [rv| | |]; try discriminate E. cbn [bind key_now] in E.
      destruct (hm t); [apply Same; eapply X; exact E|]. destruct (lookup K (box V) c k' (p :: f)); [|apply Same; eapply X; exact E].
      destruct (value_now K V t rv) as [v'| | |]; try discriminate E. apply (G (GRemoveValue k' v')); [exact He|]. eapply X. exact E.
    - apply (W _ _ E). intros k' v' p H. eapply M; [|eapply X; exact H]. auto.
    - destruct (nth_error (hes t) e'); [|discriminate]. apply (W _ _ E). intros k' v' q H. eapply M; [|eapply X; exact H]. auto.
    - apply (W _ _ E). intros k' v' p H. destruct (following K V (hm t) k' v') as [[? ?] ?]. eapply M; [|eapply X; exact H]. auto.
    - apply (W _ _ E). intros k' v' p H. apply Same. eapply X; exact H.
    - apply (W _ _ E). intros k' v' p H. eapply M; [|eapply X; exact H]. auto.
    - destruct (current K V t e') as [p| | |]; try discriminate E. cbn [bind] in E. destruct (key_there K V t (fst p)); try discriminate E. apply Same. eapply X. exact E.
    - destruct (current K V t e') as [p| | |]; try discriminate E. cbn [bind] in E. destruct (value_there K V t (snd p)); try discriminate E. apply Same. eapply X. exact E.
  Qed.
  Lemma held_value t e k v g vg : R g vg t -> held t e k v -> hsstep K V c veq t (HValue e) = Ok (t, HRes (OVal v)).
  Proof.
    intros HR (b & kk & vv & kp & j & Hi & Hn & Hz). unfold hsstep. cbn [hsstep_raw]. unfold current. rewrite Hn. cbn [bind snd value_there].
    pose proof (find_here _ _ _ _ HR Hi) as Fd. cbn [snd] in Fd. rewrite Fd, Nat.eqb_refl, Hz. reflexivity.
  Qed.
  Lemma run_state n os s rs : hrun K V cmp veq (hstart K V n) os = Ok (s, rs) -> exists t, Sim s t.
  Proof.
    intros E. pose proof (srun_sim os _ _ (start_sim n)) as H. destruct (hsrun K V c veq (hsstart K V n) os) as [[t rs']| | |]; try contradiction.
    - destruct H as (s' & E' & HS). assert (s' = s) by congruence. subst s'. eauto.
    - congruence.
  Qed.
  Lemma step_back s t o s' r : Sim s t -> hstep K V cmp veq s o = Ok (s', r) -> exists t', hsstep K V c veq t o = Ok (t', r) /\ Sim s' t'.
  Proof.
    intros HS E. pose proof (sstep_sim s t o HS) as H. destruct (hsstep K V c veq t o) as [[t' r']| | |]; try contradiction; [|congruence].
    destruct H as (s1 & E1 & HS1). assert (s1 = s') by congruence. assert (r' = r) by congruence. subst s1 r'. eauto.
  Qed.
  Lemma group_value n os1 s1 rs1 e s2 k v os s3 rs :
    hrun K V cmp veq (hstart K V n) os1 = Ok (s1, rs1) -> hstep K V cmp veq s1 (HNext e) = Ok (s2, HRes (OBool true)) ->
    hstep K V cmp veq s2 (HKey e) = Ok (s2, HRes (OKey k)) -> hstep K V cmp veq s2 (HValue e) = Ok (s2, HRes (OVal v)) ->
    Forall (elsewhere K V c k) os -> Forall (fun o => ~ moves_enum K V e o) os -> hrun K V cmp veq s2 os = Ok (s3, rs) ->
    hstep K V cmp veq s3 (HValue e) = Ok (s3, HRes (OVal v)).
  Proof.
    intros E1 E2 E3 E4 F1 F2 E5. destruct (run_state _ _ _ _ E1) as (t1 & HS1). destruct (step_back _ _ _ _ _ HS1 E2) as (t2 & T2 & HS2).
    destruct (step_back _ _ _ _ _ HS2 E3) as (t2' & T3 & _). destruct (step_back _ _ _ _ _ HS2 E4) as (t2'' & T4 & _).
    assert (Hh : held t2 e k v).
    { pose proof HS2 as (HR2 & _). unfold hsstep in T2, T3, T4. cbn [hsstep_raw] in T2, T3, T4. unfold with_pos in T2.
      destruct (nth_error (hes t1) e) as [[[k1 v1] p1]|] eqn:En; [|discriminate]. destruct (following K V (hm t1) k1 v1) as [[k2 v2] b] eqn:Ef.
      assert (b = true) by congruence. subst b. assert (t2 = h_move K V t1 e (k2, v2, place K V t1 k2 v2)) by congruence. clear T2.
      unfold current in T3, T4. subst t2. cbn [h_move hm hes hgen] in *. rewrite upd_same in T3, T4 by (eapply nth_error_lt; eauto).
      unfold place in *. destruct (znth (hm t1) k2) as [[k0 b]|] eqn:Ez; [|discriminate]. cbn [bind fst snd key_there value_there h_move hm hgen] in T3, T4.
      unfold key_there in T3. cbn [fst snd h_move hm hgen] in T3. rewrite Nat.eqb_refl, Ez in T3. cbn [bind] in T3. assert (k0 = k) by congruence. subst k0.
      assert (In (k, b) (hm t1)) as Hi by (apply znth_split in Ez; destruct Ez as (m1 & m2 & -> & _); apply in_or_app; right; now left).
      pose proof (find_here _ _ _ _ HR2 Hi) as Fd. cbn [snd h_move hm] in Fd. rewrite Fd, Nat.eqb_refl in T4.
      destruct (znth (bvals b) v2) as [w|] eqn:Ew; [|discriminate]. cbn [bind] in T4. assert (w = v) by congruence. subst w.
      exists b, k2, v2, (hgen t1, k2), v2. cbn [h_move hm hes]. rewrite upd_same by (eapply nth_error_lt; eauto). auto. }
    clear T2 T3 T4 E2 E3 E4 E1 HS1 t2' t2''. revert s2 t2 rs HS2 Hh E5. induction os as [|o os IH]; intros s2 t2 rs HS2 Hh E5; cbn [hrun] in E5.
    - assert (s2 = s3) by congruence. subst s2. pose proof (sstep_sim s3 t2 (HValue e) HS2) as H. rewrite (held_value _ _ _ _ _ _ (proj1 HS2) Hh) in H.
      destruct H as (s' & E & _). unfold hstep in *. cbn [hstep_raw] in *. destruct (cur K V s3 e) as [p| | |]; cbn [bind] in *; try discriminate.
      destruct (value_at K V s3 (snd p)); cbn [bind] in *; try discriminate. congruence.
    - inversion F1; subst. inversion F2; subst. destruct (hstep K V cmp veq s2 o) as [[s2' r]| | |] eqn:Es; try discriminate. cbn [bind] in E5.
      destruct (hrun K V cmp veq s2' os) as [[s3' rs']| | |] eqn:Er; try discriminate. cbn [bind] in E5. assert (s3' = s3) by congruence. subst s3'.
      destruct (step_back _ _ _ _ _ HS2 Es) as (t2' & T & HS2'). eapply (IH H2 H4 s2' t2' rs' HS2' (held_step _ _ _ _ _ _ _ T H1 H3 Hh)). exact Er.
  Qed.
End Eng.

Notation zcmp := (fun a b : Z => Some (Z.compare a b)).
Lemma keys_lost : ~ forall ks, Forall (fun k => 0 < k) ks -> outs (hrun Z Z zcmp Z.eqb (hstart Z Z 1) (visit_then_add_keys (HKey 0) ks)) <> UB.
Proof. intros H. apply (H [1; 2; 3; 4; 5; 6; 7; 8]); [repeat constructor|]. vm_compute. reflexivity. Qed.
Lemma ex_group : outs (hrun Z Z zcmp Z.eqb (hstart Z Z 1)
    [HGroup (GAdd 3 30); HGroup (GAdd 1 10); HGroup (GAdd 3 31); HNext 0; HKey 0; HValue 0; HNext 0; HIndex 0;
     HGroup (GRemove 1); HIndex 0; HNext 0; HIndex 0; HReset 0; HNext 0; HIndex 0; HValue 0]) =
  Ok [HRes (OBool true); HRes (OBool true); HRes (OBool true); HRes (OBool true); HRes (OKey 1); HRes (OVal 10); HRes (OBool true); HRes (OInt 1);
      HRes (OBool true); HRes (OInt (-1)); HRes (OBool false); HRes (OInt (-1)); HError; HRes (OBool true); HRes (OInt 0); HRes (OVal 30)].
Proof. vm_compute. reflexivity. Qed.
Lemma ex_no_current : Forall (no_current Z Z Z.compare 1)
  [HGroup (GAdd 3 30); HAdd (KVal 1) (VAt 3 0); HNext 0; HRemove (KAt 0); HRemoveValue (KAt 0) (VAt 3 0); HNext 0].
Proof. repeat constructor; cbn; discriminate. Qed.
Lemma ex_value : exists s1 rs1 s2 s3 rs,
  hrun Z Z zcmp Z.eqb (hstart Z Z 1) [HGroup (GAdd 0 7)] = Ok (s1, rs1) /\ hstep Z Z zcmp Z.eqb s1 (HNext 0) = Ok (s2, HRes (OBool true)) /\
  hstep Z Z zcmp Z.eqb s2 (HKey 0) = Ok (s2, HRes (OKey 0)) /\ hstep Z Z zcmp Z.eqb s2 (HValue 0) = Ok (s2, HRes (OVal 7)) /\
  Forall (elsewhere Z Z Z.compare 0) [HGroup (GAdd 1 1); HGroup (GAdd 2 2); HRemove (KVal 1)] /\
  hrun Z Z zcmp Z.eqb s2 [HGroup (GAdd 1 1); HGroup (GAdd 2 2); HRemove (KVal 1)] = Ok (s3, rs).
Proof.
  do 5 eexists. split; [vm_compute; reflexivity|]. split; [vm_compute; reflexivity|]. split; [vm_compute; reflexivity|]. split; [vm_compute; reflexivity|].
  split; [repeat constructor; cbn; discriminate|]. vm_compute. reflexivity.
Qed.
(* arguments that are elements of the group *)
Lemma ex_own : outs (hrun Z Z zcmp Z.eqb (hstart Z Z 0)
    [HGroup (GAdd 1 10); HGroup (GAdd 1 11); HAdd (KAt 0) (VVal 12); HAdd (KVal 2) (VAt 1 1); HGroup (GValueAt 2 0); HAdd (KVal 1) (VAt 1 0); HGroup (GValueAt 1 3);
     HRemoveValue (KAt 0) (VAt 1 0); HGroup (GValueAt 1 0); HRemove (KAt 0); HGroup GCount]) =
  Ok [HRes (OBool true); HRes (OBool true); HRes (OBool true); HRes (OBool true); HRes (OVal 11); HRes (OBool true); HRes (OVal 10);
      HRes (OBool true); HRes (OVal 11); HRes (OBool true); HRes (OInt 1)].
Proof. vm_compute. reflexivity. Qed.
Lemma own_lost : ~ forall os, Forall (fun o => match o with HGroup _ | HAdd (KVal _) (VAt _ _) => True | _ => False end) os ->
  outs (hrun Z Z zcmp Z.eqb (hstart Z Z 0) os) <> UB.
Proof. intros H. apply (H (HGroup (GAdd 1 10) :: repeat (HAdd (KVal 1) (VAt 1 0)) 8)); [repeat constructor|]. vm_compute. reflexivity. Qed.
