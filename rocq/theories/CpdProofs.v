From Coq Require Import Permutation.
From Verif Require Import Base BaseFacts LzyModel LzySpec LzyProofs LstModel LstSpec LstProofs SrtModel SrtSpec SrtProofs DctModel DctSpec DctProofs CpyModel CpySpec CpyProofs EngModel EngSpec EngProofs OwnProofs CpdModel CpdSpec.
From Coq Require Import ZifyBool ZifyNat.
Open Scope Z_scope.

Section Pairs.
  Variable K V : Type.
  Variable c : K -> K -> comparison.
  Variable TO : total_order c.
  Variable veq : V -> V -> bool.
  Notation cmp := (fun a b => Some (c a b)).
  Notation A := (K * V)%type.
  Notation pairs := (pairs_of K V).

  Lemma psrc_count_ok s l : psrc_shows K V c s l -> psrc_count K V s = zlen l.
  Proof.
    destruct s as [s|d]; cbn [psrc_shows psrc_count]; [exact (src_count_ok A s l)|]. intros ((C & _) & _). now rewrite C, zlen_map.
  Qed.
  Lemma psrc_get_ok s l k v : psrc_shows K V c s l -> nth_error l k = Some v -> psrc_get K V s (Z.of_nat k) = Ok v.
  Proof.
    destruct s as [s|d]; cbn [psrc_shows psrc_get]; [exact (src_get_ok A (fun _ _ => Eq) s l k v)|]. intros (HK & HV & _) E.
    rewrite (get_ok K _ _ _ HK), znth_nat, nth_error_map, E. cbn [option_map bind].
    rewrite (get_ok V _ _ _ HV), znth_nat, nth_error_map, E. cbn [option_map bind]. now destruct v.
  Qed.

  (* ---- the enumerator of a group: the pairs still to come ---- *)
  Definition gpos (m : fmap K (list V)) (e : genum K V) (rest : list A) : Prop :=
    (e = g_enum /\ rest = pairs m) \/
    exists m1 k vs1 vs2 m2 cur, m = m1 ++ (k, vs1 ++ vs2) :: m2 /\ e = mkGEnum (zlen m1) (zlen vs1 - 1) cur /\ rest = map (pair k) vs2 ++ pairs m2.
  Lemma gpos_mid g m m1 k vs1 vs2 m2 cur : g_shows K V c g m -> m = m1 ++ (k, vs1 ++ vs2) :: m2 ->
    match map (pair k) vs2 ++ pairs m2 with
    | [] => exists e', g_next K V g (mkGEnum (zlen m1) (zlen vs1 - 1) cur) (Z.to_nat (count (gkeys g)) + 1) = Ok (e', false)
    | p :: rest => exists e', g_next K V g (mkGEnum (zlen m1) (zlen vs1 - 1) cur) (Z.to_nat (count (gkeys g)) + 1) = Ok (e', true) /\ g_cur K V e' = Ok p /\ gpos m e' rest
    end.
  Proof.
    intros H ->. unfold g_next. cbn [g_key]. pose proof (zlen_nonneg m1). replace (zlen m1 =? -1) with false by lia.
    rewrite (g_count K V c g _ H), zlen_app, zlen_cons. pose proof (zlen_nonneg m2). destruct vs2 as [|v vs2]; cbn [map app].
    - rewrite app_nil_r in *. replace (Z.to_nat (zlen m1 + (1 + zlen m2)) + 1)%nat with (S (S (Z.to_nat (zlen m1 + zlen m2)))) by lia.
      rewrite (g_next_leave K V c g m1 k vs1 m2 cur _ H).
      replace (zlen m1 + 1) with (zlen (m1 ++ [(k, vs1)])) by (rewrite zlen_app, zlen_cons, zlen_nil; lia).
      destruct m2 as [|[k2 vs2] m2]; cbn [pairs_of flat_map fst snd].
      + rewrite (g_next_stop K V c g _ cur _ H). eauto.
      + assert (H2 : g_shows K V c g ((m1 ++ [(k, vs1)]) ++ (k2, vs2) :: m2)) by now rewrite <- app_assoc.
        assert (Hv : vs2 <> []).
        { destruct H as (ps & _ & _ & _ & _ & _ & _ & HN). apply Forall_app in HN. destruct HN as [_ HN]. inversion HN as [|? ? _ HN2]; subst.
          inversion HN2; subst. assumption. }
        destruct vs2 as [|v vs2]; [congruence|]. cbn [map app]. change (-1) with (zlen (@nil V) - 1) at 1.
        rewrite (g_next_here K V c g (m1 ++ [(k, vs1)]) k2 [] v vs2 m2 cur _ H2). eexists. split; [reflexivity|]. split; [reflexivity|].
        right. exists (m1 ++ [(k, vs1)]), k2, [v], vs2, m2, (Some (k2, v)). split; [now rewrite <- app_assoc|]. split; [|reflexivity]. f_equal.
    - rewrite Nat.add_1_r, (g_next_here K V c g m1 k vs1 v vs2 m2 cur _ H). eexists. split; [reflexivity|]. split; [reflexivity|].
      right. exists m1, k, (vs1 ++ [v]), vs2, m2, (Some (k, v)). split; [now rewrite <- app_assoc|]. split; [|reflexivity].
      f_equal. rewrite zlen_app, zlen_cons, zlen_nil. lia.
  Qed.
  Lemma gpos_next g m e rest : g_shows K V c g m -> gpos m e rest ->
    match rest with
    | [] => exists e', g_next K V g e (Z.to_nat (count (gkeys g)) + 1) = Ok (e', false)
    | p :: rest => exists e', g_next K V g e (Z.to_nat (count (gkeys g)) + 1) = Ok (e', true) /\ g_cur K V e' = Ok p /\ gpos m e' rest
    end.
  Proof.
    intros H [[-> ->]|(m1 & k & vs1 & vs2 & m2 & cur & Em & -> & ->)]; [|eapply gpos_mid; eauto].
    change (g_next K V g g_enum) with (g_next K V g (mkGEnum (zlen (@nil (K * list V))) (zlen (@nil V) - 1) None)).
    destruct m as [|[k vs] m].
    - cbn [pairs_of flat_map]. unfold g_next. cbn [g_key]. rewrite Nat.add_1_r. rewrite (g_next_stop K V c g [] None _ H). eauto.
    - pose proof (gpos_mid g _ [] k [] vs m None H eq_refl) as X. exact X.
  Qed.
  Lemma gpos_start m : gpos m g_enum (pairs m).
  Proof. now left. Qed.

  (* ---- any destination: R d l says that the pairs l have been put into d ---- *)
  Section Dest.
    Variable D : Type.
    Variable clr : D -> res D.
    Variable app : D -> A -> res D.
    Variable R : D -> list A -> Prop.
    Variable app_R : forall d l p, R d l -> exists d', app d p = Ok d' /\ R d' (l ++ [p]).

    Lemma app_loop_ok s l : psrc_shows K V c s l -> forall n k y, (k + n = length l)%nat -> R y (firstn k l) ->
      exists y', app_loop K V D app y s (Z.of_nat k) n = Ok y' /\ R y' l.
    Proof.
      intros HS. induction n as [|n IH]; intros k y Hk H; cbn [app_loop].
      - exists y. split; [reflexivity|]. now rewrite firstn_all2 in H by lia.
      - destruct (nth_lt _ l k) as (v & Ev); [lia|]. rewrite (psrc_get_ok _ _ _ _ HS Ev). cbn [bind].
        destruct (app_R y _ v H) as (y1 & E & H1). rewrite E. cbn [bind]. replace (Z.of_nat k + 1) with (Z.of_nat (S k)) by lia.
        apply IH; [lia|]. now rewrite (firstn_S _ _ _ _ Ev).
    Qed.
    Lemma app_enum_ok (m : list A) i0 rs P (HM : LzyProofs.sim m i0 rs P) : forall n j y e, (length m - j = n)%nat -> P (Some j) e -> R y (firstn j m) ->
      exists y', yields (fun f => app_enum K V D app f y e) y' /\ R y' m.
    Proof.
      induction n as [|n IH]; intros j y e Hj HP H; pose proof (s_bound _ _ _ _ HM _ _ HP).
      - assert (j = length m) by lia. subst j. destruct (s_end _ _ _ _ HM _ HP) as (e' & Y & _). exists y. rewrite firstn_all in H. split; [|exact H].
        eapply y_step; [intros f; cbn [app_enum]; reflexivity|]. eapply y_bind; [exact Y|]. apply y_ret.
      - destruct (s_next _ _ _ _ HM _ _ HP) as (e' & Y & HP'); [lia|]. destruct (s_cur _ _ _ _ HM _ _ HP') as (v & Ev & Ec).
        destruct (app_R y _ v H) as (y1 & E & H1). destruct (IH (S j) y1 e') as (y2 & E2 & H2); auto; [lia|now rewrite (firstn_S _ _ _ _ Ev)|].
        exists y2. split; [|exact H2]. eapply y_step; [intros f; cbn [app_enum]; reflexivity|]. eapply y_bind; [exact Y|]. cbv beta iota.
        rewrite Ec. cbn [bind]. rewrite E. cbn [bind]. exact E2.
    Qed.
    Lemma app_group_ok g m : g_shows K V c g m -> forall rest done y e, gpos m e rest -> R y done ->
      exists y', yields (fun f => app_group K V D app f y g e) y' /\ R y' (done ++ rest).
    Proof.
      intros HG. induction rest as [|p rest IH]; intros done y e HP H; pose proof (gpos_next _ _ _ _ HG HP) as X; cbv iota beta in X.
      - destruct X as (e' & E). exists y. rewrite app_nil_r. split; [|exact H]. eapply y_step; [intros f; cbn [app_group]; reflexivity|].
        rewrite E. cbn [bind]. apply y_ret.
      - destruct X as (e' & E & Ec & HP'). destruct (app_R y _ p H) as (y1 & E1 & H1). destruct (IH _ _ _ HP' H1) as (y2 & E2 & H2).
        exists y2. split; [|now rewrite <- app_assoc in H2]. eapply y_step; [intros f; cbn [app_group]; reflexivity|].
        rewrite E. cbn [bind]. rewrite Ec. cbn [bind]. rewrite E1. cbn [bind]. exact E2.
    Qed.
    Lemma copy_ra_ok x s l (append : bool) y : (if append then Ok x else clr x) = Ok y -> R y [] -> psrc_shows K V c s l ->
      exists y', copy_ra K V D clr app x s append = Ok y' /\ R y' l.
    Proof.
      intros E H HS. unfold copy_ra. rewrite E. cbn [bind]. rewrite (psrc_count_ok _ _ HS), zlen_to_nat. apply (app_loop_ok s l HS (length l) 0 y); auto.
    Qed.
    Lemma copy_en_ok x s l (append : bool) y : (if append then Ok x else clr x) = Ok y -> R y [] -> esrc_shows K V c s l ->
      exists y', yields (fun f => copy_en K V D clr app f x s append) y' /\ R y' l.
    Proof.
      intros E H HS. unfold copy_en. rewrite E. cbn [bind]. destruct s as [p|g]; cbn [esrc_shows] in HS.
      - destruct HS as [T <-]. destruct (build_ok A p T) as (e & i & Y & (P & HS & HP) & _).
        destruct (app_enum_ok _ _ _ P HS _ 0 y e eq_refl HP H) as (y' & Y2 & H2). exists y'. split; [|exact H2]. eapply y_bind; [exact Y|]. exact Y2.
      - destruct HS as (m & HG & ->). exact (app_group_ok g m HG _ [] y g_enum (gpos_start m) H).
    Qed.
  End Dest.

  (* ---- dictionaries and groups as destinations ---- *)
  Lemma d_set_ok d m k v : d_shows K V c d m -> exists d', d_set K V cmp d k v = Ok d' /\ d_shows K V c d' (put K V c k v m).
  Proof.
    intros H. destruct (d_step_ok K V c TO d m (DSet k v) H) as (d' & E & H'). unfold d_step, md_step in *. cbn [d_step_raw md_step_raw fst snd] in *.
    destruct (d_set K V cmp d k v) as [d1| | |]; cbn [bind] in E; try discriminate E. exists d1. split; [reflexivity|]. congruence.
  Qed.
  Lemma d_clear_ok d m : d_shows K V c d m -> exists d', d_clear K V d = Ok d' /\ d_shows K V c d' [].
  Proof.
    intros H. destruct (d_step_ok K V c TO d m DClear H) as (d' & E & H'). unfold d_step, md_step in *. cbn [d_step_raw md_step_raw fst snd] in *.
    destruct (d_clear K V d) as [d1| | |]; cbn [bind] in E; try discriminate E. exists d1. split; [reflexivity|]. congruence.
  Qed.
  Lemma g_add_ok g m k v : g_shows K V c g m -> exists g', g_add K V cmp g k v = Ok g' /\ g_shows K V c g' (group_put K V c m (k, v)).
  Proof.
    intros H. destruct (g_step_ok K V c TO veq g m (GAdd k v) H) as (g' & E & H'). unfold g_step, mg_step in *. cbn [g_step_raw mg_step_raw fst snd] in *.
    destruct (g_add K V cmp g k v) as [g1| | |]; cbn [bind] in E; try discriminate E. exists g1. split; [reflexivity|].
    assert (g1 = g') by congruence. subst g1. exact H'.
  Qed.
  Lemma g_clear_ok g m : g_shows K V c g m -> exists g', g_clear K V g = Ok g' /\ g_shows K V c g' [].
  Proof.
    intros H. destruct (g_step_ok K V c TO veq g m GClear H) as (g' & E & H'). unfold g_step, mg_step in *. cbn [g_step_raw mg_step_raw fst snd] in *.
    destruct (g_clear K V g) as [g1| | |]; cbn [bind] in E; try discriminate E. exists g1. split; [reflexivity|]. congruence.
  Qed.
  Definition Rdict m0 d l := d_shows K V c d (put_all K V c m0 l).
  Definition Rgroup m0 g l := g_shows K V c g (group_put_all K V c m0 l).
  Lemma Rdict_app m0 d l p : Rdict m0 d l -> exists d', dict_app K V cmp d p = Ok d' /\ Rdict m0 d' (l ++ [p]).
  Proof. intros H. destruct (d_set_ok d _ (fst p) (snd p) H) as (d' & E & H'). exists d'. split; [exact E|]. unfold Rdict, put_all. rewrite fold_left_app. exact H'. Qed.
  Lemma Rgroup_app m0 g l p : Rgroup m0 g l -> exists g', group_app K V cmp g p = Ok g' /\ Rgroup m0 g' (l ++ [p]).
  Proof. intros H. destruct (g_add_ok g _ (fst p) (snd p) H) as (g' & E & H'). exists g'. split; [exact E|]. unfold Rgroup, group_put_all. rewrite fold_left_app. cbn [fold_left]. now destruct p. Qed.
  Lemma dict_kept d m (append : bool) : d_shows K V c d m -> exists y, (if append then Ok d else d_clear K V d) = Ok y /\ d_shows K V c y (kept append m).
  Proof. destruct append; [eauto|apply d_clear_ok]. Qed.
  Lemma group_kept g m (append : bool) : g_shows K V c g m -> exists y, (if append then Ok g else g_clear K V g) = Ok y /\ g_shows K V c y (kept append m).
  Proof. destruct append; [eauto|apply g_clear_ok]. Qed.

  Lemma dict_ra d m s l append : d_shows K V c d m -> psrc_shows K V c s l ->
    exists d', copy_dict_ra K V cmp d s append = Ok d' /\ d_shows K V c d' (put_all K V c (kept append m) l).
  Proof.
    intros H HS. destruct (dict_kept d m append H) as (y & E & Hy).
    exact (copy_ra_ok _ (d_clear K V) _ (Rdict (kept append m)) (Rdict_app _) d s l append y E Hy HS).
  Qed.
  Lemma dict_en d m s l append : d_shows K V c d m -> esrc_shows K V c s l ->
    exists d', yields (fun f => copy_dict_en K V cmp f d s append) d' /\ d_shows K V c d' (put_all K V c (kept append m) l).
  Proof.
    intros H HS. destruct (dict_kept d m append H) as (y & E & Hy).
    exact (copy_en_ok _ (d_clear K V) _ (Rdict (kept append m)) (Rdict_app _) d s l append y E Hy HS).
  Qed.
  Lemma group_ra g m s l append : g_shows K V c g m -> psrc_shows K V c s l ->
    exists g', copy_group_ra K V cmp g s append = Ok g' /\ g_shows K V c g' (group_put_all K V c (kept append m) l).
  Proof.
    intros H HS. destruct (group_kept g m append H) as (y & E & Hy).
    exact (copy_ra_ok _ (g_clear K V) _ (Rgroup (kept append m)) (Rgroup_app _) g s l append y E Hy HS).
  Qed.
  Lemma group_en g m s l append : g_shows K V c g m -> esrc_shows K V c s l ->
    exists g', yields (fun f => copy_group_en K V cmp f g s append) g' /\ g_shows K V c g' (group_put_all K V c (kept append m) l).
  Proof.
    intros H HS. destruct (group_kept g m append H) as (y & E & Hy).
    exact (copy_en_ok _ (g_clear K V) _ (Rgroup (kept append m)) (Rgroup_app _) g s l append y E Hy HS).
  Qed.

  (* ---- lists and sorted lists ---- *)
  Section Lists.
    Variable pc : A -> A -> comparison.
    Notation pcmp := (fun a b => Some (pc a b)).
    Lemma list_ra x l0 s l append : lst_shows A x l0 -> psrc_shows K V c s l ->
      exists y, copy_list_ra K V pcmp KList x s append = Ok y /\ lst_shows A y (kept append l0 ++ l).
    Proof.
      intros H HS. destruct (clear_kept A x l0 append H) as (y & E & Hy).
      apply (copy_ra_ok _ (clear A) _ (fun x l => lst_shows A x (kept append l0 ++ l))) with (y := y); auto; [|now rewrite app_nil_r].
      intros d l1 p Hd. rewrite app_assoc. now apply (add_list A pc).
    Qed.
    Lemma list_en x l0 s l append : lst_shows A x l0 -> esrc_shows K V c s l ->
      exists y, yields (fun f => copy_list_en K V pcmp KList f x s append) y /\ lst_shows A y (kept append l0 ++ l).
    Proof.
      intros H HS. destruct (clear_kept A x l0 append H) as (y & E & Hy).
      apply (copy_en_ok _ (clear A) _ (fun x l => lst_shows A x (kept append l0 ++ l))) with (y := y); auto; [|now rewrite app_nil_r].
      intros d l1 p Hd. rewrite app_assoc. now apply (add_list A pc).
    Qed.
    Variable PTO : total_order pc.
    Definition Rsorted l0 (x : lst A) l := exists r, lst_shows A x r /\ ascending A pc r /\ Permutation r (l0 ++ l).
    Lemma Rsorted_app l0 x l p : Rsorted l0 x l -> exists y, add A pcmp KSorted x p = Ok y /\ Rsorted l0 y (l ++ [p]).
    Proof.
      intros (r & H & Ha & P). destruct (add_R_sorted A pc PTO x r p (conj H Ha)) as (y & r' & E & (H' & Ha') & P' & _).
      exists y. split; [exact E|]. exists r'. split; [exact H'|]. split; [exact Ha'|]. rewrite P', P, app_assoc. reflexivity.
    Qed.
    Lemma sorted_kept x l0 (append : bool) : lst_shows A x l0 -> ascending A pc l0 ->
      exists y, (if append then Ok x else clear A x) = Ok y /\ Rsorted (kept append l0) y [].
    Proof.
      intros H Ha. destruct (clear_kept A x l0 append H) as (y & E & Hy). exists y. split; [exact E|]. exists (kept append l0).
      split; [exact Hy|]. split; [destruct append; [exact Ha|constructor]|]. now rewrite app_nil_r.
    Qed.
    Lemma sorted_ra x l0 s l append : lst_shows A x l0 -> ascending A pc l0 -> psrc_shows K V c s l ->
      exists y r, copy_list_ra K V pcmp KSorted x s append = Ok y /\ lst_shows A y r /\ ascending A pc r /\ Permutation r (kept append l0 ++ l).
    Proof.
      intros H Ha HS. destruct (sorted_kept x l0 append H Ha) as (y & E & Hy).
      destruct (copy_ra_ok _ (clear A) _ (Rsorted (kept append l0)) (Rsorted_app _) x s l append y E Hy HS) as (y' & E' & r & Hr). exists y', r. auto.
    Qed.
    Lemma sorted_en x l0 s l append : lst_shows A x l0 -> ascending A pc l0 -> esrc_shows K V c s l ->
      exists y r, yields (fun f => copy_list_en K V pcmp KSorted f x s append) y /\ lst_shows A y r /\ ascending A pc r /\ Permutation r (kept append l0 ++ l).
    Proof.
      intros H Ha HS. destruct (sorted_kept x l0 append H Ha) as (y & E & Hy).
      destruct (copy_en_ok _ (clear A) _ (Rsorted (kept append l0)) (Rsorted_app _) x s l append y E Hy HS) as (y' & E' & r & Hr). exists y', r. auto.
    Qed.
  End Lists.

  (* ---- arrays ---- *)
  Lemma fill_loop_ok s (m : list A) (old : list (option A)) : psrc_shows K V c s m -> forall n k y rest, (k + n = length m)%nat -> length rest = n ->
    arr_shows A y (old ++ map Some (firstn k m) ++ rest) ->
    exists y', fill_loop K V y s (zlen old) (Z.of_nat k) n = Ok y' /\ arr_shows A y' (old ++ map Some m).
  Proof.
    intros HS. induction n as [|n IH]; intros k y rest Hk Hr H; cbn [fill_loop].
    - exists y. split; auto. destruct rest; [|discriminate]. rewrite firstn_all2, app_nil_r in H by lia. exact H.
    - destruct rest as [|e rest]; [discriminate|]. destruct (nth_lt _ m k) as (v & Ev); [lia|]. rewrite (psrc_get_ok _ _ _ _ HS Ev). cbn [bind].
      rewrite app_assoc in H. destruct (a_set_next A (fun _ _ => Eq) _ _ _ _ v H) as (y' & E & H').
      replace (zlen (old ++ map Some (firstn k m))) with (zlen old + Z.of_nat k) in E by (rewrite zlen_app; unfold zlen; rewrite map_length, firstn_length; lia).
      rewrite E. cbn [bind]. replace (Z.of_nat k + 1) with (Z.of_nat (S k)) by lia. apply (IH (S k) y' rest); [lia|cbn [length] in Hr; lia|].
      rewrite (firstn_S _ _ _ _ Ev), map_app, <- !app_assoc in *. cbn [map app]. exact H'.
  Qed.
  Lemma array_ra dflt x l s m append : arr_shows A x l -> psrc_shows K V c s m ->
    exists y, copy_array_ra K V dflt x s append = Ok y /\ arr_shows A y (kept append l ++ map Some m).
  Proof.
    intros H HS. unfold copy_array_ra. rewrite (psrc_count_ok _ _ HS). unfold zlen at 1.
    destruct (resize_room A dflt x l append (length m) H) as (y & rest & E & Hr & H' & Ei). rewrite E. cbn [bind]. rewrite Ei. rewrite zlen_to_nat.
    apply (fill_loop_ok s m (kept append l) HS (length m) 0 y rest); auto.
  Qed.
  Lemma count_group_ok g m : g_shows K V c g m -> forall rest e n, gpos m e rest -> yields (fun f => count_group K V f n g e) (n + zlen rest).
  Proof.
    intros HG. induction rest as [|p rest IH]; intros e n HP; pose proof (gpos_next _ _ _ _ HG HP) as X; cbv iota beta in X.
    - destruct X as (e' & E). eapply y_step; [intros f; cbn [count_group]; reflexivity|]. rewrite E. cbn [bind]. rewrite zlen_nil, Z.add_0_r. apply y_ret.
    - destruct X as (e' & E & _ & HP'). eapply y_step; [intros f; cbn [count_group]; reflexivity|]. rewrite E. cbn [bind].
      rewrite zlen_cons. replace (n + (1 + zlen rest)) with (n + 1 + zlen rest) by lia. now apply IH.
  Qed.
  Lemma fill_group_ok g m : g_shows K V c g m -> forall rest done room y e, gpos m e rest -> length room = length rest ->
    arr_shows A y (done ++ room) -> exists y', yields (fun f => fill_group K V f y (zlen done) g e) y' /\ arr_shows A y' (done ++ map Some rest).
  Proof.
    intros HG. induction rest as [|p rest IH]; intros done room y e HP Hr H; pose proof (gpos_next _ _ _ _ HG HP) as X; cbv iota beta in X.
    - destruct X as (e' & E). exists y. destruct room; [|discriminate]. split; [|exact H]. eapply y_step; [intros f; cbn [fill_group]; reflexivity|].
      rewrite E. cbn [bind]. apply y_ret.
    - destruct X as (e' & E & Ec & HP'). destruct room as [|o room]; [discriminate|]. destruct (a_set_next A (fun _ _ => Eq) _ _ _ _ p H) as (y1 & E1 & H1).
      destruct (IH (done ++ [Some p]) room y1 e' HP') as (y2 & E2 & H2); [cbn [length] in Hr; lia|now rewrite <- app_assoc|].
      exists y2. split; [|now rewrite <- app_assoc in H2]. eapply y_step; [intros f; cbn [fill_group]; reflexivity|].
      rewrite E. cbn [bind]. rewrite Ec. cbn [bind]. rewrite E1. cbn [bind]. rewrite zlen_app, zlen_cons, zlen_nil in E2.
      replace (zlen done + 1) with (zlen done + (1 + 0)) by lia. exact E2.
  Qed.
  Lemma array_group dflt x l g m append : arr_shows A x l -> g_shows K V c g m ->
    exists y, yields (fun f => copy_array_group K V f dflt x g append) y /\ arr_shows A y (kept append l ++ map Some (pairs m)).
  Proof.
    intros H HG. destruct (resize_room A dflt x l append (length (pairs m)) H) as (y & rest & E & Hr & H' & Ei).
    destruct (fill_group_ok g m HG (pairs m) (kept append l) rest y g_enum (gpos_start m) Hr H') as (y' & Y & H2).
    exists y'. split; [|exact H2]. unfold copy_array_group. eapply y_bind; [apply (count_group_ok g m HG (pairs m) g_enum 0 (gpos_start m))|]. cbv beta zeta.
    rewrite Z.add_0_l. unfold zlen at 1. rewrite E. cbn [bind]. rewrite Ei. exact Y.
  Qed.

  (* ---- the same container ---- *)
  Lemma put_same k v k0 m m1 m2 : ascending_keys K V c m -> m = m1 ++ (k0, v) :: m2 -> c k0 k = Eq -> put K V c k v m = m.
  Proof. intros Ha E Ek. pose proof (found_iff K V c TO m k m1 k0 v m2 Ha E Ek) as F. rewrite (put_found K V c _ _ _ _ _ _ v F). now symmetry. Qed.
  Lemma dict_self_loop_ok m : forall n d k, (k + n = length m)%nat -> d_shows K V c d m ->
    exists d', dict_self_loop K V cmp d (Z.of_nat k) n = Ok d' /\ d_shows K V c d' m.
  Proof.
    induction n as [|n IH]; intros d k Hk H; cbn [dict_self_loop]; [eauto|]. destruct (H) as (HK & HV & Ha).
    destruct (nth_lt _ m k) as ([k0 v0] & Ev); [lia|]. rewrite (get_ok K _ _ _ HK), znth_nat, nth_error_map, Ev. cbn [option_map bind].
    rewrite (get_ok V _ _ _ HV), znth_nat, nth_error_map, Ev. cbn [option_map bind fst snd].
    destruct (d_set_ok d m k0 v0 H) as (d' & E & H'). rewrite E. cbn [bind]. replace (Z.of_nat k + 1) with (Z.of_nat (S k)) by lia. apply IH; [lia|].
    destruct (nth_error_split _ _ Ev) as (m1 & m2 & Em & _). rewrite (put_same _ _ _ _ _ _ Ha Em) in H'; [exact H'|]. apply (eq_refl_c K c TO).
  Qed.
  Lemma dict_self d m (append : bool) : d_shows K V c d m -> exists d', copy_dict_self K V cmp d append = Ok d' /\ d_shows K V c d' (kept append m).
  Proof.
    intros H. unfold copy_dict_self. destruct (dict_kept d m append H) as (y & E & Hy). rewrite E. cbn [bind].
    destruct (Hy) as ((C & _) & _). rewrite C, zlen_map, zlen_to_nat. apply (dict_self_loop_ok _ (length (kept append m)) y 0); auto.
  Qed.

  (* ---- the maps ---- *)
  Lemma put_all_lookup l : forall m k, lookup K V c k (put_all K V c m l) = last_for K V c k l (lookup K V c k m).
  Proof.
    induction l as [|[k0 v0] l IH]; intros m k; [reflexivity|]. unfold put_all in *. cbn [fold_left fst snd]. rewrite IH, (lookup_put K V c TO).
    unfold last_for, values_for. cbn [filter fst]. destruct (c k0 k); reflexivity.
  Qed.
  Lemma lookup_eq {U} (m : fmap K U) k k' : c k k' = Eq -> lookup K U c k m = lookup K U c k' m.
  Proof. intros E. now apply (lookup_cong K U c TO). Qed.
  Lemma group_put_all_values l : forall m k, values_in K V c k (group_put_all K V c m l) = values_in K V c k m ++ values_for K V c k l.
  Proof.
    induction l as [|[k0 v0] l IH]; intros m k; [symmetry; apply app_nil_r|]. unfold group_put_all in *. cbn [fold_left]. rewrite IH.
    unfold values_in at 1. unfold group_put. cbn [fst snd]. rewrite (lookup_put K (list V) c TO). unfold values_for. cbn [filter fst].
    destruct (c k0 k) eqn:E; [|reflexivity|reflexivity]. cbn [map snd]. rewrite (lookup_eq m k0 k E). unfold values_in.
    destruct (lookup K (list V) c k m); [now rewrite <- app_assoc|reflexivity].
  Qed.
  Lemma put_end {U} (m : fmap K U) k v : below K U c m k -> put K U c k v m = m ++ [(k, v)].
  Proof. intros H. rewrite <- (app_nil_r m) at 1. now rewrite (put_below K U c). Qed.
  Lemma asc_below {U} (m1 : fmap K U) k v m2 : ascending_keys K U c (m1 ++ (k, v) :: m2) -> below K U c m1 k.
  Proof. intros Ha p Hp. apply (asck_app K U c) in Ha. destruct Ha as (_ & _ & Hl). apply (Hl p (k, v)); [exact Hp|now left]. Qed.
  Lemma put_all_id m2 : forall m1, ascending_keys K V c (m1 ++ m2) -> put_all K V c m1 m2 = m1 ++ m2.
  Proof.
    induction m2 as [|[k v] m2 IH]; intros m1 Ha; [symmetry; apply app_nil_r|]. unfold put_all in *. cbn [fold_left fst snd].
    rewrite (put_end m1 k v (asc_below _ _ _ _ Ha)), IH; rewrite <- app_assoc; auto.
  Qed.
  Lemma group_put_end m k vs v : below K (list V) c m k -> group_put K V c (m ++ [(k, vs)]) (k, v) = m ++ [(k, vs ++ [v])].
  Proof.
    intros Hb. unfold group_put. cbn [fst snd]. rewrite (lookup_below K (list V) c m k [(k, vs)] Hb), (put_below K (list V) c m k _ _ Hb).
    cbn [lookup put]. now rewrite (eq_refl_c K c TO).
  Qed.
  Lemma group_put_key m k : below K (list V) c m k -> forall vs2 vs1, group_put_all K V c (m ++ [(k, vs1)]) (map (pair k) vs2) = m ++ [(k, vs1 ++ vs2)].
  Proof.
    intros Hb. induction vs2 as [|v vs2 IH]; intros vs1; [now rewrite app_nil_r|]. cbn [map]. unfold group_put_all in *. cbn [fold_left].
    rewrite group_put_end by auto. rewrite IH, <- app_assoc. reflexivity.
  Qed.
  Lemma group_put_all_id m2 : forall m1, ascending_keys K (list V) c (m1 ++ m2) -> Forall (fun kv => snd kv <> []) m2 ->
    group_put_all K V c m1 (pairs m2) = m1 ++ m2.
  Proof.
    induction m2 as [|[k vs] m2 IH]; intros m1 Ha Hn; [symmetry; apply app_nil_r|]. inversion Hn as [|? ? Hv Hn']; subst. cbn [snd] in Hv.
    cbn [pairs_of flat_map fst snd]. unfold group_put_all. rewrite fold_left_app. fold (group_put_all K V c).
    pose proof (asc_below _ _ _ _ Ha) as Hb. destruct vs as [|v vs]; [congruence|]. cbn [map fold_left].
    assert (E0 : group_put K V c m1 (k, v) = m1 ++ [(k, [v])]).
    { unfold group_put. cbn [fst snd]. rewrite <- (app_nil_r m1) at 1. rewrite (lookup_below K (list V) c m1 k [] Hb). cbn [lookup]. now apply put_end. }
    rewrite E0. change (fold_left (group_put K V c) (map (pair k) vs) (m1 ++ [(k, [v])])) with (group_put_all K V c (m1 ++ [(k, [v])]) (map (pair k) vs)).
    rewrite (group_put_key m1 k Hb). change (group_put_all K V c (m1 ++ [(k, [v] ++ vs)]) (pairs m2) = m1 ++ (k, v :: vs) :: m2).
    rewrite IH; [now rewrite <- app_assoc|now rewrite <- app_assoc|assumption].
  Qed.
  Lemma dict_dict d m d0 m0 : d_shows K V c d m -> d_shows K V c d0 m0 ->
    exists d', copy_dict_ra K V cmp d0 (PDict d) false = Ok d' /\ d_shows K V c d' m.
  Proof.
    intros H H0. destruct (dict_ra d0 m0 (PDict d) m false H0 H) as (d' & E & H'). exists d'. split; [exact E|].
    cbn [kept] in H'. rewrite (put_all_id m []) in H'; [exact H'|]. now destruct H as (_ & _ & Ha).
  Qed.
  Lemma group_group g m g0 m0 : g_shows K V c g m -> g_shows K V c g0 m0 ->
    exists g', yields (fun f => copy_group_en K V cmp f g0 (EGroup g) false) g' /\ g_shows K V c g' m.
  Proof.
    intros H H0. destruct (group_en g0 m0 (EGroup g) (pairs m) false H0) as (g' & E & H'); [now exists m|]. exists g'. split; [exact E|].
    cbn [kept] in H'. destruct H as (ps & _ & _ & _ & _ & _ & Ha & Hn). now rewrite (group_put_all_id m []) in H'.
  Qed.
End Pairs.

Section Self.
  Variable K V : Type.
  Variable c : K -> K -> comparison.
  Variable TO : total_order c.
  Variable veq : V -> V -> bool.
  Notation cmp := (fun a b => Some (c a b)).
  Notation Sim := (Sim K V c).
  Notation step := (hstep K V cmp veq).

  Lemma step_ok s t o t' r : Sim s t -> hsstep K V c veq t o = Ok (t', r) -> exists s', step s o = Ok (s', r) /\ Sim s' t'.
  Proof. intros HS E. pose proof (sstep_sim K V c TO veq s t o HS) as H. rewrite E in H. exact H. Qed.
  Lemma self_loop fuel : forall s t k0 b m k v p es, Sim s t -> hm t = (k0, b) :: m -> hes t = (k, v, p) :: es -> (k = -1 \/ k = 0) ->
    -1 <= v -> v + 1 < zlen (bvals b) -> group_self_loop K V cmp veq fuel s = NoFuel.
  Proof.
    induction fuel as [|fuel IH]; intros s t k0 b m k v p es HS Hm He Hk Hv Hl; [reflexivity|]. cbn [group_self_loop].
    destruct (znth_some (bvals b) (v + 1)) as (w & Ew); [lia|].
    assert (E1 : hsstep K V c veq t (HNext 0) = Ok (h_move K V t 0 (0, v + 1, Some ((hgen t, 0), (bid b, bgen b, v + 1))), HRes (OBool true))).
    { unfold hsstep. cbn [hsstep_raw]. unfold with_pos. rewrite He. cbn [nth_error]. unfold following. rewrite Hm.
      replace (if k =? -1 then 0 else k) with 0 by (destruct Hk; subst; reflexivity).
      change (znth ((k0, b) :: m) 0) with (Some (k0, b)). cbv iota beta. replace (v + 1 <? zlen (bvals b)) with true by lia.
      unfold place. rewrite Hm. reflexivity. }
    destruct (step_ok _ _ _ _ _ HS E1) as (s1 & -> & HS1). cbn [bind]. set (t1 := h_move _ _ _ _ _) in *.
    assert (He1 : hes t1 = (0, v + 1, Some ((hgen t, 0), (bid b, bgen b, v + 1))) :: es) by (unfold t1, h_move; cbn [hes]; rewrite He; reflexivity).
    assert (Hm1 : hm t1 = (k0, b) :: m) by exact Hm. assert (Hg1 : hgen t1 = hgen t) by reflexivity. clearbody t1.
    assert (E2 : hsstep K V c veq t1 (HKey 0) = Ok (t1, HRes (OKey k0))).
    { unfold hsstep. cbn [hsstep_raw]. unfold current. rewrite He1. cbn [nth_error bind fst]. unfold key_there. cbn [fst snd].
      rewrite Hg1, Nat.eqb_refl, Hm1. reflexivity. }
    destruct (step_ok _ _ _ _ _ HS1 E2) as (s2 & -> & HS2). cbn [bind].
    assert (E3 : hsstep K V c veq t1 (HValue 0) = Ok (t1, HRes (OVal w))).
    { unfold hsstep. cbn [hsstep_raw]. unfold current. rewrite He1. cbn [nth_error bind snd]. unfold value_there.
      rewrite Hm1. cbn [find snd]. rewrite !Nat.eqb_refl, Ew. reflexivity. }
    destruct (step_ok _ _ _ _ _ HS2 E3) as (s3 & -> & HS3). cbn [bind].
    assert (Ea : h_add K V c t1 k0 w = set_box K V c t1 k0 (add_to V b w)) by (unfold h_add; rewrite Hm1; cbn [lookup]; now rewrite (eq_refl_c K c TO)).
    assert (E4 : exists r, hsstep K V c veq t1 (HGroup (GAdd k0 w)) = Ok (set_box K V c t1 k0 (add_to V b w), r)).
    { eexists. unfold hsstep. cbn [hsstep_raw h_group]. rewrite Ea. reflexivity. }
    destruct E4 as (r & E4). destruct (step_ok _ _ _ _ _ HS3 E4) as (s4 & -> & HS4). cbn [bind].
    eapply IH with (b := add_to V b w) (k := 0) (v := v + 1); [exact HS4| |exact He1|now right|lia|].
    - cbn [set_box hm]. rewrite Hm1. cbn [put]. now rewrite (eq_refl_c K c TO).
    - cbn [add_to bvals]. rewrite zlen_app, zlen_cons, zlen_nil. lia.
  Qed.
  Lemma new_enum s t n : Sim s t -> length (ges s) = S n -> exists s', step s (HNew 0) = Ok (s', HNone) /\
    Sim s' (h_move K V t 0 (-1, -1, None)) /\ gx s' = gx s /\ exists es, hes (h_move K V t 0 (-1, -1, None)) = (-1, -1, None) :: es.
  Proof.
    intros HS L. destruct (HS) as (_ & _ & He & _). assert (Lh : length (hes t) = S n) by (rewrite <- He, map_length; exact L).
    destruct (hes t) as [|p es] eqn:Eh; [discriminate|]. destruct p as [[k v] p].
    assert (E : hsstep K V c veq t (HNew 0) = Ok (h_move K V t 0 (-1, -1, None), HNone)) by (unfold hsstep; cbn [hsstep_raw]; unfold with_pos; rewrite Eh; reflexivity).
    destruct (step_ok _ _ _ _ _ HS E) as (s' & E' & HS'). exists s'. split; [exact E'|]. split; [exact HS'|]. split.
    - unfold hstep in E'. cbn [hstep_raw] in E'. destruct (gen_of K V s 0); cbn [bind] in E'; try discriminate E'. assert (Es : s' = set_gen K V s 0 (mkGen (-1) (-1) None)) by congruence.
      now rewrite Es.
    - unfold h_move. cbn [hes]. rewrite Eh. eexists. reflexivity.
  Qed.
  Lemma group_len t o : hes (h_group K V c veq t o) = hes t.
  Proof.
    destruct o; cbn [h_group]; try reflexivity; unfold h_add, h_remove, h_remove_value; destruct (lookup _ _ _ _ _); try reflexivity.
    now destruct (remove_first _ _ _ _).
  Qed.
  Lemma spec_len t o t' r : hsstep K V c veq t o = Ok (t', r) -> length (hes t') = length (hes t).
  Proof.
    assert (G : forall o, length (hes (h_group K V c veq t o)) = length (hes t)) by (intros; now rewrite group_len).
    assert (X : match hsstep_raw K V c veq t o with Ok (t', _) => length (hes t') = length (hes t) | _ => True end).
    { destruct o; cbn [hsstep_raw]; unfold with_pos;
      repeat match goal with
             | |- context [bind ?r _] => destruct r; cbn [bind]; auto
             | |- context [match nth_error (hes t) ?e with _ => _ end] => destruct (nth_error (hes t) e) as [[[? ?] ?]|]
             | |- context [match hm t with _ => _ end] => destruct (hm t) eqn:?
             | |- context [match lookup K _ c ?k (hm t) with _ => _ end] => destruct (lookup K _ c k (hm t)) eqn:?
             | |- context [if ?b then _ else _] => destruct b
             | |- context [following K V ?a ?b ?d] => destruct (following K V a b d) as [[? ?] ?]
             end; auto; cbn [h_move hes]; rewrite ?upd_length; auto;
      first [exact (G (GAdd _ _))|exact (G (GRemove _))|exact (G (GRemoveValue _ _))]. }
    unfold hsstep. destruct (hsstep_raw K V c veq t o) as [[t1 r1]| | |]; intros H; try discriminate H; [|congruence]. assert (t1 = t') by congruence. now subst.
  Qed.
  Lemma run_len os : forall s t s' rs, Sim s t -> hrun K V cmp veq s os = Ok (s', rs) -> length (ges s') = length (ges s).
  Proof.
    induction os as [|o os IH]; intros s t s' rs HS E; cbn [hrun] in E; [congruence|].
    destruct (step s o) as [[s1 r]| | |] eqn:E1; cbn [bind] in E; try discriminate E.
    destruct (hrun K V cmp veq s1 os) as [[s2 rs2]| | |] eqn:E2; cbn [bind] in E; try discriminate E.
    destruct (step_back K V c TO veq _ _ _ _ _ HS E1) as (t1 & E3 & HS1). pose proof (spec_len _ _ _ _ E3) as L. pose proof (IH _ _ _ _ HS1 E2) as L2.
    destruct HS as (_ & _ & Hy & _). destruct HS1 as (_ & _ & Hx & _). rewrite <- Hx, <- Hy, !map_length in L. assert (s2 = s') by congruence. subst. congruence.
  Qed.
  Lemma start_len n os s rs : hrun K V cmp veq (hstart K V n) os = Ok (s, rs) -> length (ges s) = n.
  Proof. intros E. rewrite (run_len _ _ _ _ _ (start_sim K V c n) E). apply repeat_length. Qed.
  Lemma group_self_append n os s rs m : hrun K V cmp veq (hstart K V (S n)) os = Ok (s, rs) -> g_shows K V c (gx s) m -> m <> [] ->
    forall fuel, copy_group_self K V cmp veq fuel s true = NoFuel.
  Proof.
    intros E Hm Nm fuel. pose proof (start_len _ _ _ _ E) as L. destruct (run_state K V c TO veq _ _ _ _ E) as (t & HS). unfold copy_group_self. cbn [bind].
    destruct (new_enum s t n HS L) as (s' & E' & HS' & Eg & es & Hes). rewrite E'. cbn [bind].
    destruct (hm t) as [|[k0 b] m'] eqn:Et.
    - exfalso. destruct HS as (HR & _). destruct (R_parts K V c _ _ _ HR) as (HK & _). rewrite Et in HK. destruct Hm as (ps & HK' & _).
      pose proof (shows_fun _ _ _ HK HK') as X. destruct m; [congruence|discriminate].
    - eapply self_loop; [exact HS'|exact Et|exact Hes|now left|lia|]. destruct HS as (HR & _).
      destruct (at_split K V c _ _ _ [] k0 b m' HR Et) as (_ & Nb & _). destruct (bvals b) as [|v vs]; [congruence|]. rewrite zlen_cons. pose proof (zlen_nonneg vs). lia.
  Qed.
  Lemma group_self_clear n os s rs : hrun K V cmp veq (hstart K V (S n)) os = Ok (s, rs) ->
    exists s', yields (fun f => copy_group_self K V cmp veq f s false) s' /\ g_shows K V c (gx s') [].
  Proof.
    intros E. pose proof (start_len _ _ _ _ E) as L. destruct (run_state K V c TO veq _ _ _ _ E) as (t & HS). unfold copy_group_self.
    assert (E1 : exists r t1, hsstep K V c veq t (HGroup GClear) = Ok (t1, r) /\ hm t1 = [] /\ hes t1 = hes t) by (do 2 eexists; split; [reflexivity|split; reflexivity]).
    destruct E1 as (r & t1 & E1 & Hm1 & He1). destruct (step_ok _ _ _ _ _ HS E1) as (s1 & E2 & HS1).
    assert (L1 : length (ges s1) = S n).
    { destruct HS1 as (_ & _ & Hx & _). destruct HS as (_ & _ & Hy & _). apply (f_equal (@length _)) in Hx. apply (f_equal (@length _)) in Hy. rewrite map_length in Hx, Hy. congruence. }
    destruct (new_enum s1 t1 n HS1 L1) as (s2 & E3 & HS2 & _ & es & Hes).
    assert (E4 : exists t3, hsstep K V c veq (h_move K V t1 0 (-1, -1, None)) (HNext 0) = Ok (t3, HRes (OBool false)) /\ hm t3 = []).
    { unfold hsstep. cbn [hsstep_raw]. unfold with_pos. rewrite Hes. cbn [nth_error]. unfold following. cbn [h_move hm]. rewrite Hm1. cbn. eexists. split; [reflexivity|]. exact Hm1. }
    destruct E4 as (t3 & E4 & Hm3). destruct (step_ok _ _ _ _ _ HS2 E4) as (s3 & E5 & HS3). exists s3. split.
    - rewrite E2. cbn [bind]. rewrite E3. cbn [bind]. eapply y_step; [intros f; cbn [group_self_loop]; reflexivity|]. rewrite E5. cbn [bind]. apply y_ret.
    - destruct HS3 as ((H & _) & _). rewrite Hm3 in H. exact H.
  Qed.
End Self.

Lemma ex_pairs :
  exists d g d1 g1 x1, d_run Z Z (fun a b => Some (Z.compare a b)) empty_dict [DSet 1 10; DSet 2 20] = Ok (d, [OBool true; OBool true]) /\ d_shows Z Z Z.compare d [(1, 10); (2, 20)] /\
  g_run Z Z (fun a b => Some (Z.compare a b)) Z.eqb empty_group [GAdd 1 10; GAdd 1 11] = Ok (g, [OBool true; OBool true]) /\ g_shows Z Z Z.compare g [(1, [10; 11])] /\
  copy_dict_ra Z Z (fun a b => Some (Z.compare a b)) d (PSrc (RSlice [(2, 21); (0, 5); (2, 22)] 3)) true = Ok d1 /\ d_shows Z Z Z.compare d1 [(0, 5); (1, 10); (2, 22)] /\
  copy_group_ra Z Z (fun a b => Some (Z.compare a b)) g (PDict d) true = Ok g1 /\ g_shows Z Z Z.compare g1 [(1, [10; 11; 10]); (2, [20])] /\
  copy_list_en Z Z (fun _ _ => Some Eq) KList 9 empty_lst (EGroup g) false = Ok x1 /\ lst_shows (Z * Z) x1 [(1, 10); (1, 11)].
Proof.
  assert (TO : total_order Z.compare) by exact Z_total.
  destruct (d_run_ok Z Z Z.compare TO [DSet 1 10; DSet 2 20] _ _ (d_empty Z Z Z.compare)) as (d & Ed & Hd).
  destruct (g_run_ok Z Z Z.compare TO Z.eqb [GAdd 1 10; GAdd 1 11] _ _ (g_empty Z Z Z.compare)) as (g & Eg & Hg).
  change (d_shows Z Z Z.compare d [(1, 10); (2, 20)]) in Hd. change (g_shows Z Z Z.compare g [(1, [10; 11])]) in Hg.
  destruct (dict_ra Z Z Z.compare TO d _ (PSrc (RSlice [(2, 21); (0, 5); (2, 22)] 3)) [(2, 21); (0, 5); (2, 22)] true Hd) as (d1 & Ed1 & Hd1); [cbn; split; [unfold zlen; cbn; lia|reflexivity]|].
  destruct (group_ra Z Z Z.compare TO Z.eqb g _ (PDict d) _ true Hg Hd) as (g1 & Eg1 & Hg1).
  exists d, g, d1, g1. eexists. split; [exact Ed|]. split; [exact Hd|]. split; [exact Eg|]. split; [exact Hg|]. split; [exact Ed1|]. split; [exact Hd1|].
  split; [exact Eg1|]. split; [exact Hg1|]. split.
  - vm_compute in Eg. injection Eg as <-. reflexivity.
  - split; [reflexivity|]. split; [reflexivity|]. exists 0%nat. reflexivity.
Qed.
