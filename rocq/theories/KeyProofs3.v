From Coq Require Import ZifyBool ZifyNat Permutation.
From Verif Require Import Base BaseFacts LstModel LstSpec LstProofs SrtModel SrtSpec SrtProofs DctModel DctSpec DctProofs QsModel QsProofs.
From Verif Require Import KeyModel KeySpec KeyProofs KeyProofs2.
Open Scope Z_scope.

Section Nan.
  Variable A : Type.
  Variable c : A -> A -> comparison.
  Hypothesis TO : total_order c.
  Notation F := (option A).
  Notation nl := (nan_last c).
  Notation agree := (agree F (fcmp c) nl).
  Notation numbers := (numbers A).

  Lemma nan_last_total : total_order nl.
  Proof.
    split.
    - intros [a|] [b|]; cbn; auto. apply (to_opp c TO).
    - intros [a|] [b|] [d|]; cbn; try congruence. apply (to_trans c TO).
  Qed.
  Lemma numbers_agree l k : numbers l -> numbers k -> agree l k.
  Proof.
    intros Nl Nk [x|] [y|] Hx Hy; [unfold fcmp; cbn; now destruct (c x y)|contradiction Nk|contradiction Nl|contradiction Nl].
  Qed.
  Lemma existsb_nan l : existsb (is_nan A) l = false <-> numbers l.
  Proof.
    unfold KeySpec.numbers. induction l as [|[x|] l IH]; cbn [existsb is_nan orb In].
    - tauto.
    - rewrite IH. split; [intros H [E|E]; [discriminate|auto]|tauto].
    - split; [discriminate|]. intros H. contradiction H. auto.
  Qed.
  Definition fine (l : list F) : Prop := numbers l \/ l = [None].
  (* unordered with everything in the list *)
  Lemma meets_nothing k l : fine l -> nan_meets A (Some k) l = true -> l <> [] /\ forall y, In y l -> fcmp c y k = None.
  Proof.
    intros Fi H. destruct l as [|z l]; [discriminate|]. split; [discriminate|]. cbn [nan_meets] in H. intros y Hy.
    destruct k as [k|]; [|now destruct y]. cbn [is_nan orb] in H. destruct Fi as [N|E].
    - apply existsb_nan in N. congruence.
    - rewrite E in Hy. destruct Hy as [<-|[]]. reflexivity.
  Qed.
  Lemma no_meet_agree k l : fine l -> nan_meets A (Some k) l = false -> agree l [k].
  Proof.
    intros Fi H. destruct l as [|z l]; [intros x y []|]. cbn [nan_meets] in H. apply orb_false_iff in H. destruct H as [H1 H2].
    apply existsb_nan in H2. apply numbers_agree; auto. destruct k; [|discriminate]. intros [E|[]]. discriminate.
  Qed.

  (* SortedList *)
  Lemma float_step_ok x l o : lst_shows F x l -> numbers l /\ ascending F nl l \/ l = [None] -> client_ok F o ->
    exists y l' r, s_step F (fcmp c) x o = Ok (y, r) /\ lst_shows F y l' /\ float_step A c l o l' r.
  Proof.
    intros H Inv Co. assert (Fi : fine l) by (destruct Inv as [[N _]|E]; [now left|now right]).
    unfold float_step. destruct (nan_meets A (s_key A o) l) eqn:M.
    - exists x, l, RError. split; [|auto]. unfold s_step. destruct o; cbn [s_key] in M; try discriminate;
        destruct (meets_nothing a l Fi M) as [Ne No]; cbn [s_step_raw]; unfold s_remove, s_index_of, s_add;
        rewrite (index_nothing F (fcmp c) nl x l a H Ne No); cbn [bind]; auto.
      destruct (H) as (C & _). rewrite C. destruct l as [|z l]; [contradiction|]. rewrite zlen_cons. pose proof (zlen_nonneg l).
      replace (1 + zlen l =? 0) with false by lia. reflexivity.
    - assert (Ag : agree l (skeys F o)).
      { destruct o; cbn [skeys s_key] in *; (now apply no_meet_agree) || (intros u w _ []). }
      assert (As : ascending F nl l) by (destruct Inv as [[_ As]| ->]; [exact As|repeat constructor]).
      rewrite (s_step_agree F (fcmp c) nl x l o H Ag).
      destruct (s_step_ok F nl nan_last_total x l o H As Co) as (y & l' & r & E & S' & As' & St).
      exists y, l', r. split; [exact E|]. split; [exact S'|]. split; [exact St|].
      pose proof (ok_step_multiset F nl l o l' r St) as Mu.
      assert (Sub : (forall z, In z l' -> In z l) -> (length l' <= length l)%nat -> numbers l' /\ ascending F nl l' \/ l' = [None]).
      { intros I L. destruct Fi as [N|E1]; [left; split; [intros Hn; exact (N (I _ Hn))|exact As']|]. subst l.
        destruct l' as [|z [|z' l']]; cbn [length] in L; [left; split; [intros []|exact As']| |lia].
        destruct (I z (or_introl eq_refl)) as [<-|[]]. now right. }
      destruct o; cbn [s_key nan_meets] in *; try (rewrite Mu; apply Sub; [rewrite Mu; auto|rewrite Mu; auto]; fail).
      + destruct l as [|z l].
        * apply Permutation_sym, Permutation_length_1_inv in Mu. subst l'. destruct a as [a|]; [left|now right].
          split; [intros [E1|[]]; discriminate|exact As'].
        * apply orb_false_iff in M. destruct M as [M1 M2]. apply existsb_nan in M2. left. split; [|exact As'].
          intros Hn. apply (Permutation_in None Mu) in Hn. destruct Hn as [->|Hn]; [discriminate|exact (M2 Hn)].
      + destruct Mu as [(_ & b & _ & P)|(_ & -> & _)]; [|apply Sub; auto].
        apply Sub; [intros z Hz; apply (Permutation_in z (Permutation_sym P)); now right|rewrite (Permutation_length P); cbn; lia].
      + destruct Mu as (g & P). apply Sub; [intros z Hz; apply (Permutation_in z (Permutation_sym P)), in_or_app; now right|].
        rewrite (Permutation_length P), app_length. lia.
      + destruct Mu as (g & P). apply Sub; [intros z Hz; apply (Permutation_in z (Permutation_sym P)), in_or_app; now right|].
        rewrite (Permutation_length P), app_length. lia.
      + subst l'. left. split; [intros []|constructor].
      + subst l'. apply Sub; auto.
      + subst l'. apply Sub; auto.
      + subst l'. apply Sub; auto.
      + subst l'. apply Sub; auto.
  Qed.
  Lemma float_sorted os : Forall (client_ok F) os ->
    exists x rs l, s_run F (fcmp c) empty_lst os = Ok (x, rs) /\ lst_shows F x l /\ float_run A c [] os l rs.
  Proof.
    assert (G : forall os x l, lst_shows F x l -> numbers l /\ ascending F nl l \/ l = [None] -> Forall (client_ok F) os ->
      exists y rs l', s_run F (fcmp c) x os = Ok (y, rs) /\ lst_shows F y l' /\ float_run A c l os l' rs).
    { clear os. induction os as [|o os IH]; intros x l H Inv Fo; cbn [s_run].
      - exists x, [], l. split; [reflexivity|]. split; [exact H|constructor].
      - inversion Fo as [|o' os' C F']; subst.
        destruct (float_step_ok x l o H Inv C) as (y & l' & r & E & S' & St). rewrite E. cbn [bind].
        destruct (IH y l' S' (proj2 St) F') as (z & rs & l'' & E' & S'' & R). rewrite E'. cbn [bind].
        exists z, (r :: rs), l''. split; [reflexivity|]. split; [exact S''|]. econstructor; eauto. }
    intros Fo. apply G; [apply empty_shows| |exact Fo]. left. split; [intros []|constructor].
  Qed.

  (* maps *)
  Lemma put_keys V k (v : V) m z : In z (map fst (put F V nl k v m)) -> z = k \/ In z (map fst m).
  Proof.
    induction m as [|[k0 v0] m IH]; cbn [put map fst In]; [intros [<-|[]]; auto|].
    destruct (nl k0 k); cbn [map fst In]; [tauto| |intros [<-|H]; auto]. intros [H|H]; auto. destruct (IH H); auto.
  Qed.
  Lemma del_keys V k (m : fmap F V) z : In z (map fst (del F V nl k m)) -> In z (map fst m).
  Proof.
    induction m as [|[k0 v0] m IH]; cbn [del map fst In]; [tauto|]. destruct (nl k0 k); cbn [map fst In]; tauto.
  Qed.
  (* what an operation that is carried out leaves *)
  Lemma fine_after V (m m' : fmap F V) ko : fine (map fst m) -> nan_meets A ko (map fst m) = false ->
    (m' = m \/ m' = [] \/ exists k, ko = Some k /\ (exists v, m' = put F V nl k v m) \/ exists k, ko = Some k /\ m' = del F V nl k m) ->
    fine (map fst m').
  Proof.
    intros Fi M [->|[->|(k & [[-> (v & ->)]|(k' & -> & ->)])]]; auto.
    - left. intros [].
    - destruct m as [|kv m].
      + cbn. destruct k; [left; intros [E|[]]; discriminate|now right].
      + cbn [map nan_meets] in M. apply orb_false_iff in M. destruct M as [M1 M2]. apply existsb_nan in M2. left.
        intros H. apply put_keys in H. destruct H as [<-|H]; [discriminate|exact (M2 H)].
    - destruct m as [|kv m]; [left; intros []|].
      cbn [map nan_meets] in M. apply orb_false_iff in M. destruct M as [M1 M2]. apply existsb_nan in M2. left.
      intros H. apply del_keys in H. exact (M2 H).
  Qed.

  Lemma md_result V (m : fmap F V) o : let m' := fst (md_step F V nl m o) in
    m' = m \/ m' = [] \/ exists k, d_key A V o = Some k /\ (exists v, m' = put F V nl k v m) \/ exists k, d_key A V o = Some k /\ m' = del F V nl k m.
  Proof.
    cbv zeta. unfold md_step. destruct o; cbn [md_step_raw d_key];
      repeat match goal with |- context [match lookup ?a ?b ?c ?d ?e with _ => _ end] => destruct (lookup a b c d e) end;
      repeat match goal with |- context [match znth ?a ?b with _ => _ end] => destruct (znth a b) as [[? ?]|] end; cbn [fst]; auto.
    - right. right. exists k. left. eauto.
    - right. right. exists k. left. eauto.
    - right. right. exists k. right. eauto.
  Qed.
  Lemma fd_step_ok V d m o : d_shows F V nl d m -> fine (map fst m) ->
    exists d', d_step F V (fcmp c) d o = Ok (d', snd (fd_step A V c m o)) /\
      d_shows F V nl d' (fst (fd_step A V c m o)) /\ fine (map fst (fst (fd_step A V c m o))).
  Proof.
    intros H Fi. unfold fd_step. destruct (nan_meets A (d_key A V o) (map fst m)) eqn:M; cbn [fst snd].
    - exists d. split; [|auto]. unfold d_step. destruct o; cbn [d_key] in M; try discriminate;
        destruct (meets_nothing k _ Fi M) as [Ne No]; cbn [d_step_raw]; unfold d_add, d_set, d_remove, d_get, s_index_of;
        rewrite (index_nothing F (fcmp c) nl _ _ k (proj1 H) Ne No); reflexivity.
    - rewrite (d_step_agree F V (fcmp c) nl d (map fst m) o (proj1 H)).
      + destruct (d_step_ok F V nl nan_last_total d m o H) as (d' & E & H'). exists d'. split; [exact E|]. split; [exact H'|].
        apply (fine_after V m _ (d_key A V o) Fi M). apply md_result.
      + destruct o; cbn [dkeys d_key] in *; (now apply no_meet_agree) || (intros u w _ []).
  Qed.
  Lemma fd_run_ok V os : forall d m, d_shows F V nl d m -> fine (map fst m) ->
    exists d', d_run F V (fcmp c) d os = Ok (d', snd (fd_run A V c m os)) /\ d_shows F V nl d' (fst (fd_run A V c m os)) /\
      fine (map fst (fst (fd_run A V c m os))).
  Proof.
    induction os as [|o os IH]; intros d m H Fi; cbn [d_run fd_run].
    - exists d. auto.
    - destruct (fd_step_ok V d m o H Fi) as (d' & E & H' & Fi'). rewrite E. cbn [bind].
      destruct (fd_step A V c m o) as [m' r]. cbn [fst snd] in *.
      destruct (IH d' m' H' Fi') as (d'' & E' & H''). rewrite E'. cbn [bind].
      destruct (fd_run A V c m' os) as [m'' rs]. cbn [fst snd] in *. eauto.
  Qed.
  Lemma float_dictionary V os : exists d, d_run F V (fcmp c) empty_dict os = Ok (d, snd (fd_run A V c [] os)) /\
    d_shows F V nl d (fst (fd_run A V c [] os)) /\
    (numbers (map fst (fst (fd_run A V c [] os))) \/ map fst (fst (fd_run A V c [] os)) = [None]).
  Proof. apply fd_run_ok; [apply d_empty|left; intros []]. Qed.
  Lemma fd_stuck V (v : V) os : Forall (fun o => o <> DClear) os ->
    fst (fd_run A V c [(None, v)] os) = [(None, v)] /\
    Forall2 (fun o r => d_key A V o <> None -> r = OError) os (snd (fd_run A V c [(None, v)] os)).
  Proof.
    induction 1 as [|o os Ho _ IH]; cbn [fd_run]; [split; [reflexivity|constructor]|].
    assert (E : fst (fd_step A V c [(None, v)] o) = [(None, v)] /\ (d_key A V o <> None -> snd (fd_step A V c [(None, v)] o) = OError)).
    { destruct o as [k w|k w|k| |k|k| |i|i]; try (destruct k; split; reflexivity); try contradiction;
        split; try (intros N; contradiction N; reflexivity); unfold fd_step; cbn; unfold md_step; cbn [md_step_raw];
        try reflexivity; destruct (znth [(None, v)] i) as [[? ?]|]; reflexivity. }
    destruct (fd_step A V c [(None, v)] o) as [m' r]. cbn [fst snd] in E. destruct E as [-> Er].
    destruct (fd_run A V c [(None, v)] os) as [m'' rs]. cbn [fst snd] in *. destruct IH as [-> F2]. split; [reflexivity|].
    now constructor.
  Qed.
  Lemma dictionary_stuck V (v : V) os : Forall (fun o => o <> DClear) os ->
    exists d rs, d_run F V (fcmp c) empty_dict (DSet None v :: os) = Ok (d, OBool true :: rs) /\
      d_shows F V nl d [(None, v)] /\ Forall2 (fun o r => d_key A V o <> None -> r = OError) os rs.
  Proof.
    intros H. destruct (float_dictionary V (DSet None v :: os)) as (d & E & S' & _). destruct (fd_stuck V v os H) as [E1 E2].
    change (fd_run A V c [] (DSet None v :: os)) with
      (let (m, rs) := fd_run A V c [(None, v)] os in (m, OBool true :: rs)) in *.
    destruct (fd_run A V c [(None, v)] os) as [m rs]. cbn [fst snd] in *. subst m. exists d, rs. auto.
  Qed.

  Lemma mg_result V veq (m : fmap F (list V)) o : let m' := fst (mg_step F V nl veq m o) in
    m' = m \/ m' = [] \/ exists k, g_key_of A V o = Some k /\ (exists v, m' = put F (list V) nl k v m) \/
      exists k, g_key_of A V o = Some k /\ m' = del F (list V) nl k m.
  Proof.
    cbv zeta. unfold mg_step. destruct o; cbn [mg_step_raw g_key_of].
    - right. right. exists k. left. cbn [fst]. eauto.
    - destruct (lookup F (list V) nl k m); cbn [fst]; auto. right. right. exists k. right. eauto.
    - destruct (lookup F (list V) nl k m) as [vs|]; cbn [fst]; auto. right. right. exists k.
      destruct (remove_first V veq v vs); [right|left]; eauto.
    - cbn [fst]. auto.
    - cbn [fst]. auto.
    - cbn [fst]. auto.
    - cbn [fst]. auto.
    - destruct (znth m i) as [[? ?]|]; cbn [fst]; auto.
    - destruct (lookup F (list V) nl k m); cbn [fst]; auto.
    - destruct (lookup F (list V) nl k m) as [vs|]; cbn [fst]; auto. destruct (znth vs i); cbn [fst]; auto.
  Qed.
  Lemma fg_step_ok V veq g m o : g_shows F V nl g m -> fine (map fst m) ->
    exists g', g_step F V (fcmp c) veq g o = Ok (g', snd (fg_step A V c veq m o)) /\
      g_shows F V nl g' (fst (fg_step A V c veq m o)) /\ fine (map fst (fst (fg_step A V c veq m o))).
  Proof.
    intros H Fi. pose proof (g_shows_keys _ _ _ _ _ H) as Hk. unfold fg_step.
    destruct (nan_meets A (g_key_of A V o) (map fst m)) eqn:M; cbn [fst snd].
    - exists g. split; [|auto]. unfold g_step. destruct o; cbn [g_key_of] in M; try discriminate;
        destruct (meets_nothing k _ Fi M) as [Ne No]; cbn [g_step_raw]; unfold g_add, g_remove, g_remove_value, g_contains_value, g_get, s_index_of;
        rewrite (index_nothing F (fcmp c) nl _ _ k Hk Ne No); reflexivity.
    - rewrite (g_step_agree F V (fcmp c) nl veq g (map fst m) o Hk).
      + destruct (g_step_ok F V nl nan_last_total veq g m o H) as (g' & E & H'). exists g'. split; [exact E|]. split; [exact H'|].
        apply (fine_after (list V) m _ (g_key_of A V o) Fi M). apply mg_result.
      + destruct o; cbn [gkeys_of g_key_of] in *; (now apply no_meet_agree) || (intros u w _ []).
  Qed.
  Lemma fg_run_ok V veq os : forall g m, g_shows F V nl g m -> fine (map fst m) ->
    exists g', g_run F V (fcmp c) veq g os = Ok (g', snd (fg_run A V c veq m os)) /\ g_shows F V nl g' (fst (fg_run A V c veq m os)) /\
      fine (map fst (fst (fg_run A V c veq m os))).
  Proof.
    induction os as [|o os IH]; intros g m H Fi; cbn [g_run fg_run].
    - exists g. auto.
    - destruct (fg_step_ok V veq g m o H Fi) as (g' & E & H' & Fi'). rewrite E. cbn [bind].
      destruct (fg_step A V c veq m o) as [m' r]. cbn [fst snd] in *.
      destruct (IH g' m' H' Fi') as (g'' & E' & H''). rewrite E'. cbn [bind].
      destruct (fg_run A V c veq m' os) as [m'' rs]. cbn [fst snd] in *. eauto.
  Qed.
  Lemma float_group V veq os : exists g, g_run F V (fcmp c) veq empty_group os = Ok (g, snd (fg_run A V c veq [] os)) /\
    g_shows F V nl g (fst (fg_run A V c veq [] os)) /\
    (numbers (map fst (fst (fg_run A V c veq [] os))) \/ map fst (fst (fg_run A V c veq [] os)) = [None]).
  Proof. apply fg_run_ok; [apply g_empty|left; intros []]. Qed.
  Lemma join_nan V W veq weq (x : A) (v : V) (w : W) : exists a b,
    g_run F V (fcmp c) veq empty_group [GAdd None v] = Ok (a, [OBool true]) /\
    g_run F W (fcmp c) weq empty_group [GAdd (Some x) w] = Ok (b, [OBool true]) /\
    group_inner_join F V W (fcmp c) a b = Ok [Accept None [v] [w]].
  Proof. do 2 eexists. split; [reflexivity|]. split; [reflexivity|]. reflexivity. Qed.

  (* Sort *)
  Lemma sort_numbers pre seg post : numbers seg ->
    exists seg' d, sort_array F (fcmp c) (pre ++ seg ++ post) (zlen pre) (zlen seg) = Ok (pre ++ seg' ++ post, d) /\
      Permutation seg seg' /\ ascending F nl seg'.
  Proof.
    intros N. apply (sort_agree F (fcmp c) nl nan_last_total); [rewrite zlen_to_nat; lia|now apply numbers_agree].
  Qed.
  Lemma sort_nan pre seg post : In None seg -> 2 <= zlen seg ->
    sort_array F (fcmp c) (pre ++ seg ++ post) (zlen pre) (zlen seg) = Err.
  Proof.
    intros I L. unfold sort_array. rewrite Nat.add_1_r. cbn [qsort]. replace (zlen seg =? 0) with false by lia.
    destruct seg as [|p rest]; [contradiction|].
    destruct (partition_ok F (fcmp c) p rest pre post (zlen pre) (zlen (p :: rest)) eq_refl eq_refl)
      as [(E & _)|(L' & E1 & E2 & R' & E & HP & F1 & F2 & F3)]; [now rewrite E|].
    assert (C : forall x, In x rest -> fcmp c p x <> None).
    { intros x Hx. apply (Permutation_in x HP) in Hx. rewrite Forall_forall in F1, F2, F3. rewrite !in_app_iff in Hx.
      destruct Hx as [Hx|[Hx|[Hx|Hx]]]; [rewrite (F1 x Hx)|rewrite (F2 x)|rewrite (F2 x)|rewrite (F3 x Hx)]; try discriminate; apply in_or_app; auto. }
    exfalso. destruct I as [->|I].
    - destruct rest as [|z rest]; [rewrite zlen_cons in L; change (zlen (@nil F)) with 0 in L; lia|]. apply (C z); [now left|reflexivity].
    - apply (C None I). now destruct p.
  Qed.
End Nan.
