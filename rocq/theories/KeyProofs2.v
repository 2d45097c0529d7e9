From Coq Require Import ZifyBool ZifyNat Permutation.
From Verif Require Import Base BaseFacts LstModel LstSpec LstProofs SrtModel SrtSpec SrtProofs DctModel DctSpec DctProofs QsModel QsProofs.
From Verif Require Import KeyModel KeySpec KeyProofs.
Open Scope Z_scope.

(* comparisons that agree on what is in the container give the same operations *)
Section Agree.
  Variable T : Type.
  Variable cmp : T -> T -> option comparison.
  Variable c : T -> T -> comparison.
  Notation cmp' := (fun a b => Some (c a b)).
  Definition agree (l k : list T) : Prop := forall x y, In x l -> In y k -> cmp x y = Some (c x y).

  Lemma search_agree x l k : lst_shows T x l -> agree l [k] -> forall fuel s e index, 0 <= s -> e < zlen l ->
    search T cmp x k s e index fuel = search T cmp' x k s e index fuel.
  Proof.
    intros H Ag. induction fuel as [|fuel IH]; intros s e index Hs He; [reflexivity|]. cbn [search].
    destruct (s <=? e) eqn:E; [|reflexivity]. cbv zeta. pose proof (mid_range s e ltac:(lia)) as M.
    destruct (read_ok T x l (s + Z.quot (e - s) 2) H) as (a & R & N); [lia|]. rewrite R. cbn [bind].
    rewrite (Ag a k); [|apply (nth_error_In l (Z.to_nat (s + Z.quot (e - s) 2))); rewrite <- znth_z by lia; exact N|now left].
    destruct (c a k); auto; apply IH; lia.
  Qed.
  Lemma internal_agree x l k : lst_shows T x l -> agree l [k] -> index_of_internal T cmp x k = index_of_internal T cmp' x k.
  Proof. intros H Ag. unfold index_of_internal. destruct (H) as (C & _). apply search_agree with l; auto; lia. Qed.
  Lemma index_agree x l k : lst_shows T x l -> agree l [k] -> s_index_of T cmp x k = s_index_of T cmp' x k.
  Proof. intros H Ag. unfold s_index_of. now rewrite (internal_agree x l k H Ag). Qed.
  Lemma s_add_agree x l k : lst_shows T x l -> agree l [k] -> s_add T cmp x k = s_add T cmp' x k.
  Proof.
    intros H Ag. unfold s_add. destruct (count x =? 0); [reflexivity|]. rewrite (internal_agree x l k H Ag).
    destruct (index_of_internal T cmp' x k) as [[r oi]| | |]; cbn [bind]; auto.
    destruct ((oi >=? 0) && (oi <? count x)) eqn:E; [|reflexivity]. destruct (H) as (C & _).
    destruct (read_ok T x l oi H) as (b & R & N); [lia|]. rewrite R. cbn [bind].
    rewrite (Ag b k); [reflexivity| |now left]. apply (nth_error_In l (Z.to_nat oi)). rewrite <- znth_z by lia. exact N.
  Qed.
  Lemma index_nothing x l k : lst_shows T x l -> l <> [] -> (forall y, In y l -> cmp y k = None) ->
    index_of_internal T cmp x k = Err.
  Proof.
    intros H Ne No. unfold index_of_internal. destruct (H) as (C & _). rewrite C.
    assert (0 < zlen l) by (destruct l; [contradiction|]; rewrite zlen_cons; pose proof (zlen_nonneg l); lia).
    replace (Z.to_nat (zlen l + 1)) with (S (Z.to_nat (zlen l))) by lia. cbn [search].
    replace (0 <=? zlen l - 1) with true by lia. cbv zeta. pose proof (mid_range 0 (zlen l - 1) ltac:(lia)) as M.
    destruct (read_ok T x l (0 + Z.quot (zlen l - 1 - 0) 2) H) as (a & R & N); [lia|]. rewrite R. cbn [bind].
    rewrite No; [reflexivity|]. apply (nth_error_In l (Z.to_nat (0 + Z.quot (zlen l - 1 - 0) 2))). rewrite <- znth_z by lia. exact N.
  Qed.
  Hypothesis TO : total_order c.
  Notation asc := (ascending T c).
  Lemma sort_agree : forall fuel seg pre post, (length seg < fuel)%nat -> agree seg seg ->
    exists seg' d, qsort T cmp (pre ++ seg ++ post) (zlen pre) (zlen seg) fuel = Ok (pre ++ seg' ++ post, d) /\
       Permutation seg seg' /\ asc seg'.
  Proof.
    induction fuel as [|fuel IH]; intros seg pre post Hf Ag; [lia|]. cbn [qsort].
    destruct seg as [|p rest].
    - exists [], O. cbn. split; [reflexivity|]. split; constructor.
    - pose proof (zlen_nonneg rest). replace (zlen (p :: rest) =? 0) with false by (rewrite zlen_cons; lia).
      destruct (partition_ok T cmp p rest pre post (zlen pre) (zlen (p :: rest)) eq_refl eq_refl) as [(E & x & Hx & Hc)|(L' & E1 & E2 & R' & E & HP & F1 & F2 & F3)];
        [rewrite (Ag p x) in Hc by (cbn [In]; auto); discriminate|].
      rewrite E. cbn [bind]. pose proof (Permutation_length HP) as Lp. rewrite !app_length in Lp. cbn [length] in Hf.
      assert (Inr : forall x, In x (L' ++ E1 ++ E2 ++ R') -> In x (p :: rest)) by (intros x Hx; right; exact (Permutation_in x (Permutation_sym HP) Hx)).
      assert (Is : forall d x, In x (L' ++ E1 ++ E2 ++ R') -> cmp p x = Some d -> c p x = d).
      { intros d x Hx Hd. rewrite (Ag p x) in Hd by (first [now left|now apply Inr]). congruence. }
      assert (AgL : agree L' L') by (intros x y Hx Hy; apply Ag; apply Inr; rewrite !in_app_iff; tauto).
      assert (AgR : agree R' R') by (intros x y Hx Hy; apply Ag; apply Inr; rewrite !in_app_iff; tauto).
      set (M := E1 ++ p :: E2) in *. assert (LM : zlen M = 1 + zlen E1 + zlen E2) by (unfold M; rewrite zlen_app, zlen_cons; lia).
      assert (Lt' : zlen (p :: rest) = zlen L' + zlen M + zlen R') by (rewrite LM, zlen_cons; unfold zlen; lia).
      assert (B1 : zlen pre + (zlen (p :: rest) - zlen R') = zlen (pre ++ L' ++ M)) by (rewrite Lt', !zlen_app; lia).
      assert (PermF : forall l r, Permutation L' l -> Permutation R' r -> Permutation (p :: rest) (l ++ M ++ r)).
      { intros l r P1 P2. rewrite <- P1, <- P2. unfold M. rewrite HP. repeat (rewrite <- app_assoc; cbn [app]).
        transitivity (L' ++ p :: E1 ++ E2 ++ R'); [apply Permutation_middle|]. apply Permutation_app_head. apply Permutation_middle. }
      assert (AscF : forall l r, Permutation L' l -> Permutation R' r -> asc l -> asc r -> asc (l ++ M ++ r)).
      { intros l r P1 P2 A1 A2. apply (asc_three T c TO) with p; auto.
        - rewrite Forall_forall in *. intros x Hx. pose proof (Permutation_in x (Permutation_sym P1) Hx) as Hx'. apply Is; [rewrite !in_app_iff; tauto|now apply F1].
        - unfold M. apply Forall_app in F2. destruct F2 as [G1 G2]. apply Forall_app. split.
          + rewrite Forall_forall in *. intros x Hx. apply Is; [rewrite !in_app_iff; tauto|now apply G1].
          + constructor; [apply (c_refl T c TO)|]. rewrite Forall_forall in *. intros x Hx. apply Is; [rewrite !in_app_iff; tauto|now apply G2].
        - rewrite Forall_forall in *. intros x Hx. pose proof (Permutation_in x (Permutation_sym P2) Hx) as Hx'. apply Is; [rewrite !in_app_iff; tauto|now apply F3]. }
      destruct (zlen L' <? zlen R') eqn:Elr.
      + destruct (IH L' pre (M ++ R' ++ post)) as (l' & d1 & Ea & Pa & Da); [lia|auto|].
        rewrite Ea. cbn [bind]. rewrite B1. replace (zlen (pre ++ L' ++ M)) with (zlen (pre ++ l' ++ M))
          by (rewrite !zlen_app; unfold zlen; now rewrite (Permutation_length Pa)).
        replace (pre ++ l' ++ M ++ R' ++ post) with ((pre ++ l' ++ M) ++ R' ++ post) by now rewrite <- !app_assoc.
        destruct (IH R' (pre ++ l' ++ M) post) as (r' & d2 & Eb & Pb & Db); [lia|auto|].
        rewrite Eb. cbn [bind]. exists (l' ++ M ++ r'), (Nat.max (S d1) d2).
        split; [repeat (rewrite <- app_assoc; cbn [app]); reflexivity|]. split; [now apply PermF|now apply AscF].
      + rewrite B1. replace (pre ++ L' ++ M ++ R' ++ post) with ((pre ++ L' ++ M) ++ R' ++ post) by now rewrite <- !app_assoc.
        destruct (IH R' (pre ++ L' ++ M) post) as (r' & d2 & Eb & Pb & Db); [lia|auto|].
        rewrite Eb. cbn [bind]. replace ((pre ++ L' ++ M) ++ r' ++ post) with (pre ++ L' ++ (M ++ r' ++ post)) by now rewrite <- !app_assoc.
        destruct (IH L' pre (M ++ r' ++ post)) as (l' & d1 & Ea & Pa & Da); [lia|auto|].
        rewrite Ea. cbn [bind]. exists (l' ++ M ++ r'), (Nat.max (S d2) d1).
        split; [repeat (rewrite <- app_assoc; cbn [app]); reflexivity|]. split; [now apply PermF|now apply AscF].
  Qed.
End Agree.

Section AgreeD.
  Variable K V : Type.
  Variable cmp : K -> K -> option comparison.
  Variable c : K -> K -> comparison.
  Variable veq : V -> V -> bool.
  Notation cmp' := (fun a b => Some (c a b)).
  Notation agree := (agree K cmp c).
  Definition dkeys (o : dop K V) : list K :=
    match o with DAdd k _ | DSet k _ | DRemove k | DGet k | DContains k => [k] | _ => [] end.
  Definition gkeys_of (o : gop K V) : list K :=
    match o with
    | GAdd k _ | GRemove k | GRemoveValue k _ | GContains k | GContainsValue k _ | GValueCount k | GValueAt k _ => [k]
    | _ => []
    end.
  Definition skeys (o : sop K) : list K := match o with SAdd a | SRemove a | SIndexOf a | SContains a => [a] | _ => [] end.
  Lemma s_step_agree x l o : lst_shows K x l -> agree l (skeys o) -> s_step K cmp x o = s_step K cmp' x o.
  Proof.
    intros H Ag. unfold s_step. destruct o; cbn [s_step_raw skeys] in *; auto.
    - now rewrite (s_add_agree K cmp c x l a H Ag).
    - unfold s_remove. now rewrite (index_agree K cmp c x l a H Ag).
    - now rewrite (index_agree K cmp c x l a H Ag).
    - now rewrite (index_agree K cmp c x l a H Ag).
  Qed.
  Lemma d_step_agree d l o : lst_shows K (keys d) l -> agree l (dkeys o) -> d_step K V cmp d o = d_step K V cmp' d o.
  Proof.
    intros H Ag. unfold d_step. destruct o; cbn [d_step_raw dkeys] in *; auto;
      unfold d_add, d_set, d_remove, d_get; rewrite ?(index_agree K cmp c _ l _ H Ag), ?(s_add_agree K cmp c _ l _ H Ag); reflexivity.
  Qed.
  Lemma g_step_agree g l o : lst_shows K (gkeys g) l -> agree l (gkeys_of o) -> g_step K V cmp veq g o = g_step K V cmp' veq g o.
  Proof.
    intros H Ag. unfold g_step. destruct o; cbn [g_step_raw gkeys_of] in *; auto;
      unfold g_add, g_remove, g_remove_value, g_contains_value, g_get;
      rewrite ?(index_agree K cmp c _ l _ H Ag), ?(s_add_agree K cmp c _ l _ H Ag); reflexivity.
  Qed.
End AgreeD.
Lemma join_agree K V W (cmp cmp' : K -> K -> option comparison) : (forall x y, cmp x y = cmp' x y) ->
  forall fuel a b i j, join K V W cmp a b i j fuel = join K V W cmp' a b i j fuel.
Proof.
  intros H. induction fuel as [|fuel IH]; intros a b i j; [reflexivity|]. cbn [join].
  destruct (i <? count (gkeys a)); [|destruct (j <? count (gkeys b)); [|reflexivity]].
  - destruct (get K (gkeys a) i) as [k1| | |]; cbn [bind]; auto. destruct (g_by_index K V a i) as [x1| | |]; cbn [bind]; auto.
    destruct (j <? count (gkeys b)); [|now rewrite IH].
    destruct (get K (gkeys b) j) as [k2| | |]; cbn [bind]; auto. destruct (g_by_index K W b j) as [x2| | |]; cbn [bind]; auto.
    now rewrite H, !IH.
  - now rewrite IH.
Qed.

(* keys of the types of the library *)
Lemma all_agree k l m : agree (value k) (key_cmp k) (order k) l m.
Proof. intros x y _ _. apply key_cmp_order. Qed.
Lemma key_sorted k os : Forall (client_ok (value k)) os ->
  exists x rs l, s_run (value k) (key_cmp k) empty_lst os = Ok (x, rs) /\ lst_shows (value k) x l /\ ok_run (value k) (order k) [] os l rs.
Proof.
  assert (G : forall os x l, lst_shows (value k) x l -> ascending (value k) (order k) l -> Forall (client_ok (value k)) os ->
    exists y rs l', s_run (value k) (key_cmp k) x os = Ok (y, rs) /\ lst_shows (value k) y l' /\ ok_run (value k) (order k) l os l' rs).
  { clear os. induction os as [|o os IH]; intros x l H A F; cbn [s_run].
    - exists x, [], l. split; [reflexivity|]. split; [exact H|constructor].
    - inversion F as [|o' os' C F']; subst. rewrite (s_step_agree _ _ (order k) x l o H (all_agree k l _)).
      destruct (s_step_ok _ (order k) (order_total k) x l o H A C) as (y & l' & r & E & S' & A' & St). rewrite E. cbn [bind].
      destruct (IH y l' S' A' F') as (z & rs & l'' & E' & S'' & R). rewrite E'. cbn [bind].
      exists z, (r :: rs), l''. split; [reflexivity|]. split; [exact S''|]. econstructor; eauto. }
  intros F. apply G; [apply empty_shows|constructor|exact F].
Qed.
Lemma key_dictionary k V (os : list (dop (value k) V)) :
  exists d, d_run (value k) V (key_cmp k) empty_dict os = Ok (d, snd (md_run (value k) V (order k) [] os)) /\
    d_shows (value k) V (order k) d (fst (md_run (value k) V (order k) [] os)).
Proof.
  assert (G : forall os d m, d_shows (value k) V (order k) d m -> exists d', d_run (value k) V (key_cmp k) d os = Ok (d', snd (md_run (value k) V (order k) m os)) /\
    d_shows (value k) V (order k) d' (fst (md_run (value k) V (order k) m os))).
  { clear os. induction os as [|o os IH]; intros d m H; cbn [d_run md_run].
    - exists d. split; [reflexivity|exact H].
    - rewrite (d_step_agree _ _ _ (order k) d (map fst m) o (proj1 H) (all_agree k _ _)).
      destruct (d_step_ok _ V (order k) (order_total k) d m o H) as (d' & E & H'). rewrite E. cbn [bind].
      destruct (md_step (value k) V (order k) m o) as [m' r]. cbn [fst snd] in *.
      destruct (IH d' m' H') as (d'' & E' & H''). rewrite E'. cbn [bind].
      destruct (md_run (value k) V (order k) m' os) as [m'' rs]. cbn [fst snd] in *. eauto. }
  apply G. apply d_empty.
Qed.
Lemma g_shows_keys K V c g m : g_shows K V c g m -> lst_shows K (gkeys g) (map fst m).
Proof. intros (ps & H & _). exact H. Qed.
Lemma key_group k V veq (os : list (gop (value k) V)) :
  exists g, g_run (value k) V (key_cmp k) veq empty_group os = Ok (g, snd (mg_run (value k) V (order k) veq [] os)) /\
    g_shows (value k) V (order k) g (fst (mg_run (value k) V (order k) veq [] os)).
Proof.
  assert (G : forall os g m, g_shows (value k) V (order k) g m -> exists g', g_run (value k) V (key_cmp k) veq g os = Ok (g', snd (mg_run (value k) V (order k) veq m os)) /\
    g_shows (value k) V (order k) g' (fst (mg_run (value k) V (order k) veq m os))).
  { clear os. induction os as [|o os IH]; intros g m H; cbn [g_run mg_run].
    - exists g. split; [reflexivity|exact H].
    - rewrite (g_step_agree _ _ _ (order k) veq g (map fst m) o (g_shows_keys _ _ _ _ _ H) (all_agree k _ _)).
      destruct (g_step_ok _ V (order k) (order_total k) veq g m o H) as (g' & E & H'). rewrite E. cbn [bind].
      destruct (mg_step (value k) V (order k) veq m o) as [m' r]. cbn [fst snd] in *.
      destruct (IH g' m' H') as (g'' & E' & H''). rewrite E'. cbn [bind].
      destruct (mg_run (value k) V (order k) veq m' os) as [m'' rs]. cbn [fst snd] in *. eauto. }
  apply G. apply g_empty.
Qed.
Lemma key_join k V W a b m n : g_shows (value k) V (order k) a m -> g_shows (value k) W (order k) b n ->
  exists es, group_inner_join (value k) V W (key_cmp k) a b = Ok es /\
    accepts (value k) V W es = joined (value k) V W (order k) m n /\
    discards1 (value k) V W es = only_first (value k) V W (order k) m n /\
    discards2 (value k) V W es = only_second (value k) V W (order k) m n.
Proof.
  intros H1 H2. unfold group_inner_join. rewrite (join_agree _ V W _ (fun x y => Some (order k x y)) (key_cmp_order k)).
  destruct (group_join_ok (value k) V W (order k) (order_total k) a b m n H1 H2) as (es & E & R1 & R2 & R3 & _). exists es.
  split; [exact E|]. auto.
Qed.
Lemma key_sort k (pre seg post : list (value k)) :
  exists seg' d, sort_array (value k) (key_cmp k) (pre ++ seg ++ post) (zlen pre) (zlen seg) = Ok (pre ++ seg' ++ post, d) /\
    Permutation seg seg' /\ ascending (value k) (order k) seg'.
Proof.
  apply (sort_agree (value k) (key_cmp k) (order k) (order_total k)); [rewrite zlen_to_nat; lia|apply all_agree].
Qed.
