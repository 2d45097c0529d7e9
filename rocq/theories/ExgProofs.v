From Coq Require Import Lia ZifyBool ZifyNat.
From Verif Require Import Base BaseFacts LstModel LstSpec LstProofs SrtModel SrtSpec SrtProofs DctModel DctSpec DctProofs ExcModel ExcSpec ExcProofs OwnProofs ExgModel ExgSpec.
Open Scope Z_scope.
Ltac peel H := match type of H with bind ?x _ = Ok _ => let E := fresh "E" in destruct x eqn:E; cbn [bind] in H; try discriminate end.

Section Lists.
  Variable A : Type.
  Lemma insert_shows (x : lst A) l i a y : lst_shows A x l -> insert A x i a = Ok y -> exists l1 l2, l = l1 ++ l2 /\ lst_shows A y (l1 ++ a :: l2).
  Proof.
    intros H E. destruct (H) as (C & _). assert (R : 0 <= i <= zlen l) by (unfold insert in E; destruct (_ && _) eqn:B; [lia|discriminate]).
    destruct (split_at A l i R) as (l1 & l2 & E1 & E2 & _). subst l i. destruct (insert_mid A x l1 l2 a H) as (z & Ez & Sz). exists l1, l2. split; [reflexivity|]. congruence.
  Qed.
  Lemma get_shows (x : lst A) l i a : lst_shows A x l -> get A x i = Ok a -> exists l1 l2, l = l1 ++ a :: l2 /\ i = zlen l1.
  Proof.
    intros H E. rewrite (get_ok A _ _ _ H) in E. destruct (znth l i) as [b|] eqn:N; [|discriminate]. injection E as ->.
    unfold znth in N. destruct (i <? 0) eqn:I; [discriminate|]. destruct (nth_error_split _ _ N) as (l1 & l2 & E1 & E2). exists l1, l2. split; [exact E1|]. unfold zlen. lia.
  Qed.
  Lemma remove_at_shows (x : lst A) l i y : lst_shows A x l -> remove_at A x i = Ok y -> exists l1 b l2, l = l1 ++ b :: l2 /\ i = zlen l1 /\ lst_shows A y (l1 ++ l2).
  Proof.
    intros H E. destruct (H) as (C & _). assert (R : 0 <= i < zlen l) by (unfold remove_at in E; destruct (_ && _) eqn:B; [lia|discriminate]).
    destruct (nth_error l (Z.to_nat i)) as [b|] eqn:N; [|apply nth_error_None in N; unfold zlen in R; lia].
    destruct (nth_error_split _ _ N) as (l1 & l2 & E1 & E2). subst l. assert (i = zlen l1) by (unfold zlen; lia). subst i.
    destruct (remove_mid A x l1 b l2 H) as (z & Ez & Sz). exists l1, b, l2. split; [reflexivity|]. split; [reflexivity|]. congruence.
  Qed.
End Lists.

Section Groups.
  Variable K V : Type.
  Variable c : K -> K -> comparison.
  Variable TO : total_order c.
  Variable veq : V -> V -> bool.
  Notation cmp := (fun a b => Some (c a b)).
  Notation shows := (g_shows K V c).
  Definition bad (g : group K V) : Prop :=
    exists ps p x, lst_shows nat (gvals g) ps /\ In p ps /\ nth_error (gheap g) p = Some (Some x) /\ gone V x.
  Definition g_gone (g : group K V) : Prop := gone K (gkeys g) \/ bad g.
  Lemma g_gone_torn g : g_gone g -> group_torn K V g.
  Proof. intros [[T _]|(ps & p & x & H & I & N & T & _)]; [now left|right; exists p, x; split; [exists ps; auto|auto]]. Qed.
  Lemma deref_some g p x : deref K V g p = Ok x -> nth_error (gheap g) p = Some (Some x).
  Proof. unfold deref. destruct (nth_error (gheap g) p) as [[y|]|]; congruence. Qed.

  (* writing to a live cell keeps a torn container torn *)
  Lemma bad_write g p x y : bad g -> nth_error (gheap g) p = Some (Some x) -> (gone V x -> gone V y) -> bad (setcell K V g p (Some y)).
  Proof.
    intros (ps & q & z & H & I & N & G) E Y. destruct (Nat.eq_dec q p) as [->|D].
    - exists ps, p, y. unfold setcell. cbn [gvals gheap]. rewrite upd_same by now apply nth_error_lt in E. assert (z = x) by congruence. subst z. auto.
    - exists ps, q, z. unfold setcell. cbn [gvals gheap]. rewrite upd_other by congruence. auto.
  Qed.
  Lemma bad_keys g ks : bad g -> bad (mkGroup ks (gvals g) (gheap g)).
  Proof. intros (ps & p & x & H). exists ps, p, x. exact H. Qed.
  Lemma bad_grow g ks vs j p z : bad g -> insert nat (gvals g) j p = Ok vs -> bad (mkGroup ks vs (gheap g ++ [z])).
  Proof.
    intros (ps & q & x & H & I & N & G) E. destruct (insert_shows nat _ _ _ _ _ H E) as (l1 & l2 & -> & S').
    exists (l1 ++ p :: l2), q, x. cbn [gvals gheap]. split; [exact S'|]. split; [apply in_app_or in I; apply in_or_app; destruct I; [now left|right; now right]|].
    split; [|exact G]. rewrite nth_error_app1; [exact N|now apply nth_error_lt in N].
  Qed.
  Lemma bad_leak g ks z : bad g -> bad (mkGroup ks (gvals g) (gheap g ++ [z])).
  Proof.
    intros (ps & q & x & H & I & N & G). exists ps, q, x. cbn [gvals gheap]. split; [exact H|]. split; [exact I|].
    split; [|exact G]. rewrite nth_error_app1; [exact N|now apply nth_error_lt in N].
  Qed.
  Lemma delete_vals g p g' : delete K V g p = Ok g' -> gkeys g' = gkeys g /\ gvals g' = gvals g.
  Proof. intro H. unfold delete in H. peel H. peel H. injection H as <-. auto. Qed.
  Lemma bad_drop g ks vs i p g' : bad g -> get nat (gvals g) i = Ok p -> remove_at nat (gvals g) i = Ok vs -> delete K V (mkGroup ks vs (gheap g)) p = Ok g' -> bad g'.
  Proof.
    intros (ps & q & x & H & I & N & G) E1 E2 E3. destruct (get_shows nat _ _ _ _ H E1) as (l1 & l2 & E & L).
    destruct (remove_at_shows nat _ _ _ _ H E2) as (r1 & b & r2 & E' & L' & S'). 
    unfold delete in E3. peel E3. apply deref_some in E0. cbn [gheap] in E0. peel E3. injection E3 as <-.
    assert (D : q <> p) by (intros ->; assert (a = x) by congruence; subst a; exact (gone_destruct V _ _ G E4)).
    exists (r1 ++ r2), q, x. unfold setcell. cbn [gvals gheap]. split; [exact S'|]. split; [|rewrite upd_other by congruence; auto].
    assert (b = p). { pose proof (get_ok nat _ _ i H) as G0. rewrite E' in G0 at 1. rewrite L', znth_app_len in G0. rewrite <- L', E1 in G0. congruence. } subst b.
    rewrite E' in I. apply in_app_or in I. apply in_or_app. destruct I as [I|[I|I]]; [now left|congruence|now right].
  Qed.
  Lemma delete_all_keys : forall n g i g', g_delete_all K V g i n = Ok g' -> gkeys g' = gkeys g /\ gvals g' = gvals g.
  Proof.
    induction n as [|n IH]; intros g i g' H; cbn [g_delete_all] in H; [injection H as <-; auto|]. peel H. peel H.
    destruct (delete_vals _ _ _ E0) as [A B]. destruct (IH _ _ _ H) as [A' B']. split; congruence.
  Qed.
  Lemma bad_delete_all : forall ps2 ps1 g q x, lst_shows nat (gvals g) (ps1 ++ ps2) -> In q ps2 -> nth_error (gheap g) q = Some (Some x) -> gone V x ->
    forall g', g_delete_all K V g (zlen ps1) (length ps2) = Ok g' -> False.
  Proof.
    induction ps2 as [|p ps2 IH]; intros ps1 g q x H I N G g' D; [destruct I|]. cbn [g_delete_all length] in D.
    rewrite (get_mid nat _ _ _ _ H) in D. cbn [bind] in D. peel D. destruct (delete_vals _ _ _ E) as [_ B].
    unfold delete in E. peel E. apply deref_some in E0. peel E. injection E as <-.
    assert (Q : q <> p) by (intros ->; assert (a0 = x) by congruence; subst a0; exact (gone_destruct V _ _ G E1)).
    destruct I as [I|I]; [congruence|].
    refine (IH (ps1 ++ [p]) (setcell K V g p None) q x _ I _ G g' _).
    - rewrite <- app_assoc. rewrite B. exact H.
    - unfold setcell. cbn [gheap]. rewrite upd_other by congruence. exact N.
    - rewrite zlen_app, zlen_cons, zlen_nil. replace (zlen ps1 + (1 + 0)) with (zlen ps1 + 1) by lia. exact D.
  Qed.
  Lemma g_gone_clear g g' : g_gone g -> g_clear K V g = Ok g' -> False.
  Proof.
    intros G H. unfold g_clear in H. peel H. destruct (delete_all_keys _ _ _ _ E) as [A B]. peel H. apply late_inv in E0. destruct G as [G|G].
    - rewrite A in E0. exact (gone_clear K _ _ G E0).
    - destruct G as (ps & p & x & Sp & I & N & G). destruct (Sp) as (C & _). rewrite C, zlen_to_nat in E. exact (bad_delete_all ps [] g p x Sp I N G _ E).
  Qed.
  Lemma g_gone_destruct g g' : g_gone g -> g_destruct K V g = Ok g' -> False.
  Proof. intros G H. unfold g_destruct in H. peel H. exact (g_gone_clear _ _ G E). Qed.

  Lemma g_gone_add g k v g' : g_gone g -> g_add K V cmp g k v = Ok g' -> g_gone g'.
  Proof.
    intros G H. unfold g_add in H. peel H. peel H. destruct a0 as [g1 p].
    assert (G1 : g_gone g1).
    { destruct (_ =? _).
      - cbv zeta in E0. peel E0. destruct a0 as [ks j]. peel E0. injection E0 as <- <-. apply late_inv in E2.
        destruct G as [G|G]; [left; exact (gone_s_add K _ _ _ _ _ G E1)|right; exact (bad_grow _ _ _ _ _ _ G E2)].
      - peel E0. injection E0 as <- <-. exact G. }
    peel H. peel H. injection H as <-. apply late_inv in E1, E2. apply deref_some in E1. destruct G1 as [G1|G1]; [left; exact G1|right].
    apply (bad_write _ _ _ _ G1 E1). intro Gx. exact (gone_insert V _ _ _ _ Gx E2).
  Qed.
  Lemma g_gone_value_throws g k g' : g_gone g -> g_add_value_throws K V cmp g k = Ok g' -> g_gone g'.
  Proof.
    intros G H. unfold g_add_value_throws in H. peel H. peel H. destruct a0 as [g1 p].
    assert (G1 : g_gone g1).
    { destruct (_ =? _).
      - cbv zeta in E0. peel E0. destruct a0 as [ks j]. peel E0. injection E0 as <- <-. apply late_inv in E2.
        destruct G as [G|G]; [left; exact (gone_s_add K _ _ _ _ _ G E1)|right; exact (bad_grow _ _ _ _ _ _ G E2)].
      - peel E0. injection E0 as <- <-. exact G. }
    peel H. peel H. injection H as <-. apply late_inv in E1, E2. apply deref_some in E1. destruct G1 as [G1|G1]; [left; exact G1|right].
    apply (bad_write _ _ _ _ G1 E1). intro Gx. exact (gone_insert_throws V _ _ _ Gx E2).
  Qed.
  Lemma g_gone_step_raw g o g' r : g_gone g -> g_step_raw K V cmp veq g o = Ok (g', r) -> g_gone g'.
  Proof.
    intros G H. destruct o; cbn [g_step_raw] in H.
    - peel H. injection H as <- <-. exact (g_gone_add _ _ _ _ G E).
    - peel H. destruct a as [g1 b]. injection H as <- <-. unfold g_remove in E. peel E. destruct (negb _); [|injection E as <- <-; exact G].
      peel E. peel E. peel E. peel E. injection E as <- <-. apply late_inv in E2, E3, E4. destruct G as [G|G].
      + left. destruct (delete_vals _ _ _ E4) as [-> _]. cbn [gkeys]. exact (gone_remove_at K _ _ _ G E1).
      + right. exact (bad_drop _ _ _ _ _ _ G E2 E3 E4).
    - peel H. destruct a as [g1 b]. injection H as <- <-. unfold g_remove_value in E. peel E. destruct (negb _); [|injection E as <- <-; exact G].
      peel E. peel E. apply deref_some in E2. peel E. destruct a2 as [x b2]. cbv zeta in E.
      assert (G1 : g_gone (setcell K V g a0 (Some x))).
      { destruct G as [G|G]; [left; exact G|right]. apply (bad_write _ _ _ _ G E2). intro Gx. exact (gone_remove V _ _ _ _ _ Gx E3). }
      destruct (_ =? _); [|injection E as <- <-; exact G1]. peel E. peel E. peel E. injection E as <- <-. apply late_inv in E4, E5, E6. destruct G1 as [G1|G1].
      + left. destruct (delete_vals _ _ _ E6) as [-> _]. cbn [gkeys]. exact (gone_remove_at K _ _ _ G1 E4).
      + right. exact (bad_drop _ _ _ _ _ _ G1 E1 E5 E6).
    - peel H. injection H as <- <-. destruct (g_gone_clear _ _ G E).
    - peel H. injection H as <- <-. exact G.
    - peel H. injection H as <- <-. exact G.
    - injection H as <- <-. exact G.
    - peel H. injection H as <- <-. exact G.
    - peel H. injection H as <- <-. exact G.
    - peel H. peel H. injection H as <- <-. exact G.
  Qed.
  Lemma g_gone_xstep g o g' r : g_gone g -> xg_step K V cmp veq g o = Ok (g', r) -> g_gone g'.
  Proof.
    intros G H. unfold xg_step in H. destruct (xg_step_raw K V cmp veq g o) as [[g1 r1]| | |] eqn:X; try discriminate;
      injection H as <- <-; [|exact G]. destruct o; cbn [xg_step_raw] in X.
    - peel X. destruct a as [s q]. injection X as <- <-. unfold g_step in E. destruct (g_step_raw K V cmp veq g o) as [[g2 r2]| | |] eqn:E1; try discriminate;
        injection E as <- <-; [exact (g_gone_step_raw _ _ _ _ G E1)|exact G].
    - unfold g_add_key_throws in X. peel X. destruct (_ =? _).
      + peel X. injection X as <- <-. destruct G as [G|G]; [left; exact (gone_s_add_throws K _ _ _ _ G E0)|right; exact (bad_leak _ _ _ G)].
      + peel X. injection X as <- <-. exact (g_gone_add _ _ _ _ G E0).
    - peel X. injection X as <- <-. exact (g_gone_value_throws _ _ _ G E).
  Qed.
  Lemma g_gone_xrun os : forall g g' rs, g_gone g -> xg_run K V cmp veq g os = Ok (g', rs) -> g_gone g'.
  Proof.
    induction os as [|o os IH]; intros w w' rs G H; cbn [xg_run] in H; [injection H as <- <-; exact G|].
    peel H. destruct a as [w1 r]. peel H. destruct a as [w2 rs2]. injection H as <- <-. exact (IH _ _ _ (g_gone_xstep _ _ _ _ G E) E0).
  Qed.
  Lemma xg_calm os : forall g, xg_run K V cmp veq g (map XGroup os) = do (g', rs) <- g_run K V cmp veq g os; Ok (g', map XGRet rs).
  Proof.
    induction os as [|o os IH]; intro d; cbn [map xg_run g_run]; [reflexivity|]. unfold xg_step. cbn [xg_step_raw].
    assert (N : g_step K V cmp veq d o <> Err) by (unfold g_step; destruct (g_step_raw K V cmp veq d o) as [[]| | |]; discriminate).
    destruct (g_step K V cmp veq d o) as [[d1 r]| | |]; cbn [bind]; try reflexivity; [|congruence]. rewrite IH.
    destruct (g_run K V cmp veq d1 os) as [[d2 rs]| | |]; reflexivity.
  Qed.
  Lemma xg_app os1 os2 : forall w, xg_run K V cmp veq w (os1 ++ os2) =
    do (w1, r1) <- xg_run K V cmp veq w os1; do (w2, r2) <- xg_run K V cmp veq w1 os2; Ok (w2, r1 ++ r2).
  Proof.
    induction os1 as [|o os1 IH]; intro w; cbn [xg_run app bind].
    - destruct (xg_run K V cmp veq w os2) as [[w2 r2]| | |]; reflexivity.
    - destruct (xg_step K V cmp veq w o) as [[w1 r]| | |]; cbn [bind]; try reflexivity. rewrite IH.
      destruct (xg_run K V cmp veq w1 os1) as [[w2 r1]| | |]; cbn [bind]; try reflexivity.
      destruct (xg_run K V cmp veq w2 os2) as [[w3 r2]| | |]; reflexivity.
  Qed.

  (* ---- the throwing step itself ---------------------------------------------- *)
  Lemma key_throws g m k v : shows g m -> lookup K (list V) c k m = None ->
    exists g', xg_step K V cmp veq g (XGAddKeyThrows k v) = Ok (g', XGThrown) /\ gone K (gkeys g') /\ gvals g' = gvals g /\
      gheap g' = gheap g ++ [Some empty_lst].
  Proof.
    intros (ps & HK & HP & HC & ND & HL & Ha & HN) L. destruct (index_cases K (list V) c TO _ _ k HK Ha) as [(m1 & k0 & v0 & m2 & F & E)|(m1 & m2 & F & E)].
    { rewrite (lookup_found K (list V) c _ _ _ _ _ _ F) in L. discriminate. }
    destruct (add_absent K (list V) c TO _ _ _ _ _ HK Ha F) as (ks & n1 & n2 & (En & _) & Ea & Sk).
    unfold xg_step. cbn [xg_step_raw]. unfold g_add_key_throws. rewrite E. cbn [bind Z.eqb Pos.eqb].
    destruct (add_throws_gone K _ _ _ _ _ _ Ea Sk) as (z & Hz & Gz). rewrite Hz. cbn [bind]. eexists. split; [reflexivity|]. split; [exact Gz|]. split; reflexivity.
  Qed.
  Lemma key_there g m k v : shows g m -> lookup K (list V) c k m <> None ->
    exists g', xg_step K V cmp veq g (XGAddKeyThrows k v) = Ok (g', XGRet (OBool true)) /\ g_step K V cmp veq g (GAdd k v) = Ok (g', OBool true).
  Proof.
    intros H L. destruct (g_step_ok K V c TO veq g m (GAdd k v) H) as (g' & E & _). cbn [mg_step mg_step_raw snd] in E. unfold mg_step in E. cbn [mg_step_raw snd] in E.
    exists g'. split; [|exact E]. unfold g_step in E. cbn [g_step_raw] in E. unfold xg_step. cbn [xg_step_raw]. unfold g_add_key_throws.
    destruct H as (ps & HK & HP & HC & ND & HL & Ha & HN). destruct (index_cases K (list V) c TO _ _ k HK Ha) as [(m1 & k0 & v0 & m2 & F & E1)|(m1 & m2 & F & E1)].
    2: { rewrite (lookup_absent K (list V) c _ _ _ _ F) in L. congruence. }
    rewrite E1. cbn [bind]. pose proof (zlen_nonneg m1). replace (zlen m1 =? -1) with false by lia.
    destruct (g_add K V cmp g k v) as [g2| | |]; cbn [bind] in *; try discriminate. congruence.
  Qed.
  (* the group as Add would have left it, but for the container of the key *)
  Lemma value_throws g m k v : shows g m ->
    exists g3 p ps y, xg_step K V cmp veq g (XGAddValueThrows k v) = Ok (setcell K V g3 p (Some y), XGThrown) /\
      shows g3 (put K (list V) c k (values_at K V c k m ++ [v]) m) /\ lst_shows nat (gvals g3) ps /\
      (exists i m1 k0 m2 ps1 ps2, s_index_of K cmp (gkeys g3) k = Ok i /\ get nat (gvals g3) i = Ok p /\ i = zlen ps1 /\ zlen ps1 = zlen m1 /\
        put K (list V) c k (values_at K V c k m ++ [v]) m = m1 ++ (k0, values_at K V c k m ++ [v]) :: m2 /\ c k0 k = Eq /\ ps = ps1 ++ p :: ps2 /\ NoDup ps) /\
      (p < length (gheap g3))%nat /\
      count y = zlen (values_at K V c k m) + 1 /\ (exists n, buf y = map Live (values_at K V c k m) ++ repeat Raw (S n)) /\ gone V y.
  Proof.
    intro H. pose proof (g_step_ok K V c TO veq g m (GAdd k v) H) as (g3 & E3 & S3). unfold mg_step in E3, S3. cbn [mg_step_raw snd fst] in E3, S3.
    replace (match lookup K (list V) c k m with Some vs => vs ++ [v] | None => [v] end) with (values_at K V c k m ++ [v]) in S3
      by (unfold values_at; destruct (lookup K (list V) c k m); reflexivity).
    set (m' := put K (list V) c k (values_at K V c k m ++ [v]) m) in *.
    unfold g_step in E3. cbn [g_step_raw] in E3. destruct (g_add K V cmp g k v) as [g3'| | |] eqn:A; cbn [bind] in E3; try discriminate. assert (g3' = g3) by congruence. subst g3'. clear E3.
    assert (Aux : exists g0 p x, nth_error (gheap g0) p = Some (Some x) /\ lst_shows V x (values_at K V c k m) /\ (exists z, g3 = setcell K V g0 p (Some z)) /\
      (forall y, insert_throws V x (count x) = Ok y -> xg_step K V cmp veq g (XGAddValueThrows k v) = Ok (setcell K V g0 p (Some y), XGThrown)) /\
      (exists i, s_index_of K cmp (gkeys g3) k = Ok i /\ get nat (gvals g3) i = Ok p)).
    { unfold g_add in A. unfold xg_step. cbn [xg_step_raw]. unfold g_add_value_throws.
      destruct (H) as (ps & HK & HP & HC & ND & HL & Ha & HN). destruct (index_cases K (list V) c TO _ _ k HK Ha) as [(m1 & k0 & v0 & m2 & F & E1)|(m1 & m2 & F & E1)].
      - rewrite E1 in *. cbn [bind] in *. pose proof (zlen_nonneg m1). replace (zlen m1 =? -1) with false in * by lia. unfold values_at.
        rewrite (lookup_found K (list V) c _ _ _ _ _ _ F). destruct (F) as (Em & _). subst m.
        destruct (cells_split K V _ _ _ _ _ HC) as (ps1 & p & ps2 & -> & Lp & _ & (x & Ex & Sx) & _). rewrite <- Lp in *. rewrite (get_mid nat _ _ _ _ HP) in *. cbn [bind] in *.
        unfold deref in *. rewrite Ex in *. cbn [late bind] in *. exists g, p, x. split; [exact Ex|]. split; [exact Sx|]. peel A. injection A as <-. split; [eauto|]. split.
        + intros y Hy. rewrite Hy. reflexivity.
        + exists (zlen ps1). split; [exact E1|]. unfold setcell. cbn [gvals]. exact (get_mid nat _ _ _ _ HP).
      - rewrite E1 in *. cbn [bind Z.eqb Pos.eqb] in *. cbv zeta in *. unfold values_at. rewrite (lookup_absent K (list V) c _ _ _ _ F).
        destruct (add_absent K (list V) c TO _ _ _ _ _ HK Ha F) as (ks & n1 & n2 & (En & Bn & An) & Ea & Sk). rewrite Ea in *. cbn [bind] in *.
        assert (Lps : zlen ps = zlen m) by (unfold zlen; f_equal; exact (Forall2_len _ _ _ HC)).
        destruct (insert_at nat _ _ (zlen n1) (length (gheap g)) HP) as (vs & Ei & Si).
        { rewrite Lps, En. pose proof (zlen_nonneg n1). pose proof (zlen_nonneg n2). rewrite zlen_app. lia. }
        rewrite Ei in *. cbn [late bind] in *. unfold deref in *. cbn [gheap] in *. rewrite nth_error_app2 in * by lia. rewrite Nat.sub_diag in *. cbn [nth_error late bind] in *.
        exists (mkGroup ks vs (gheap g ++ [Some empty_lst])), (length (gheap g)), empty_lst. cbn [gheap]. rewrite nth_error_app2 by lia. rewrite Nat.sub_diag. cbn [nth_error].
        split; [reflexivity|]. split; [apply empty_shows|]. peel A. injection A as <-. split; [eauto|]. split.
        + intros y Hy. rewrite Hy. reflexivity.
        + exists (zlen n1). unfold setcell. cbn [gkeys gvals]. split.
          * assert (Sk' : lst_shows K ks (map fst (n1 ++ (k, [v]) :: n2))) by (rewrite map_app; exact Sk).
            assert (Ak : ascending_keys K (list V) c (n1 ++ (k, [v]) :: n2)) by (apply (asck_insert K (list V) c TO m k n1 n2 [v] Ha); split; [exact En|split; assumption]).
            destruct (index_cases K (list V) c TO ks _ k Sk' Ak) as [(q1 & k1 & w1 & q2 & Fq & Eq1)|(q1 & q2 & Fq & Eq1)].
            -- rewrite Eq1. f_equal. destruct Fq as (Eq2 & Ck & Bq & _). 
               apply (f_equal (fun l => l)) in Eq2. clear - Eq2 Ck Bq Bn TO.
               revert q1 Eq2 Bq. induction n1 as [|a n1 IH]; intros q1 Eq2 Bq.
               ++ destruct q1 as [|b q1]; [reflexivity|]. cbn [app] in Eq2. injection Eq2 as <- _. specialize (Bq _ (or_introl eq_refl)). cbn [fst] in Bq. rewrite (c_refl K c TO) in Bq. discriminate.
               ++ destruct q1 as [|b q1]; cbn [app] in Eq2.
                  ** injection Eq2 as -> _. specialize (Bn _ (or_introl eq_refl)). cbn [fst] in Bn. congruence.
                  ** injection Eq2 as <- Eq2. rewrite !zlen_cons. f_equal. apply IH; [intros z Hz; apply Bn; now right|exact Eq2|intros z Hz; apply Bq; now right].
            -- exfalso. apply (absent_not_in K (list V) c _ _ _ _ (k, [v]) Fq); [apply in_or_app; right; now left|apply (c_refl K c TO)].
          * rewrite (get_ok nat _ _ _ Si).
            assert (R : 0 <= zlen n1 <= zlen ps) by (rewrite Lps, En, zlen_app; pose proof (zlen_nonneg n1); pose proof (zlen_nonneg n2); lia).
            destruct (split_at nat ps (zlen n1) R) as (l1 & l2 & Z1 & Z2 & Z3 & Z4). rewrite <- Z3, <- Z4, <- Z2. now rewrite znth_app_len. }
    destruct Aux as (g0 & p & x & N & Sx & (z & ->) & Thr & (i & I1 & I2)).
    destruct (S3) as (ps & HK & HP & HC & ND & HL & Ha & HN).
    destruct (throws_gone V x _ (zlen (values_at K V c k m)) Sx) as (y & Hy & Gy); [pose proof (zlen_nonneg (values_at K V c k m)); lia|].
    assert (Hy' : insert_throws V x (count x) = Ok y) by (destruct (Sx) as (C & _); rewrite C; exact Hy).
    exists (setcell K V g0 p (Some z)), p, ps, y. split.
    { rewrite (Thr y Hy'). unfold setcell. cbn [gkeys gvals gheap]. do 3 f_equal. clear. generalize (gheap g0). induction p as [|p IH]; intros [|a l]; cbn [upd]; try reflexivity. f_equal. apply IH. }
    split; [exact S3|]. split; [exact HP|]. split.
    { destruct (index_cases K (list V) c TO _ _ k HK Ha) as [(m1 & k0 & w0 & m2 & F & E1)|(m1 & m2 & F & E1)].
      - assert (W : w0 = values_at K V c k m ++ [v]).
        { pose proof (lookup_found K (list V) c _ _ _ _ _ _ F) as L. unfold m' in L. rewrite (lookup_put K (list V) c TO) in L. rewrite (c_refl K c TO) in L. congruence. }
        subst w0. destruct (F) as (Em & Ck & _). rewrite Em in HC. destruct (cells_split K V _ _ _ _ _ HC) as (ps1 & p' & ps2 & Eps & Lp & _).
        assert (i = zlen m1) by congruence. subst i. rewrite Eps in HP. rewrite <- Lp, (get_mid nat _ _ _ _ HP) in I2. assert (p' = p) by congruence. subst p'.
        exists (zlen m1), m1, k0, m2, ps1, ps2. split; [exact I1|]. split; [rewrite <- Lp; exact (get_mid nat _ _ _ _ HP)|]. split; [symmetry; exact Lp|]. split; [exact Lp|].
        split; [exact Em|]. split; [exact Ck|]. split; [exact Eps|exact ND].
      - rewrite E1 in I1. injection I1 as <-. rewrite (get_neg nat _ _ HP) in I2. discriminate. }
    split; [unfold setcell; cbn [gheap]; rewrite upd_length; now apply nth_error_lt in N|].
    unfold insert_throws in Hy'. destruct (_ && _); [|discriminate]. destruct (insert_uninit_spec V x _ (count x) (values_at K V c k m) [] Sx (eq_sym (app_nil_r _)) ltac:(apply Sx)) as (n & cp & mv & Q & _).
    assert (y = mkLst (map Live (values_at K V c k m) ++ Raw :: map Live [] ++ repeat Raw n) (zlen (values_at K V c k m) + 1) cp mv) by congruence. subst y.
    cbn [count buf]. split; [reflexivity|]. split; [exists n; reflexivity|exact Gy].
  Qed.

  Lemma g_no_return os1 k v o os2 :
    (o = XGAddKeyThrows k v /\ lookup K (list V) c k (fst (mg_run K V c veq [] os1)) = None \/ o = XGAddValueThrows k v) ->
    (exists g rs, xg_run K V cmp veq empty_group (map XGroup os1 ++ [o]) = Ok (g, rs ++ [XGThrown])) /\
    forall g rs, xg_run K V cmp veq empty_group (map XGroup os1 ++ o :: os2) = Ok (g, rs) -> group_torn K V g /\ forall u, g_destruct K V g <> Ok u.
  Proof.
    intros Ho. destruct (g_run_ok K V c TO veq os1 empty_group [] (g_empty K V c)) as (g1 & R1 & S1).
    assert (X : exists g2, xg_step K V cmp veq g1 o = Ok (g2, XGThrown) /\ g_gone g2).
    { destruct Ho as [[-> L]| ->].
      - destruct (key_throws g1 _ k v S1 L) as (g2 & R2 & G2 & _). exists g2. split; [exact R2|now left].
      - destruct (value_throws g1 _ k v S1) as (g3 & p & ps & y & R2 & _ & HP & (i & m1 & k0 & m2 & ps1 & ps2 & _ & _ & _ & _ & _ & _ & Eps & _) & Lp & _ & _ & G).
        eexists. split; [exact R2|]. right. exists ps, p, y. unfold setcell. cbn [gvals gheap]. split; [exact HP|]. split; [rewrite Eps; apply in_or_app; right; now left|].
        split; [now apply upd_same|exact G]. }
    destruct X as (g2 & R2 & G2). split.
    - rewrite xg_app, xg_calm, R1. cbn [bind xg_run]. rewrite R2. cbn [bind]. eauto.
    - intros d rs H. rewrite xg_app, xg_calm, R1 in H. cbn [bind xg_run] in H. rewrite R2 in H. cbn [bind] in H.
      peel H. destruct a as [d3 r3]. injection H as <- <-. peel E. destruct a as [d4 r4]. injection E as <- <-.
      pose proof (g_gone_xrun _ _ _ _ G2 E0) as G. split; [exact (g_gone_torn _ G)|]. intros u Hu. exact (g_gone_destruct _ _ G Hu).
  Qed.

  (* ---- what a value that was not copied leaves -------------------------------- *)
  Lemma lookup_same_key m k k' : c k k' = Eq -> values_at K V c k' m = values_at K V c k m.
  Proof. intro E. unfold values_at. now rewrite (lookup_cong K (list V) c TO m k k' E). Qed.
  Lemma put_len k (a b : list V) m : zlen (put K (list V) c k a m) = zlen (put K (list V) c k b m).
  Proof. induction m as [|[k0 v0] m IH]; cbn [put]; [reflexivity|]. destruct (c k0 k); rewrite !zlen_cons; [reflexivity|rewrite IH; reflexivity|reflexivity]. Qed.
  Lemma g_value_left os1 g1 rs k v : g_run K V cmp veq empty_group os1 = Ok (g1, rs) ->
    let m := fst (mg_run K V c veq [] os1) in let vs := values_at K V c k m in
    exists g2, xg_step K V cmp veq g1 (XGAddValueThrows k v) = Ok (g2, XGThrown) /\
      (forall o k', asks K V o k' -> c k k' <> Eq -> g_step K V cmp veq g2 o = Ok (g2, snd (mg_step K V c veq m o))) /\
      g_step K V cmp veq g2 GCount = Ok (g2, OInt (zlen (put K (list V) c k vs m))) /\
      forall k', c k k' = Eq ->
        g_step K V cmp veq g2 (GContains k') = Ok (g2, OBool true) /\
        g_step K V cmp veq g2 (GValueCount k') = Ok (g2, OInt (zlen vs + 1)) /\
        (forall i a, znth vs i = Some a -> g_step K V cmp veq g2 (GValueAt k' i) = Ok (g2, OVal a)) /\
        g_step K V cmp veq g2 (GValueAt k' (zlen vs)) = UB.
  Proof.
    intros R m vs. destruct (g_run_ok K V c TO veq os1 empty_group [] (g_empty K V c)) as (g1' & R1 & S1). assert (g1' = g1) by congruence. subst g1'. fold m in S1.
    destruct (value_throws g1 m k v S1) as (g3 & p & ps & y & R2 & S3 & HP & (i & m1 & k0 & m2 & ps1 & ps2 & I1 & I2 & Ei & L1 & Em & Ck & Eps & ND) & Lp & Cy & (n & By) & G).
    fold vs in S3, Em, Cy, By. set (m' := put K (list V) c k (vs ++ [v]) m) in *.
    exists (setcell K V g3 p (Some y)). split; [exact R2|]. set (g2 := setcell K V g3 p (Some y)).
    destruct (S3) as (ps' & HK & HP' & HC & ND' & HL & Ha & HN).
    assert (ps' = ps). { destruct HP as (C1 & _ & n1 & B1), HP' as (C2 & _ & n2 & B2). rewrite B1 in B2. rewrite C1 in C2. unfold zlen in C2. clear - B2 C2. revert ps' B2 C2.
      induction ps as [|a l IH]; intros [|b l'] B C; cbn [length] in C; try lia; [reflexivity|]. cbn [map app] in B. injection B as <- B. f_equal. apply IH; [exact B|lia]. }
    subst ps'. clear HP' ND'.
    (* a key that is not k *)
    assert (Other : forall o k', asks K V o k' -> c k k' <> Eq -> g_step K V cmp veq g2 o = Ok (g2, snd (mg_step K V c veq m' o))).
    { intros o k' Q N. destruct (g_step_ok K V c TO veq g3 m' o S3) as (g4 & E4 & _).
      assert (By' : forall a, s_index_of K cmp (gkeys g3) k' = Ok a -> g_by_index K V g2 a = g_by_index K V g3 a).
      { intros a Hq. unfold g_by_index. change (gvals g2) with (gvals g3). destruct (get nat (gvals g3) a) as [q| | |] eqn:Gq; cbn [bind]; try reflexivity.
        unfold deref, g2, setcell. cbn [gheap]. rewrite upd_other; [reflexivity|]. intro D. subst q. apply N.
        destruct (index_cases K (list V) c TO _ _ k' HK Ha) as [(q1 & k1 & w1 & q2 & F & E1)|(q1 & q2 & F & E1)].
        - assert (a = zlen q1) by congruence. subst a. destruct F as (Eq & Ck' & _).
          destruct (get_shows nat _ _ _ _ HP Gq) as (r1 & r2 & Er & Lr).
          assert (r1 = ps1).
          { rewrite Eps in Er, ND. clear - Er ND. revert r1 Er. induction ps1 as [|a l IH]; intros [|b r] Er; cbn [app] in Er; [reflexivity| | |].
            - injection Er as -> Er. apply NoDup_cons_iff in ND. destruct ND as [D _]. exfalso. apply D. rewrite Er. apply in_or_app. right. now left.
            - injection Er as -> Er. cbn [app] in ND. apply NoDup_cons_iff in ND. destruct ND as [D _]. exfalso. apply D. apply in_or_app. right. now left.
            - injection Er as -> Er. cbn [app] in ND. apply NoDup_cons_iff in ND. destruct ND as [_ D]. f_equal. apply IH; assumption. }
          subst r1. assert (k1 = k0).
          { assert (zlen q1 = zlen m1) by lia. rewrite Em in Eq. pose proof (f_equal (fun l => nth_error l (length m1)) Eq) as Q1. cbn beta in Q1.
            rewrite nth_error_app2 in Q1 by lia. replace (length m1) with (length q1) in Q1 at 3 by (unfold zlen in *; lia). rewrite nth_error_app2 in Q1 by lia.
            rewrite !Nat.sub_diag in Q1. cbn [nth_error] in Q1. congruence. }
          subst k1. apply (eq_trans_c K c TO k k0 k'); [exact (eq_sym_c K c TO _ _ Ck)|exact Ck'].
        - assert (a = -1) by congruence. subst a. rewrite (get_neg nat _ _ HP) in Gq. discriminate. }
      assert (S4 : g4 = g3).
      { unfold g_step in E4. destruct Q as [->|[->|[(w & ->)|(j & ->)]]]; cbn [g_step_raw] in E4;
          match type of E4 with match bind ?x _ with _ => _ end = _ => destruct x as [?| | |]; cbn [bind] in E4; try congruence end.
        match type of E4 with match bind ?x _ with _ => _ end = _ => destruct x as [?| | |]; cbn [bind] in E4; try congruence end. }
      subst g4. unfold g_step in *. destruct Q as [->|[->|[(w & ->)|(j & ->)]]]; cbn [g_step_raw] in *; change (gkeys g2) with (gkeys g3) in *.
      - destruct (s_index_of K cmp (gkeys g3) k') as [a| | |] eqn:Ek; cbn [bind] in *; congruence.
      - unfold g_get in *. change (gkeys g2) with (gkeys g3) in *. destruct (s_index_of K cmp (gkeys g3) k') as [a| | |] eqn:Ek; cbn [bind] in *; try congruence.
        rewrite (By' a eq_refl). destruct (g_by_index K V g3 a) as [x| | |]; cbn [bind] in *; congruence.
      - unfold g_contains_value in *. change (gkeys g2) with (gkeys g3) in *. destruct (s_index_of K cmp (gkeys g3) k') as [a| | |] eqn:Ek; cbn [bind] in *; try congruence.
        destruct (negb (a =? -1)); cbn [bind] in *; [|congruence].
        rewrite (By' a eq_refl). destruct (g_by_index K V g3 a) as [x| | |]; cbn [bind] in *; try congruence. destruct (index_of V veq x w) as [z| | |]; cbn [bind] in *; congruence.
      - unfold g_get in *. change (gkeys g2) with (gkeys g3) in *. destruct (s_index_of K cmp (gkeys g3) k') as [a| | |] eqn:Ek; cbn [bind] in *; try congruence.
        rewrite (By' a eq_refl). destruct (g_by_index K V g3 a) as [x| | |]; cbn [bind] in *; try congruence. destruct (get V x j) as [z| | |]; cbn [bind] in *; congruence. }
    split; [|split].
    - intros o k' Q N. rewrite (Other o k' Q N). do 2 f_equal.
      assert (L : lookup K (list V) c k' m' = lookup K (list V) c k' m).
      { unfold m'. rewrite (lookup_put K (list V) c TO). destruct (c k k'); [congruence|reflexivity|reflexivity]. }
      unfold mg_step. destruct Q as [->|[->|[(w & ->)|(j & ->)]]]; cbn [mg_step_raw snd]; rewrite L; try reflexivity.
      + destruct (lookup K (list V) c k' m); reflexivity.
      + destruct (lookup K (list V) c k' m) as [l|]; [|reflexivity]. destruct (znth l j); reflexivity.
    - unfold g_step. cbn [g_step_raw]. do 3 f_equal. change (gkeys g2) with (gkeys g3). rewrite (g_count K V c _ _ S3). unfold m'.
      apply put_len.
    - intros k' E'.
      assert (Ik : s_index_of K cmp (gkeys g3) k' = Ok i).
      { destruct (index_cases K (list V) c TO _ _ k' HK Ha) as [(q1 & k1 & w1 & q2 & F & E1)|(q1 & q2 & F & E1)].
        - destruct (index_cases K (list V) c TO _ _ k HK Ha) as [(r1 & k2 & w2 & r2 & F2 & E2)|(r1 & r2 & F2 & E2)].
          + rewrite E1. f_equal. transitivity (zlen r1); [|congruence].
            assert (F' : found K (list V) c m' k q1 k1 w1 q2).
            { apply (found_iff K (list V) c TO m' k q1 k1 w1 q2 Ha); [apply F|]. destruct F as (_ & Q & _). exact (eq_trans_c K c TO _ _ _ Q (eq_sym_c K c TO _ _ E')). }
            destruct F' as (X1 & X2 & X3 & X4), F2 as (Y1 & Y2 & Y3 & Y4). rewrite X1 in Y1. clear - X2 X3 Y1 Y2 Y3.
            revert r1 Y1 Y3. induction q1 as [|a q IH]; intros [|b r] Y1 Y3; cbn [app] in Y1; [reflexivity| | |].
            * injection Y1 as <- _. specialize (Y3 _ (or_introl eq_refl)). cbn [fst] in Y3. congruence.
            * injection Y1 as -> _. specialize (X3 _ (or_introl eq_refl)). cbn [fst] in X3. congruence.
            * injection Y1 as <- Y1. rewrite !zlen_cons. f_equal. apply IH; [intros z Hz; apply X3; now right|exact Y1|intros z Hz; apply Y3; now right].
          + assert (i = -1) by congruence. pose proof (zlen_nonneg ps1). lia.
        - exfalso. pose proof (lookup_absent K (list V) c _ _ _ _ F) as L. rewrite <- (lookup_cong K (list V) c TO m' k k' E') in L.
          unfold m' in L. rewrite (lookup_put K (list V) c TO), (c_refl K c TO) in L. discriminate. }
      assert (Gb : g_by_index K V g2 i = Ok y).
      { unfold g_by_index. change (gvals g2) with (gvals g3). rewrite I2. cbn [bind]. unfold deref, g2, setcell. cbn [gheap]. now rewrite upd_same. }
      unfold g_step. cbn [g_step_raw]. unfold g_get. change (gkeys g2) with (gkeys g3). rewrite Ik. cbn [bind]. rewrite Gb. cbn [bind]. rewrite Cy. pose proof (zlen_nonneg ps1).
      replace (i =? -1) with false by lia. split; [reflexivity|]. split; [reflexivity|]. split.
      + intros j a Hj. unfold get. assert (Rj : 0 <= j < zlen vs). { unfold znth in Hj. destruct (j <? 0) eqn:J; [discriminate|]. apply nth_error_lt in Hj. unfold zlen. lia. }
        rewrite Cy. replace ((j >=? 0) && (j <? zlen vs + 1)) with true by lia. rewrite By. unfold read, aget, znth. replace (j <? 0) with false by lia.
        rewrite nth_error_app1 by (rewrite map_length; unfold zlen in Rj; lia). unfold znth in Hj. replace (j <? 0) with false in Hj by lia.
        rewrite (map_nth_error Live _ _ Hj). reflexivity.
      + unfold get. rewrite Cy. pose proof (zlen_nonneg vs). replace ((zlen vs >=? 0) && (zlen vs <? zlen vs + 1)) with true by lia. rewrite By. unfold read, aget, znth. replace (zlen vs <? 0) with false by lia.
        rewrite nth_error_app2 by (rewrite map_length; unfold zlen; lia). rewrite map_length. replace (Z.to_nat (zlen vs) - length vs)%nat with 0%nat by (unfold zlen; lia). reflexivity.
  Qed.

  (* ---- a container that nothing refers to ------------------------------------- *)
  Definition adrift (g : group K V) (p : nat) : Prop :=
    exists ps, lst_shows nat (gvals g) ps /\ ~ In p ps /\ nth_error (gheap g) p = Some (Some empty_lst).
  Lemma adrift_write g p q x : adrift g p -> (exists i, get nat (gvals g) i = Ok q) -> adrift (setcell K V g q x) p.
  Proof.
    intros (ps & H & N & E) (i & Q). destruct (get_shows nat _ _ _ _ H Q) as (l1 & l2 & El & _). exists ps. unfold setcell. cbn [gvals gheap]. split; [exact H|]. split; [exact N|].
    rewrite upd_other; [exact E|]. intros ->. apply N. rewrite El. apply in_or_app. right. now left.
  Qed.
  Lemma adrift_grow g p ks vs j z : adrift g p -> insert nat (gvals g) j (length (gheap g)) = Ok vs -> adrift (mkGroup ks vs (gheap g ++ [z])) p.
  Proof.
    intros (ps & H & N & E) I. destruct (insert_shows nat _ _ _ _ _ H I) as (l1 & l2 & -> & S'). exists (l1 ++ length (gheap g) :: l2). cbn [gvals gheap].
    pose proof (nth_error_lt _ _ _ E). split; [exact S'|]. split; [|rewrite nth_error_app1; assumption].
    intro I'. apply N. apply in_app_or in I'. apply in_or_app. destruct I' as [I'|[I'|I']]; [now left|lia|now right].
  Qed.
  Lemma adrift_leak g p ks z : adrift g p -> adrift (mkGroup ks (gvals g) (gheap g ++ [z])) p.
  Proof. intros (ps & H & N & E). exists ps. cbn [gvals gheap]. split; [exact H|]. split; [exact N|]. rewrite nth_error_app1; [exact E|now apply nth_error_lt in E]. Qed.
  Lemma adrift_drop g p ks vs i q g' : adrift g p -> get nat (gvals g) i = Ok q -> remove_at nat (gvals g) i = Ok vs -> delete K V (mkGroup ks vs (gheap g)) q = Ok g' -> adrift g' p.
  Proof.
    intros (ps & H & N & E) E1 E2 E3. destruct (get_shows nat _ _ _ _ H E1) as (l1 & l2 & El & _). destruct (remove_at_shows nat _ _ _ _ H E2) as (r1 & b & r2 & E' & _ & S').
    unfold delete in E3. peel E3. peel E3. injection E3 as <-. exists (r1 ++ r2). unfold setcell. cbn [gvals gheap]. split; [exact S'|]. split.
    - intro I. apply N. rewrite E'. apply in_app_or in I. apply in_or_app. destruct I; [now left|right; now right].
    - rewrite upd_other; [exact E|]. intros ->. apply N. rewrite El. apply in_or_app. right. now left.
  Qed.
  Lemma adrift_delete_all p : forall n g i g', adrift g p -> g_delete_all K V g i n = Ok g' -> adrift g' p.
  Proof.
    induction n as [|n IH]; intros g i g' H D; cbn [g_delete_all] in D; [injection D as <-; exact H|]. peel D. peel D. refine (IH _ _ _ _ D).
    unfold delete in E0. peel E0. peel E0. injection E0 as <-. apply adrift_write; [exact H|eauto].
  Qed.
  Lemma adrift_clear g p g' : adrift g p -> g_clear K V g = Ok g' -> adrift g' p.
  Proof.
    intros H C. unfold g_clear in C. peel C. apply (adrift_delete_all p _ _ _ _ H) in E. peel C. peel C. injection C as <-. apply late_inv in E1. destruct E as (ps & Sp & N & E).
    destruct (clear_ok nat _ _ Sp) as (z & Ez & Sz). exists []. cbn [gvals gheap]. split; [congruence|]. split; [intros []|exact E].
  Qed.
  Lemma adrift_value_throws (f : lst V -> res (lst V)) g p k g' : adrift g p ->
    (do i <- s_index_of K cmp (gkeys g) k;
     do (g, p) <- (if i =? -1 then let p := length (gheap g) in do (ks, j) <- s_add K cmp (gkeys g) k; do vs <- late (insert nat (gvals g) j p);
         Ok (mkGroup ks vs (gheap g ++ [Some empty_lst]), p) else do p <- get nat (gvals g) i; Ok (g, p));
     do x <- late (deref K V g p); do x <- late (f x); Ok (setcell K V g p (Some x))) = Ok g' -> adrift g' p.
  Proof.
    intros H A. peel A. peel A. destruct a0 as [g1 q]. peel A. peel A. injection A as <-.
    destruct (_ =? _).
    - cbv zeta in E0. peel E0. destruct a2 as [ks j]. peel E0. injection E0 as <- <-. apply late_inv in E4. pose proof (adrift_grow g p ks a2 j (Some empty_lst) H E4) as A.
      apply adrift_write; [exact A|]. cbn [gvals]. destruct H as (ps & Sp & _). destruct (insert_shows nat _ _ _ _ _ Sp E4) as (l1 & l2 & _ & S'). exists (zlen l1). exact (get_mid nat _ _ _ _ S').
    - peel E0. injection E0 as <- <-. apply adrift_write; [exact H|eauto].
  Qed.
  Lemma adrift_xstep g p o g' r : adrift g p -> xg_step K V cmp veq g o = Ok (g', r) -> adrift g' p.
  Proof.
    intros G H. unfold xg_step in H. destruct (xg_step_raw K V cmp veq g o) as [[g1 r1]| | |] eqn:X; try discriminate;
      injection H as <- <-; [|exact G]. destruct o; cbn [xg_step_raw] in X.
    - peel X. destruct a as [s q]. injection X as <- <-. unfold g_step in E. destruct (g_step_raw K V cmp veq g o) as [[g2 r2]| | |] eqn:H; try discriminate; injection E as <- <-; [|exact G].
      destruct o; cbn [g_step_raw] in H.
      + peel H. injection H as <- <-. exact (adrift_value_throws (fun x => insert V x (count x) v) _ _ _ _ G E).
      + peel H. destruct a as [s b]. injection H as <- <-. unfold g_remove in E. peel E. destruct (negb _); [|injection E as <- <-; exact G].
        peel E. peel E. peel E. peel E. injection E as <- <-. apply late_inv in E2, E3, E4. exact (adrift_drop _ _ _ _ _ _ _ G E2 E3 E4).
      + peel H. destruct a as [s b]. injection H as <- <-. unfold g_remove_value in E. peel E. destruct (negb _); [|injection E as <- <-; exact G].
        peel E. peel E. peel E. destruct a2 as [x b2]. cbv zeta in E.
        assert (G1 : adrift (setcell K V g a0 (Some x)) p) by (apply adrift_write; [exact G|eauto]).
        destruct (_ =? _); [|injection E as <- <-; exact G1]. peel E. peel E. peel E. injection E as <- <-. apply late_inv in E4, E5, E6.
        exact (adrift_drop _ _ _ _ _ _ _ G1 E1 E5 E6).
      + peel H. injection H as <- <-. exact (adrift_clear _ _ _ G E).
      + peel H. injection H as <- <-. exact G.
      + peel H. injection H as <- <-. exact G.
      + injection H as <- <-. exact G.
      + peel H. injection H as <- <-. exact G.
      + peel H. injection H as <- <-. exact G.
      + peel H. peel H. injection H as <- <-. exact G.
    - unfold g_add_key_throws in X. peel X. destruct (_ =? _).
      + peel X. injection X as <- <-. exact (adrift_leak _ _ _ _ G).
      + peel X. injection X as <- <-. exact (adrift_value_throws (fun x => insert V x (count x) v) _ _ _ _ G E0).
    - peel X. injection X as <- <-. exact (adrift_value_throws (fun x => insert_throws V x (count x)) _ _ _ _ G E).
  Qed.
  Lemma adrift_xrun p os : forall g g' rs, adrift g p -> xg_run K V cmp veq g os = Ok (g', rs) -> adrift g' p.
  Proof.
    induction os as [|o os IH]; intros w w' rs G H; cbn [xg_run] in H; [injection H as <- <-; exact G|].
    peel H. destruct a as [w1 r]. peel H. destruct a as [w2 rs2]. injection H as <- <-. exact (IH _ _ _ (adrift_xstep _ _ _ _ _ G E) E0).
  Qed.
  Lemma adrift_not_held g p : adrift g p -> nth_error (gheap g) p = Some (Some empty_lst) /\ ~ held K V g p.
  Proof.
    intros (ps & (C1 & _ & n1 & B1) & N & E). split; [exact E|]. intros (ps' & (C2 & _ & n2 & B2) & I). apply N. replace ps with ps'; [exact I|].
    rewrite B1 in B2. rewrite C1 in C2. unfold zlen in C2. clear - B2 C2. revert ps' B2 C2.
    induction ps as [|a l IH]; intros [|b l'] B C; cbn [length] in C; try lia; [reflexivity|]. cbn [map app] in B. injection B as <- B. f_equal. apply IH; [exact B|lia].
  Qed.
  Lemma g_key_leak os1 k v os2 g rs : lookup K (list V) c k (fst (mg_run K V c veq [] os1)) = None ->
    xg_run K V cmp veq empty_group (map XGroup os1 ++ XGAddKeyThrows k v :: os2) = Ok (g, rs) ->
    exists p, nth_error (gheap g) p = Some (Some empty_lst) /\ ~ held K V g p.
  Proof.
    intros L H. destruct (g_run_ok K V c TO veq os1 empty_group [] (g_empty K V c)) as (g1 & R1 & S1).
    destruct (key_throws g1 _ k v S1 L) as (g2 & R2 & _ & V2 & H2).
    rewrite xg_app, xg_calm, R1 in H. cbn [bind xg_run] in H. rewrite R2 in H. cbn [bind] in H.
    peel H. destruct a as [d3 r3]. injection H as <- <-. peel E. destruct a as [d4 r4]. injection E as <- <-.
    exists (length (gheap g1)). apply adrift_not_held. refine (adrift_xrun _ _ _ _ _ _ E0).
    destruct S1 as (ps & HK & HP & HC & ND & HL & Ha & HN). exists ps. rewrite V2, H2. split; [exact HP|]. split.
    - intro I. pose proof (cells_lt K V _ _ _ _ HC I). lia.
    - rewrite nth_error_app2 by lia. now rewrite Nat.sub_diag.
  Qed.

  Lemma g_calm os g rs : g_run K V cmp veq empty_group os = Ok (g, rs) ->
    exists g', g_destruct K V g = Ok g' /\ forall p x, nth_error (gheap g') p <> Some (Some x).
  Proof.
    intro H. destruct (g_run_ok K V c TO veq os empty_group [] (g_empty K V c)) as (g1 & R1 & S1). assert (g1 = g) by congruence. subst g1.
    destruct (g_step_ok K V c TO veq g _ GClear S1) as (g' & E & S'). unfold g_step, mg_step in *. cbn [g_step_raw mg_step_raw fst snd] in *.
    destruct (g_clear K V g) as [g2| | |] eqn:Ec; cbn [bind] in E; try discriminate. assert (g2 = g') by congruence. subst g2.
    exists g'. split; [|intros p x; exact (g_no_leak K V c g' p x S')]. unfold g_destruct. rewrite Ec. cbn [bind].
    destruct S' as (ps & HK & HP & _). rewrite (destruct_ok nat _ _ HP). cbn [bind]. rewrite (destruct_ok K _ _ HK). reflexivity.
  Qed.
  Lemma g_key_there os1 k v g : (exists rs, g_run K V cmp veq empty_group os1 = Ok (g, rs)) -> lookup K (list V) c k (fst (mg_run K V c veq [] os1)) <> None ->
    exists g', xg_step K V cmp veq g (XGAddKeyThrows k v) = Ok (g', XGRet (OBool true)) /\ g_step K V cmp veq g (GAdd k v) = Ok (g', OBool true).
  Proof.
    intros (rs & H) L. destruct (g_run_ok K V c TO veq os1 empty_group [] (g_empty K V c)) as (g1 & R1 & S1). assert (g1 = g) by congruence. subst g1.
    exact (key_there g _ k v S1 L).
  Qed.
End Groups.

Section Sorteds.
  Variable A : Type.
  Variable c : A -> A -> comparison.
  Variable TO : total_order c.
  Notation cmp := (fun a b => Some (c a b)).
  Lemma s_gone_step_raw x o y r : gone A x -> s_step_raw A cmp x o = Ok (y, r) -> gone A y.
  Proof.
    intros G H. destruct o; cbn [s_step_raw] in H.
    - peel H. destruct a0 as [z i]. injection H as <- <-. exact (gone_s_add A _ _ _ _ _ G E).
    - peel H. destruct a0 as [z b]. injection H as <- <-. unfold s_remove in E. peel E. destruct (_ && _); [|injection E as <- <-; exact G].
      peel E. injection E as <- <-. exact (gone_remove_at A _ _ _ G E1).
    - peel H. injection H as <- <-. exact (gone_remove_at A _ _ _ G E).
    - peel H. injection H as <- <-. exact (gone_remove_range A _ _ _ _ G E).
    - peel H. destruct (gone_clear A _ _ G E).
    - peel H. injection H as <- <-. exact G.
    - injection H as <- <-. exact G.
    - peel H. injection H as <- <-. exact G.
    - peel H. injection H as <- <-. exact G.
  Qed.
  Lemma s_gone_xstep x o y r : gone A x -> xs_step A cmp x o = Ok (y, r) -> gone A y.
  Proof.
    intros G H. unfold xs_step in H. destruct (xs_step_raw A cmp x o) as [[g1 r1]| | |] eqn:X; try discriminate; injection H as <- <-; [|exact G].
    destruct o; cbn [xs_step_raw] in X; peel X.
    - destruct a as [s q]. injection X as <- <-. unfold s_step in E. destruct (s_step_raw A cmp x o) as [[g2 r2]| | |] eqn:E1; try discriminate;
        injection E as <- <-; [exact (s_gone_step_raw _ _ _ _ G E1)|exact G].
    - injection X as <- <-. exact (gone_s_add_throws A _ _ _ _ G E).
  Qed.
  Lemma s_gone_xrun os : forall x y rs, gone A x -> xs_run A cmp x os = Ok (y, rs) -> gone A y.
  Proof.
    induction os as [|o os IH]; intros w w' rs G H; cbn [xs_run] in H; [injection H as <- <-; exact G|].
    peel H. destruct a as [w1 r]. peel H. destruct a as [w2 rs2]. injection H as <- <-. exact (IH _ _ _ (s_gone_xstep _ _ _ _ G E) E0).
  Qed.
  Lemma xs_calm os : forall x, xs_run A cmp x (map XSorted os) = do (y, rs) <- s_run A cmp x os; Ok (y, map XSRet rs).
  Proof.
    induction os as [|o os IH]; intro d; cbn [map xs_run s_run]; [reflexivity|]. unfold xs_step. cbn [xs_step_raw].
    assert (N : s_step A cmp d o <> Err) by (unfold s_step; destruct (s_step_raw A cmp d o) as [[]| | |]; discriminate).
    destruct (s_step A cmp d o) as [[d1 r]| | |]; cbn [bind]; try reflexivity; [|congruence]. rewrite IH.
    destruct (s_run A cmp d1 os) as [[d2 rs]| | |]; reflexivity.
  Qed.
  Lemma xs_app os1 os2 : forall w, xs_run A cmp w (os1 ++ os2) =
    do (w1, r1) <- xs_run A cmp w os1; do (w2, r2) <- xs_run A cmp w1 os2; Ok (w2, r1 ++ r2).
  Proof.
    induction os1 as [|o os1 IH]; intro w; cbn [xs_run app bind].
    - destruct (xs_run A cmp w os2) as [[w2 r2]| | |]; reflexivity.
    - destruct (xs_step A cmp w o) as [[w1 r]| | |]; cbn [bind]; try reflexivity. rewrite IH.
      destruct (xs_run A cmp w1 os1) as [[w2 r1]| | |]; cbn [bind]; try reflexivity.
      destruct (xs_run A cmp w2 os2) as [[w3 r2]| | |]; reflexivity.
  Qed.
  Lemma s_no_return os1 a os2 : Forall (client_ok A) os1 ->
    (exists x rs, xs_run A cmp empty_lst (map XSorted os1 ++ [XSAddThrows a]) = Ok (x, rs ++ [XSThrown])) /\
    forall x rs, xs_run A cmp empty_lst (map XSorted os1 ++ XSAddThrows a :: os2) = Ok (x, rs) -> torn A x /\ forall u, destruct A x <> Ok u.
  Proof.
    intro F. assert (X : exists x1 r1 l, s_run A cmp empty_lst os1 = Ok (x1, r1) /\ lst_shows A x1 l /\ ascending A c l).
    { destruct (s_run_ok A c TO os1 empty_lst [] (empty_shows A) (SSorted_nil _) F) as (x1 & r1 & l & R & S1 & O). exists x1, r1, l. split; [exact R|]. split; [exact S1|].
      assert (P : forall os l0 l1 rs, ok_run A c l0 os l1 rs -> ascending A c l0 -> ascending A c l1).
      { clear. intros os. induction os as [|o os IH]; intros l0 l1 rs H Hl; inversion H; subst; eauto. }
      eapply P; [exact O|constructor]. }
    destruct X as (x1 & r1 & l & R1 & S1 & Al). destruct (s_add_ok A c TO x1 l a S1 Al) as (y & l1 & l2 & El & Ea & Sy & _).
    destruct (add_throws_gone A _ _ _ _ _ _ Ea Sy) as (z & Hz & Gz).
    assert (R2 : xs_step A cmp x1 (XSAddThrows a) = Ok (z, XSThrown)) by (unfold xs_step; cbn [xs_step_raw]; rewrite Hz; reflexivity).
    split.
    - rewrite xs_app, xs_calm, R1. cbn [bind xs_run]. rewrite R2. cbn [bind]. eauto.
    - intros d rs H. rewrite xs_app, xs_calm, R1 in H. cbn [bind xs_run] in H. rewrite R2 in H. cbn [bind] in H.
      peel H. destruct a0 as [d3 r3]. injection H as <- <-. peel E. destruct a0 as [d4 r4]. injection E as <- <-.
      pose proof (s_gone_xrun _ _ _ _ Gz E0) as G. split; [apply G|]. intros u Hu. exact (gone_destruct A _ _ G Hu).
  Qed.
End Sorteds.

Definition xg_demo : list (gop Z Z) := [GAdd 2 20; GAdd 1 10; GAdd 2 21; GAdd 3 30; GRemove 3].
Lemma xg_ex : total_order Z.compare /\
  lookup Z (list Z) Z.compare 5 (fst (mg_run Z Z Z.compare Z.eqb [] xg_demo)) = None /\
  lookup Z (list Z) Z.compare 2 (fst (mg_run Z Z Z.compare Z.eqb [] xg_demo)) = Some [20; 21] /\
  exists g rs, xg_run Z Z (fun a b => Some (Z.compare a b)) Z.eqb empty_group
      (map XGroup xg_demo ++ XGAddValueThrows 2 22 :: [XGroup (GValueCount 2); XGroup (GValueAt 2 1); XGroup (GValueAt 1 0); XGroup (GAdd 7 70)]) = Ok (g, rs) /\
    skipn 5 rs = [XGThrown; XGRet (OInt 3); XGRet (OVal 21); XGRet (OVal 10); XGRet (OBool true)].
Proof. split; [exact Z_total|]. split; [reflexivity|]. split; [reflexivity|]. do 2 eexists. split; [vm_compute; reflexivity|reflexivity]. Qed.
Lemma xs_ex : total_order Z.compare /\ Forall (client_ok Z) [SAdd 5; SAdd 3; SRemove 5; SRemoveRange 0 0] /\
  exists x rs, xs_run Z (fun a b => Some (Z.compare a b)) empty_lst
      (map XSorted [SAdd 5; SAdd 3; SRemove 5; SRemoveRange 0 0] ++ XSAddThrows 4 :: [XSorted SCount; XSorted (SGet 0)]) = Ok (x, rs) /\
    skipn 4 rs = [XSThrown; XSRet (RInt 2); XSRet (RVal 3)].
Proof. split; [exact Z_total|]. split; [repeat constructor; lia|]. do 2 eexists. split; [vm_compute; reflexivity|reflexivity]. Qed.
