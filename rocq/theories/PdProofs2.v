(* Proofs for C87: the operations on dictionaries. *)
From Coq Require Import ZifyBool ZifyNat.
From Verif Require Import Base BaseFacts.
From Verif Require LstModel LstSpec LstProofs SrtModel SrtSpec SrtProofs DctModel DctSpec DctProofs.
From Verif Require Import RcModel RcSpec LpModel LpSpec LpProofs6 LpProofs9 LpProofs10 PdModel PdSpec PdProofs.
Open Scope nat_scope.

Section Pd.
  Variable K : Type.
  Variable c : K -> K -> comparison.
  Variable TO : SrtSpec.total_order c.
  Notation cmp := (fun a b => Some (c a b)).
  Notation fmap := (DctSpec.fmap K (option nat)).
  Notation asck := (DctSpec.ascending_keys K (option nat) c).
  Notation lookup := (DctSpec.lookup K (option nat) c).
  Notation put := (DctSpec.put K (option nat) c).
  Notation del := (DctSpec.del K (option nat) c).
  Notation shows := (LstSpec.lst_shows K).
  Notation found := (DctProofs.found K (option nat) c).
  Notation absent := (DctProofs.absent K (option nat) c).
  Notation pstep := (pstep K cmp).
  Notation dspec := (dspec K c).
  Notation dlegal := (dlegal K c).
  Notation pgood := (pgood K c).
  Notation presult := (presult K c).
  Notation as_list := (as_list K).

  Lemma nth_upd {A} (l : list A) n x m : n < length l -> nth_error (upd l n x) m = if m =? n then Some x else nth_error l m.
  Proof. intros H. destruct (Nat.eqb_spec m n) as [->|N]; [now apply upd_same|apply upd_other; congruence]. Qed.
  Lemma put_keys s t l x (f : fmap) : l < length (ks s) -> shows x (map fst f) ->
    keys_put K (dworld_of s) l f (dworld_of (mkP t (upd (ks s) l x))).
  Proof.
    intros L S m. cbn [dworld_of keyed ks]. rewrite (nth_upd _ _ _ _ L). destruct (m =? l); [|reflexivity]. now apply shown_shows.
  Qed.
  Lemma pgood_put s t l x (f : fmap) w1 : pgood s -> lgood t -> l < length (ks s) -> shows x (map fst f) -> asck f ->
    (forall m, al w1 m = if m =? l then Some (map snd f) else al (lworld_of (lp s)) m) -> aln w1 = aln (lworld_of (lp s)) ->
    asame (lworld_of t) w1 \/ (exists w0, acollect w0 w1 (lworld_of t)) -> pgood (mkP t (upd (ks s) l x)).
  Proof.
    intros G Gt L Sh As A N H. apply (pgood_made K c s); auto.
    - destruct G as (_ & Le & _). rewrite upd_length, Le. change (length (ls (lp s))) with (aln (lworld_of (lp s))). rewrite <- N.
      destruct H as [H|[w0 H]]; [exact (eq_sym (asame_aln _ _ H))|exact (eq_sym (acollect_aln _ _ _ H))].
    - intros m v E. assert (al w1 m = Some v) as E1.
      { destruct H as [H|[w0 H]]; [now rewrite <- (asame_al _ _ m H)|eapply acollect_al; eauto]. }
      rewrite A in E1. rewrite (nth_upd _ _ _ _ L). destruct (Nat.eqb_spec m l) as [->|D].
      + right. injection E1 as <-. exists x, f. split; [|auto]. now apply upd_same.
      + left. auto.
  Qed.
  Lemma set_l_al w l v m : al (set_l w l v) m = if m =? l then v else al w m. Proof. reflexivity. Qed.
  Lemma emptied_al w a mv m : al (emptied K w a mv) m = al w m. Proof. destruct a, mv; reflexivity. Qed.
  Lemma emptied_aln w a mv : aln (emptied K w a mv) = aln w. Proof. destruct a, mv; reflexivity. Qed.
  Lemma refs_put_al w a mv l f m : al (refs_put K (emptied K w a mv) l f) m = if m =? l then Some (map snd f) else al w m.
  Proof. unfold refs_put. rewrite set_l_al. destruct (m =? l); auto. apply emptied_al. Qed.
  Lemma refs_put_aln w a mv l f : aln (refs_put K (emptied K w a mv) l f) = aln w.
  Proof. apply emptied_aln. Qed.

  (* ---- new dictionaries ----------------------------------------------------------------- *)
  Lemma nth_more (kk : list (LstModel.lst K)) m l :
    nth_error (kk ++ repeat LstModel.empty_lst m) l =
    if (length kk <=? l) && (l <? length kk + m) then Some LstModel.empty_lst else nth_error kk l.
  Proof.
    destruct (Nat.leb_spec (length kk) l) as [H|H].
    - rewrite nth_error_app2 by lia. cbn [andb]. destruct (Nat.ltb_spec l (length kk + m)) as [H1|H1].
      + apply nth_error_repeat. lia.
      + rewrite (proj2 (nth_error_None _ _)) by (rewrite repeat_length; lia). symmetry. apply nth_error_None. lia.
    - now rewrite nth_error_app1 by lia.
  Qed.
  Lemma pgood_more s t m : pgood s -> lgood t ->
    (forall l, al (lworld_of t) l = if (aln (lworld_of (lp s)) <=? l) && (l <? aln (lworld_of (lp s)) + m) then Some [] else al (lworld_of (lp s)) l) ->
    aln (lworld_of t) = aln (lworld_of (lp s)) + m ->
    pgood (mkP t (ks s ++ repeat LstModel.empty_lst m)) /\
    forall l, keyed (dworld_of (mkP t (ks s ++ repeat LstModel.empty_lst m))) l =
      if (aln (lworld_of (lp s)) <=? l) && (l <? aln (lworld_of (lp s)) + m) then [] else keyed (dworld_of s) l.
  Proof.
    intros G Gt A N. pose proof (proj1 (proj2 G)) as L. change (length (ls (lp s))) with (aln (lworld_of (lp s))) in L. split.
    - apply (pgood_made K c s); auto.
      + rewrite app_length, repeat_length, L. symmetry. exact N.
      + intros l v E. rewrite A in E. rewrite nth_more, L. destruct ((aln (lworld_of (lp s)) <=? l) && (l <? aln (lworld_of (lp s)) + m)) eqn:B.
        * right. injection E as <-. exists LstModel.empty_lst, []. rewrite nth_more, L, B. split; [reflexivity|].
          split; [apply LstProofs.empty_shows|]. split; [constructor|reflexivity].
        * left. auto.
    - intros l. cbn [dworld_of keyed ks]. rewrite nth_more, L. now destruct ((aln (lworld_of (lp s)) <=? l) && (l <? aln (lworld_of (lp s)) + m)).
  Qed.
  Lemma vmake_ok s v k m : pgood s -> dlegal (dworld_of s) (VMake v k m) -> presult s (VMake v k m).
  Proof.
    intros G L. destruct (lstep_ok (lp s) (MMake v k m) (proj1 G) L) as (t & E & Sp & Gt).
    assert (Sp' := Sp). inversion Sp'; subst.
    match goal with Ha : (forall l, al _ l = _), Hn : aln _ = _ |- _ => destruct (pgood_more s t m G Gt Ha Hn) as [G' Ke] end.
    exists (mkP t (ks s ++ repeat LstModel.empty_lst m)), Done.
    split; [apply step_raw; cbn [pstep_raw]; now rewrite E|].
    split; [apply ds_make; [exact Sp|exact Ke]|]. split; [exact G'|right; exists (MMake v k m); exact (conj L E)].
  Qed.
  Lemma dnew_ok s : pgood s -> dlegal (dworld_of s) DNew -> presult s DNew.
  Proof.
    intros G L. destruct (lstep_ok (lp s) LNew (proj1 G) L) as (t & E & Sp & Gt). assert (Sp' := Sp). inversion Sp'; subst.
    assert (forall l, (aln (lworld_of (lp s)) <=? l) && (l <? aln (lworld_of (lp s)) + 1) = (l =? aln (lworld_of (lp s)))) as B by (intros l; lia).
    match goal with Ha : asame _ _ |- _ => rename Ha into Sa end.
    destruct (pgood_more s t 1 G Gt) as [G' Ke].
    { intros l. rewrite B. exact (asame_al _ _ l Sa). }
    { rewrite (asame_aln _ _ Sa). cbn [aln]. lia. }
    exists (mkP t (ks s ++ [LstModel.empty_lst])), Done.
    split; [apply step_raw; cbn [pstep_raw]; now rewrite E|].
    split; [apply ds_dnew; [exact Sp|intros l; rewrite <- B; exact (Ke l)]|]. split; [exact G'|right; exists LNew; exact (conj L E)].
  Qed.
  Lemma dend_ok s l : pgood s -> dlegal (dworld_of s) (DEnd l) -> presult s (DEnd l).
  Proof.
    intros G (D & Ho). destruct (dict_some _ _ _ D) as (f & Df). destruct (dict_facts _ _ _ _ _ G Df) as (A & Lt & _).
    assert (llegal (lworld_of (lp s)) (LEnd l)) as LL by (split; [congruence|exact Ho]).
    destruct (lstep_ok (lp s) _ (proj1 G) LL) as (t & E & Sp & Gt). inversion Sp; subst.
    match goal with Ha : acollect _ _ _ |- _ => rename Ha into Ac end.
    exists (mkP t (upd (ks s) l LstModel.empty_lst)), Done.
    split; [apply step_raw; cbn [pstep_raw]; now rewrite E|].
    split; [apply ds_dend; [exact Ac|apply put_keys; [exact Lt|apply LstProofs.empty_shows]]|].
    split; [|right; eexists; exact (conj LL E)].
    apply (pgood_made K c s); auto.
    - rewrite upd_length. rewrite (proj1 (proj2 G)). exact (eq_sym (acollect_aln _ _ _ Ac)).
    - intros m v Em. apply (acollect_al _ _ _ _ _ Ac) in Em. rewrite set_l_al in Em. destruct (Nat.eqb_spec m l) as [->|Nm]; [discriminate|].
      left. split; [|exact Em]. apply upd_other. congruence.
  Qed.

  (* ---- storing a value -------------------------------------------------------------------- *)
  Lemma own_item s l k a f u x : dict (dworld_of s) l = Some f -> lookup k f = None -> gives K c (dworld_of s) a = Some x ->
    not_own K c (dworld_of s) l k a ->
    (item_of l (of_arg u) <-> match a with FromVar _ => False | FromDict m _ => m = l end) -> ~ item_of l (of_arg u).
  Proof.
    intros D N Gi Ow I H. apply I in H. destruct a as [v|m k']; [exact H|]. subst m. cbn [not_own] in Ow. destruct (Ow eq_refl) as (g & Dg & [Q|Q]).
    - congruence.
    - cbn [gives] in Gi. rewrite Dg in Gi. congruence.
  Qed.
  Lemma insert_ok s l k a mv f u mv' x f1 f2 : pgood s -> dict (dworld_of s) l = Some f -> absent f k f1 f2 ->
    at_ (lworld_of (lp s)) (of_arg u) = Some x -> take (lworld_of (lp s)) u mv' = emptied K (lworld_of (lp s)) a mv ->
    ~ item_of l (of_arg u) ->
    aheld (lworld_of (lp s)) (fun p => item_of l p \/ (mv' = true /\ p = of_arg u)) (alh (lworld_of (lp s)) l) ->
    aheld (lworld_of (lp s)) (fun p => item_of l p \/ (mv' = true /\ p = of_arg u)) (phome (lworld_of (lp s)) (of_arg u)) ->
    exists s', add_new K cmp s l k u mv' = Ok s' /\
      asame (refs (dworld_of s')) (refs_put K (emptied K (refs (dworld_of s)) a mv) l (put k x f)) /\
      keys_put K (dworld_of s) l (put k x f) (dworld_of s') /\ pgood s' /\ as_list s s'.
  Proof.
    intros G D Ab At Ta Ow H1 H2. destruct (dict_facts _ _ _ _ _ G D) as (A & Lt & As & y & Ky & Sy).
    destruct (DctProofs.add_absent K (option nat) c TO y f k f1 f2 Sy As Ab) as (z & n1 & n2 & Hn & Ea & Sz).
    rewrite (DctProofs.put_absent K (option nat) c _ _ _ _ x Hn).
    pose proof (DctProofs.asck_insert K (option nat) c TO _ _ _ _ x As Hn) as As'.
    assert (Ef : f = n1 ++ n2) by apply Hn.
    assert (llegal (lworld_of (lp s)) (LInsert l (length n1) u mv')) as LL.
    { cbn [llegal]. split; [exists (map snd f); split; [exact A|rewrite map_length, Ef, app_length; lia]|].
      split; [congruence|]. split; [exact Ow|]. split; [exact H1|exact H2]. }
    destruct (lstep_ok (lp s) _ (proj1 G) LL) as (t & E & Sp & Gt). inversion Sp; subst.
    match goal with Ha : asame _ _ |- _ => rename Ha into Sa end.
    assert (x0 = x) by congruence. subst x0. assert (c0 = map snd (n1 ++ n2)) by congruence. subst c0.
    rewrite map_app in Sa.
    rewrite <- (map_length (snd (A := K)) n1) in Sa at 1. rewrite firstn_app, Nat.sub_diag, firstn_O, app_nil_r, firstn_all in Sa.
    rewrite <- (map_length (snd (A := K)) n1) in Sa at 1. rewrite skipn_app, Nat.sub_diag, skipn_all in Sa. cbn [skipn app] in Sa.
    change (map snd n1 ++ x :: map snd n2) with (map snd n1 ++ map snd ((k, x) :: n2)) in Sa. rewrite <- map_app in Sa. rewrite Ta in Sa.
    exists (mkP t (upd (ks s) l z)). split.
    { unfold add_new. rewrite Ky. cbn [bind]. rewrite Ea. cbn [bind]. unfold zlen. rewrite Nat2Z.id.
      rewrite (DctProofs.late_ok t _ E). reflexivity. }
    split; [exact Sa|].
    assert (shows z (map fst (n1 ++ (k, x) :: n2))) as Sz' by (rewrite map_app; exact Sz).
    split; [apply put_keys; [exact Lt|exact Sz']|]. split; [|right; eexists; exact (conj LL E)].
    apply (pgood_put s t l z (n1 ++ (k, x) :: n2) _ G Gt Lt Sz' As' (refs_put_al _ a mv l _) (refs_put_aln _ a mv l _)). left. exact Sa.
  Qed.
  Lemma upd_mid {A} (l1 : list A) b l2 x : upd (l1 ++ b :: l2) (length l1) x = l1 ++ x :: l2.
  Proof. apply upd_app2. Qed.

  Lemma dadd_ok s l k a mv : pgood s -> dlegal (dworld_of s) (DAdd l k a mv) -> presult s (DAdd l k a mv).
  Proof.
    intros G (D & T & Ow & H1 & H2). destruct (dict_some _ _ _ D) as (f & Df).
    destruct (resolve_ok K c TO s a mv G T) as [u mv' x R At Gi Ta Ho It Ch|R N].
    - destruct (position_ok K c TO s l f k G Df) as [(f1 & k0 & v0 & f2 & F & P)|(f1 & f2 & F & P)].
      + exists s, Raised. split.
        { unfold PdModel.pstep. cbn [pstep_raw]. rewrite R. cbn [bind]. rewrite P. cbn [bind]. pose proof (zlen_nonneg f1).
          now replace (zlen f1 =? -1)%Z with false by lia. }
        split; [|split; [exact G|now left]].
        exact (ds_add_again K c _ l k a mv f v0 x Df (DctProofs.lookup_found K _ c _ _ _ _ _ _ F) Gi).
      + pose proof (DctProofs.lookup_absent K _ c _ _ _ _ F) as Lo.
        destruct (insert_ok s l k a mv f u mv' x f1 f2 G Df F At Ta) as (s' & E & Sa & Ke & G' & As).
        { exact (own_item s l k a f u x Df Lo Gi Ow (It l)). }
        { eapply aheld_mono; [exact (Ch l)|exact H1]. }
        { eapply aheld_mono; [exact (Ch l)|rewrite Ho; exact H2]. }
        exists s', (Said true). split.
        { apply step_raw. cbn [pstep_raw]. rewrite R. cbn [bind]. rewrite P. cbn [bind Z.eqb Pos.eqb negb]. rewrite E. reflexivity. }
        split; [|split; [exact G'|exact As]]. exact (ds_add K c _ l k a mv f x _ Df Lo Gi Sa Ke).
    - apply (raised K c s _ a G); auto. cbn [pstep_raw]. now rewrite R.
  Qed.
  Lemma dset_ok s l k a mv : pgood s -> dlegal (dworld_of s) (DSet l k a mv) -> presult s (DSet l k a mv).
  Proof.
    intros G (D & T & Ow & H1 & H2). destruct (dict_some _ _ _ D) as (f & Df). destruct (dict_facts _ _ _ _ _ G Df) as (A & Lt & As & y & Ky & Sy).
    destruct (resolve_ok K c TO s a mv G T) as [u mv' x R At Gi Ta Ho It Ch|R N].
    - destruct (position_ok K c TO s l f k G Df) as [(f1 & k0 & v0 & f2 & F & P)|(f1 & f2 & F & P)].
      + assert (Ef : f = f1 ++ (k0, v0) :: f2) by apply F.
        assert (llegal (lworld_of (lp s)) (LSet l (length f1) u mv')) as LL.
        { cbn [llegal]. split; [exists (map snd f); split; [exact A|rewrite map_length, Ef, app_length; cbn [length]; lia]|].
          split; [congruence|].
          assert (forall p, p = PItem l (length f1) \/ (mv' = true /\ p = of_arg u) -> touched K l a mv p) as Sub.
          { intros p [->|Q]; apply Ch; [now left|now right]. }
          split; [eapply aheld_mono; [exact Sub|exact H1]|eapply aheld_mono; [exact Sub|rewrite Ho; exact H2]]. }
        destruct (lstep_ok (lp s) _ (proj1 G) LL) as (t & E & Sp & Gt). inversion Sp; subst.
        match goal with Ha : acollect _ _ _ |- _ => rename Ha into Ac end.
        assert (x0 = x) by congruence. subst x0. rewrite Ta in Ac. cbn [set_p] in Ac. rewrite emptied_al, A in Ac.
        rewrite map_app in Ac. cbn [map snd] in Ac. rewrite <- (map_length (snd (A := K)) f1) in Ac. rewrite upd_mid in Ac.
        pose proof (DctProofs.put_found K (option nat) c _ _ _ _ _ _ x F) as Pf.
        change (map snd f1 ++ x :: map snd f2) with (map snd f1 ++ map snd ((k0, x) :: f2)) in Ac. rewrite <- map_app, <- Pf in Ac.
        assert (Ks : map fst (put k x (f1 ++ (k0, v0) :: f2)) = map fst (f1 ++ (k0, v0) :: f2)) by (rewrite Pf, !map_app; reflexivity).
        exists (mkP t (ks s)), (Said true). split.
        { apply step_raw. cbn [pstep_raw]. rewrite R. cbn [bind]. rewrite P. cbn [bind]. pose proof (zlen_nonneg f1).
          replace (zlen f1 =? -1)%Z with false by lia. unfold values, zlen. rewrite Nat2Z.id, E. reflexivity. }
        split; [|split; [|right; eexists; exact (conj LL E)]].
        * apply (ds_set_again K c (dworld_of s) l k a mv _ v0 x (dworld_of (mkP t (ks s))) Df (DctProofs.lookup_found K _ c _ _ _ _ _ _ F) Gi Ac).
          intros m. rewrite Ks. destruct (Nat.eqb_spec m l) as [->|]; [|reflexivity].
          unfold dworld_of at 1. cbn [keyed ks]. unfold keys_of in Ky. destruct (lget (rc (lp s)) (ls (lp s)) l); try discriminate.
          cbn [bind] in Ky. destruct (nth_error (ks s) l) as [y'|]; [|discriminate]. injection Ky as ->. now apply shown_shows.
        * apply (pgood_made K c s); auto.
          { rewrite (proj1 (proj2 G)). etransitivity; [|exact (eq_sym (acollect_aln _ _ _ Ac))]. exact (eq_sym (refs_put_aln (lworld_of (lp s)) a mv l (put k x (f1 ++ (k0, v0) :: f2)))). }
          { intros m v Em. apply (acollect_al _ _ _ _ _ Ac) in Em.
            change (al (refs_put K (emptied K (lworld_of (lp s)) a mv) l (put k x (f1 ++ (k0, v0) :: f2))) m = Some v) in Em.
            rewrite refs_put_al in Em. destruct (Nat.eqb_spec m l) as [->|]; [|now left]. right. injection Em as <-.
            exists y, (put k x (f1 ++ (k0, v0) :: f2)). unfold keys_of in Ky. destruct (lget (rc (lp s)) (ls (lp s)) l); try discriminate.
            cbn [bind] in Ky. destruct (nth_error (ks s) l) as [y'|]; [|discriminate]. injection Ky as ->. split; [reflexivity|].
            rewrite Ks. split; [exact Sy|]. split; [|reflexivity]. now apply DctProofs.put_asc. }
      + pose proof (DctProofs.lookup_absent K _ c _ _ _ _ F) as Lo.
        destruct (insert_ok s l k a mv f u mv' x f1 f2 G Df F At Ta) as (s' & E & Sa & Ke & G' & Al).
        { exact (own_item s l k a f u x Df Lo Gi Ow (It l)). }
        { eapply aheld_mono; [exact (Ch l)|exact H1]. }
        { eapply aheld_mono; [exact (Ch l)|rewrite Ho; exact H2]. }
        exists s', (Said true). split.
        { apply step_raw. cbn [pstep_raw]. rewrite R. cbn [bind]. rewrite P. cbn [bind Z.eqb Pos.eqb]. rewrite E. reflexivity. }
        split; [|split; [exact G'|exact Al]]. exact (ds_set K c _ l k a mv f x _ Df Lo Gi Sa Ke).
    - apply (raised K c s _ a G); auto. cbn [pstep_raw]. now rewrite R.
  Qed.
  Lemma dremove_ok s l k : pgood s -> dlegal (dworld_of s) (DRemove l k) -> presult s (DRemove l k).
  Proof.
    intros G (D & H1). destruct (dict_some _ _ _ D) as (f & Df). destruct (dict_facts _ _ _ _ _ G Df) as (A & Lt & As & y & Ky & Sy).
    destruct (position_ok K c TO s l f k G Df) as [(f1 & k0 & v0 & f2 & F & P)|(f1 & f2 & F & P)].
    - assert (Ef : f = f1 ++ (k0, v0) :: f2) by apply F.
      assert (llegal (lworld_of (lp s)) (LRemove l (length f1) 1)) as LL.
      { cbn [llegal]. split; [exists (map snd f); split; [exact A|rewrite map_length, Ef, app_length; cbn [length]; lia]|exact H1]. }
      destruct (lstep_ok (lp s) _ (proj1 G) LL) as (t & E & Sp & Gt). inversion Sp; subst.
      match goal with Ha : acollect _ _ _ |- _ => rename Ha into Ac end.
      assert (c0 = map snd (f1 ++ (k0, v0) :: f2)) by congruence. subst c0.
      pose proof (DctProofs.del_found K (option nat) c _ _ _ _ _ _ F) as Pf.
      assert (Ev : firstn (length f1) (map snd (f1 ++ (k0, v0) :: f2)) ++ skipn (length f1 + 1) (map snd (f1 ++ (k0, v0) :: f2)) = map snd (f1 ++ f2)).
      { rewrite !map_app. cbn [map snd]. f_equal.
        - rewrite <- (map_length (snd (A := K)) f1), firstn_app, Nat.sub_diag, firstn_O, app_nil_r. apply firstn_all.
        - rewrite <- (map_length (snd (A := K)) f1), skipn_app, skipn_all2 by lia.
          replace (length (map snd f1) + 1 - length (map snd f1)) with 1 by lia. reflexivity. }
      rewrite Ev, <- Pf in Ac.
      rewrite map_app in Sy. cbn [map fst] in Sy. destruct (DctProofs.remove_mid K _ _ _ _ Sy) as (z & Ez & Sz). rewrite zlen_map, <- map_app in *.
      rewrite <- Pf in Sz.
      exists (mkP t (upd (ks s) l z)), (Said true). split.
      { apply step_raw. cbn [pstep_raw]. rewrite P. cbn [bind]. pose proof (zlen_nonneg f1).
        replace (zlen f1 =? -1)%Z with false by lia. cbn [negb]. rewrite Ky. cbn [bind]. rewrite Ez. cbn [bind].
        unfold zlen. rewrite Nat2Z.id, (DctProofs.late_ok t _ E). reflexivity. }
      split; [|split; [|right; eexists; exact (conj LL E)]].
      + apply (ds_remove K c (dworld_of s) l k _ v0 (dworld_of (mkP t (upd (ks s) l z))) Df (DctProofs.lookup_found K _ c _ _ _ _ _ _ F) Ac). now apply put_keys.
      + apply (pgood_put s t l z (del k (f1 ++ (k0, v0) :: f2)) _ G Gt Lt Sz (DctProofs.del_asc K _ c TO _ _ As)
          (refs_put_al _ (FromVar 0) false l _) (refs_put_aln _ (FromVar 0) false l _)). right. eexists. exact Ac.
    - exists s, (Said false). split.
      { apply step_raw. cbn [pstep_raw]. rewrite P. reflexivity. }
      split; [|split; [exact G|now left]]. exact (ds_remove_none K c _ l k f Df (DctProofs.lookup_absent K _ c _ _ _ _ F)).
  Qed.
  Lemma dclear_ok s l : pgood s -> dlegal (dworld_of s) (DClear l) -> presult s (DClear l).
  Proof.
    intros G (D & H1). destruct (dict_some _ _ _ D) as (f & Df). destruct (dict_facts _ _ _ _ _ G Df) as (A & Lt & As & y & Ky & Sy).
    assert (llegal (lworld_of (lp s)) (LClear l)) as LL by (split; [congruence|exact H1]).
    destruct (lstep_ok (lp s) _ (proj1 G) LL) as (t & E & Sp & Gt). inversion Sp; subst.
    match goal with Ha : acollect _ _ _ |- _ => rename Ha into Ac end.
    destruct (LstProofs.clear_ok K y _ Sy) as (z & Ez & Sz).
    exists (mkP t (upd (ks s) l z)), (Said true). split.
    { apply step_raw. cbn [pstep_raw]. rewrite Ky. cbn [bind]. rewrite Ez. cbn [bind]. rewrite (DctProofs.late_ok t _ E). reflexivity. }
    split; [|split; [|right; eexists; exact (conj LL E)]].
    - apply ds_clear; [exact Ac|]. now apply put_keys.
    - apply (pgood_put s t l z [] _ G Gt Lt Sz (Sorted.SSorted_nil _) (refs_put_al _ (FromVar 0) false l _) (refs_put_aln _ (FromVar 0) false l _)).
      right. eexists. exact Ac.
  Qed.
  Lemma dmove_ok s l m : pgood s -> dlegal (dworld_of s) (DMove l m) -> presult s (DMove l m).
  Proof.
    intros G (D & Dm & H1 & H2). destruct (dict_some _ _ _ D) as (f & Df). destruct (dict_facts _ _ _ _ _ G Df) as (A & Lt & _ & x & Kx & _).
    destruct (dict_some _ _ _ Dm) as (g & Dg). destruct (dict_facts _ _ _ _ _ G Dg) as (Ag & Ltg & As & y & Ky & Sy).
    assert (llegal (lworld_of (lp s)) (LMove l m)) as LL by (split; [congruence|]; split; [congruence|auto]).
    destruct (lstep_ok (lp s) _ (proj1 G) LL) as (t & E & Sp & Gt). inversion Sp; subst.
    match goal with Ha : acollect _ _ _ |- _ => rename Ha into Ac end.
    assert (c0 = map snd g) by congruence. subst c0.
    assert (N : forall n, nth_error (upd (upd (ks s) l y) m LstModel.empty_lst) n =
      if n =? m then Some LstModel.empty_lst else if n =? l then Some y else nth_error (ks s) n).
    { intros n. rewrite nth_upd by (rewrite upd_length; exact Ltg). destruct (n =? m); auto. now rewrite nth_upd. }
    exists (mkP t (upd (upd (ks s) l y) m LstModel.empty_lst)), Done. split.
    { apply step_raw. cbn [pstep_raw]. rewrite Kx. cbn [bind]. rewrite Ky. cbn [bind]. rewrite E. reflexivity. }
    split; [|split; [|right; eexists; exact (conj LL E)]].
    - apply (ds_move K c (dworld_of s) l m g (dworld_of (mkP t (upd (upd (ks s) l y) m LstModel.empty_lst))) Dg Ac). intros n. cbn [dworld_of keyed ks]. rewrite N.
      destruct (n =? m); [reflexivity|]. destruct (n =? l); [now apply shown_shows|reflexivity].
    - apply (pgood_made K c s); auto.
      + rewrite !upd_length, (proj1 (proj2 G)). exact (eq_sym (acollect_aln _ _ _ Ac)).
      + intros n v En. apply (acollect_al _ _ _ _ _ Ac) in En. rewrite !set_l_al in En. unfold keeps. rewrite N.
        destruct (n =? m).
        * right. injection En as <-. exists LstModel.empty_lst, []. split; [reflexivity|]. split; [apply LstProofs.empty_shows|].
          split; [constructor|reflexivity].
        * destruct (n =? l); [|now left]. right. injection En as <-. exists y, g. auto.
  Qed.
  Lemma dhas_ok s l k : pgood s -> dlegal (dworld_of s) (DHas l k) -> presult s (DHas l k).
  Proof.
    intros G D. destruct (dict_some _ _ _ D) as (f & Df).
    exists s, (Said match lookup k f with Some _ => true | None => false end). split; [|split; [exact (ds_has K c _ l k f Df)|split; [exact G|now left]]].
    apply step_raw. cbn [pstep_raw]. destruct (position_ok K c TO s l f k G Df) as [(f1 & k0 & v0 & f2 & F & P)|(f1 & f2 & F & P)]; rewrite P; cbn [bind].
    - pose proof (zlen_nonneg f1). replace (zlen f1 =? -1)%Z with false by lia. now rewrite (DctProofs.lookup_found K _ c _ _ _ _ _ _ F).
    - now rewrite (DctProofs.lookup_absent K _ c _ _ _ _ F).
  Qed.
  Lemma pstep_ok s o : pgood s -> dlegal (dworld_of s) o -> presult s o.
  Proof.
    destruct o.
    - apply vnew_ok. - apply vmake_ok. - apply vcopy_ok, TO. - apply vassign_ok, TO. - apply vnull_ok. - apply vend_ok.
    - apply dnew_ok. - apply dend_ok. - apply dadd_ok. - apply dset_ok. - apply dremove_ok. - apply dclear_ok. - apply dmove_ok. - apply dhas_ok.
  Qed.
End Pd.
