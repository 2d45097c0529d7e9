From Coq Require Import ZifyBool ZifyNat Permutation.
From Verif Require Import Base BaseFacts StrModel StrSpec StrProofs SlModel SlSpec SlProofs SlProofs2 SlProofs3.
From Verif Require LstModel LstSpec LstProofs.
Open Scope Z_scope.

Notation shows := (LstSpec.shows (list Z)).
Notation lst_shows := (LstSpec.lst_shows (list Z)).

(* ---- the relation between a world and plain values ------------------------------------- *)
Definition WRel (w : world) (t : plain) : Prop :=
  exists vs ys, Rel (strs w) vs /\ Geo (nv w) (lists w) vs (pvars t) ys /\ shows ys (plists t) /\ Live (live (mem w)) (lists w).

Definition wsim (r : res (world * tout)) (q : res (plain * pout)) : Prop :=
  match q with
  | Ok (t', y) => exists w' x, r = Ok (w', x) /\ WRel w' t' /\ tout_ok x y
  | Err => r = Err
  | UB => True
  | NoFuel => False
  end.

Section Step.
  Variables (w : world) (t : plain) (vs : values) (ys : list (option lst)).
  Hypothesis R : Rel (strs w) vs.
  Hypothesis G : Geo (nv w) (lists w) vs (pvars t) ys.
  Hypothesis Sh : shows ys (plists t).
  Hypothesis Lv : Live (live (mem w)) (lists w).

  Lemma get_list l : match pread t l with
    | Ok xs => exists x y, lvar w l = Ok x /\ nth_error (lists w) l = Some (Some x) /\ nth_error ys l = Some (Some y) /\
                 lrep vs x y /\ lst_shows y xs /\ nth_error (plists t) l = Some (Some xs)
    | UB => True
    | _ => False
    end.
  Proof.
    unfold pread. destruct (nth_error (plists t) l) as [[xs|]|] eqn:E; auto.
    pose proof (LstProofs.Forall2_nth _ _ _ l Sh) as K. rewrite E in K.
    destruct (nth_error ys l) as [[y|]|] eqn:Ey; try contradiction.
    destruct (nth_error (lists w) l) as [o|] eqn:Ex.
    2:{ apply nth_error_None in Ex. apply nth_error_lt in Ey. pose proof (g_len _ _ _ _ _ G). lia. }
    pose proof (g_rep _ _ _ _ _ G _ _ _ Ex Ey) as LR. destruct o as [x|]; [|contradiction].
    exists x, y. unfold lvar. rewrite Ex. repeat (split; [reflexivity|]). split; [exact LR|]. split; [exact K|reflexivity].
  Qed.
  Lemma get_free l : match pfree t l with
    | Ok _ => lfree w l = Ok tt /\ nth_error (lists w) l = Some None /\ nth_error ys l = Some None
    | UB => True
    | _ => False
    end.
  Proof.
    unfold pfree. destruct (nth_error (plists t) l) as [[xs|]|] eqn:E; auto.
    pose proof (LstProofs.Forall2_nth _ _ _ l Sh) as K. rewrite E in K.
    destruct (nth_error ys l) as [[y|]|] eqn:Ey; try contradiction.
    destruct (nth_error (lists w) l) as [o|] eqn:Ex.
    2:{ apply nth_error_None in Ex. apply nth_error_lt in Ey. pose proof (g_len _ _ _ _ _ G). lia. }
    pose proof (g_rep _ _ _ _ _ G _ _ _ Ex Ey) as LR. destruct o as [x|]; [contradiction|].
    unfold lfree. rewrite Ex. auto.
  Qed.

  (* an element of a list, found at its address *)
  Lemma elem_at x y xs i c : lrep vs x y -> lst_shows y xs -> znth xs i = Some c ->
    nth_error vs (adr (base x) i) = Some (Some c) /\ 0 <= i < cnt x /\ cnt x <= room x.
  Proof.
    intros (H1 & H2 & H3 & Rp) (C & L & k & B) Hc.
    assert (Hi : 0 <= i < zlen xs).
    { unfold znth in Hc. destruct (i <? 0) eqn:E; [discriminate|]. apply nth_error_lt in Hc. unfold zlen. lia. }
    split.
    - change (Some c) with (valof (LstModel.Live c)). apply Rp. rewrite B. unfold aget. rewrite znth_z by lia.
      rewrite znth_z in Hc by lia. rewrite nth_error_app1 by (rewrite map_length; unfold zlen in Hi; lia).
      now rewrite (map_nth_error _ _ _ Hc).
    - rewrite H1, C, H2, <- H3, B. rewrite zlen_app, zlen_map, zlen_repeat. lia.
  Qed.

  Lemma get_arg a : match pvalue t a with
    | Ok c => exists u, address w a = Ok u /\ place (nv w) (lists w) a u /\ nth_error vs u = Some (Some c)
    | Err => address w a = Err
    | UB => True
    | _ => False
    end.
  Proof.
    destruct a as [v|l i]; cbn [pvalue address].
    - unfold sread. destruct (nth_error (pvars t) v) as [[c|]|] eqn:E; auto.
      pose proof (nth_error_lt _ _ _ E) as Hv. rewrite (g_nv _ _ _ _ _ G) in Hv.
      replace (v <? nv w)%nat with true by lia. exists v. split; [reflexivity|]. split; [split; [exact Hv|reflexivity]|].
      rewrite (g_pv _ _ _ _ _ G) by exact Hv. exact E.
    - pose proof (get_list l) as K. destruct (pread t l) as [xs| | |]; cbn [bind]; auto; try contradiction.
      destruct K as (x & y & -> & Ex & Ey & LR & LS & Ep). cbn [bind].
      destruct (znth xs i) as [c|] eqn:Ec.
      + destruct (elem_at _ _ _ _ _ LR LS Ec) as (E1 & E2 & E3).
        replace ((i >=? 0) && (i <? cnt x)) with true by lia. rewrite (live_held _ _ _ _ Lv Ex). eexists. split; [reflexivity|]. split; [|exact E1].
        exists x. split; [exact Ex|]. split; [lia|reflexivity].
      + destruct LR as (H1 & _), LS as (C & _). unfold znth in Ec. destruct (i <? 0) eqn:E0.
        * now replace (i >=? 0) with false by lia.
        * apply nth_error_None in Ec. unfold zlen in C. now replace (i <? cnt x) with false by lia; rewrite andb_false_r.
  Qed.
  (* a place the spec can store into *)
  Definition valid (t : plain) (a : arg) : Prop :=
    match a with
    | AVar v => (v < length (pvars t))%nat
    | AItem l i => exists xs, nth_error (plists t) l = Some (Some xs) /\ 0 <= i < zlen xs
    end.
  Lemma value_valid a c : pvalue t a = Ok c -> valid t a.
  Proof.
    destruct a as [v|l i]; cbn.
    - apply sread_lt.
    - unfold pread. destruct (nth_error (plists t) l) as [[xs|]|]; try discriminate. cbn [bind].
      destruct (znth xs i) as [x|] eqn:E; [|discriminate]. intros _. exists xs. split; [reflexivity|].
      unfold znth in E. destruct (i <? 0) eqn:E0; [discriminate|]. apply nth_error_lt in E. unfold zlen. lia.
  Qed.
End Step.

Lemma pstore_vars t a c : pvars (pstore t a c) = vstore (pvars t) a c.
Proof. destruct a as [v|l i]; cbn; auto. now destruct (pread t l). Qed.

Lemma shows_store t ys a c : shows ys (plists t) -> valid t a -> shows (ystore ys a c) (plists (pstore t a c)).
Proof.
  intros H V. destruct a as [v|l i]; cbn [ystore pstore plists]; [exact H|]. destruct V as (xs & E & Hi).
  unfold pread. rewrite E. cbn [pput plists].
  pose proof (LstProofs.Forall2_nth _ _ _ l H) as K. rewrite E in K.
  destruct (nth_error ys l) as [[y|]|] eqn:Ey; try contradiction.
  apply LstProofs.Forall2_upd; [exact H|]. destruct K as (C & L & k & B).
  split; [unfold setbuf; cbn [LstModel.count]; unfold zlen in *; rewrite upd_length; exact C|].
  unfold setbuf. cbn [LstModel.buf LstModel.cap]. split; [unfold zlen in *; rewrite upd_length; exact L|].
  exists k. rewrite B, upd_app1 by (rewrite map_length; unfold zlen in Hi; lia). f_equal.
  apply nth_error_ext. intros j. rewrite nth_upd, map_length. destruct (Nat.eqb (Z.to_nat i) j) eqn:Ej.
  - assert (Ej' : j = Z.to_nat i) by lia. subst j. replace (Z.to_nat i <? length xs)%nat with true by (unfold zlen in Hi; lia).
    symmetry. apply map_nth_error. apply upd_same. unfold zlen in Hi. lia.
  - rewrite !nth_error_map, upd_other by lia. reflexivity.
Qed.
Lemma valid_store t a b c : valid t b -> valid (pstore t a c) b.
Proof.
  intros V. destruct b as [v|l i]; cbn [valid] in *.
  - rewrite pstore_vars. destruct a; cbn [vstore]; rewrite ?upd_length; exact V.
  - destruct V as (xs & E & Hi). destruct a as [v|m j]; cbn [pstore plists]; [eauto|].
    unfold pread. destruct (nth_error (plists t) m) as [[zs|]|] eqn:Em; try (exists xs; now split).
    cbn [pput plists]. destruct (Nat.eq_dec m l) as [->|N].
    + assert (zs = xs) by congruence. subst zs. exists (upd xs (Z.to_nat j) c). split; [apply upd_same; exact (nth_error_lt _ _ _ E)|].
      unfold zlen in *. now rewrite upd_length.
    + exists xs. split; [now rewrite upd_other|exact Hi].
Qed.

(* a world whose list l is replaced *)
Lemma wrel_put w t vs ys s' l x' xs' : Rel (objs s') vs -> Geo (nv w) (upd (lists w) l x') vs (pvars t) ys ->
  shows ys (upd (plists t) l xs') -> Live (live s') (upd (lists w) l x') -> WRel (put w s' l x') (pput t l xs').
Proof. intros R G S Lv. exists vs, ys. split; [exact R|]. split; [exact G|]. split; [exact S|exact Lv]. Qed.

Lemma step_out s vs o vs' : Rel s vs -> sstep vs o = Ok (vs', SNone) -> exists s', StrModel.step s o = Ok (s', RNone) /\ Rel s' vs'.
Proof.
  intros R H. destruct (step_refines _ _ _ _ _ R H) as (s' & x & E & R' & O). destruct x; cbn in O; try contradiction. eauto.
Qed.

(* searching *)
Lemma sim_index s vs b u c (m : list slot) : Rel s vs -> rep vs b m -> nth_error vs u = Some (Some c) ->
  forall n i z, LstModel.index_loop _ same m c i n = Ok z -> index_loop s b u i n = Ok z.
Proof.
  intros R Rp U. induction n as [|n IH]; intros i z H; cbn [LstModel.index_loop index_loop] in *; [congruence|].
  peel H y Hy. unfold LstModel.read in Hy. peel Hy q Hq. destruct q as [| |y']; try discriminate. assert (y' = y) by congruence. subst y'.
  assert (E : sstep vs (OCompare (adr b i) u) = Ok (vs, SCmp (lex y c))).
  { unfold sstep, sstep_raw, sread. rewrite (Rp _ _ Hq), U. reflexivity. }
  destruct (step_refines _ _ _ _ _ R E) as (s' & x & -> & _ & O). cbn [bind]. destruct x; cbn in O; try contradiction. subst c0.
  unfold same in H. destruct (lex y c); auto.
Qed.
Lemma index_of_ok s vs x y xs u c : Rel (objs s) vs -> held s (base x, room x) = true -> lrep vs x y -> lst_shows y xs -> nth_error vs u = Some (Some c) ->
  index_of s x u = Ok (LstSpec.first_pos _ same c xs).
Proof.
  intros R Hd (H1 & H2 & H3 & Rp) LS U. unfold index_of. rewrite Hd, H1.
  apply (sim_index (objs s) vs (base x) u c (LstModel.buf y)); auto.
  exact (LstProofs.index_of_ok _ same y xs c LS).
Qed.

(* Add and Insert *)
Lemma sim_insert w t vs ys l i a mv : Rel (strs w) vs -> Geo (nv w) (lists w) vs (pvars t) ys -> shows ys (plists t) -> Live (live (mem w)) (lists w) ->
  forall x xs u c, lvar w l = Ok x -> pread t l = Ok xs -> address w a = Ok u -> pvalue t a = Ok c -> own_item l a = false ->
  0 <= i <= zlen xs ->
  exists s' x', insert (mem w) x i u mv = Ok (s', x') /\
    WRel (put w s' l (Some x')) (pput (pgone t a mv) l (Some (LstSpec.ztake _ i xs ++ c :: LstSpec.zdrop _ i xs))).
Proof.
  intros R G S Lv x xs u c Hx Hxs Hu Hc Ho Hi.
  pose proof (get_list w t vs ys G S l) as K. rewrite Hxs in K. destruct K as (x0 & y & Hx0 & Ex & Ey & LR & LS & Ep).
  assert (x0 = x) by congruence. subst x0. clear Hx0.
  pose proof (get_arg w t vs ys G S Lv a) as K. rewrite Hc in K. destruct K as (u0 & Hu0 & PL & Vu).
  assert (u0 = u) by congruence. subst u0. clear Hu0.
  pose proof LR as (Cx & Rx & _ & _). pose proof LS as (Cy & _ & _).
  unfold insert. rewrite Cx, Cy. replace ((i >=? 0) && (i <=? zlen xs)) with true by lia.
  destruct (zsplit xs i Hi) as (l1 & l2 & E & L1 & E1 & E2).
  destruct (LstProofs.insert_uninit_spec _ y xs i l1 l2 LS E (eq_sym L1)) as (k & cap' & mvs & IU & Hcap).
  destruct (sim_insert_uninit (mem w) vs x y i 1 _ R LR (live_held _ _ _ _ Lv Ex) ltac:(lia) ltac:(lia) IU) as (s1 & x1 & vs1 & -> & R1 & LR1 & Ch & Sw & Bs).
  cbn [bind]. set (y1 := LstModel.mkLst _ _ _ _) in *.
  pose proof (geo_change _ _ _ _ _ _ _ _ _ _ _ G Ex Ey Ch LR1) as G1.
  pose proof (live_set _ _ _ _ _ _ _ _ _ _ Lv G Ex Sw) as Lv1.
  assert (Hd1 : held s1 (base x1, room x1) = true) by (apply (live_held _ _ l _ Lv1); apply upd_same; exact (nth_error_lt _ _ _ Ex)).
  (* the argument lies outside both buffers *)
  assert (Nu : ~ span x u).
  { intros X. destruct a as [v|m j]; cbn in Ho, PL.
    - assert (Q : spans (lists w) l u) by (unfold spans; rewrite Ex; exact X). pose proof (g_low _ _ _ _ _ G _ _ Q). lia.
    - destruct PL as (z & Ez & Hj & Eu). assert (Q : spans (lists w) l u) by (unfold spans; rewrite Ex; exact X).
      assert (Q' : spans (lists w) m u) by (unfold spans; rewrite Ez, Eu; now apply adr_span).
      pose proof (g_dis _ _ _ _ _ G _ _ _ Q Q'). lia. }
  assert (Hin : inside [(base x, room x)] u = false).
  { unfold inside. cbn [existsb fst snd]. unfold span, at_span in Nu.
    destruct ((base x <=? u)%nat && (Z.of_nat u <? Z.of_nat (base x) + room x)) eqn:X; [exfalso; apply Nu; lia|reflexivity]. }
  rewrite Hin, andb_false_r.
  assert (Nu1 : ~ span x1 u).
  { intros X. destruct (proj1 Ch _ X) as (_ & [Y|Y]); [exact (Nu Y)|]. apply nth_error_lt in Vu. lia. }
  assert (Vu1 : nth_error vs1 u = Some (Some c)) by (rewrite (proj2 (proj2 Ch)) by auto; exact Vu).
  assert (HR : aget (LstModel.buf y1) i = Ok LstModel.Raw).
  { unfold y1. cbn [LstModel.buf]. apply aget_app. rewrite zlen_map. lia. }
  assert (Vd : nth_error vs1 (adr (base x1) i) = Some None) by (exact (proj2 (proj2 (proj2 LR1)) _ _ HR)).
  assert (Hroom : 0 <= i < room x1).
  { destruct LR1 as (_ & B2 & B3 & _). rewrite B2, <- B3. exact (aget_range _ _ _ HR). }
  assert (Ins : inside [(base x1, room x1)] (adr (base x1) i) = true).
  { unfold inside, adr. cbn [existsb fst snd]. lia. }
  rewrite Hd1, Ins. cbn [andb].
  assert (PD : place (nv w) (upd (lists w) l (Some x1)) (AItem l i) (adr (base x1) i)).
  { exists x1. split; [apply upd_same; exact (nth_error_lt _ _ _ Ex)|]. split; [exact Hroom|reflexivity]. }
  assert (PU : place (nv w) (upd (lists w) l (Some x1)) a u).
  { destruct a as [v|m j]; cbn in Ho, PL |- *; [exact PL|]. destruct PL as (z & Ez & Hj & Eu). exists z. rewrite upd_other by lia. auto. }
  assert (Fin : forall zs, nth_error zs l = Some (Some y) ->
     ystore (upd zs l (Some y1)) (AItem l i) c = upd zs l (Some (setbuf y1 (map LstModel.Live (l1 ++ c :: l2) ++ repeat LstModel.Raw k)))).
  { intros zs Ez. cbn [ystore]. pose proof (nth_error_lt _ _ _ Ez). rewrite upd_same by lia. rewrite upd_upd. do 2 f_equal. f_equal.
    unfold y1. cbn [LstModel.buf]. replace (Z.to_nat i) with (length (map (@LstModel.Live (list Z)) l1)) by (rewrite map_length; unfold zlen in L1; lia).
    rewrite upd_app2, map_app, <- app_assoc. reflexivity. }
  assert (LSf : lst_shows (setbuf y1 (map LstModel.Live (l1 ++ c :: l2) ++ repeat LstModel.Raw k)) (l1 ++ c :: l2)).
  { assert (zlen xs = zlen l1 + zlen l2) by (rewrite E, zlen_app; reflexivity).
    unfold setbuf, y1. cbn [LstModel.count LstModel.cap LstModel.buf LstModel.moves]. split; [cbn [LstModel.count]; rewrite zlen_app, zlen_cons; lia|].
    split; [cbn [LstModel.cap LstModel.buf]; rewrite zlen_app, zlen_map, zlen_app, zlen_cons, zlen_repeat; lia|]. exists k. reflexivity. }
  unfold LstSpec.ztake, LstSpec.zdrop. rewrite <- E1, <- E2.
  pose proof (value_valid t a c Hc) as Va.
  destruct mv; cbn [pgone].
  - destruct (step_out (objs s1) vs1 _ _ R1 (init_move vs1 _ _ c Vd Vu1)) as (s2 & -> & R2). cbn [bind]. do 2 eexists. split; [reflexivity|].
    pose proof (geo_store _ _ _ _ _ a u [] G1 PU) as G2. rewrite ystore_upd in G2 by exact Ho.
    pose proof (geo_store _ _ _ _ _ (AItem l i) _ c G2 PD) as G3. cbn [vstore] in G3.
    rewrite Fin in G3.
    2:{ destruct a as [v|m j]; cbn in Ho |- *; [exact Ey|]. destruct (nth_error ys m) as [[q|]|]; auto. rewrite upd_other by lia. exact Ey. }
    eapply wrel_put; [exact R2|rewrite pstore_vars; exact G3| |].
    { apply LstProofs.Forall2_upd; [now apply shows_store|exact LSf]. } exact Lv1.
  - destruct (step_out (objs s1) vs1 _ _ R1 (init_copy vs1 _ _ c Vd Vu1)) as (s2 & -> & R2). cbn [bind]. do 2 eexists. split; [reflexivity|].
    pose proof (geo_store _ _ _ _ _ (AItem l i) _ c G1 PD) as G3. cbn [vstore] in G3.
    rewrite Fin in G3 by exact Ey.
    eapply wrel_put; [exact R2|exact G3| |exact Lv1]. apply LstProofs.Forall2_upd; [exact S|exact LSf].
Qed.

Lemma sim_padd w t vs ys l i a mv : Rel (strs w) vs -> Geo (nv w) (lists w) vs (pvars t) ys -> shows ys (plists t) -> Live (live (mem w)) (lists w) ->
  forall x, lvar w l = Ok x ->
  match padd t l i a mv with
  | Ok t' => exists u s' x', address w a = Ok u /\ insert (mem w) x i u mv = Ok (s', x') /\ WRel (put w s' l (Some x')) t'
  | Err => address w a = Err \/ exists u, address w a = Ok u /\ insert (mem w) x i u mv = Err
  | UB => True
  | NoFuel => False
  end.
Proof.
  intros R G S Lv x Hx. unfold padd.
  pose proof (get_list w t vs ys G S l) as K. destruct (pread t l) as [xs| | |] eqn:Hp; cbn [bind]; auto; try contradiction.
  pose proof (get_arg w t vs ys G S Lv a) as A. destruct (pvalue t a) as [c| | |] eqn:Hc; cbn [bind]; auto.
  destruct A as (u & Hu & PL & Vu). destruct (own_item l a) eqn:Ho; [exact I|].
  unfold LstSpec.sinsert. destruct ((0 <=? i) && (i <=? zlen xs)) eqn:Hi; cbn [bind].
  - destruct (sim_insert w t vs ys l i a mv R G S Lv x xs u c Hx Hp Hu Hc Ho ltac:(lia)) as (s' & x' & E & W). eauto 6.
  - right. exists u. split; [exact Hu|]. destruct K as (x0 & y & Hx0 & _ & _ & LR & LS & _). assert (x0 = x) by congruence. subst x0.
    destruct LR as (C1 & _), LS as (C2 & _). unfold insert. rewrite C1, C2. now replace ((i >=? 0) && (i <=? zlen xs)) with false by lia.
Qed.

(* Remove, RemoveAt, RemoveRange *)
Lemma sim_cut w t vs ys l x xs i n : Rel (strs w) vs -> Geo (nv w) (lists w) vs (pvars t) ys -> shows ys (plists t) -> Live (live (mem w)) (lists w) ->
  lvar w l = Ok x -> pread t l = Ok xs -> 0 <= i -> 0 <= n -> i + n <= zlen xs ->
  exists s' x',
   (do s <- exec [(base x, room x)] (assign_overlapped (base x) i (i + n) (cnt x - i - n)) (mem w);
    release s (mkSl (base x) (cnt x - n) (room x)) (cnt x)) = Ok (s', x') /\
   WRel (put w s' l (Some x')) (pput t l (Some (LstSpec.ztake _ i xs ++ LstSpec.zdrop _ (i + n) xs))).
Proof.
  intros R G S Lv Hx Hp H1 H2 H3. pose proof (get_list w t vs ys G S l) as K. rewrite Hp in K.
  destruct K as (x0 & y & Hx0 & Ex & Ey & LR & LS & Ep). assert (x0 = x) by congruence. subst x0.
  destruct (LstProofs.remove_core _ y xs i n LS H1 H2 H3) as (y' & E & LS').
  destruct (sim_remove_core (mem w) vs x y i n y' R LR (live_held _ _ _ _ Lv Ex)) with (2 := E) as (s' & x' & vs' & E' & R' & LR' & Ch & Sw).
  { destruct LS as (C & _). lia. }
  exists s', x'. split; [exact E'|]. eapply wrel_put; [exact R'|exact (geo_change _ _ _ _ _ _ _ _ _ _ _ G Ex Ey Ch LR')| |exact (live_set _ _ _ _ _ _ _ _ _ _ Lv G Ex Sw)].
  apply LstProofs.Forall2_upd; [exact S|exact LS'].
Qed.

(* the destructor of a list *)
Lemma sim_destruct s vs x y xs : Rel (objs s) vs -> held s (base x, room x) = true -> lrep vs x y -> lst_shows y xs ->
  exists s' vs', destruct s x = Ok s' /\ Rel (objs s') vs' /\ live s' = del x (live s) /\ changes vs x vs' empty_list.
Proof.
  intros R Hd LR LS. unfold destruct. destruct (room x =? 0) eqn:E.
  - exists s, vs. split; [reflexivity|]. split; [exact R|]. split; [unfold del; now rewrite E|]. split; [|split].
    + intros a H. apply empty_span in H. contradiction.
    + intros a _ H. destruct H as [H1 H2]. lia.
    + auto.
  - destruct (LstProofs.destroy_all _ y xs LS) as (m & E1 & E2).
    destruct (sim_dead s vs x y m R LR Hd E1 E2) as (s' & s2 & vs' & X & D & R' & Dl & C). rewrite X. cbn [bind]. rewrite D. cbn [bind].
    exists s2, vs'. split; [reflexivity|]. split; [exact R'|]. split; [exact Dl|apply C].
Qed.

Lemma upd_id' {A} (l : list A) n x : nth_error l n = Some x -> upd l n x = l.
Proof. apply upd_id. Qed.

Lemma wrel_same w t vs ys l x : Rel (strs w) vs -> Geo (nv w) (lists w) vs (pvars t) ys -> shows ys (plists t) -> Live (live (mem w)) (lists w) ->
  nth_error (lists w) l = Some (Some x) -> WRel (put w (mem w) l (Some x)) t.
Proof.
  intros R G S Lv E. exists vs, ys. unfold put. cbn [mem nv lists]. rewrite upd_id by exact E. auto.
Qed.

Theorem step_raw_wsim w t o : WRel w t -> wsim (SlModel.step_raw w o) (pstep_raw t o).
Proof.
  intros (vs & ys & R & G & S & Lv).
  Ltac getl G S w t vs ys l xs x y := let K := fresh "K" in pose proof (get_list w t vs ys G S l) as K;
    destruct (pread t l) as [xs| | |] eqn:?Hp; cbn [bind wsim]; auto; try contradiction;
    destruct K as (x & y & ?Hx & ?Ex & ?Ey & ?LR & ?LS & ?Ep).
  Ltac geta G S Lv w t vs ys a c u := let A := fresh "A" in pose proof (get_arg w t vs ys G S Lv a) as A;
    destruct (pvalue t a) as [c| | |] eqn:?Hc; cbn [bind wsim]; auto;
    [destruct A as (u & ?Hu & ?PL & ?Vu)| try (rewrite A; reflexivity)].
  destruct o; cbn [SlModel.step_raw pstep_raw].
  - (* TStr *)
    pose proof (geo_split _ _ _ _ _ G) as Ev. set (r := skipn (nv w) vs) in *.
    destruct (sstep_ext (pvars t) r o) as (X1 & X2 & X3). rewrite <- Ev in X1.
    pose proof (step_raw_refines (objs (mem w)) vs o R) as K.
    assert (B : sstep_raw (pvars t) o <> UB -> forallb (fun v => (v <? nv w)%nat) (op_vars o) = true).
    { intros N. apply forallb_forall. intros v Hv. specialize (X2 N). rewrite Forall_forall in X2. specialize (X2 _ Hv).
      rewrite (g_nv _ _ _ _ _ G) in X2. lia. }
    destruct (sstep_raw (pvars t) o) as [[pv' y]| | |]; cbn [ext_ok bind wsim] in *; auto.
    + rewrite B by discriminate. rewrite X1 in K. cbn [stepspec] in K. destruct K as (s' & x & -> & R' & O). cbn [bind].
      do 2 eexists. split; [reflexivity|]. split; [|exact O]. exists (pv' ++ r), ys. split; [exact R'|]. split; [|split; [exact S|exact Lv]].
      cbn [nv lists mem pvars]. eapply geo_vars; [|exact (X3 _ _ eq_refl)]. rewrite <- Ev. exact G.
    + rewrite B by discriminate. rewrite X1 in K. cbn [stepspec] in K. rewrite K. reflexivity.
  - (* TNew *)
    pose proof (get_free w t vs ys G S l) as K. destruct (pfree t l) as [[]| | |]; cbn [bind wsim]; auto; try contradiction.
    destruct K as (-> & Ex & Ey). cbn [bind]. do 2 eexists. split; [reflexivity|]. split; [|exact I].
    eapply wrel_put; [exact R|exact (geo_new _ _ _ _ _ _ G Ex)| |exact (live_new _ _ _ Lv Ex)]. apply LstProofs.Forall2_upd; [exact S|apply LstProofs.empty_shows].
  - (* TMoveNew *)
    pose proof (get_free w t vs ys G S l) as K0. destruct (pfree t l) as [[]| | |]; cbn [bind wsim]; auto; try contradiction.
    destruct K0 as (-> & Ex0 & Ey0). getl G S w t vs ys m xs x y. rewrite Hx. cbn [bind].
    do 2 eexists. split; [reflexivity|]. split; [|exact I].
    exists vs. eexists. split; [exact R|]. split; [exact (geo_move _ _ _ _ _ _ _ _ _ G Ex0 Ex Ey)|]. split; [|exact (live_move _ _ _ _ _ Lv Ex0 Ex)].
    cbn [pput plists]. apply LstProofs.Forall2_upd; [|apply LstProofs.empty_shows]. apply LstProofs.Forall2_upd; [exact S|exact LS].
  - (* TMoveAssign *)
    getl G S w t vs ys l xs x y. rewrite Hx. cbn [bind]. getl G S w t vs ys m zs z q. rewrite Hx0. cbn [bind].
    destruct (sim_destruct (mem w) vs x y xs R (live_held _ _ _ _ Lv Ex) LR LS) as (s' & vs' & -> & R' & Dl & Ch). cbn [bind].
    pose proof (live_drop _ _ _ _ _ _ _ _ Lv G Ex) as Lv1. rewrite <- Dl in Lv1.
    do 2 eexists. split; [reflexivity|]. split; [|exact I].
    destruct (Nat.eq_dec l m) as [<-|N].
    + exists vs'. eexists. split; [exact R'|]. cbn [put pput mem nv lists pvars plists]. rewrite !upd_upd.
      split; [exact (geo_change _ _ _ _ _ _ _ _ _ _ _ G Ex Ey Ch (empty_lrep vs'))|].
      split; [apply LstProofs.Forall2_upd; [exact S|apply LstProofs.empty_shows]|].
      apply (live_set _ _ _ _ _ _ _ _ _ empty_list Lv G Ex). right. exact Dl.
    + pose proof (geo_drop _ _ _ _ _ _ _ _ _ G Ex Ey Ch) as G1.
      assert (Q : Geo (nv w) (upd (upd (upd (lists w) l None) l (Some z)) m (Some empty_list)) vs' (pvars t)
                   (upd (upd (upd ys l None) l (Some q)) m (Some LstModel.empty_lst))).
      { eapply geo_move; [exact G1| | |].
        - apply upd_same. exact (nth_error_lt _ _ _ Ex).
        - rewrite upd_other by exact N. exact Ex0.
        - rewrite upd_other by exact N. exact Ey0. }
      rewrite !upd_upd in Q. exists vs'. eexists. split; [exact R'|]. cbn [put pput mem nv lists pvars plists]. split; [exact Q|]. split.
      * apply LstProofs.Forall2_upd; [|apply LstProofs.empty_shows]. apply LstProofs.Forall2_upd; [exact S|exact LS0].
      * assert (X1 : nth_error (upd (lists w) l None) l = Some None) by (apply upd_same; exact (nth_error_lt _ _ _ Ex)).
        assert (X2 : nth_error (upd (lists w) l None) m = Some (Some z)) by (rewrite upd_other by exact N; exact Ex0).
        pose proof (live_move _ _ _ _ _ Lv1 X1 X2) as Y. rewrite upd_upd in Y. exact Y.
  - (* TDestroy *)
    getl G S w t vs ys l xs x y. rewrite Hx. cbn [bind].
    destruct (sim_destruct (mem w) vs x y xs R (live_held _ _ _ _ Lv Ex) LR LS) as (s' & vs' & -> & R' & Dl & Ch). cbn [bind].
    pose proof (live_drop _ _ _ _ _ _ _ _ Lv G Ex) as Lv1. rewrite <- Dl in Lv1.
    do 2 eexists. split; [reflexivity|]. split; [|exact I].
    eapply wrel_put; [exact R'|exact (geo_drop _ _ _ _ _ _ _ _ _ G Ex Ey Ch)| |exact Lv1]. apply LstProofs.Forall2_upd; [exact S|exact I].
  - (* TAdd *)
    getl G S w t vs ys l xs x y. rewrite Hx. cbn [bind].
    pose proof (sim_padd w t vs ys l (zlen xs) a mv R G S Lv x Hx) as P.
    assert (Ec : cnt x = zlen xs) by (destruct LR as (C1 & _), LS as (C2 & _); congruence). rewrite Ec.
    destruct (padd t l (zlen xs) a mv) as [t'| | |]; cbn [bind wsim]; auto.
    + destruct P as (u & s' & x' & -> & E & W). cbn [bind]. rewrite E. cbn [bind]. do 2 eexists. split; [reflexivity|]. split; [exact W|reflexivity].
    + destruct P as [->|(u & -> & E)]; [reflexivity|]. cbn [bind]. rewrite E. reflexivity.
  - (* TInsert *)
    assert (D : lvar w l = UB \/ exists x, lvar w l = Ok x) by (unfold lvar; destruct (nth_error (lists w) l) as [[?|]|]; eauto).
    destruct D as [D|(x & D)].
    + unfold padd. pose proof (get_list w t vs ys G S l) as K. destruct (pread t l) as [xs| | |]; cbn [bind wsim]; auto; try contradiction.
      destruct K as (? & ? & K & _). congruence.
    + rewrite D. cbn [bind]. pose proof (sim_padd w t vs ys l i a mv R G S Lv x D) as P.
      destruct (padd t l i a mv) as [t'| | |]; cbn [bind wsim]; auto.
      * destruct P as (u & s' & x' & -> & E & W). cbn [bind]. rewrite E. cbn [bind]. do 2 eexists. split; [reflexivity|]. split; [exact W|reflexivity].
      * destruct P as [->|(u & -> & E)]; [reflexivity|]. cbn [bind]. rewrite E. reflexivity.
  - (* TSet *)
    getl G S w t vs ys l xs x y. rewrite Hx. cbn [bind]. geta G S Lv w t vs ys a c u.
    rewrite Hu. cbn [bind]. assert (Ec : cnt x = zlen xs) by (destruct LR as (C1 & _), LS as (C2 & _); congruence).
    unfold set. rewrite Ec. destruct ((0 <=? i) && (i <? zlen xs)) eqn:Hi; cbn [wsim].
    2:{ now replace ((i >=? 0) && (i <? zlen xs)) with false by lia. }
    replace ((i >=? 0) && (i <? zlen xs)) with true by lia.
    destruct (zsplit1 xs i) as (l1 & c0 & l2 & _ & _ & Hz & _); [lia|].
    destruct (elem_at vs x y xs i c0 LR LS Hz) as (Vd & _ & Hroom).
    assert (Ins : inside [(base x, room x)] (adr (base x) i) = true) by (unfold inside, adr; cbn [existsb fst snd]; lia).
    rewrite (live_held _ _ _ _ Lv Ex), Ins. cbn [andb].
    set (d := adr (base x) i) in *.
    assert (PD : place (nv w) (lists w) (AItem l i) d) by (exists x; split; [exact Ex|split; [lia|reflexivity]]).
    pose proof (value_valid t a c Hc) as Va.
    assert (Vi : valid t (AItem l i)) by (exists xs; split; [exact Ep|lia]).
    destruct (same_place (AItem l i) a) eqn:Sm.
    + assert (u = d).
      { destruct a as [v|m j]; cbn in Sm; [discriminate|]. destruct PL as (x' & Ex' & _ & ->). assert (m = l) by lia. assert (j = i) by lia. subst.
        assert (x' = x) by congruence. now subst. } subst u.
      assert (Q : exists s', StrModel.step (objs (mem w)) (if mv then OMoveAssign d d else OAssign d d) = Ok (s', RNone) /\ Rel s' vs).
      { apply step_out with (vs := vs); [exact R|]. destruct mv; unfold sstep, sstep_raw, sread; rewrite Vd; cbn [bind].
        - now rewrite Nat.eqb_refl.
        - now rewrite upd_id. }
      destruct Q as (s' & -> & R'). cbn [bind]. do 2 eexists. split; [reflexivity|]. split; [|reflexivity].
      exists vs, ys. unfold put. cbn [mem nv lists]. rewrite upd_id by exact Ex. auto.
    + assert (N : d <> u).
      { intros ->. rewrite (place_inj _ _ _ _ _ _ _ _ G PD PL) in Sm. discriminate. }
      destruct mv; cbn [pgone].
      * destruct (step_out (objs (mem w)) vs _ _ R (move_assign vs d u c c0 Vd Vu N)) as (s' & -> & R'). cbn [bind].
        do 2 eexists. split; [reflexivity|]. split; [|reflexivity]. rewrite upd_comm in R' by exact N.
        pose proof (geo_store _ _ _ _ _ _ _ [] G PL) as G1. pose proof (geo_store _ _ _ _ _ _ _ c G1 PD) as G2.
        do 2 eexists. split; [exact R'|]. unfold put. cbn [mem nv lists]. rewrite upd_id by exact Ex.
        rewrite !pstore_vars. split; [exact G2|]. split; [|exact Lv]. apply shows_store; [now apply shows_store|now apply valid_store].
      * assert (Q : sstep vs (OAssign d u) = Ok (upd vs d (Some c), SNone)) by (unfold sstep, sstep_raw, sread; now rewrite Vd, Vu).
        destruct (step_out (objs (mem w)) vs _ _ R Q) as (s' & -> & R'). cbn [bind].
        do 2 eexists. split; [reflexivity|]. split; [|reflexivity].
        pose proof (geo_store _ _ _ _ _ _ _ c G PD) as G2.
        do 2 eexists. split; [exact R'|]. unfold put. cbn [mem nv lists]. rewrite upd_id by exact Ex.
        rewrite pstore_vars. split; [exact G2|]. split; [|exact Lv]. now apply shows_store.
  - (* TRemoveAt *)
    getl G S w t vs ys l xs x y. rewrite Hx. cbn [bind]. unfold remove_at.
    assert (Ec : cnt x = zlen xs) by (destruct LR as (C1 & _), LS as (C2 & _); congruence).
    destruct ((0 <=? i) && (i <? zlen xs)) eqn:Hi; cbn [wsim].
    + replace ((i >=? 0) && (i <? cnt x)) with true by lia.
      destruct (sim_cut w t vs ys l x xs i 1 R G S Lv Hx Hp ltac:(lia) ltac:(lia) ltac:(lia)) as (s' & x' & E & W).
      rewrite E. cbn [bind]. do 2 eexists. split; [reflexivity|]. split; [exact W|reflexivity].
    + now replace ((i >=? 0) && (i <? cnt x)) with false by lia.
  - (* TRemoveRange *)
    getl G S w t vs ys l xs x y. rewrite Hx. cbn [bind]. unfold remove_range, LstSpec.sremove.
    assert (Ec : cnt x = zlen xs) by (destruct LR as (C1 & _), LS as (C2 & _); congruence).
    destruct ((0 <=? i) && (i <=? zlen xs)) eqn:Hi; cbn [bind wsim].
    2:{ now replace ((i >=? 0) && (i <=? cnt x)) with false by lia. }
    replace ((i >=? 0) && (i <=? cnt x)) with true by lia.
    destruct ((- 2 ^ 63 <=? i + n) && (i + n <? 2 ^ 63)) eqn:Hf; cbn [negb bind wsim]; auto.
    destruct (i + n <? 0) eqn:H1; cbn [bind wsim]; [now replace (i + n >=? 0) with false by lia|].
    destruct (n <? 0) eqn:H2; cbn [bind wsim]; auto.
    destruct (i + n <=? zlen xs) eqn:H3; cbn [bind wsim].
    + replace ((i + n >=? 0) && (i + n <=? cnt x)) with true by lia.
      destruct (sim_cut w t vs ys l x xs i n R G S Lv Hx Hp ltac:(lia) ltac:(lia) ltac:(lia)) as (s' & x' & E & W).
      rewrite E. cbn [bind]. do 2 eexists. split; [reflexivity|]. split; [exact W|reflexivity].
    + now replace ((i + n >=? 0) && (i + n <=? cnt x)) with false by lia.
  - (* TRemove *)
    getl G S w t vs ys l xs x y. rewrite Hx. cbn [bind]. geta G S Lv w t vs ys a c u. rewrite Hu. cbn [bind].
    unfold remove. rewrite (index_of_ok _ _ _ _ _ _ _ R (live_held _ _ _ _ Lv Ex) LR LS Vu). cbn [bind].
    assert (Ec : cnt x = zlen xs) by (destruct LR as (C1 & _), LS as (C2 & _); congruence).
    pose proof (LstProofs.first_pos_range _ same c xs) as Rg. set (p := LstSpec.first_pos _ same c xs) in *.
    destruct (p =? -1) eqn:E1; cbn [wsim].
    + replace ((p >=? 0) && (p <? cnt x)) with false by lia. cbn [bind]. do 2 eexists. split; [reflexivity|]. split; [|reflexivity].
      eapply wrel_same; eauto.
    + replace ((p >=? 0) && (p <? cnt x)) with true by lia. unfold remove_at. replace ((p >=? 0) && (p <? cnt x)) with true by lia.
      destruct (sim_cut w t vs ys l x xs p 1 R G S Lv Hx Hp ltac:(lia) ltac:(lia) ltac:(lia)) as (s' & x' & E & W).
      rewrite E. cbn [bind]. do 2 eexists. split; [reflexivity|]. split; [exact W|reflexivity].
  - (* TClear *)
    getl G S w t vs ys l xs x y. rewrite Hx. cbn [bind]. unfold clear.
    destruct (LstProofs.destroy_all _ y xs LS) as (m & E1 & E2).
    destruct (sim_dead (mem w) vs x y m R LR (live_held _ _ _ _ Lv Ex) E1 E2) as (s' & s2 & vs' & X & D & R' & Dl & C). rewrite X. cbn [bind]. rewrite D. cbn [bind].
    do 2 eexists. split; [reflexivity|]. split; [|reflexivity].
    eapply wrel_put; [exact R'|exact (geo_change _ _ _ _ _ _ _ _ _ _ _ G Ex Ey (C 0%nat) (empty_lrep vs'))| |apply (live_set _ _ _ _ _ _ _ _ _ empty_list Lv G Ex); right; exact Dl].
    apply LstProofs.Forall2_upd; [exact S|apply LstProofs.empty_shows].
  - (* TRead *)
    pose proof (get_arg w t vs ys G S Lv (AVar d)) as A. cbn [pvalue] in A.
    destruct (sread (pvars t) d) as [c0| | |] eqn:Hd; cbn [bind wsim]; auto; try contradiction.
    2:{ unfold sread in Hd. destruct (nth_error (pvars t) d) as [[?|]|]; discriminate. }
    destruct A as (v & -> & PLd & Vd). cbn [bind].
    geta G S Lv w t vs ys (AItem l i) c u. rewrite Hu. cbn [bind].
    pose proof (step_raw_refines (objs (mem w)) vs (OAssign v u) R) as K.
    assert (Q : sstep_raw vs (OAssign v u) = Ok (upd vs v (Some c), SNone)) by (unfold sstep_raw, sread; now rewrite Vd, Vu).
    rewrite Q in K. destruct K as (s' & r & -> & R' & O). cbn [bind]. do 2 eexists. split; [reflexivity|]. split; [|exact O].
    pose proof (geo_store _ _ _ _ _ _ _ c G PLd) as G2. do 2 eexists. split; [exact R'|]. split; [exact G2|].
    split; [exact S|exact Lv].
  - (* TIndexOf *)
    getl G S w t vs ys l xs x y. rewrite Hx. cbn [bind]. geta G S Lv w t vs ys a c u. rewrite Hu. cbn [bind].
    rewrite (index_of_ok _ _ _ _ _ _ _ R (live_held _ _ _ _ Lv Ex) LR LS Vu). cbn [bind]. do 2 eexists. split; [reflexivity|]. split; [|reflexivity].
    exists vs, ys; auto.
  - (* TContains *)
    getl G S w t vs ys l xs x y. rewrite Hx. cbn [bind]. geta G S Lv w t vs ys a c u. rewrite Hu. cbn [bind].
    rewrite (index_of_ok _ _ _ _ _ _ _ R (live_held _ _ _ _ Lv Ex) LR LS Vu). cbn [bind]. do 2 eexists. split; [reflexivity|]. split; [exists vs, ys; auto|].
    cbn [tout_ok]. apply (LstProofs.first_pos_existsb _ same).
  - (* TCount *)
    getl G S w t vs ys l xs x y. rewrite Hx. cbn [bind]. do 2 eexists. split; [reflexivity|]. split; [exists vs, ys; auto|].
    destruct LR as (C1 & _), LS as (C2 & _). cbn. congruence.
Qed.
