From Coq Require Import ZifyBool ZifyNat.
From Verif Require Import Base BaseFacts StrModel StrSpec StrProofs SlModel SlSpec SlProofs SlProofs2 SlProofs3 SlProofs4 SlProofs5 SdModel SdSpec SdProofs.
From Verif Require LstModel LstSpec LstProofs SrtModel SrtSpec SrtProofs DctProofs.
Open Scope Z_scope.

Lemma pgone_flat t a b l o : arg_shape a b -> pgone (pput (flatten t) l o) b (moved a) = pput (flatten (mgone t a)) l o.
Proof. destruct a; cbn [arg_shape moved pgone mgone]; intros H; try reflexivity. subst b. reflexivity. Qed.
Lemma pgone_flat0 t a b : arg_shape a b -> pgone (flatten t) b (moved a) = flatten (mgone t a).
Proof. destruct a; cbn [arg_shape moved pgone mgone]; intros H; try reflexivity. subst b. reflexivity. Qed.
Lemma mgone_dicts t a : mdicts (mgone t a) = mdicts t. Proof. destruct a; reflexivity. Qed.
Lemma mread_gone t a d : mread (mgone t a) d = mread t d. Proof. unfold mread. now rewrite mgone_dicts. Qed.

Lemma value_after t k v bk bv kc vc d o : arg_shape k bk -> arg_shape v bv -> pvalue (flatten t) bk = Ok kc -> pvalue (flatten t) bv = Ok vc ->
  own_item (kcell d) bv = false -> pvalue (pput (flatten (mgone t k)) (kcell d) o) bv = Ok (after k v vc).
Proof.
  intros Sk Sv Hk Hv O. destruct bv as [y|l i].
  - assert (Hy : sread (mvars t) y = Ok vc) by exact Hv. cbn [pvalue pput pvars flatten].
    assert (Ha : after k v vc = match k with PMove x => if Nat.eqb x y then [] else vc | _ => vc end).
    { destruct v; cbn [arg_shape] in Sv; try (destruct Sv as (? & ? & Sv); discriminate); injection Sv as ->; destruct k; reflexivity. }
    rewrite Ha. destruct k as [x|x|e i|e i|e x]; cbn [mgone vset mvars]; auto.
    cbn [arg_shape] in Sk. subst bk. cbn [pvalue flatten pvars] in Hk. unfold sread in Hk |- *. destruct (Nat.eqb_spec x y) as [->|N].
    + destruct (nth_error (mvars t) y) eqn:E; [|discriminate]. rewrite upd_same by (apply nth_error_lt in E; exact E). reflexivity.
    + rewrite upd_other by auto. exact Hy.
  - cbn [own_item] in O. apply Nat.eqb_neq in O.
    assert (Ha : after k v vc = vc). { destruct v; cbn [arg_shape] in Sv; try discriminate; destruct k; reflexivity. }
    rewrite Ha. cbn [pvalue]. rewrite pread_other by auto.
    replace (pread (flatten (mgone t k)) l) with (pread (flatten t) l); [exact Hv|].
    unfold pread. rewrite !plists_flatten. now rewrite mgone_dicts.
Qed.

Lemma address_same w s l o b u u' : own_item l b = false -> address w b = Ok u -> address (put w s l o) b = Ok u' -> u' = u.
Proof.
  destruct b as [v|m i]; cbn [own_item address put nv]; intros O H1 H2; [congruence|]. apply Nat.eqb_neq in O.
  unfold lvar in *. cbn [put lists] in H2. rewrite upd_other in H2 by auto.
  destruct (nth_error (lists w) m) as [[x|]|]; cbn [bind] in *; try discriminate.
  destruct ((i >=? 0) && (i <? cnt x)); [|discriminate].
  destruct (held (mem w) (base x, room x)); [|discriminate]. destruct (held (mem _) (base x, room x)); congruence.
Qed.

Lemma d_insert_ok w t d m k kc v vc x y bk uk bv uv n1 n2 : DRel w t -> mread t d = Ok m ->
  lvar w (kcell d) = Ok x -> lvar w (vcell d) = Ok y ->
  address w bk = Ok uk -> pvalue (flatten t) bk = Ok kc -> arg_shape k bk -> own_item (kcell d) bk = false ->
  address w bv = Ok uv -> pvalue (flatten t) bv = Ok vc -> arg_shape v bv -> own_item (kcell d) bv = false -> own_item (vcell d) bv = false ->
  absent m kc n1 n2 ->
  (forall mv, s_add (mem w) x uk mv = do (s, y) <- s_insert (mem w) x (zlen n1) uk mv; Ok (s, y, zlen n1)) ->
  exists w', d_insert w d x y uk (moved k) uv (moved v) = Ok w' /\
    DRel w' (mset (mgone (mgone t k) v) d (Some (mput kc (after k v vc) m))).
Proof.
  intros (W & F) M Hx Hy Hk Kc Sk Ok1 Hv Vc Sv Ov1 Ov2 A E.
  pose proof (asc_read _ _ _ F M) as Am. destruct (A) as (Em & _).
  destruct (W) as (vs & ys & R & G & S & Lv). pose proof (zlen_nonneg n1). pose proof (zlen_nonneg n2).
  destruct (sim_insert w (flatten t) vs ys (kcell d) (zlen n1) bk (moved k) R G S Lv x (map fst m) uk kc Hx (pread_k _ _ _ M) Hk Kc Ok1) as (s1 & x1 & I1 & W1).
  { rewrite zlen_map, Em, zlen_app. lia. }
  rewrite (pgone_flat0 _ _ _ Sk) in W1.
  replace (zlen n1) with (zlen (map fst n1)) in W1 by apply zlen_map.
  rewrite Em, map_app, DctProofs.ztake_app_len, DctProofs.zdrop_app_len in W1.
  set (w1 := put w s1 (kcell d) (Some x1)) in *.
  assert (V1 := value_after t k v bk bv kc vc d (Some (map fst n1 ++ kc :: map fst n2)) Sk Sv Kc Vc Ov1).
  set (t1 := pput (flatten (mgone t k)) (kcell d) (Some (map fst n1 ++ kc :: map fst n2))) in *.
  assert (U1 : address w1 bv = Ok uv).
  { pose proof (get_addr w1 t1 bv W1) as B. rewrite V1 in B. destruct B as (u' & B).
    now rewrite <- (address_same w s1 (kcell d) (Some x1) bv uv u' Ov1 Hv B). }
  assert (Hy1 : lvar w1 (vcell d) = Ok y).
  { unfold lvar, w1, put. cbn [lists]. rewrite upd_other by apply kv_neq. exact Hy. }
  assert (M1 : pread t1 (vcell d) = Ok (map snd m)).
  { unfold t1. rewrite pread_other by apply kv_neq. apply pread_v. now rewrite mread_gone. }
  destruct (W1) as (vs1 & ys1 & R1 & G1 & S1 & Lv1).
  destruct (sim_insert w1 t1 vs1 ys1 (vcell d) (zlen n1) bv (moved v) R1 G1 S1 Lv1 y (map snd m) uv _ Hy1 M1 U1 V1 Ov2) as (s2 & y1 & I2 & W2).
  { rewrite zlen_map, Em, zlen_app. lia. }
  replace (zlen n1) with (zlen (map snd n1)) in W2 by apply zlen_map.
  rewrite Em, map_app, DctProofs.ztake_app_len, DctProofs.zdrop_app_len in W2.
  unfold t1 in W2. rewrite (pgone_flat _ _ _ _ _ Sv) in W2.
  exists (put w1 s2 (vcell d) (Some y1)). split.
  - unfold d_insert. rewrite E. unfold s_insert. rewrite I1. cbn [DctModel.late bind]. cbv zeta. fold w1. rewrite I2. reflexivity.
  - split.
    + rewrite flatten_mset. cbn [option_map].
      rewrite (DctProofs.put_absent _ _ lex _ _ _ _ (after k v vc) A). rewrite !map_app. exact W2.
    + cbn [mset mdicts]. rewrite !mgone_dicts. apply Forall_upd; [exact F|]. cbn [asc_opt].
      rewrite (DctProofs.put_absent _ _ lex _ _ _ _ (after k v vc) A). exact (DctProofs.asck_insert _ _ lex lex_total _ _ _ _ _ Am A).
Qed.

(* list statements without arguments *)
Lemma sl_step w t o t' y : WRel w t -> pstep_raw t o = Ok (t', y) -> exists w' x, SlModel.step_raw w o = Ok (w', x) /\ WRel w' t' /\ tout_ok x y.
Proof. intros W H. pose proof (step_raw_wsim w t o W) as K. rewrite H in K. exact K. Qed.
Lemma both_ok w t a b t1 r1 t2 r2 : WRel w t -> pstep_raw t a = Ok (t1, r1) -> pstep_raw t1 b = Ok (t2, r2) ->
  exists w', both w a b = Ok w' /\ WRel w' t2.
Proof.
  intros W H1 H2. destruct (sl_step _ _ _ _ _ W H1) as (w1 & x1 & E1 & W1 & _). destruct (sl_step _ _ _ _ _ W1 H2) as (w2 & x2 & E2 & W2 & _).
  exists w2. unfold both. rewrite E1. cbn [bind]. rewrite E2. auto.
Qed.

Definition dsim (r : res (world * tout)) (q : res (maps * pout)) : Prop :=
  match q with
  | Ok (t', y) => exists w' x, r = Ok (w', x) /\ DRel w' t' /\ tout_ok x y
  | Err => r = Err
  | UB => True
  | NoFuel => False
  end.
Lemma mread_case t d : (exists m, mread t d = Ok m) \/ mread t d = UB.
Proof. unfold mread. destruct (nth_error _ _) as [[m|]|]; eauto. Qed.
Lemma mfree_case t d : mfree t d = Ok tt \/ mfree t d = UB.
Proof. unfold mfree. destruct (nth_error _ _) as [[m|]|]; eauto. Qed.
Lemma asc_mset t d o : Forall asc_opt (mdicts t) -> asc_opt o -> Forall asc_opt (mdicts (mset t d o)).
Proof. intros F H. cbn [mset mdicts]. now apply Forall_upd. Qed.

Lemma upd_mid {B} (l1 : list B) b l2 : upd (l1 ++ b :: l2) (length l1) b = l1 ++ b :: l2.
Proof. induction l1 as [|a l1 IH]; [reflexivity|]. cbn [app length upd]. now rewrite IH. Qed.
Lemma set_ok w t d m v vc kc m1 k0 v0 m2 y bv uv : DRel w t -> mread t d = Ok m -> found m kc m1 k0 v0 m2 ->
  lvar w (vcell d) = Ok y -> address w bv = Ok uv -> pvalue (flatten t) bv = Ok vc -> arg_shape v bv ->
  exists s, set (mem w) y (zlen m1) uv (moved v) = Ok s /\ DRel (put w s (vcell d) (Some y)) (mset (mgone t v) d (Some (mput kc vc m))).
Proof.
  intros (W & F) M Fd Hy Hv Vc Sv. pose proof (asc_read _ _ _ F M) as Am. destruct (Fd) as (Em & _).
  pose proof (zlen_nonneg m1). pose proof (zlen_nonneg m2).
  assert (B : (0 <=? zlen m1) && (zlen m1 <? zlen (map snd m)) = true) by (rewrite zlen_map, Em, zlen_app, zlen_cons; lia).
  pose proof (step_raw_wsim w (flatten t) (TSet (vcell d) (zlen m1) bv (moved v)) W) as K.
  cbn [SlModel.step_raw pstep_raw] in K. rewrite (pread_v _ _ _ M), Vc in K. cbn [bind] in K. rewrite B in K.
  rewrite Hy, Hv in K. cbn [bind wsim] in K. destruct K as (w' & x & E & W' & _).
  destruct (set (mem w) y (zlen m1) uv (moved v)) as [s| | |]; try discriminate. cbn [bind] in E.
  assert (w' = put w s (vcell d) (Some y)) by congruence. subst w'. exists s. split; [reflexivity|].
  rewrite (DctProofs.put_found _ _ lex _ _ _ _ _ _ vc Fd).
  split; [|apply asc_mset; [now rewrite mgone_dicts|]; cbn [asc_opt]; rewrite Em in Am; exact (DctProofs.asck_replace _ _ lex _ _ _ _ vc Am)].
  assert (EP : plists (flatten (mset (mgone t v) d (Some (m1 ++ (k0, vc) :: m2)))) = upd (fl (mdicts t)) (vcell d) (Some (map snd m1 ++ vc :: map snd m2))).
  { rewrite plists_flatten. cbn [mset mdicts]. rewrite fl_upd, mgone_dicts. cbn [option_map]. f_equal; [|now rewrite map_app].
    apply upd_id. rewrite nth_k. unfold mread in M. destruct (nth_error (mdicts t) d) as [[m'|]|]; try discriminate.
    assert (m' = m) by congruence. subst m'. cbn [option_map]. rewrite Em, !map_app. reflexivity. }
  assert (EQ : (if same_place (AItem (vcell d) (zlen m1)) bv then flatten t else pstore (pgone (flatten t) bv (moved v)) (AItem (vcell d) (zlen m1)) vc)
    = flatten (mset (mgone t v) d (Some (m1 ++ (k0, vc) :: m2)))).
  { rewrite (pgone_flat0 _ _ _ Sv).
    assert (P : pstore (flatten (mgone t v)) (AItem (vcell d) (zlen m1)) vc = flatten (mset (mgone t v) d (Some (m1 ++ (k0, vc) :: m2)))).
    { cbn [pstore]. assert (M' : mread (mgone t v) d = Ok m) by now rewrite mread_gone. rewrite (pread_v _ _ _ M').
      unfold pput. rewrite plists_flatten, mgone_dicts.
      replace (flatten (mset (mgone t v) d (Some (m1 ++ (k0, vc) :: m2)))) with (mkP (mvars (mgone t v)) (plists (flatten (mset (mgone t v) d (Some (m1 ++ (k0, vc) :: m2)))))) by reflexivity.
      rewrite EP. cbn [flatten pvars]. do 3 f_equal. rewrite zlen_to_nat, Em, map_app. cbn [map snd].
      clear. induction m1 as [|a m1 IH]; [reflexivity|]. cbn [map app length upd]. now f_equal. }
    destruct (same_place (AItem (vcell d) (zlen m1)) bv) eqn:SP; [|exact P].
    destruct bv as [|l i]; [discriminate|]. cbn [same_place] in SP. apply andb_prop in SP. destruct SP as (S1 & S2).
    apply Nat.eqb_eq in S1. apply Z.eqb_eq in S2. subst l i.
    cbn [pvalue] in Vc. rewrite (pread_v _ _ _ M) in Vc. cbn [bind] in Vc. rewrite DctProofs.znth_map, Em, DctProofs.znth_app_len in Vc. cbn [option_map snd] in Vc.
    assert (v0 = vc) by congruence. subst v0. rewrite <- P. destruct v; cbn [arg_shape] in Sv; try discriminate; cbn [mgone pstore];
      rewrite (pread_v _ _ _ M); unfold pput; rewrite Em, map_app, zlen_to_nat; cbn [map snd];
      replace (length m1) with (length (map snd m1)) by apply map_length;
      rewrite upd_mid;
      (rewrite upd_id; [reflexivity|]); rewrite plists_flatten, nth_v; unfold mread in M;
      (destruct (nth_error (mdicts t) d) as [[m'|]|]; try discriminate); assert (m' = m) by congruence; subst m'; cbn [option_map]; rewrite Em, map_app; reflexivity. }
  now rewrite EQ in W'.
Qed.

Lemma wrel_var w t vs ys x : Geo (nv w) (lists w) vs (pvars t) ys -> sread (pvars t) x = UB \/ exists c, sread (pvars t) x = Ok c /\ address w (AVar x) = Ok x.
Proof.
  intros G. destruct (sread_case (pvars t) x) as [(c & H & L)|H]; [right; exists c|left; exact H]. split; [exact H|].
  cbn [address]. rewrite <- (g_nv _ _ _ _ _ G). now replace (x <? length (pvars t))%nat with true by lia.
Qed.

Lemma load_ok w t x a c cx b u : DRel w t -> sread (mvars t) x = Ok cx -> daddress w a = Ok u -> address w b = Ok u -> pvalue (flatten t) b = Ok c ->
  exists s, (do v <- address w (AVar x); do u <- daddress w a;
             do (t, r) <- StrModel.step_raw (objs (mem w)) (OAssign v u);
             Ok (mkW (mkSt t (live (mem w))) (nv w) (lists w), TOut r)) = Ok (mkW (mkSt s (live (mem w))) (nv w) (lists w), TOut RNone) /\
            DRel (mkW (mkSt s (live (mem w))) (nv w) (lists w)) (vset t x c).
Proof.
  intros (W & F) Hx Ha Hb Hc. rewrite Ha.
  destruct b as [y|l i].
  - pose proof (step_raw_wsim w (flatten t) (TStr (OAssign x y)) W) as K. cbn [SlModel.step_raw pstep_raw] in K.
    cbn [flatten pvars] in K. unfold sstep_raw in K. rewrite Hx in K. cbn [bind] in K. cbn [pvalue flatten pvars] in Hc. rewrite Hc in K. cbn [bind wsim] in K.
    cbn [address] in Hb. destruct (y <? nv w)%nat eqn:Ly; [|discriminate]. assert (u = y) by congruence. subst u.
    cbn [op_vars forallb] in K. destruct K as (w' & r & E & W' & O). destruct (x <? nv w)%nat eqn:Lx; [|discriminate]. rewrite Ly in E. cbn [andb] in E.
    cbn [address]. rewrite Lx. cbn [bind]. destruct (StrModel.step_raw (objs (mem w)) (OAssign x y)) as [[s r']| | |]; try discriminate. cbn [bind] in *.
    exists s. assert (w' = mkW (mkSt s (live (mem w))) (nv w) (lists w) /\ r = TOut r') as (-> & ->) by (split; congruence).
    cbn [tout_ok] in O. destruct r'; cbn [out_ok] in O; try contradiction. split; [reflexivity|]. split; [exact W'|exact F].
  - pose proof (step_raw_wsim w (flatten t) (TRead x l i) W) as K. cbn [SlModel.step_raw pstep_raw] in K.
    rewrite Hc in K. cbn [flatten pvars] in K. rewrite Hx in K. cbn [bind wsim] in K. destruct K as (w' & r & E & W' & O).
    rewrite Hb in E. destruct (address w (AVar x)) as [v| | |]; try discriminate. cbn [bind] in *.
    destruct (StrModel.step_raw (objs (mem w)) (OAssign v u)) as [[s r']| | |]; try discriminate. cbn [bind] in *.
    exists s. assert (w' = mkW (mkSt s (live (mem w))) (nv w) (lists w) /\ r = TOut r') as (-> & ->) by (split; congruence).
    cbn [tout_ok] in O. destruct r'; cbn [out_ok] in O; try contradiction. split; [reflexivity|]. split; [exact W'|exact F].
Qed.

Lemma own_none k v d : own d k || own d v = false -> own d k = false /\ own d v = false.
Proof. destruct (own d k), (own d v); auto. Qed.

Theorem step_raw_dsim w t o : DRel w t -> dsim (step_raw w o) (mstep_raw t o).
Proof.
  intros D. pose proof D as (W & F). destruct o as [o|d|d e|d e|d|d k v|d k v|d k|d|x a|d k|d]; cbn [step_raw mstep_raw].
  - pose proof (step_raw_wsim w (flatten t) (TStr o) W) as K. cbn [pstep_raw] in K. cbn [flatten pvars] in K.
    destruct (sstep_raw (mvars t) o) as [[vs r]| | |]; cbn [bind wsim dsim] in *; auto.
    destruct K as (w' & x & E & W' & O). exists w', x. split; [exact E|]. split; [|exact O]. split; [exact W'|exact F].
  - destruct (mfree_case t d) as [M|M]; rewrite M; cbn [bind dsim]; auto.
    destruct (both_ok w (flatten t) (TNew (kcell d)) (TNew (vcell d)) (pput (flatten t) (kcell d) (Some [])) (POut SNone)
       (pput (pput (flatten t) (kcell d) (Some [])) (vcell d) (Some [])) (POut SNone) W) as (w' & E & W').
    { cbn [pstep_raw]. rewrite (pfree_k _ _ M). reflexivity. }
    { cbn [pstep_raw]. rewrite pfree_other, (pfree_v _ _ M) by apply kv_neq. reflexivity. }
    rewrite E. cbn [bind]. do 2 eexists. split; [reflexivity|]. split; [|exact I]. split; [|apply asc_mset; [exact F|constructor]].
    rewrite flatten_mset. exact W'.
  - destruct (mfree_case t d) as [M|M]; rewrite M; cbn [bind dsim]; auto.
    destruct (mread_case t e) as [(m & N)|N]; rewrite N; cbn [bind dsim]; auto.
    destruct (both_ok w (flatten t) (TMoveNew (kcell d) (kcell e)) (TMoveNew (vcell d) (vcell e))
       (pput (pput (flatten t) (kcell d) (Some (map fst m))) (kcell e) (Some [])) (POut SNone)
       (pput (pput (pput (pput (flatten t) (kcell d) (Some (map fst m))) (kcell e) (Some [])) (vcell d) (Some (map snd m))) (vcell e) (Some [])) (POut SNone) W) as (w' & E & W').
    { cbn [pstep_raw]. rewrite (pfree_k _ _ M), (pread_k _ _ _ N). reflexivity. }
    { cbn [pstep_raw]. rewrite !pfree_other, (pfree_v _ _ M), !pread_other, (pread_v _ _ _ N) by apply kv_neq. reflexivity. }
    rewrite E. cbn [bind]. do 2 eexists. split; [reflexivity|]. split; [|exact I].
    split; [|apply asc_mset; [apply asc_mset; [exact F|exact (asc_read _ _ _ F N)]|constructor]].
    rewrite !flatten_mset. cbn [option_map map]. rewrite (pput_comm _ (vcell d) (kcell e)) by (intros X; symmetry in X; exact (kv_neq _ _ X)). exact W'.
  - destruct (mread_case t d) as [(m0 & M)|M]; rewrite M; cbn [bind dsim]; auto.
    destruct (mread_case t e) as [(m & N)|N]; rewrite N; cbn [bind dsim]; auto.
    destruct (both_ok w (flatten t) (TMoveAssign (kcell d) (kcell e)) (TMoveAssign (vcell d) (vcell e))
       (pput (pput (flatten t) (kcell d) (Some (map fst m))) (kcell e) (Some [])) (POut SNone)
       (pput (pput (pput (pput (flatten t) (kcell d) (Some (map fst m))) (kcell e) (Some [])) (vcell d) (Some (map snd m))) (vcell e) (Some [])) (POut SNone) W) as (w' & E & W').
    { cbn [pstep_raw]. rewrite (pread_k _ _ _ M), (pread_k _ _ _ N). reflexivity. }
    { cbn [pstep_raw]. rewrite !pread_other, (pread_v _ _ _ M), (pread_v _ _ _ N) by apply kv_neq. reflexivity. }
    rewrite E. cbn [bind]. do 2 eexists. split; [reflexivity|]. split; [|exact I].
    split; [|apply asc_mset; [apply asc_mset; [exact F|exact (asc_read _ _ _ F N)]|constructor]].
    rewrite !flatten_mset. cbn [option_map map]. rewrite (pput_comm _ (vcell d) (kcell e)) by (intros X; symmetry in X; exact (kv_neq _ _ X)). exact W'.
  - destruct (mread_case t d) as [(m & M)|M]; rewrite M; cbn [bind dsim]; auto.
    destruct (both_ok w (flatten t) (TDestroy (vcell d)) (TDestroy (kcell d)) (pput (flatten t) (vcell d) None) (POut SNone)
       (pput (pput (flatten t) (vcell d) None) (kcell d) None) (POut SNone) W) as (w' & E & W').
    { cbn [pstep_raw]. rewrite (pread_v _ _ _ M). reflexivity. }
    { cbn [pstep_raw]. rewrite pread_other, (pread_k _ _ _ M) by (intros X; symmetry in X; exact (kv_neq _ _ X)). reflexivity. }
    rewrite E. cbn [bind]. do 2 eexists. split; [reflexivity|]. split; [|exact I]. split; [|apply asc_mset; [exact F|exact I]].
    rewrite flatten_mset. cbn [option_map]. rewrite pput_comm by apply kv_neq. exact W'.
  - destruct (mread_case t d) as [(m & M)|M]; rewrite M; cbn [bind dsim]; auto.
    pose proof (get_darg w t k D) as K. destruct (mvalue t k) as [kc| | |]; cbn [bind dsim]; auto; [|now rewrite K].
    destruct K as (bk & uk & -> & Hk & Kc & Sk & Ow). cbn [bind].
    pose proof (get_darg w t v D) as V. destruct (mvalue t v) as [vc| | |]; cbn [bind dsim]; auto; [|now rewrite V].
    destruct V as (bv & uv & -> & Hv & Vc & Sv & Ov). cbn [bind].
    destruct (get_dict w t d m W M) as (x & y & Hx & Hy & _). unfold d_add. rewrite Hx, Hy. cbn [bind].
    destruct (key_cases w t d m x bk uk kc W (asc_read _ _ _ F M) M Hx Hk Kc) as [(m1 & k0 & v0 & m2 & Fd & Ei)|(n1 & n2 & Fd & Ei & Ea)]; rewrite Ei; cbn [bind].
    + rewrite (DctProofs.lookup_found _ _ lex _ _ _ _ _ _ Fd). pose proof (zlen_nonneg m1). replace (negb (zlen m1 =? -1)) with true by lia. reflexivity.
    + rewrite (DctProofs.lookup_absent _ _ lex _ _ _ _ Fd). change (negb (-1 =? -1)) with false. cbv iota. unfold minsert.
      destruct (own d k || own d v) eqn:O; [exact I|]. apply own_none in O. destruct O as (O1 & O2).
      destruct (Ow d O1) as (P1 & _). destruct (Ov d O2) as (P2 & P3).
      destruct (d_insert_ok w t d m k kc v vc x y bk uk bv uv n1 n2 D M Hx Hy Hk Kc Sk P1 Hv Vc Sv P2 P3 Fd Ea) as (w' & E & D').
      rewrite E. cbn [bind]. do 2 eexists. split; [reflexivity|]. split; [exact D'|reflexivity].
  - destruct (mread_case t d) as [(m & M)|M]; rewrite M; cbn [bind dsim]; auto.
    pose proof (get_darg w t k D) as K. destruct (mvalue t k) as [kc| | |]; cbn [bind dsim]; auto; [|now rewrite K].
    destruct K as (bk & uk & -> & Hk & Kc & Sk & Ow). cbn [bind].
    pose proof (get_darg w t v D) as V. destruct (mvalue t v) as [vc| | |]; cbn [bind dsim]; auto; [|now rewrite V].
    destruct V as (bv & uv & -> & Hv & Vc & Sv & Ov). cbn [bind].
    destruct (get_dict w t d m W M) as (x & y & Hx & Hy & _). unfold d_set. rewrite Hx, Hy. cbn [bind].
    destruct (key_cases w t d m x bk uk kc W (asc_read _ _ _ F M) M Hx Hk Kc) as [(m1 & k0 & v0 & m2 & Fd & Ei)|(n1 & n2 & Fd & Ei & Ea)]; rewrite Ei; cbn [bind].
    + rewrite (DctProofs.lookup_found _ _ lex _ _ _ _ _ _ Fd). pose proof (zlen_nonneg m1). replace (zlen m1 =? -1) with false by lia.
      destruct (set_ok w t d m v vc kc m1 k0 v0 m2 y bv uv D M Fd Hy Hv Vc Sv) as (s & -> & D'). cbn [bind].
      do 2 eexists. split; [reflexivity|]. split; [exact D'|reflexivity].
    + rewrite (DctProofs.lookup_absent _ _ lex _ _ _ _ Fd). change (-1 =? -1) with true. cbv iota. unfold minsert.
      destruct (own d k || own d v) eqn:O; [exact I|]. apply own_none in O. destruct O as (O1 & O2).
      destruct (Ow d O1) as (P1 & _). destruct (Ov d O2) as (P2 & P3).
      destruct (d_insert_ok w t d m k kc v vc x y bk uk bv uv n1 n2 D M Hx Hy Hk Kc Sk P1 Hv Vc Sv P2 P3 Fd Ea) as (w' & E & D').
      rewrite E. cbn [bind]. do 2 eexists. split; [reflexivity|]. split; [exact D'|reflexivity].
  - destruct (mread_case t d) as [(m & M)|M]; rewrite M; cbn [bind dsim]; auto.
    pose proof (get_darg w t k D) as K. destruct (mvalue t k) as [kc| | |]; cbn [bind dsim]; auto; [|now rewrite K].
    destruct K as (bk & uk & -> & Hk & Kc & Sk & Ow). cbn [bind].
    destruct (get_dict w t d m W M) as (x & y & Hx & Hy & _). rewrite Hx. cbn [bind]. pose proof (asc_read _ _ _ F M) as Am.
    destruct (key_cases w t d m x bk uk kc W Am M Hx Hk Kc) as [(m1 & k0 & v0 & m2 & Fd & Ei)|(n1 & n2 & Fd & Ei & Ea)]; rewrite Ei; cbn [bind].
    + rewrite (DctProofs.lookup_found _ _ lex _ _ _ _ _ _ Fd). pose proof (zlen_nonneg m1). pose proof (zlen_nonneg m2). replace (negb (zlen m1 =? -1)) with true by lia.
      destruct (Fd) as (Em & _).
      destruct (both_ok w (flatten t) (TRemoveAt (kcell d) (zlen m1)) (TRemoveAt (vcell d) (zlen m1)) (pput (flatten t) (kcell d) (Some (map fst (m1 ++ m2)))) (PBool true)
        (pput (pput (flatten t) (kcell d) (Some (map fst (m1 ++ m2)))) (vcell d) (Some (map snd (m1 ++ m2)))) (PBool true) W) as (w' & E & W').
      { cbn [pstep_raw]. rewrite (pread_k _ _ _ M). cbn [bind].
        assert (B : (0 <=? zlen m1) && (zlen m1 <? zlen (map fst m)) = true) by (rewrite zlen_map, Em, zlen_app, zlen_cons; lia). rewrite B.
        replace (zlen m1) with (zlen (map fst m1)) by apply zlen_map. rewrite Em, !map_app. cbn [map fst]. rewrite DctProofs.ztake_app_len, DctProofs.zdrop_app_cons. reflexivity. }
      { cbn [pstep_raw]. rewrite pread_other, (pread_v _ _ _ M) by apply kv_neq. cbn [bind].
        assert (B : (0 <=? zlen m1) && (zlen m1 <? zlen (map snd m)) = true) by (rewrite zlen_map, Em, zlen_app, zlen_cons; lia). rewrite B.
        replace (zlen m1) with (zlen (map snd m1)) by apply zlen_map. rewrite Em, !map_app. cbn [map snd]. rewrite DctProofs.ztake_app_len, DctProofs.zdrop_app_cons. reflexivity. }
      rewrite E. cbn [bind]. do 2 eexists. split; [reflexivity|]. split; [|reflexivity].
      rewrite (DctProofs.del_found _ _ lex _ _ _ _ _ _ Fd).
      split; [rewrite flatten_mset; exact W'|]. apply asc_mset; [exact F|]. cbn [asc_opt]. rewrite Em in Am. exact (DctProofs.asck_drop _ _ lex _ _ _ Am).
    + rewrite (DctProofs.lookup_absent _ _ lex _ _ _ _ Fd). change (negb (-1 =? -1)) with false. cbv iota.
      do 2 eexists. split; [reflexivity|]. split; [exact D|reflexivity].
  - destruct (mread_case t d) as [(m & M)|M]; rewrite M; cbn [bind dsim]; auto.
    destruct (both_ok w (flatten t) (TClear (kcell d)) (TClear (vcell d)) (pput (flatten t) (kcell d) (Some [])) (PBool true)
       (pput (pput (flatten t) (kcell d) (Some [])) (vcell d) (Some [])) (PBool true) W) as (w' & E & W').
    { cbn [pstep_raw]. rewrite (pread_k _ _ _ M). reflexivity. }
    { cbn [pstep_raw]. rewrite pread_other, (pread_v _ _ _ M) by apply kv_neq. reflexivity. }
    rewrite E. cbn [bind]. do 2 eexists. split; [reflexivity|]. split; [|reflexivity]. split; [|apply asc_mset; [exact F|constructor]].
    rewrite flatten_mset. exact W'.
  - destruct (W) as (vs & ys & R & G & S & Lv). destruct (wrel_var w (flatten t) vs ys x G) as [E|(cx & E & Hx)]; cbn [flatten pvars] in E; rewrite E; cbn [bind dsim]; auto.
    pose proof (get_darg w t a D) as K. destruct (mvalue t a) as [c| | |]; cbn [bind dsim]; auto; [|rewrite Hx; cbn [bind]; now rewrite K].
    destruct K as (b & u & Ha & Hb & Hc & _). destruct (load_ok w t x a c cx b u D E Ha Hb Hc) as (s & E' & D').
    rewrite E'. do 2 eexists. split; [reflexivity|]. split; [exact D'|exact I].
  - destruct (mread_case t d) as [(m & M)|M]; rewrite M; cbn [bind dsim]; auto.
    pose proof (get_darg w t k D) as K. destruct (mvalue t k) as [kc| | |]; cbn [bind dsim]; auto; [|now rewrite K].
    destruct K as (bk & uk & -> & Hk & Kc & Sk & Ow). cbn [bind].
    destruct (get_dict w t d m W M) as (x & y & Hx & Hy & _). rewrite Hx. cbn [bind].
    destruct (key_cases w t d m x bk uk kc W (asc_read _ _ _ F M) M Hx Hk Kc) as [(m1 & k0 & v0 & m2 & Fd & Ei)|(n1 & n2 & Fd & Ei & Ea)]; rewrite Ei; cbn [bind].
    + rewrite (DctProofs.lookup_found _ _ lex _ _ _ _ _ _ Fd). pose proof (zlen_nonneg m1). replace (negb (zlen m1 =? -1)) with true by lia.
      do 2 eexists. split; [reflexivity|]. split; [exact D|reflexivity].
    + rewrite (DctProofs.lookup_absent _ _ lex _ _ _ _ Fd). do 2 eexists. split; [reflexivity|]. split; [exact D|reflexivity].
  - destruct (mread_case t d) as [(m & M)|M]; rewrite M; cbn [bind dsim]; auto.
    destruct (get_dict w t d m W M) as (x & y & Hx & Hy & C). rewrite Hx. cbn [bind].
    do 2 eexists. split; [reflexivity|]. split; [exact D|]. exact C.
Qed.

Lemma step_dsim w t o t' y : DRel w t -> mstep t o = Ok (t', y) ->
  exists w' x, step w o = Ok (w', x) /\ DRel w' t' /\ tout_ok x y.
Proof.
  intros W H. pose proof (step_raw_dsim w t o W) as K. unfold mstep in H. unfold step.
  destruct (mstep_raw t o) as [[t1 y1]| | |]; cbn [dsim] in K; try discriminate.
  - injection H as <- <-. destruct K as (w' & x & -> & W' & O). eauto.
  - injection H as <- <-. rewrite K. do 2 eexists. split; [reflexivity|]. split; [exact W|exact I].
Qed.
Lemma run_dsim os : forall w t t' rs, DRel w t -> mrun t os = Ok (t', rs) ->
  exists w' xs, run w os = Ok (w', xs) /\ DRel w' t' /\ Forall2 tout_ok xs rs.
Proof.
  induction os as [|o os IH]; intros w t t' rs W H; cbn [mrun run] in *.
  - injection H as <- <-. do 2 eexists. split; [reflexivity|]. split; [exact W|constructor].
  - destruct (mstep t o) as [[t1 y]| | |] eqn:E; try discriminate. cbn [bind] in H.
    destruct (mrun t1 os) as [[t2 ys]| | |] eqn:E2; try discriminate. cbn [bind] in H. injection H as <- <-.
    destruct (step_dsim _ _ _ _ _ W E) as (w1 & x & -> & W1 & O). cbn [bind].
    destruct (IH _ _ _ _ W1 E2) as (w2 & xs & -> & W2 & Os). cbn [bind].
    do 2 eexists. split; [reflexivity|]. split; [exact W2|]. constructor; assumption.
Qed.
Lemma drel_start n m : DRel (start n m) (mstart n m).
Proof.
  split.
  - unfold start. replace (flatten (mstart n m)) with (pstart n (2 * m)); [apply wrel_start|]. unfold pstart, flatten, mstart. cbn [mvars mdicts]. f_equal.
    change (2 * m)%nat with (m + (m + 0))%nat. rewrite Nat.add_0_r. induction m as [|m IH]; [reflexivity|]. cbn [repeat flat_map app]. rewrite <- IH.
    replace (S m + S m)%nat with (S (S (m + m))) by lia. reflexivity.
  - cbn [mstart mdicts]. apply Forall_forall. intros o H. apply repeat_spec in H. now subst.
Qed.

Lemma dicts_of_strings n m os t rs : mrun (mstart n m) os = Ok (t, rs) ->
  exists w xs, run (start n m) os = Ok (w, xs) /\ world_shows w (flatten t) /\ Forall2 tout_ok xs rs.
Proof.
  intros H. destruct (run_dsim _ _ _ _ _ (drel_start n m) H) as (w & xs & E & (W & _) & O).
  exists w, xs. split; [exact E|]. split; [now apply wrel_shows|exact O].
Qed.
Lemma dict_reached n m os t rs w xs : mrun (mstart n m) os = Ok (t, rs) -> run (start n m) os = Ok (w, xs) -> DRel w t.
Proof. intros H E. destruct (run_dsim _ _ _ _ _ (drel_start n m) H) as (w' & xs' & E' & W & _). congruence. Qed.
Lemma dict_keys n m os t rs : mrun (mstart n m) os = Ok (t, rs) -> forall d mp, mread t d = Ok mp -> ascending_keys mp.
Proof. intros H d mp M. destruct (run_dsim _ _ _ _ _ (drel_start n m) H) as (w' & xs' & E' & (_ & F) & _). exact (asc_read _ _ _ F M). Qed.
Lemma dict_counters n m os t rs w xs b cs k : mrun (mstart n m) os = Ok (t, rs) -> run (start n m) os = Ok (w, xs) ->
  nth_error (hp (strs w)) b = Some (Counted cs k) -> k = Z.of_nat (refs b (named w)) /\ 0 < k.
Proof. intros H E. exact (wrel_counters _ _ _ _ _ (proj1 (dict_reached _ _ _ _ _ _ _ H E))). Qed.
Lemma dict_buffers n m os t rs w xs : mrun (mstart n m) os = Ok (t, rs) -> run (start n m) os = Ok (w, xs) ->
  forall p, In p (live (mem w)) <-> exists l x, nth_error (lists w) l = Some (Some x) /\ room x <> 0 /\ p = (base x, room x).
Proof. intros H E. destruct (proj1 (dict_reached _ _ _ _ _ _ _ H E)) as (vs & ys & _ & _ & _ & Lv). exact Lv. Qed.
Lemma fl_none ms : Forall (fun o => o = None) ms -> Forall (fun l => l = None) (fl ms).
Proof. induction ms as [|o ms IH]; intros F; [constructor|]. inversion F; subst. rewrite fl_cons. constructor; [reflexivity|]. constructor; [reflexivity|]. auto. Qed.
Lemma dict_no_leak n m os t rs w xs : mrun (mstart n m) os = Ok (t, rs) -> run (start n m) os = Ok (w, xs) ->
  Forall (fun v => v = None) (mvars t) -> Forall (fun d => d = None) (mdicts t) ->
  live (mem w) = [] /\ forall b cs k, nth_error (hp (strs w)) b <> Some (Counted cs k).
Proof.
  intros H E H1 H2. pose proof (proj1 (dict_reached _ _ _ _ _ _ _ H E)) as W. apply fl_none in H2.
  split; [|exact (wrel_no_leak w _ W H1 H2)].
  destruct (live (mem w)) as [|p L] eqn:EL; [reflexivity|exfalso].
  destruct (proj1 (dict_buffers _ _ _ _ _ _ _ H E p)) as (l & x & Ex & _); [rewrite EL; now left|].
  pose proof (wrel_shows _ _ W) as (_ & _ & F). pose proof (LstProofs.Forall2_nth _ _ _ l F) as K.
  rewrite Ex, plists_flatten in K. destruct (nth_error (fl (mdicts t)) l) as [q|] eqn:Eq; [|contradiction].
  rewrite Forall_forall in H2. rewrite (H2 q (nth_error_In _ _ Eq)) in K. exact K.
Qed.
