From Coq Require Import ZifyBool ZifyNat.
From Verif Require Import Base BaseFacts StrModel StrSpec StrProofs SlModel SlSpec SlProofs SlProofs2 SlProofs3 SlProofs4 SlProofs5 SdModel SdSpec.
From Verif Require LstModel LstSpec LstProofs SrtModel SrtSpec SrtProofs DctProofs.
Open Scope Z_scope.

Lemma lex_total : SrtSpec.total_order lex.
Proof.
  constructor; [intros; apply lex_antisym|]. intros a b d H1 H2.
  destruct (lex a b) eqn:E1; [|clear H1|congruence].
  - apply lex_eq in E1. now subst.
  - destruct (lex b d) eqn:E2; [|clear H2|congruence].
    + apply lex_eq in E2. subst. congruence.
    + rewrite (lex_trans _ _ _ E1 E2). discriminate.
Qed.

(* ---- members of dictionaries ----------------------------------------------------------- *)
Definition fl (ms : list (option dmap)) : list (option (list (list Z))) :=
  flat_map (fun o => match o with
                     | Some m => [Some (map fst m); Some (map snd m)]
                     | None => [None; None]
                     end) ms.
Lemma plists_flatten t : plists (flatten t) = fl (mdicts t). Proof. reflexivity. Qed.
Lemma fl_cons o ms : fl (o :: ms) = option_map (map fst) o :: option_map (map snd) o :: fl ms.
Proof. destruct o; reflexivity. Qed.
Lemma kcell_S d : kcell (S d) = S (S (kcell d)). Proof. unfold kcell. lia. Qed.
Lemma vcell_S d : vcell (S d) = S (S (vcell d)). Proof. unfold vcell. lia. Qed.
Lemma nth_k ms : forall d, nth_error (fl ms) (kcell d) = option_map (option_map (map fst)) (nth_error ms d).
Proof.
  induction ms as [|o ms IH]; intros d; [cbn [fl flat_map]; destruct (kcell d), d; reflexivity|]. rewrite fl_cons.
  destruct d; [reflexivity|]. rewrite kcell_S. cbn [nth_error]. apply IH.
Qed.
Lemma nth_v ms : forall d, nth_error (fl ms) (vcell d) = option_map (option_map (map snd)) (nth_error ms d).
Proof.
  induction ms as [|o ms IH]; intros d; [cbn [fl flat_map]; destruct (vcell d), d; reflexivity|]. rewrite fl_cons.
  destruct d; [reflexivity|]. rewrite vcell_S. cbn [nth_error]. apply IH.
Qed.
Lemma upd_nil {B} n (x : B) : upd [] n x = []. Proof. destruct n; reflexivity. Qed.
Lemma nth_nil {B} n : nth_error (@nil B) n = None. Proof. destruct n; reflexivity. Qed.
Lemma fl_upd ms o : forall d, fl (upd ms d o) = upd (upd (fl ms) (kcell d) (option_map (map fst) o)) (vcell d) (option_map (map snd) o).
Proof.
  induction ms as [|p ms IH]; intros d; [cbn [fl flat_map]; rewrite !upd_nil; reflexivity|].
  destruct d; cbn [upd]; rewrite !fl_cons; [reflexivity|]. rewrite kcell_S, vcell_S. cbn [upd]. now rewrite IH.
Qed.
Lemma kv_neq d e : kcell d <> vcell e. Proof. unfold kcell, vcell. lia. Qed.
Lemma kk_neq d e : d <> e -> kcell d <> kcell e. Proof. unfold kcell. lia. Qed.
Lemma vv_neq d e : d <> e -> vcell d <> vcell e. Proof. unfold vcell. lia. Qed.

Lemma pread_k t d m : mread t d = Ok m -> pread (flatten t) (kcell d) = Ok (map fst m).
Proof. unfold mread, pread. rewrite plists_flatten, nth_k. destruct (nth_error _ _) as [[?|]|]; cbn [option_map]; congruence. Qed.
Lemma pread_v t d m : mread t d = Ok m -> pread (flatten t) (vcell d) = Ok (map snd m).
Proof. unfold mread, pread. rewrite plists_flatten, nth_v. destruct (nth_error _ _) as [[?|]|]; cbn [option_map]; congruence. Qed.
Lemma pfree_k t d : mfree t d = Ok tt -> pfree (flatten t) (kcell d) = Ok tt.
Proof. unfold mfree, pfree. rewrite plists_flatten, nth_k. destruct (nth_error _ _) as [[?|]|]; cbn [option_map]; congruence. Qed.
Lemma pfree_v t d : mfree t d = Ok tt -> pfree (flatten t) (vcell d) = Ok tt.
Proof. unfold mfree, pfree. rewrite plists_flatten, nth_v. destruct (nth_error _ _) as [[?|]|]; cbn [option_map]; congruence. Qed.
Lemma flatten_mset t d o : flatten (mset t d o) = pput (pput (flatten t) (kcell d) (option_map (map fst) o)) (vcell d) (option_map (map snd) o).
Proof. unfold pput, flatten at 1. cbn [mset mvars mdicts pvars plists]. f_equal. apply fl_upd. Qed.
Lemma pput_comm t l m x y : l <> m -> pput (pput t l x) m y = pput (pput t m y) l x.
Proof. intros H. unfold pput. cbn [pvars plists]. f_equal. now apply upd_comm. Qed.
Lemma pput_pput t l x y : pput (pput t l x) l y = pput t l y.
Proof. unfold pput. cbn [pvars plists]. f_equal. apply upd_upd. Qed.
Lemma pread_other t l m x : l <> m -> pread (pput t l x) m = pread t m.
Proof. intros H. unfold pread, pput. cbn [plists]. now rewrite upd_other by auto. Qed.
Lemma pfree_other t l m x : l <> m -> pfree (pput t l x) m = pfree t m.
Proof. intros H. unfold pfree, pput. cbn [plists]. now rewrite upd_other by auto. Qed.

(* ---- the relation ------------------------------------------------------------------------ *)
Definition asc_opt (o : option dmap) : Prop := match o with Some m => ascending_keys m | None => True end.
Definition DRel (w : world) (t : maps) : Prop := WRel w (flatten t) /\ Forall asc_opt (mdicts t).

Lemma asc_read t d m : Forall asc_opt (mdicts t) -> mread t d = Ok m -> ascending_keys m.
Proof.
  unfold mread. intros F H. destruct (nth_error (mdicts t) d) as [[m'|]|] eqn:E; try discriminate.
  assert (m' = m) by congruence. subst. rewrite Forall_forall in F. exact (F _ (nth_error_In _ _ E)).
Qed.
Lemma Forall_upd {B} (P : B -> Prop) l x : forall n, Forall P l -> P x -> Forall P (upd l n x).
Proof. induction l as [|a l IH]; intros n F H; destruct n; cbn [upd]; inversion F; subst; constructor; auto. Qed.

(* ---- searching --------------------------------------------------------------------------- *)
Notation cmp := (fun a b : list Z => Some (lex a b)).
Lemma compare_ok s vs b i u c (m : list slot) y : Rel s vs -> rep vs b m -> nth_error vs u = Some (Some c) ->
  LstModel.read _ m i = Ok y -> compare_at s b i u = Ok (lex y c).
Proof.
  intros R Rp U Hy. unfold LstModel.read in Hy. peel Hy q Hq. destruct q as [| |y']; try discriminate. assert (y' = y) by congruence. subst y'.
  assert (E : sstep vs (OCompare (adr b i) u) = Ok (vs, SCmp (lex y c))).
  { unfold sstep, sstep_raw, sread. rewrite (Rp _ _ Hq), U. reflexivity. }
  unfold compare_at. destruct (step_refines _ _ _ _ _ R E) as (s' & x & -> & _ & O). cbn [bind]. destruct x; cbn in O; try contradiction. now subst.
Qed.
Lemma sim_search s vs b u c (y : lst) : Rel s vs -> rep vs b (LstModel.buf y) -> nth_error vs u = Some (Some c) ->
  forall fuel lo hi idx z, SrtModel.search _ cmp y c lo hi idx fuel = Ok z -> search s b u lo hi idx fuel = Ok z.
Proof.
  intros R Rp U. induction fuel as [|fuel IH]; intros lo hi idx z H; cbn [SrtModel.search search] in *; [congruence|].
  destruct (lo <=? hi); [|congruence]. cbv zeta in *. peel H q Hq. rewrite (compare_ok _ _ _ _ _ _ _ _ R Rp U Hq). cbn [bind].
  destruct (lex q c); auto.
Qed.
Lemma internal_sim s vs x (y : lst) u c z : Rel (objs s) vs -> held s (base x, room x) = true -> lrep vs x y ->
  nth_error vs u = Some (Some c) -> SrtModel.index_of_internal _ cmp y c = Ok z -> index_of_internal s x u = Ok z.
Proof.
  intros R H (C & _ & _ & Rp) U E. unfold index_of_internal. rewrite H, C. unfold SrtModel.index_of_internal in E.
  exact (sim_search _ _ _ _ _ _ R Rp U _ _ _ _ _ E).
Qed.
Lemma add_sim s vs x (y : lst) u c y' j : Rel (objs s) vs -> held s (base x, room x) = true -> lrep vs x y ->
  nth_error vs u = Some (Some c) -> SrtModel.s_add _ cmp y c = Ok (y', j) ->
  forall mv, s_add s x u mv = do (s, y) <- s_insert s x j u mv; Ok (s, y, j).
Proof.
  intros R H L U E mv. unfold s_add. unfold SrtModel.s_add in E. destruct (L) as (C & _ & _ & Rp). rewrite C.
  destruct (LstModel.count y =? 0) eqn:E0.
  - peel E q Hq. assert (j = 0) by congruence. subst j. reflexivity.
  - peel E q Hq. destruct q as (r, oi). rewrite (internal_sim _ _ _ _ _ _ _ R H L U Hq). cbn [bind].
    destruct ((oi >=? 0) && (oi <? LstModel.count y)) eqn:B; [|discriminate].
    peel E k Hk. rewrite (compare_ok _ _ _ _ _ _ _ _ R Rp U Hk). cbn [bind]. cbv zeta in *. peel E z Hz.
    assert (j = match lex k c with Lt => oi + 1 | _ => oi end) by congruence. subst j. reflexivity.
Qed.

Notation found := (DctProofs.found (list Z) (list Z) lex).
Notation absent := (DctProofs.absent (list Z) (list Z) lex).

Lemma get_dict w t d m : WRel w (flatten t) -> mread t d = Ok m ->
  exists x y, lvar w (kcell d) = Ok x /\ lvar w (vcell d) = Ok y /\ cnt x = zlen m.
Proof.
  intros (vs & ys & R & G & S & Lv) M.
  pose proof (get_list w (flatten t) vs ys G S (kcell d)) as K. rewrite (pread_k _ _ _ M) in K.
  pose proof (get_list w (flatten t) vs ys G S (vcell d)) as V. rewrite (pread_v _ _ _ M) in V.
  destruct K as (x & x0 & K1 & _ & _ & (C & _) & (C' & _) & _). destruct V as (y & y0 & V1 & _).
  exists x, y. split; [exact K1|]. split; [exact V1|]. rewrite C, C'. apply zlen_map.
Qed.

Lemma key_cases w t d m x a u kc : WRel w (flatten t) -> ascending_keys m -> mread t d = Ok m -> lvar w (kcell d) = Ok x ->
  address w a = Ok u -> pvalue (flatten t) a = Ok kc ->
  (exists m1 k0 v0 m2, found m kc m1 k0 v0 m2 /\ s_index_of (mem w) x u = Ok (zlen m1)) \/
  (exists n1 n2, absent m kc n1 n2 /\ s_index_of (mem w) x u = Ok (-1) /\
     forall mv, s_add (mem w) x u mv = do (s, y) <- s_insert (mem w) x (zlen n1) u mv; Ok (s, y, zlen n1)).
Proof.
  intros (vs & ys & R & G & S & Lv) Ha M Hx Hu Hc.
  pose proof (get_list w (flatten t) vs ys G S (kcell d)) as K. rewrite (pread_k _ _ _ M) in K.
  destruct K as (x' & y & K1 & K2 & _ & L & Sh & _). assert (x' = x) by congruence. subst x'.
  pose proof (get_arg w (flatten t) vs ys G S Lv a) as A. rewrite Hc in A. destruct A as (u' & A1 & _ & U).
  assert (u' = u) by congruence. subst u'. pose proof (live_held _ _ _ _ Lv K2) as H.
  destruct (DctProofs.index_cases (list Z) (list Z) lex lex_total y m kc Sh Ha) as [(m1 & k0 & v0 & m2 & F & E)|(m1 & m2 & F & E)];
    unfold SrtModel.s_index_of in E; peel E z Hz; destruct z as (r, oi); unfold s_index_of;
    rewrite (internal_sim _ _ _ _ _ _ _ R H L U Hz); cbn [bind].
  - left. exists m1, k0, v0, m2. split; [exact F|]. congruence.
  - right. destruct (DctProofs.add_absent (list Z) (list Z) lex lex_total y m kc m1 m2 Sh Ha F) as (y' & n1 & n2 & F' & E' & _).
    exists n1, n2. split; [exact F'|]. split; [congruence|]. exact (add_sim _ _ _ _ _ _ _ _ R H L U E').
Qed.

(* ---- arguments ------------------------------------------------------------------------------ *)
Definition arg_shape (a : darg) (b : arg) : Prop :=
  match a with PVar v | PMove v => b = AVar v | _ => exists l i, b = AItem l i end.
Lemma get_addr w t b : WRel w t -> match pvalue t b with
    | Ok c => exists u, address w b = Ok u
    | Err => address w b = Err
    | UB => True
    | NoFuel => False
    end.
Proof.
  intros (vs & ys & R & G & S & Lv). pose proof (get_arg w t vs ys G S Lv b) as A.
  destruct (pvalue t b); auto. destruct A as (u & A & _). eauto.
Qed.
Lemma get_darg w t a : DRel w t -> match mvalue t a with
    | Ok c => exists b u, daddress w a = Ok u /\ address w b = Ok u /\ pvalue (flatten t) b = Ok c /\ arg_shape a b /\
                (forall d, own d a = false -> own_item (kcell d) b = false /\ own_item (vcell d) b = false)
    | Err => daddress w a = Err
    | UB => True
    | NoFuel => False
    end.
Proof.
  intros (W & F). destruct a as [v|v|e i|e i|e v]; cbn [mvalue daddress arg_shape own].
  - pose proof (get_addr w (flatten t) (AVar v) W) as A. cbn [pvalue flatten pvars] in A.
    destruct (sread (mvars t) v) as [c| | |] eqn:E; auto. destruct A as (u & A). exists (AVar v), u. cbn [pvalue flatten pvars own_item]. auto 6.
  - pose proof (get_addr w (flatten t) (AVar v) W) as A. cbn [pvalue flatten pvars] in A.
    destruct (sread (mvars t) v) as [c| | |] eqn:E; auto. destruct A as (u & A). exists (AVar v), u. cbn [pvalue flatten pvars own_item]. auto 6.
  - pose proof (get_addr w (flatten t) (AItem (kcell e) i) W) as A. cbn [pvalue] in A.
    destruct (mread t e) as [m| | |] eqn:M; cbn [bind]; auto; try (unfold mread in M; destruct (nth_error _ _) as [[?|]|]; discriminate).
    rewrite (pread_k _ _ _ M) in A. cbn [bind] in A. rewrite DctProofs.znth_map in A.
    destruct (znth m i) as [p|] eqn:N; cbn [option_map] in A; auto. destruct A as (u & A). exists (AItem (kcell e) i), u.
    cbn [pvalue own_item]. rewrite (pread_k _ _ _ M). cbn [bind]. rewrite DctProofs.znth_map, N. cbn [option_map].
    do 3 (split; [auto|]). split; [eauto|]. intros d D. apply Nat.eqb_neq in D. split; apply Nat.eqb_neq; unfold kcell, vcell; lia.
  - pose proof (get_addr w (flatten t) (AItem (vcell e) i) W) as A. cbn [pvalue] in A.
    destruct (mread t e) as [m| | |] eqn:M; cbn [bind]; auto; try (unfold mread in M; destruct (nth_error _ _) as [[?|]|]; discriminate).
    rewrite (pread_v _ _ _ M) in A. cbn [bind] in A. rewrite DctProofs.znth_map in A.
    destruct (znth m i) as [p|] eqn:N; cbn [option_map] in A; auto. destruct A as (u & A). exists (AItem (vcell e) i), u.
    cbn [pvalue own_item]. rewrite (pread_v _ _ _ M). cbn [bind]. rewrite DctProofs.znth_map, N. cbn [option_map].
    do 3 (split; [auto|]). split; [eauto|]. intros d D. apply Nat.eqb_neq in D. split; apply Nat.eqb_neq; unfold kcell, vcell; lia.
  - pose proof (get_addr w (flatten t) (AVar v) W) as A. cbn [pvalue flatten pvars] in A.
    destruct (sread (mvars t) v) as [k| | |] eqn:E; cbn [bind]; auto; [|now rewrite A].
    destruct A as (u & A). destruct (mread t e) as [m| | |] eqn:M; cbn [bind]; auto; try (unfold mread in M; destruct (nth_error _ _) as [[?|]|]; discriminate).
    destruct (get_dict w t e m W M) as (x & y & Hx & Hy & _). rewrite A. cbn [bind]. rewrite Hx. cbn [bind].
    assert (Hc : pvalue (flatten t) (AVar v) = Ok k) by exact E.
    destruct (key_cases w t e m x (AVar v) u k W (asc_read _ _ _ F M) M Hx A Hc) as [(m1 & k0 & v0 & m2 & Fd & Ei)|(n1 & n2 & Fd & Ei & _)]; rewrite Ei; cbn [bind].
    + rewrite (DctProofs.lookup_found _ _ lex _ _ _ _ _ _ Fd). destruct (Fd) as (Em & _).
      pose proof (get_addr w (flatten t) (AItem (vcell e) (zlen m1)) W) as B.
      assert (P : pvalue (flatten t) (AItem (vcell e) (zlen m1)) = Ok v0).
      { cbn [pvalue]. rewrite (pread_v _ _ _ M). cbn [bind]. rewrite DctProofs.znth_map, Em, DctProofs.znth_app_len. reflexivity. }
      rewrite P in B. destruct B as (q & B). exists (AItem (vcell e) (zlen m1)), q.
      do 3 (split; [auto|]). split; [eauto|]. intros d D. apply Nat.eqb_neq in D. cbn [own_item]. split; apply Nat.eqb_neq; unfold kcell, vcell; lia.
    + rewrite (DctProofs.lookup_absent _ _ lex _ _ _ _ Fd).
      pose proof (get_addr w (flatten t) (AItem (vcell e) (-1)) W) as B. cbn [pvalue] in B. rewrite (pread_v _ _ _ M) in B. cbn [bind] in B.
      exact B.
Qed.
