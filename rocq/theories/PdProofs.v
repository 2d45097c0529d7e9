(* Proofs for C87. *)
From Coq Require Import ZifyBool ZifyNat.
From Verif Require Import Base BaseFacts.
From Verif Require LstModel LstSpec LstProofs SrtModel SrtSpec SrtProofs DctModel DctSpec DctProofs.
From Verif Require Import RcModel RcSpec LpModel LpSpec LpProofs6 LpProofs9 LpProofs10 PdModel PdSpec.
Open Scope nat_scope.

Section Pd.
  Variable K : Type.
  Variable c : K -> K -> comparison.
  Variable TO : SrtSpec.total_order c.
  Notation cmp := (fun a b => Some (c a b)).
  Notation fmap := (DctSpec.fmap K (option nat)).
  Notation asck := (DctSpec.ascending_keys K (option nat) c).
  Notation lookup := (DctSpec.lookup K (option nat) c).
  Notation put := (DctSpec.put K (option nat) c).
  Notation del := (DctSpec.del K (option nat) c).
  Notation shows := (LstSpec.lst_shows K).
  Notation found := (DctProofs.found K (option nat) c).
  Notation absent := (DctProofs.absent K (option nat) c).
  Notation pstep := (pstep K cmp).
  Notation dspec := (dspec K c).
  Notation dlegal := (dlegal K c).

  Definition keeps (kk : list (LstModel.lst K)) (l : nat) (v : list (option nat)) : Prop :=
    exists x (f : fmap), nth_error kk l = Some x /\ shows x (map fst f) /\ asck f /\ map snd f = v.
  Definition pgood (s : pst K) : Prop :=
    lgood (lp s) /\ length (ks s) = length (ls (lp s)) /\ forall l v, al (lworld_of (lp s)) l = Some v -> keeps (ks s) l v.

  Lemma combine_map (f : fmap) : combine (map fst f) (map snd f) = f.
  Proof. induction f as [|[a b] f IH]; cbn; congruence. Qed.
  Lemma live_all (l : list K) : flat_map (fun e => match e with LstModel.Live k => [k] | _ => [] end) (map LstModel.Live l) = l.
  Proof. induction l as [|a l IH]; cbn; congruence. Qed.
  Lemma shown_shows x l : shows x l -> shown K x = l.
  Proof.
    intros (C & _ & k & B). unfold shown. rewrite C, B. unfold zlen. rewrite Nat2Z.id, firstn_app, map_length, Nat.sub_diag, firstn_O, app_nil_r.
    rewrite firstn_all2 by (rewrite map_length; lia). apply live_all.
  Qed.
  Lemma lget_al t l v : al (lworld_of t) l = Some v -> exists y, lget (rc t) (ls t) l = Ok y.
  Proof.
    unfold lworld_of, lw, lget. cbn [al]. destruct (nth_error (ls t) l) as [[y|]|]; try discriminate.
    destruct (lhome y) as [h|]; eauto. cbn. destruct (alive (rc t) h); [eauto|discriminate].
  Qed.
  Lemma al_bound t l v : al (lworld_of t) l = Some v -> l < length (ls t).
  Proof.
    unfold lworld_of, lw. cbn [al]. destruct (nth_error (ls t) l) eqn:E; [|discriminate]. intros _. apply nth_error_Some. congruence.
  Qed.
  (* what a dictionary of a reachable state is *)
  Lemma dict_facts s l f : pgood s -> dict (dworld_of s) l = Some f ->
    al (lworld_of (lp s)) l = Some (map snd f) /\ l < length (ks s) /\ asck f /\ exists x, keys_of K s l = Ok x /\ shows x (map fst f).
  Proof.
    intros (_ & L & H). unfold dict, dworld_of. cbn [refs keyed]. destruct (al (lworld_of (lp s)) l) as [v|] eqn:E; [|discriminate].
    destruct (H l v E) as (x & g & N & S & A & <-). rewrite N, (shown_shows _ _ S), combine_map. intros G. injection G as <-.
    split; [reflexivity|]. split; [rewrite L; eapply al_bound; eauto|]. split; [exact A|]. exists x. split; [|exact S].
    unfold keys_of. destruct (lget_al _ _ _ E) as (y & ->). cbn [bind]. now rewrite N.
  Qed.
  Lemma dict_some s l : dict (dworld_of s) l <> None -> exists f, dict (K := K) (dworld_of s) l = Some f.
  Proof. destruct (dict (dworld_of s) l); [eauto|congruence]. Qed.

  Lemma asame_al a b l : asame a b -> al a l = al b l. Proof. intros H. apply H. Qed.
  Lemma acollect_al w0 w1 w2 l v : acollect w0 w1 w2 -> al w2 l = Some v -> al w1 l = Some v.
  Proof.
    intros (_ & _ & _ & _ & A & B & _) H. rewrite <- (B l); auto. intros h E D. rewrite (A l h E D) in H. discriminate.
  Qed.
  Lemma acollect_aln w0 w1 w2 : acollect w0 w1 w2 -> aln w2 = aln w1. Proof. intros H. apply H. Qed.
  Lemma asame_aln a b : asame a b -> aln a = aln b. Proof. intros H. apply H. Qed.

  Lemma pgood_made s t kk : pgood s -> lgood t -> length kk = length (ls t) ->
    (forall l v, al (lworld_of t) l = Some v ->
       (nth_error kk l = nth_error (ks s) l /\ al (lworld_of (lp s)) l = Some v) \/ keeps kk l v) -> pgood (mkP t kk).
  Proof.
    intros (_ & _ & H) G L F. split; [exact G|]. split; [exact L|]. cbn [lp ks]. intros l v E.
    destruct (F l v E) as [[N E1]|Q]; [|exact Q]. destruct (H l v E1) as (x & f & N1 & Q). exists x, f. rewrite N. auto.
  Qed.

  (* searching a key *)
  Lemma position_ok s l f k : pgood s -> dict (dworld_of s) l = Some f ->
    (exists f1 k0 v0 f2, found f k f1 k0 v0 f2 /\ position K cmp s l k = Ok (zlen f1)) \/
    (exists f1 f2, absent f k f1 f2 /\ position K cmp s l k = Ok (-1)%Z).
  Proof.
    intros G D. destruct (dict_facts _ _ _ G D) as (_ & _ & A & x & X & S). unfold position. rewrite X. cbn [bind].
    exact (DctProofs.index_cases K (option nat) c TO x f k S A).
  Qed.

  (* an argument *)
  Inductive resolved (s : pst K) (a : source K) (mv : bool) : Prop :=
  | res_ok : forall u mv' x, resolve K cmp s a mv = Ok (u, mv') -> at_ (lworld_of (lp s)) (of_arg u) = Some x ->
      gives K c (dworld_of s) a = Some x -> take (lworld_of (lp s)) u mv' = emptied K (lworld_of (lp s)) a mv ->
      phome (lworld_of (lp s)) (of_arg u) = owner K (dworld_of s) a ->
      (forall l, item_of l (of_arg u) <-> match a with FromVar _ => False | FromDict m _ => m = l end) ->
      (forall l p, item_of l p \/ (mv' = true /\ p = of_arg u) -> touched K l a mv p) -> resolved s a mv
  | res_err : resolve K cmp s a mv = Err -> no_such_key K c (dworld_of s) a -> resolved s a mv.
  Lemma resolve_ok s a mv : pgood s -> there K (dworld_of s) a -> resolved s a mv.
  Proof.
    intros G T. destruct a as [u|m k]; cbn [there] in T.
    - cbn [dworld_of refs] in T. destruct (av (lworld_of (lp s)) u) as [x|] eqn:E; [|congruence].
      apply (res_ok s _ mv (AVar u) mv x); try reflexivity; auto.
    - destruct (dict_some _ _ T) as (f & D). destruct (dict_facts _ _ _ G D) as (A & _).
      destruct (position_ok s m f k G D) as [(f1 & k0 & v0 & f2 & F & P)|(f1 & f2 & F & P)].
      + apply (res_ok s _ mv (AItem m (length f1)) false v0).
        * cbn [resolve]. rewrite P. cbn [bind]. pose proof (zlen_nonneg f1). replace (zlen f1 <? 0)%Z with false by lia.
          unfold zlen. now rewrite Nat2Z.id.
        * cbn [of_arg at_]. rewrite A. destruct F as (-> & _). rewrite map_app. cbn [map snd].
          rewrite nth_error_app2 by (rewrite map_length; lia). now rewrite map_length, Nat.sub_diag.
        * cbn [gives]. rewrite D. exact (DctProofs.lookup_found K _ c _ _ _ _ _ _ F).
        * reflexivity.
        * reflexivity.
        * intros l. reflexivity.
        * intros l p [H|[H _]]; [now left|discriminate].
      + apply res_err.
        * cbn [resolve]. rewrite P. reflexivity.
        * cbn [no_such_key]. exists f. split; [exact D|]. exact (DctProofs.lookup_absent K _ c _ _ _ _ F).
  Qed.

  (* fewer changes, more objects can be reached *)
  Lemma arooted_mono w (P Q : place -> Prop) o : (forall p, P p -> Q p) -> arooted w Q o -> arooted w P o.
  Proof. intros H R. induction R as [o p N A F IH]. apply (arooted_by w P o p); auto. Qed.
  Lemma aheld_mono w (P Q : place -> Prop) h : (forall p, P p -> Q p) -> aheld w Q h -> aheld w P h.
  Proof. intros H R o E. apply (arooted_mono w P Q); auto. Qed.

  Definition as_list (s s' : pst K) : Prop :=
    lp s' = lp s \/ exists lo, llegal (lworld_of (lp s)) lo /\ lstep (lp s) lo = Ok (lp s').
  Definition presult (s : pst K) (o : pop K) : Prop :=
    exists s' r, pstep s o = Ok (s', r) /\ dspec (dworld_of s) o (dworld_of s') r /\ pgood s' /\ as_list s s'.

  Lemma raised s o a : pgood s -> argument K o = Some a -> pstep_raw K cmp s o = Err -> no_such_key K c (dworld_of s) a -> presult s o.
  Proof.
    intros G A E N. exists s, Raised. unfold PdModel.pstep. rewrite E. split; [reflexivity|]. split; [now apply (ds_no_key K c _ _ a)|].
    split; [exact G|now left].
  Qed.
  Lemma step_raw s o s' r : pstep_raw K cmp s o = Ok (s', r) -> pstep s o = Ok (s', r).
  Proof. unfold PdModel.pstep. now intros ->. Qed.

  (* operations that do not touch the keys *)
  Lemma pgood_same s t w1 : pgood s -> lgood t -> (forall l, al w1 l = al (lworld_of (lp s)) l) -> aln w1 = aln (lworld_of (lp s)) ->
    asame (lworld_of t) w1 \/ (exists w0, acollect w0 w1 (lworld_of t)) -> pgood (mkP t (ks s)).
  Proof.
    intros G Gt A N H. apply (pgood_made s); auto.
    - destruct G as (_ & L & _). rewrite L. change (length (ls (lp s))) with (aln (lworld_of (lp s))). rewrite <- N.
      destruct H as [H|[w0 H]]; [exact (eq_sym (asame_aln _ _ H))|exact (eq_sym (acollect_aln _ _ _ H))].
    - intros l v E. left. split; [reflexivity|]. rewrite <- A.
      destruct H as [H|[w0 H]]; [now rewrite <- (asame_al _ _ l H)|eapply acollect_al; eauto].
  Qed.
  Ltac apply_same G Gt := match goal with
    | H : asame _ ?w |- _ => apply (pgood_same _ _ w G Gt); [reflexivity|reflexivity|left; exact H]
    | H : acollect ?w0 ?w _ |- _ => apply (pgood_same _ _ w G Gt); [reflexivity|reflexivity|right; exists w0; exact H]
    end.
  Lemma kept s t : keys_kept K (dworld_of s) (dworld_of (mkP t (ks s))).
  Proof. intros l. reflexivity. Qed.

  Lemma vnew_ok s v : pgood s -> dlegal (dworld_of s) (VNew v) -> presult s (VNew v).
  Proof.
    intros G L. destruct (lstep_ok (lp s) (MNew v) (proj1 G) L) as (t & E & Sp & Gt). inversion Sp; subst.
    exists (mkP t (ks s)), Done. split; [apply step_raw; cbn [pstep_raw]; unfold values; now rewrite E|].
    split; [apply ds_new; [assumption|apply kept]|]. split; [|right; exists (MNew v); exact (conj L E)]. now apply_same G Gt.
  Qed.
  Lemma vnull_ok s v : pgood s -> dlegal (dworld_of s) (VNull v) -> presult s (VNull v).
  Proof.
    intros G L. destruct (lstep_ok (lp s) (MSetNull v) (proj1 G) L) as (t & E & Sp & Gt). inversion Sp; subst.
    exists (mkP t (ks s)), Done. split; [apply step_raw; cbn [pstep_raw]; unfold values; now rewrite E|].
    split; [apply ds_null; [assumption|apply kept]|]. split; [|right; exists (MSetNull v); exact (conj L E)]. now apply_same G Gt.
  Qed.
  Lemma vend_ok s v : pgood s -> dlegal (dworld_of s) (VEnd v) -> presult s (VEnd v).
  Proof.
    intros G L. destruct (lstep_ok (lp s) (MEnd v) (proj1 G) L) as (t & E & Sp & Gt). inversion Sp; subst.
    exists (mkP t (ks s)), Done. split; [apply step_raw; cbn [pstep_raw]; unfold values; now rewrite E|].
    split; [apply ds_end; [assumption|apply kept]|]. split; [|right; exists (MEnd v); exact (conj L E)]. now apply_same G Gt.
  Qed.
  Lemma vcopy_ok s v a : pgood s -> dlegal (dworld_of s) (VCopy v a) -> presult s (VCopy v a).
  Proof.
    intros G [L T]. destruct (resolve_ok s a false G T) as [u mv' x R At Gi _ Ho _ _|R N].
    - assert (llegal (lworld_of (lp s)) (MCopy v u)) as LL by (split; [exact L|congruence]).
      destruct (lstep_ok (lp s) _ (proj1 G) LL) as (t & E & Sp & Gt). inversion Sp; subst.
      assert (x0 = x) by congruence. subst x0.
      exists (mkP t (ks s)), Done. split; [apply step_raw; cbn [pstep_raw]; rewrite R; cbn [bind]; unfold values; now rewrite E|].
      split; [apply (ds_copy K c _ v a x); [assumption|assumption|apply kept]|]. split; [|right; eexists; exact (conj LL E)]. now apply_same G Gt.
    - apply (raised s _ a G); auto. cbn [pstep_raw]. now rewrite R.
  Qed.
  Lemma vassign_ok s v a : pgood s -> dlegal (dworld_of s) (VAssign v a) -> presult s (VAssign v a).
  Proof.
    intros G (L & T & H1 & H2). destruct (resolve_ok s a false G T) as [u mv' x R At Gi _ Ho _ _|R N].
    - assert (llegal (lworld_of (lp s)) (MAssign v u)) as LL.
      { cbn [llegal]. split; [exact L|]. split; [congruence|]. split; [exact H1|]. rewrite Ho. exact H2. }
      destruct (lstep_ok (lp s) _ (proj1 G) LL) as (t & E & Sp & Gt). inversion Sp; subst.
      assert (x0 = x) by congruence. subst x0.
      exists (mkP t (ks s)), Done. split; [apply step_raw; cbn [pstep_raw]; rewrite R; cbn [bind]; unfold values; now rewrite E|].
      split; [apply (ds_assign K c _ v a x); [assumption|assumption|apply kept]|]. split; [|right; eexists; exact (conj LL E)]. now apply_same G Gt.
    - apply (raised s _ a G); auto. cbn [pstep_raw]. now rewrite R.
  Qed.
End Pd.
