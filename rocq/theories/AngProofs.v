From Coq Require Import ZifyBool ZifyNat Permutation.
From Verif Require Import Base BaseFacts LstModel LstSpec LstProofs SrtModel SrtSpec SrtProofs DctModel DctSpec DctProofs AnyModel AnySpec AnyProofs LeqModel LeqSpec LeqProofs AngModel AngSpec.
Open Scope Z_scope.

Section Ang.
  Context (A V St : Type) (cmp : St -> A -> A -> St * option comparison) (less : St -> A -> A -> St * option bool) (veq : St -> V -> V -> St * option bool).
  Notation eqv := (called_equal A St cmp). Notation fails := (can_fail A St cmp less).
  Notation holds := (holds A V). Notation gr_step := (gr_step A V St cmp less veq). Notation alive := (alive V).
  Notation cells := (cells A V).
  Notation agstep := (agstep A V St cmp less veq).

  Lemma alive_upd h p x ps : alive h ps -> In p ps -> alive (upd h p (Some x)) ps.
  Proof.
    intros (N & H) Hp. split; [exact N|]. intros q. rewrite H. destruct (proj1 (H p) Hp) as (y & Ey). apply nth_error_lt in Ey.
    destruct (Nat.eq_dec q p) as [->|Nq].
    - split; intros _; [exists x; now apply upd_same|]. apply H, Hp.
    - now rewrite upd_other by auto.
  Qed.
  Lemma alive_del h p ps1 ps2 : alive h (ps1 ++ p :: ps2) -> alive (upd h p None) (ps1 ++ ps2).
  Proof.
    intros (N & H). destruct (NoDup_mid _ _ _ N) as (N1 & N2 & N3). split; [exact N3|]. intros q.
    destruct (proj1 (H p) (in_elt _ _ _)) as (y & Ey). apply nth_error_lt in Ey.
    destruct (Nat.eq_dec q p) as [->|Nq].
    - rewrite upd_same by auto. rewrite in_app_iff. split; [tauto|intros (x & E); discriminate].
    - rewrite upd_other by auto. rewrite <- H. rewrite !in_app_iff. cbn [In]. intuition congruence.
  Qed.
  Lemma alive_new h x ps1 ps2 : alive h (ps1 ++ ps2) -> alive (h ++ [Some x]) (ps1 ++ length h :: ps2).
  Proof.
    intros (N & H). assert (Nh : ~ In (length h) (ps1 ++ ps2)) by (intros Hi; apply H in Hi; destruct Hi as (y & Ey); apply nth_error_lt in Ey; lia).
    split; [now apply NoDup_mid_inv|]. intros q. specialize (H q). rewrite in_app_iff in *. cbn [In].
    destruct (Nat.eq_dec q (length h)) as [->|Nq].
    - rewrite nth_error_app2, Nat.sub_diag by lia. split; intros _; [now exists x|]. auto.
    - destruct (Nat.lt_ge_cases q (length h)).
      + rewrite nth_error_app1 by auto. rewrite <- H. intuition congruence.
      + replace (nth_error (h ++ [Some x]) q) with (@None (option (lst V))) by (symmetry; apply nth_error_None; rewrite app_length; cbn [length]; lia).
        split; [|intros (y & E); discriminate]. intros [Hi|[Hi|Hi]]; [|congruence|]; exfalso.
        all: destruct (proj1 H) as (y & Ey); [tauto|]. all: apply nth_error_lt in Ey; lia.
  Qed.
  Lemma alive_perm h ps ps' : Permutation ps ps' -> alive h ps -> alive h ps'.
  Proof.
    intros P (N & H). split; [eapply Permutation_NoDup; eauto|]. intros q. rewrite <- H. split; apply Permutation_in; auto. now apply Permutation_sym.
  Qed.
  Lemma qs_upd h p x qs : Forall (fun q => nth_error h q = Some (Some (@empty_lst V))) qs -> ~ In p qs ->
    Forall (fun q => nth_error (upd h p x) q = Some (Some (@empty_lst V))) qs.
  Proof.
    intros F N. rewrite Forall_forall in *. intros q Hq. rewrite upd_other; auto. congruence.
  Qed.
  Lemma qs_grow h x qs : Forall (fun q => nth_error h q = Some (Some (@empty_lst V))) qs ->
    Forall (fun q => nth_error (h ++ [x]) q = Some (Some (@empty_lst V))) qs.
  Proof.
    intros F. rewrite Forall_forall in *. intros q Hq. specialize (F q Hq). rewrite nth_error_app1; auto. now apply nth_error_lt in F.
  Qed.
  Lemma alive_apart h ps1 p ps2 qs : alive h ((ps1 ++ p :: ps2) ++ qs) -> ~ In p ps1 /\ ~ In p ps2 /\ ~ In p qs.
  Proof.
    intros (N & _). rewrite <- app_assoc in N. cbn [app] in N. destruct (NoDup_mid _ _ _ N) as (N1 & N2 & _). rewrite in_app_iff in N2. tauto.
  Qed.

  (* target->Add(value) on the container at position zlen m1 *)
  Lemma append_ok g m1 b ws m2 ps1 p ps2 qs v st :
    lst_shows A (gkeys g) (map fst (m1 ++ (b, ws) :: m2)) -> lst_shows nat (gvals g) (ps1 ++ p :: ps2) ->
    cells (gheap g) ps1 m1 -> (exists x, nth_error (gheap g) p = Some (Some x) /\ lst_shows V x ws) -> cells (gheap g) ps2 m2 ->
    alive (gheap g) ((ps1 ++ p :: ps2) ++ qs) -> Forall (fun q => nth_error (gheap g) q = Some (Some empty_lst)) qs ->
    Forall (fun kv : A * list V => snd kv <> []) (m1 ++ m2) ->
    exists g', append A V St g p v st = Ok (g', st, OBool true) /\ holds g' (m1 ++ (b, ws ++ [v]) :: m2) qs.
  Proof.
    intros HK HP C1 (x & Ex & Sx) C2 HA HQ HN. unfold append, deref. rewrite Ex. cbn [late bind].
    destruct (append_last V x ws v Sx) as (y & Ey & Sy). rewrite (late_ok y _ Ey). cbn [bind]. eexists. split; [reflexivity|].
    destruct (alive_apart _ _ _ _ _ HA) as (N1 & N2 & N3). assert (Hp := nth_error_lt _ _ _ Ex).
    exists (ps1 ++ p :: ps2). cbn [gkeys gvals gheap setcell]. split; [rewrite map_app in *; exact HK|]. split; [exact HP|]. split.
    { apply cells_join; [now apply cells_upd| |now apply cells_upd]. exists y. cbn [snd]. split; [now apply upd_same|exact Sy]. }
    split; [apply alive_upd; [exact HA|]; apply in_or_app; left; apply in_elt|]. split; [now apply qs_upd|].
    apply Forall_app in HN. destruct HN as [HN1 HN2]. apply Forall_app. split; [exact HN1|]. constructor; [|exact HN2]. cbn [snd]. now destruct ws.
  Qed.
  Lemma delete_ok g m1 b m2 ps1 p ps2 qs x ws :
    lst_shows A (gkeys g) (map fst (m1 ++ (b, ws) :: m2)) -> lst_shows nat (gvals g) (ps1 ++ p :: ps2) -> zlen ps1 = zlen m1 ->
    cells (gheap g) ps1 m1 -> nth_error (gheap g) p = Some (Some x) -> lst_shows V x ws -> cells (gheap g) ps2 m2 ->
    alive (gheap g) ((ps1 ++ p :: ps2) ++ qs) -> Forall (fun q => nth_error (gheap g) q = Some (Some empty_lst)) qs ->
    Forall (fun kv : A * list V => snd kv <> []) (m1 ++ m2) ->
    exists ks vs g', late (remove_at A (gkeys g) (zlen m1)) = Ok ks /\ late (get nat (gvals g) (zlen m1)) = Ok p /\
      late (remove_at nat (gvals g) (zlen m1)) = Ok vs /\ late (delete A V (mkGroup ks vs (gheap g)) p) = Ok g' /\ holds g' (m1 ++ m2) qs.
  Proof.
    intros HK HP L C1 Ex Sx C2 HA HQ HN. rewrite map_app in HK. cbn [map fst] in HK.
    destruct (remove_mid A _ _ _ _ HK) as (y & Ey & Sy). rewrite zlen_map in Ey. destruct (remove_mid nat _ _ _ _ HP) as (z & Ez & Sz). rewrite L in Ez.
    pose proof (get_mid nat _ _ _ _ HP) as Eg. rewrite L in Eg.
    exists y, z. eexists. split; [exact (late_ok y _ Ey)|]. split; [exact (late_ok p _ Eg)|]. split; [exact (late_ok z _ Ez)|].
    unfold delete, deref. cbn [gheap]. rewrite Ex. cbn [bind]. rewrite (destruct_ok V x ws Sx). cbn [late bind]. split; [reflexivity|].
    destruct (alive_apart _ _ _ _ _ HA) as (N1 & N2 & N3). exists (ps1 ++ ps2). cbn [gkeys gvals gheap setcell].
    split; [rewrite map_app; exact Sy|]. split; [exact Sz|]. split; [apply Forall2_app; now apply cells_upd|].
    rewrite <- app_assoc in *. cbn [app] in HA. split; [now apply alive_del|]. split; [now apply qs_upd|exact HN].
  Qed.
  Lemma Forall_drop {B} (P : B -> Prop) l1 x l2 : Forall P (l1 ++ x :: l2) -> Forall P (l1 ++ l2).
  Proof. intros H. apply Forall_app in H. destruct H as [H1 H2]. inversion H2; subst. now apply Forall_app. Qed.

  Lemma delete_all_exact : forall ps2 ps1 (g : group A V), lst_shows nat (gvals g) (ps1 ++ ps2) -> NoDup ps2 ->
    (forall p, In p ps2 -> exists x l, nth_error (gheap g) p = Some (Some x) /\ lst_shows V x l) ->
    exists g', g_delete_all A V g (zlen ps1) (length ps2) = Ok g' /\ gkeys g' = gkeys g /\ gvals g' = gvals g /\
      forall q, nth_error (gheap g') q = if in_dec Nat.eq_dec q ps2 then Some None else nth_error (gheap g) q.
  Proof.
    induction ps2 as [|p ps2 IH]; intros ps1 g HP ND HC; cbn [length g_delete_all].
    - exists g. repeat split; auto.
    - rewrite (get_mid nat _ _ _ _ HP). cbn [bind]. destruct (HC p (or_introl eq_refl)) as (x & l & E & Sx).
      unfold delete, deref. rewrite E. cbn [bind]. rewrite (destruct_ok V x l Sx). cbn [bind].
      inversion ND as [|? ? N1 N2]; subst. assert (Hp := nth_error_lt _ _ _ E).
      destruct (IH (ps1 ++ [p]) (setcell A V g p None)) as (g' & E' & G1 & G2 & G3).
      + now rewrite <- app_assoc.
      + exact N2.
      + intros q Hq. destruct (HC q (or_intror Hq)) as (x' & l' & Eq' & Sq). exists x', l'. split; [|exact Sq].
        cbn [gheap setcell]. rewrite upd_other; auto. congruence.
      + rewrite zlen_app, zlen_cons, zlen_nil in E'. replace (zlen ps1 + (1 + 0)) with (zlen ps1 + 1) in E' by lia.
        rewrite E'. exists g'. split; [reflexivity|]. cbn [gkeys gvals gheap setcell] in *. split; [exact G1|]. split; [exact G2|].
        intros q. rewrite G3. destruct (in_dec Nat.eq_dec q (p :: ps2)) as [Hq|Hq]; destruct (in_dec Nat.eq_dec q ps2) as [H2|H2]; auto.
        * destruct Hq as [<-|Hq]; [now apply upd_same|contradiction].
        * exfalso. apply Hq. now right.
        * apply upd_other. intros ->. apply Hq. now left.
  Qed.
  Lemma clear_holds g m qs : holds g m qs -> exists g', late (g_clear A V g) = Ok g' /\ holds g' [] qs.
  Proof.
    intros (ps & HK & HP & HC & HA & HQ & HN). unfold g_clear. assert (Cv : count (gvals g) = zlen ps) by apply HP. rewrite Cv, zlen_to_nat.
    destruct (HA) as (N & HL). assert (ND : NoDup ps /\ NoDup qs /\ forall q, In q qs -> ~ In q ps).
    { clear - N. induction ps as [|p ps IH]; cbn [app] in N; [repeat split; auto; constructor|]. inversion N as [|? ? N1 N2]; subst. destruct (IH N2) as (I1 & I2 & I3).
      rewrite in_app_iff in N1. split; [constructor; tauto|]. split; [exact I2|]. intros q Hq [<-|Hi]; [tauto|]. eapply I3; eauto. }
    destruct ND as (ND & NQ & Nd).
    destruct (delete_all_exact ps [] g HP ND) as (g' & E' & G1 & G2 & G3).
    { intros p Hp. apply in_split in Hp. destruct Hp as (ps1 & ps2 & ->). apply Forall2_app_inv_l in HC.
      destruct HC as (m1 & m2 & _ & C2 & _). inversion C2 as [|? kv ? ? (x & Ex & Sx) _]; subst. eauto. }
    change (zlen []) with 0 in E'. rewrite E'. cbn [bind]. rewrite G1, G2.
    destruct (clear_ok A _ _ HK) as (y & Ey & Sy). destruct (clear_ok nat _ _ HP) as (z & Ez & Sz).
    rewrite (late_ok y _ Ey). cbn [bind]. rewrite (late_ok z _ Ez). cbn [bind late]. eexists. split; [reflexivity|].
    exists []. cbn [gkeys gvals gheap map app]. split; [exact Sy|]. split; [exact Sz|]. split; [constructor|]. split; [|split; [|constructor]].
    - split; [exact NQ|]. intros q. rewrite G3. specialize (HL q). rewrite in_app_iff in HL. destruct (in_dec Nat.eq_dec q ps) as [Hq|Hq].
      + split; [intros Hi; now apply Nd in Hi|intros (x & E); discriminate].
      + rewrite <- HL. tauto.
    - rewrite Forall_forall in *. intros q Hq. rewrite G3. destruct (in_dec Nat.eq_dec q ps) as [Hi|Hi]; [now apply Nd in Hi|auto].
  Qed.
  Lemma destroy_holds g m qs : holds g m qs -> exists h, agdestroy A V g = Ok h /\ alive h qs.
  Proof.
    intros H. unfold agdestroy. destruct (clear_holds _ _ _ H) as (g' & E & (ps & HK & HP & HC & HA & _)). rewrite E. cbn [bind].
    rewrite (destruct_ok nat _ _ HP). cbn [late bind]. rewrite (destruct_ok A _ _ HK). cbn [late bind]. eexists. split; [reflexivity|].
    inversion HC; subst. exact HA.
  Qed.

  Lemma at_index_ok g m1 b ws m2 qs st f : holds g (m1 ++ (b, ws) :: m2) qs ->
    exists x, lst_shows V x ws /\ at_index A V St g (zlen m1) st f = do r <- f x; Ok (g, st, r).
  Proof.
    intros (ps & HK & HP & HC & _). destruct (by_index_ok A V g ps _ _ _ HP HC) as (x & Ex & Sx). unfold at_index. rewrite Ex. exists x. split; [exact Sx|reflexivity].
  Qed.
  Lemma at_index_neg g m qs st f : holds g m qs -> at_index A V St g (-1) st f = Ok (g, st, OError).
  Proof. intros (ps & HK & HP & _). unfold at_index, g_by_index. now rewrite (get_neg nat _ _ HP). Qed.

  Lemma agstep_ok g m o st qs : holds g m qs ->
    exists g' st' r m' n qs', agstep g st o = Ok (g', st', r) /\ holds g' m' qs' /\ length qs' = (n + length qs)%nat /\ gr_step m o m' r n.
  Proof.
    intros H. pose proof H as (ps & HK & HP & HC & HA & HQ & HN). destruct (HK) as (C & _). rewrite zlen_map in C.
    assert (Find : forall k, gabout A V o = Some k -> forall f : St -> Z -> res (group A V * St * dout A V),
      (forall st, exists g' st' r m' n qs', f st (-1) = Ok (g', st', r) /\ holds g' m' qs' /\ length qs' = (n + length qs)%nat /\ gr_step m o m' r n) ->
      (forall st m1 b ws m2, m = m1 ++ (b, ws) :: m2 -> eqv b k ->
        exists g' st' r m' n qs', f st (zlen m1) = Ok (g', st', r) /\ holds g' m' qs' /\ length qs' = (n + length qs)%nat /\ gr_step m o m' r n) ->
      exists g' st' r m' n qs', (do (st, r) <- ainternal A St cmp (gkeys g) k st; match r with Some (i, _) => f st i | None => Ok (g, st, OError) end) = Ok (g', st', r) /\
        holds g' m' qs' /\ length qs' = (n + length qs)%nat /\ gr_step m o m' r n).
    { intros k Ho f F1 F2. destruct (ainternal_ok A St cmp less _ _ k st HK) as (st' & [(b & Hb & Fb & E)|(r & oi & E & [->|(l1 & b & l2 & El & -> & Q)] & _)]); rewrite E; cbn [bind]; auto.
      - destruct (in_pair A (list V) m b Hb) as (w & Hw). exists g, st', OError, m, 0%nat, qs. split; [reflexivity|]. split; [exact H|]. split; [reflexivity|]. eapply gr_fail; eauto.
      - destruct (split_pair A (list V) m l1 b l2 El) as (m1 & w & m2 & Em & -> & _). eapply F2; eauto. }
    assert (Stay : forall (x : group A V * St * dout A V) st' r, x = (g, st', r) -> gr_step m o m r 0 ->
      exists g' st' r m' n qs', Ok x = Ok (g', st', r) /\ holds g' m' qs' /\ length qs' = (n + length qs)%nat /\ gr_step m o m' r n).
    { intros x st' r -> R. exists g, st', r, m, 0%nat, qs. auto. }
    destruct o as [k v|k|k v| |k|k v| |i|k|k i]; cbn [AngModel.agstep].
    - (* Add *)
      apply (Find k); [reflexivity| |].
      + intros st0. cbn [Z.eqb Pos.eqb]. cbv zeta. cbn [gkeys gvals gheap].
        destruct (aadd_ok A St cmp less _ _ k st0 HK) as (st' & [(b & Hb & Fb & E)|(y & l1 & l2 & E & El & S')]); rewrite E; cbn [bind].
        * destruct (in_pair A (list V) m b Hb) as (w & Hw). do 3 eexists. exists m, 1%nat, (length (gheap g) :: qs). split; [reflexivity|]. split; [|split; [reflexivity|eapply gr_lost; eauto]].
          exists ps. cbn [gkeys gvals gheap]. split; [exact HK|]. split; [exact HP|]. split; [now apply cells_grow|]. split; [now apply alive_new|].
          split; [|exact HN]. constructor; [|now apply qs_grow]. rewrite nth_error_app2, Nat.sub_diag by lia. reflexivity.
        * destruct (map_split fst m l1 l2 El) as (m1 & m2 & -> & <- & <-). rewrite zlen_map.
          assert (HC' := HC). apply Forall2_app_inv_r in HC'. destruct HC' as (ps1 & ps2 & C1 & C2 & ->).
          destruct (insert_mid nat _ _ _ (length (gheap g)) HP) as (z & Ez & Sz).
          replace (zlen ps1) with (zlen m1) in Ez by (unfold zlen; now rewrite (Forall2_len _ _ _ C1)).
          rewrite (late_ok z _ Ez). cbn [bind].
          destruct (append_ok (mkGroup y z (gheap g ++ [Some empty_lst])) m1 k [] m2 ps1 (length (gheap g)) ps2 qs v st') as (g' & E' & Hg'); cbn [gkeys gvals gheap]; auto.
          { rewrite map_app. exact S'. } { now apply cells_grow. }
          { exists empty_lst. split; [|apply empty_shows]. rewrite nth_error_app2, Nat.sub_diag by lia. reflexivity. } { now apply cells_grow. }
          { rewrite <- app_assoc in *. cbn [app] in *. now apply alive_new. } { now apply qs_grow. }
          rewrite E'. cbn [app] in Hg'. do 3 eexists. exists (m1 ++ (k, [v]) :: m2), 0%nat, qs. split; [reflexivity|]. split; [exact Hg'|]. split; [reflexivity|]. constructor.
      + intros st0 m1 b ws m2 -> Q. pose proof (zlen_nonneg m1). replace (zlen m1 =? -1) with false by lia.
        destruct (cells_split A V _ _ _ _ _ HC) as (ps1 & p & ps2 & -> & Lp & C1 & Cp & C2). rewrite <- Lp, (late_ok p _ (get_mid nat _ _ _ _ HP)). cbn [bind].
        destruct (append_ok g m1 b ws m2 ps1 p ps2 qs v st0) as (g' & E' & Hg'); auto. { now apply Forall_drop in HN. }
        rewrite E'. do 3 eexists. exists (m1 ++ (b, ws ++ [v]) :: m2), 0%nat, qs. split; [reflexivity|]. split; [exact Hg'|]. split; [reflexivity|]. now constructor.
    - (* Remove(key) *)
      apply (Find k); [reflexivity| |].
      + intros st0. cbn [Z.eqb Pos.eqb negb]. eapply Stay; [reflexivity|]. constructor.
      + intros st0 m1 b ws m2 -> Q. pose proof (zlen_nonneg m1). replace (zlen m1 =? -1) with false by lia. cbn [negb].
        destruct (cells_split A V _ _ _ _ _ HC) as (ps1 & p & ps2 & -> & Lp & C1 & (x & Ex & Sx) & C2). cbn [snd] in Sx.
        destruct (delete_ok g m1 b m2 ps1 p ps2 qs x ws) as (ks & vs & g' & E1 & E2 & E3 & E4 & Hg'); auto. { now apply Forall_drop in HN. }
        rewrite E1. cbn [bind]. rewrite E2. cbn [bind]. rewrite E3. cbn [bind]. rewrite E4. cbn [bind].
        do 3 eexists. exists (m1 ++ m2), 0%nat, qs. split; [reflexivity|]. split; [exact Hg'|]. split; [reflexivity|]. now constructor.
    - (* Remove(key, value) *)
      apply (Find k); [reflexivity| |].
      + intros st0. cbn [Z.eqb Pos.eqb negb]. eapply Stay; [reflexivity|]. constructor.
      + intros st0 m1 b ws m2 -> Q. pose proof (zlen_nonneg m1). replace (zlen m1 =? -1) with false by lia. cbn [negb].
        destruct (cells_split A V _ _ _ _ _ HC) as (ps1 & p & ps2 & -> & Lp & C1 & (x & Ex & Sx) & C2). cbn [snd] in Sx.
        pose proof (get_mid nat _ _ _ _ HP) as Eg. rewrite Lp in Eg. rewrite (late_ok p _ Eg). cbn [bind]. unfold deref at 1. rewrite Ex. cbn [late bind].
        destruct (eindex_ok V V St veq x ws v st0 Sx) as (f & st1 & Ef & Sf). rewrite Ef. cbn [late bind].
        assert (Ff : finds V St veq ws v f) by (now exists st0, st1).
        destruct f as [ws1 w0 ws2| |]; cbn [position]; [| |eapply Stay; [reflexivity|eapply gr_value_fail; eauto using in_elt]].
        2:{ cbn [Z.geb Z.compare andb late bind]. cbv zeta. assert (Nw : ws <> []) by (apply Forall_app in HN; destruct HN as [_ HN2]; now inversion HN2; subst).
          assert (Cx : count x = zlen ws) by apply Sx. rewrite Cx. destruct ws as [|w1 ws]; [congruence|]. rewrite zlen_cons. pose proof (zlen_nonneg ws).
          replace (1 + zlen ws =? 0) with false by lia. unfold setcell. rewrite upd_id by exact Ex. destruct g as [g1 g2 g3]. cbn [gkeys gvals gheap].
          eapply Stay; [reflexivity|]. eapply gr_value_absent; eauto using in_elt. }
        assert (El : ws = ws1 ++ w0 :: ws2) by (inversion Sf; auto). pose proof (zlen_nonneg ws1). pose proof (zlen_nonneg ws2).
        assert (Cx : count x = zlen ws1 + 1 + zlen ws2) by (rewrite (proj1 Sx), El, zlen_app, zlen_cons; lia). rewrite Cx.
        replace ((zlen ws1 >=? 0) && (zlen ws1 <? zlen ws1 + 1 + zlen ws2)) with true by lia.
        rewrite El in Sx. destruct (remove_mid V x ws1 w0 ws2 Sx) as (w & Ew & Sw). rewrite Ew. cbn [late bind]. cbv zeta.
        assert (Hp := nth_error_lt _ _ _ Ex). destruct (alive_apart _ _ _ _ _ HA) as (N1 & N2 & N3).
        assert (HA' : alive (upd (gheap g) p (Some w)) ((ps1 ++ p :: ps2) ++ qs)) by (apply alive_upd; [exact HA|]; apply in_or_app; left; apply in_elt).
        assert (Cw : count w = zlen (ws1 ++ ws2)) by apply Sw. rewrite Cw.
        destruct (ws1 ++ ws2) as [|v1 vs1] eqn:Er.
        * cbn [zlen length Z.of_nat Z.eqb].
          destruct (delete_ok (setcell A V g p (Some w)) m1 b m2 ps1 p ps2 qs w []) as (ks & vs & g' & E1 & E2 & E3 & E4 & Hg'); cbn [gkeys gvals gheap setcell]; auto.
          { rewrite map_app in *. exact HK. } { now apply cells_upd. } { now apply upd_same. } { now apply cells_upd. } { now apply qs_upd. } { now apply Forall_drop in HN. }
          cbn [gkeys gvals gheap setcell] in *. rewrite E1. cbn [bind]. rewrite E3. cbn [bind]. rewrite E4. cbn [bind].
          do 3 eexists. exists (m1 ++ m2), 0%nat, qs. split; [reflexivity|]. split; [exact Hg'|]. split; [reflexivity|]. apply app_eq_nil in Er. destruct Er as [-> ->]. eapply gr_value_last; eauto.
        * rewrite zlen_cons. pose proof (zlen_nonneg vs1). replace (1 + zlen vs1 =? 0) with false by lia.
          do 3 eexists. exists (m1 ++ (b, v1 :: vs1) :: m2), 0%nat, qs. split; [reflexivity|]. split; [|split; [reflexivity|rewrite <- Er; eapply gr_value; eauto; rewrite Er; discriminate]].
          exists (ps1 ++ p :: ps2). cbn [gkeys gvals gheap setcell]. split; [rewrite map_app in *; exact HK|]. split; [exact HP|]. split.
          { apply cells_join; [now apply cells_upd| |now apply cells_upd]. exists w. cbn [snd]. split; [now apply upd_same|exact Sw]. }
          split; [exact HA'|]. split; [now apply qs_upd|]. apply Forall_app in HN. destruct HN as [HN1 HN2]. inversion HN2; subst. apply Forall_app. split; [exact HN1|].
          constructor; [discriminate|assumption].
    - (* Clear *)
      destruct (clear_holds _ _ _ H) as (g' & E & Hg'). rewrite E. cbn [bind]. do 3 eexists. exists [], 0%nat, qs. split; [reflexivity|]. split; [exact Hg'|]. split; [reflexivity|]. constructor.
    - (* Contains(key) *)
      apply (Find k); [reflexivity| |].
      + intros st0. eapply Stay; [reflexivity|]. apply gr_contains_none.
      + intros st0 m1 b ws m2 -> Q. pose proof (zlen_nonneg m1). replace (zlen m1 =? -1) with false by lia. eapply Stay; [reflexivity|]. eapply gr_contains; [apply in_elt|exact Q].
    - (* Contains(key, value) *)
      apply (Find k); [reflexivity| |].
      + intros st0. cbn [Z.eqb Pos.eqb negb]. eapply Stay; [reflexivity|]. apply gr_has_none.
      + intros st0 m1 b ws m2 -> Q. pose proof (zlen_nonneg m1). replace (zlen m1 =? -1) with false by lia. cbn [negb].
        destruct (by_index_ok A V g ps _ _ _ HP HC) as (x & Ex & Sx). rewrite Ex. cbn [snd] in Sx.
        destruct (eindex_ok V V St veq x ws v st0 Sx) as (f & st1 & Ef & Sf). rewrite Ef. cbn [late bind].
        assert (Ff : finds V St veq ws v f) by (now exists st0, st1).
        destruct f as [ws1 w0 ws2| |]; cbn [position].
        * pose proof (zlen_nonneg ws1). replace (zlen ws1 =? -1) with false by lia. eapply Stay; [reflexivity|]. eapply gr_has; eauto using in_elt.
        * eapply Stay; [reflexivity|]. eapply gr_has_not; eauto using in_elt.
        * eapply Stay; [reflexivity|]. eapply gr_has_fail; eauto using in_elt.
    - rewrite C. eapply Stay; [reflexivity|]. constructor.
    - rewrite (get_ok A _ _ i HK), znth_map. destruct (Z_lt_dec i 0); [|destruct (Z_lt_dec i (zlen m))].
      1,3: rewrite znth_none by lia; eapply Stay; [reflexivity|]; apply gr_key_err; lia.
      destruct (zsplit1 m i) as (m1 & [b w] & m2 & -> & <- & N & _); [lia|]. rewrite N. eapply Stay; [reflexivity|]. constructor.
    - apply (Find k); [reflexivity| |].
      + intros st0. rewrite (at_index_neg g m qs) by exact H. eapply Stay; [reflexivity|]. apply gr_number_none.
      + intros st0 m1 b ws m2 -> Q.
        match goal with |- context [at_index _ _ _ _ _ _ ?f] => destruct (at_index_ok g m1 b ws m2 qs st0 f H) as (x & Sx & E) end. rewrite E. cbn [bind].
        destruct (Sx) as (Cx & _). rewrite Cx. eapply Stay; [reflexivity|]. eapply gr_number; [apply in_elt|exact Q].
    - apply (Find k); [reflexivity| |].
      + intros st0. rewrite (at_index_neg g m qs) by exact H. eapply Stay; [reflexivity|]. apply gr_at_none.
      + intros st0 m1 b ws m2 -> Q.
        match goal with |- context [at_index _ _ _ _ _ _ ?f] => destruct (at_index_ok g m1 b ws m2 qs st0 f H) as (x & Sx & E) end. rewrite E.
        rewrite (get_ok V _ _ i Sx). destruct (znth ws i) as [v|] eqn:N; cbn [bind]; (eapply Stay; [reflexivity|]); [|apply gr_at_none].
        destruct (Z_lt_dec i 0); [rewrite znth_none in N by lia; discriminate|]. destruct (Z_lt_dec i (zlen ws)); [|rewrite znth_none in N by lia; discriminate].
        destruct (zsplit1 ws i) as (w1 & w & w2 & -> & <- & N' & _); [lia|]. rewrite N in N'. injection N' as <-. eapply gr_at; [apply in_elt|exact Q].
  Qed.
  Lemma agrun_ok os : forall g m st qs, holds g m qs ->
    exists g' st' rs m' n qs', agrun A V St cmp less veq g st os = Ok (g', st', rs) /\ holds g' m' qs' /\ length qs' = (n + length qs)%nat /\ gr_run A V St cmp less veq m os m' rs n.
  Proof.
    induction os as [|o os IH]; intros g m st qs H; cbn [agrun].
    - do 3 eexists. exists m, 0%nat, qs. split; [reflexivity|]. split; [exact H|]. split; [reflexivity|]. constructor.
    - destruct (agstep_ok g m o st qs H) as (g1 & st1 & r & m1 & n1 & q1 & E & S1 & L1 & R1). rewrite E. cbn [bind].
      destruct (IH g1 m1 st1 q1 S1) as (g2 & st2 & rs & m2 & n2 & q2 & E2 & S2 & L2 & R2). rewrite E2. cbn [bind].
      do 3 eexists. exists m2, (n1 + n2)%nat, q2. split; [reflexivity|]. split; [exact S2|]. split; [lia|]. econstructor; eauto.
  Qed.
End Ang.

Lemma any_group_ok : forall (A V St : Type) cmp less veq st os,
  exists g st' rs m qs h, agrun A V St cmp less veq empty_group st os = Ok (g, st', rs) /\ holds A V g m qs /\
    gr_run A V St cmp less veq [] os m rs (length qs) /\ agdestroy A V g = Ok h /\ alive V h qs.
Proof.
  intros A V St cmp less veq st os. destruct (agrun_ok A V St cmp less veq os empty_group [] st []) as (g & st' & rs & m & n & qs & E & S1 & L & R).
  { exists []. split; [apply empty_shows|]. split; [apply empty_shows|]. split; [constructor|]. split; [|split; constructor].
    split; [constructor|]. intros p. split; [intros []|]. intros (x & Ex). destruct p; discriminate. }
  destruct (destroy_holds A V g m qs S1) as (h & Eh & Ah). exists g, st', rs, m, qs, h. cbn [length] in L. rewrite Nat.add_0_r in L. rewrite L. auto.
Qed.
Lemma no_fail_no_loss : forall (A V St : Type) cmp less veq, (forall b k, ~ can_fail A St cmp less b k) ->
  forall m os m' rs n, gr_run A V St cmp less veq m os m' rs n -> n = 0%nat.
Proof.
  intros A V St cmp less veq N m os m' rs n H. induction H as [m|m o m' r n os m'' rs n' H1 H2 IH]; auto. destruct H1; auto. now apply N in H0.
Qed.
