(* Proofs of C60: every interleaving is an interleaving of whole operations on values. *)
From Coq Require Import ZifyBool ZifyNat Permutation.
From Verif Require Import Base BaseFacts MbSpec SparModel SparSpec SparHeap SparSafe SparOps.
Open Scope Z_scope.

Section world.
  Context (SH : list chunk) (shv : list sv) (sh : list (list Z)) (s0 : list sthread).
  Hypothesis Hsh : forall s v, nth_error shv s = Some v -> exists t, nth_error sh s = Some t /\ sees SH [] v t.
  Definition op_any (o : op) : Prop := match o with OSend _ _ | OReceive _ => True | _ => op_fine shv o end.
  Definition cur_ok (t : thread) (st : sthread) (q : list (list Z)) (R1 : list chunk) : Prop :=
    match cur t with
    | None => env_ok (vars t) (svars st) R1 /\ sinbox st = q /\ stodo st = todo t
    | Some (OReceive v, p) => exists x l, sinbox st = x :: q /\ nth_error (svars st) v = Some l /\ stodo st = OReceive v :: todo t /\ safe SH shv (Q (upd (svars st) v x) Done) R1 p
    | Some (o, p) => sinbox st = q /\ stodo st = o :: todo t /\ op_fine shv o /\ safe SH shv (Q (fst (seval sh (svars st) o)) (snd (seval sh (svars st) o))) R1 p
    end.
  Definition thread_ok (t : thread) (st : sthread) (R : list chunk) : Prop :=
    exists R1 R2 q, Permutation R (R1 ++ R2) /\ env_ok (inbox t) q R2 /\ cur_ok t st q R1 /\ Forall op_any (todo t).
  Definition winv (w : world) : Prop :=
    exists sts R u, all_ok thread_ok (threads w) sts R /\ hinv (memory w) (R ++ SH) u /\ shr (memory w) = shv /\ srun sh s0 (log w) sts.

  Lemma cur_running t st q R1 o p : cur t = Some (o, p) -> cur_ok t st q R1 -> exists vs r,
    safe SH shv (Q vs r) R1 p /\
    (forall t' p' R1', vars t' = vars t -> todo t' = todo t -> cur t' = Some (o, p') -> safe SH shv (Q vs r) R1' p' -> cur_ok t' st q R1') /\
    (forall sts i, nth_error sts i = Some st -> sstep sh sts (i, r) (upd sts i (mkST vs q (todo t)))).
  Proof.
    intros E H. unfold cur_ok in H. rewrite E in H.
    destruct o; try (destruct H as (H1 & H2 & H3 & H4); do 2 eexists; split; [exact H4|]; split;
      [intros t' p' R1' V T C S; unfold cur_ok; rewrite C, T; auto
      |intros sts k_ N_; rewrite <- H1; eapply ss_op; [exact N_|exact H2|exact Logic.I|apply surjective_pairing]]).
    - destruct H as (_ & _ & F & _). cbn in F. destruct F.
    - destruct H as (x & l & H1 & H2 & H3 & H4). do 2 eexists. split; [exact H4|]. split.
      + intros t' p' R1' V T C S. unfold cur_ok. rewrite C, T. exists x, l. auto.
      + intros sts i N. eapply ss_receive; eauto.
  Qed.
  Lemma astep_ok m R1 RR vs r p u : (forall a, p <> Ret a) -> shr m = shv -> hinv m (R1 ++ RR ++ SH) u -> safe SH shv (Q vs r) R1 p ->
    exists p' m' R1' u', astep p m = Ok (p', m') /\ shr m' = shv /\ hinv m' (R1' ++ RR ++ SH) u' /\ safe SH shv (Q vs r) R1' p'.
  Proof. intros N E H S. eapply step_ok; eauto. intros x Hx. apply in_or_app. auto. Qed.

  Lemma tstep_inv w i : winv w -> exists w', tstep w i = Ok w' /\ winv w'.
  Proof.
    intros (sts & R & u & A & H & E & S). unfold tstep. destruct (nth_error (threads w) i) as [t|] eqn:Et.
    2:{ exists w. split; [reflexivity|]. exists sts, R, u. auto. }
    destruct (all_at _ _ _ _ A _ _ Et) as (st & r & R' & K1 & (R1 & R2 & q & P & I & C & T) & K3 & K4 & _).
    assert (Permutation (R ++ SH) (R1 ++ (R2 ++ R') ++ SH)) as PP by (rewrite K3, P, !app_assoc; reflexivity).
    pose proof (hinv_perm _ _ _ _ PP H) as H1.
    destruct (cur t) as [[o p]|] eqn:Ec.
    - destruct (cur_running _ _ _ _ _ _ Ec C) as (vs & x & S1 & S2 & S3).
      assert ((exists a, p = Ret a) \/ (forall a, p <> Ret a)) as [[[e r'] ->]|N] by (destruct p; [left; eauto|right; discriminate..]).
      + eexists. split; [reflexivity|]. cbn [safe] in S1. destruct S1 as [X (R0 & PU & EV)]. cbn [fst snd] in X, EV. subst r'.
        destruct (hv_pubs _ _ _ _ _ H1 PU) as (u' & H2).
        exists (upd sts i (mkST vs q (todo t))), ((R0 ++ R2) ++ R'), u'. cbn [threads memory log]. split; [|split; [|split; [exact E|econstructor; [exact S|now apply S3]]]].
        * apply K4. exists R0, R2, q. cbn [inbox todo cur]. split; [reflexivity|]. split; [exact I|]. split; [|exact T]. unfold cur_ok. cbn. auto.
        * eapply hinv_perm; [|exact H2]. rewrite !app_assoc. reflexivity.
      + destruct (astep_ok _ _ _ _ _ _ _ N E H1 S1) as (p' & m' & R1' & u' & E1 & E2 & H2 & S1').
        exists (mkW m' (upd (threads w) i (mkT (vars t) (inbox t) (todo t) (Some (o, p')))) (log w)). split.
        { destruct p; try (rewrite E1; reflexivity). now elim (N a). }
        exists (upd sts i st), ((R1' ++ R2) ++ R'), u'. cbn [threads memory log]. split; [|split; [|split; [exact E2|]]].
        * apply K4. exists R1', R2, q. cbn [inbox todo cur]. split; [reflexivity|]. split; [exact I|]. split; [|exact T]. eapply S2; [reflexivity|reflexivity|reflexivity|exact S1'].
        * eapply hinv_perm; [|exact H2]. rewrite !app_assoc. reflexivity.
        * replace (upd sts i st) with sts; [exact S|]. apply nth_error_ext. intros j. rewrite nth_upd. destruct (Nat.eqb_spec i j) as [<-|]; [now rewrite K1|reflexivity].
    - unfold cur_ok in C. rewrite Ec in C. destruct C as (V & IQ & TD). destruct (todo t) as [|o os] eqn:Eo.
      { exists w. split; [reflexivity|]. exists sts, R, u. auto. }
      assert (upd sts i st = sts) as US.
      { apply nth_error_ext. intros j. rewrite nth_upd. destruct (Nat.eqb_spec i j) as [<-|]; [now rewrite K1|reflexivity]. }
      assert (op_any o /\ Forall op_any os) as [F1 F2] by (inversion T; auto).
      assert (op_fine shv o -> exists w', Ok (with_threads w (upd (threads w) i (mkT (vars t) (inbox t) os (Some (o, op_code (vars t) o))))) = Ok w' /\ winv w') as Plain.
      { intros F. eexists. split; [reflexivity|]. exists (upd sts i st), ((R1 ++ R2) ++ R'), u. cbn [with_threads threads memory log]. split; [|split; [|split; [exact E|now rewrite US]]].
        - apply K4. exists R1, R2, q. cbn [inbox todo cur]. split; [reflexivity|]. split; [exact I|]. split; [|exact F2].
          assert (safe SH shv (Q (fst (seval sh (svars st) o)) (snd (seval sh (svars st) o))) R1 (op_code (vars t) o)) as OS.
          { apply op_safe; auto. intros c b x c' x' J1 J2.
            assert (incl (R1 ++ SH) (R1 ++ (R2 ++ R') ++ SH)) as IN by (intros y Hy; apply in_app_or in Hy; apply in_or_app; destruct Hy; auto; right; apply in_or_app; auto).
            eapply (hinv_coherent _ _ _ H1); [apply IN, J1|apply IN, J2]. }
          unfold cur_ok. cbn [cur todo]. destruct o; try (split; [exact IQ|]; split; [exact TD|]; split; [exact F|exact OS]). destruct F.
        - eapply hinv_perm; [|exact H1]. rewrite !app_assoc. reflexivity. }
      assert (forall st', sstep sh sts (i, Nothing) (upd sts i st') -> svars st' = svars st -> sinbox st' = q -> stodo st' = os ->
        exists w', Ok (mkW (memory w) (upd (threads w) i (mkT (vars t) (inbox t) os None)) (log w ++ [(i, Nothing)])) = Ok w' /\ winv w') as Bad.
      { intros st' X1 X2 X3 X4. eexists. split; [reflexivity|]. exists (upd sts i st'), ((R1 ++ R2) ++ R'), u. cbn [threads memory log]. split; [|split; [|split; [exact E|econstructor; eauto]]].
        - apply K4. exists R1, R2, q. cbn [inbox todo cur]. split; [reflexivity|]. split; [exact I|]. split; [|exact F2]. unfold cur_ok. cbn. rewrite X2. auto.
        - eapply hinv_perm; [|exact H1]. rewrite !app_assoc. reflexivity. }
      destruct o; try (now apply Plain).
      + (* send *)
        destruct (nth_error (vars t) v) as [x|] eqn:Ex.
        2:{ apply (Bad (mkST (svars st) (sinbox st) os)); auto. eapply ss_send_bad; eauto. left. eapply all_none; eauto. }
        destruct (nth_error (threads w) j) as [tj|] eqn:Ej.
        2:{ apply (Bad (mkST (svars st) (sinbox st) os)); auto. eapply ss_send_bad; eauto. right. eapply all_none; eauto. }
        destruct (all_at _ _ _ _ V _ _ Ex) as (s & rx & Rx & L1 & L2 & L3 & L4 & _).
        assert (thread_ok (mkT (upd (vars t) v empty_sv) (inbox t) os None) (mkST (upd (svars st) v []) (sinbox st) os) (Rx ++ R2)) as TI.
        { exists Rx, R2, q. cbn [inbox todo cur]. split; [reflexivity|]. split; [exact I|]. split; [|exact F2]. unfold cur_ok. cbn. split; [exact (L4 _ _ _ vo_empty)|]. auto. }
        pose proof (K4 _ _ _ TI) as A'.
        destruct (nth_error (upd (threads w) i (mkT (upd (vars t) v empty_sv) (inbox t) os None)) j) as [uj|] eqn:Eu.
        2:{ exfalso. rewrite nth_upd in Eu. rewrite Ej in Eu. destruct (Nat.eqb i j); discriminate. }
        destruct (all_at _ _ _ _ A' _ _ Eu) as (sj & rj & Rj & M1 & (Ra & Rb & qj & N1 & N2 & N3 & N4) & M3 & M4 & _).
        eexists. split; [reflexivity|].
        exists (upd (upd sts i (mkST (upd (svars st) v []) (sinbox st) os)) j (mkST (svars sj) (sinbox sj ++ [s]) (stodo sj))), ((Ra ++ rx ++ Rb) ++ Rj), u.
        cbn [threads memory log]. split; [|split; [|split; [exact E|]]].
        * apply M4. exists Ra, (rx ++ Rb), (qj ++ [s]). cbn [inbox todo cur]. split; [reflexivity|]. split; [now apply all_snoc|]. split; [|exact N4].
          unfold cur_ok in *. cbn [cur todo vars svars sinbox stodo]. destruct (cur uj) as [[o p]|].
          -- destruct o; try (destruct N3 as (Z1 & Z2 & Z3 & Z4); split; [now rewrite Z1|auto]).
             destruct N3 as (y & l & Z1 & Z2 & Z3 & Z4). exists y, l. rewrite Z1. auto.
          -- destruct N3 as (Z1 & Z2 & Z3). split; [exact Z1|]. split; [now rewrite Z2|exact Z3].
        * eapply hinv_perm; [|exact H1]. rewrite L3. rewrite !app_assoc. apply Permutation_app_tail.
          transitivity (rx ++ rj ++ Rj).
          -- rewrite <- M3. rewrite !app_assoc. reflexivity.
          -- rewrite N1. rewrite !app_assoc. apply Permutation_app_tail. apply Permutation_app_tail. apply Permutation_app_comm.
        * econstructor; [exact S|]. eapply ss_send; eauto.
      + (* receive *)
        destruct (nth_error (vars t) v) as [old|] eqn:Ex.
        2:{ apply (Bad (mkST (svars st) (sinbox st) os)); auto. eapply ss_receive_bad; eauto. eapply all_none; eauto. }
        destruct (inbox t) as [|x rest] eqn:Ei.
        { exists w. split; [reflexivity|]. exists sts, R, u. auto. }
        inversion I as [|a b rx l m Rr R2' O1 O2 O3 O4 O5 O6]; subst. 
        destruct (sees_env SH _ _ _ _ _ V Ex) as (lv & Ev & _).
        eexists. split; [reflexivity|]. exists (upd sts i st), (((rx ++ R1) ++ Rr) ++ R'), u. cbn [with_threads threads memory log]. split; [|split; [|split; [exact E|now rewrite US]]].
        * apply K4. exists (rx ++ R1), Rr, m. cbn [inbox todo cur]. split; [reflexivity|]. split; [exact O2|]. split; [|exact F2]. unfold cur_ok. cbn [cur todo].
          exists b, lv. split; [auto|]. split; [exact Ev|]. split; [exact TD|]. eapply safe_set; [exact V|exact Ev|apply own_var; exact O1|reflexivity].
        * eapply hinv_perm; [|exact H1]. rewrite O3. rewrite !app_assoc. do 3 apply Permutation_app_tail. apply Permutation_app_comm.
  Qed.
  Lemma run_inv sched : forall w, winv w -> exists w', run w sched = Ok w' /\ winv w'.
  Proof.
    induction sched as [|i l IH]; intros w H; [exists w; auto|]. cbn [run]. destruct (tstep_inv w i H) as (w' & E & H'). rewrite E. cbn [bind]. auto.
  Qed.
End world.

(* the first state *)
Definition index (a : nat) (texts : list (list Z * Z * Z)) := combine (seq a (length texts)) texts.
Definition mk_sv (p : nat * (list Z * Z * Z)) : sv := let '(k, (l, i, n)) := p in mkSv (Some k) (Some k) i n (zlen l).
Definition mk_rf (p : nat * (list Z * Z * Z)) : chunk := RF (fst p) (fst p) (fst (fst (snd p)) ++ [0]).
Definition mk_pub (p : nat * (list Z * Z * Z)) : nat * nat * list Z := (fst p, fst p, fst (fst (snd p)) ++ [0]).
Lemma index_nth texts : forall a k, nth_error (index a texts) k = match nth_error texts k with Some t => Some ((a + k)%nat, t) | None => None end.
Proof.
  unfold index. induction texts as [|t l IH]; intros a [|k]; cbn; auto; [now rewrite Nat.add_0_r|].
  rewrite IH. destruct (nth_error l k); [|reflexivity]. do 2 f_equal. lia.
Qed.
Lemma index_in texts k t : In (k, t) (index 0 texts) <-> nth_error texts k = Some t.
Proof.
  split.
  - intros I. apply In_nth_error in I. destruct I as [j E]. rewrite index_nth in E. destruct (nth_error texts j) eqn:F; [|discriminate]. cbn in E. congruence.
  - intros E. apply (nth_error_In _ k). rewrite index_nth, E. reflexivity.
Qed.
Lemma index_keys texts : forall a, map fst (index a texts) = seq a (length texts).
Proof. unfold index. induction texts as [|t l IH]; intros a; cbn; [reflexivity|]. now rewrite IH. Qed.
Lemma index_rfc texts : forall a c, rfc c (map mk_rf (index a texts)) = if Nat.leb a c && Nat.ltb c (a + length texts) then 1%nat else 0%nat.
Proof.
  unfold index. induction texts as [|t l IH]; intros a c; [cbn [length]; destruct (Nat.leb_spec a c), (Nat.ltb_spec c (a + 0)); cbn; lia|].
  cbn [length seq combine map]. rewrite rfc_cons, IH. cbn [mk_rf is_rf fst]. destruct (Nat.eqb_spec c a), (Nat.leb_spec a c), (Nat.leb_spec (S a) c), (Nat.ltb_spec c (S a + length l)), (Nat.ltb_spec c (a + S (length l))); cbn; lia.
Qed.
Lemma no_pbs texts a : pbs (map mk_rf (index a texts)) = [] /\ pcs (map mk_rf (index a texts)) = [].
Proof. unfold index. revert a. induction texts as [|t l IH]; intros a; cbn; [auto|apply IH]. Qed.
Lemma pub_keys l : pub_b (map mk_pub l) = map fst l /\ pub_c (map mk_pub l) = map fst l.
Proof. unfold pub_b, pub_c. rewrite !map_map. auto. Qed.
Lemma start_hinv texts ts : hinv (memory (start texts ts)) (map mk_rf (index 0 texts)) (map mk_pub (index 0 texts)).
Proof.
  destruct (no_pbs texts 0) as [N1 N2]. destruct (pub_keys (index 0 texts)) as [K1 K2].
  assert (forall x, In x (map mk_rf (index 0 texts)) -> exists k t, nth_error texts k = Some t /\ x = RF k k (fst (fst t) ++ [0])) as X.
  { intros x I. apply in_map_iff in I. destruct I as ([k t] & <- & I). apply index_in in I. exists k, t. auto. }
  constructor; rewrite ?N1, ?N2, ?K1, ?K2, ?app_nil_r, ?index_keys; try apply seq_NoDup.
  - intros c b t I. destruct (X _ I) as (k & t' & E & Eq). injection Eq as -> -> ->. apply in_map_iff. exists (k, t'). split; [reflexivity|]. now apply index_in.
  - intros c b t I. apply in_map_iff in I. destruct I as ([k t'] & Eq & I). cbn in Eq. injection Eq as <- <- <-. apply index_in in I. cbn [start memory bufs cnts].
    rewrite !nth_error_map, I. rewrite index_rfc. apply nth_error_lt in I. replace (Nat.leb 0 k && Nat.ltb k (0 + length texts)) with true by lia. cbn. auto.
  - intros b t I. destruct (X _ I) as (k & t' & E & Eq). discriminate.
  - intros b t I. destruct (X _ I) as (k & t' & E & Eq). discriminate.
  - intros b t E. cbn [start memory bufs] in E. rewrite nth_error_map in E. destruct (nth_error texts b) eqn:E2; [|discriminate]. apply nth_error_lt in E2. apply in_seq. lia.
  - intros b t E. cbn [start memory cnts] in E. rewrite nth_error_map in E. destruct (nth_error texts b) eqn:E2; [|discriminate]. apply nth_error_lt in E2. apply in_seq. lia.
Qed.
Lemma start_shr texts ts k : nth_error (shr (memory (start texts ts))) k = match nth_error texts k with Some (l, i, n) => Some (mkSv (Some k) (Some k) i n (zlen l)) | None => None end.
Proof.
  cbn [start memory shr]. rewrite nth_error_map. pose proof (index_nth texts 0 k) as K. unfold index in K. rewrite K. destruct (nth_error texts k) as [[[l i] n]|]; reflexivity.
Qed.
Lemma start_sees texts ts : slices texts -> forall s v, nth_error (shr (memory (start texts ts))) s = Some v ->
  exists t, nth_error (map seen texts) s = Some t /\ sees (map mk_rf (index 0 texts)) [] v t.
Proof.
  intros SL s v E. rewrite start_shr in E. destruct (nth_error texts s) as [[[l i] n]|] eqn:E1; [|discriminate]. injection E as <-.
  pose proof (proj1 (Forall_forall _ _) SL _ (nth_error_In _ _ E1)) as (I & N & B).
  exists (ztake n (zdrop i l)). split; [now rewrite nth_error_map, E1|].
  exists [RF s s (l ++ [0])]. split.
  - replace (ztake n (zdrop i l)) with (ztake n (zdrop i (l ++ [0]))).
    + constructor; auto; [now rewrite zlen_app|]. pose proof (zlen_nonneg l). rewrite znth_z by lia. rewrite zlen_to_nat, nth_error_app2, Nat.sub_diag by lia. reflexivity.
    + unfold ztake, zdrop, zlen in *. rewrite skipn_app, firstn_app. replace (Z.to_nat n - length (skipn (Z.to_nat i) l))%nat with 0%nat by (rewrite skipn_length; lia). cbn. apply app_nil_r.
  - intros x [<-|[]]. cbn [app]. apply in_map_iff. exists (s, (l, i, n)). split; [reflexivity|]. now apply index_in.
Qed.
Lemma op_ok_any texts ts o : op_ok texts o -> op_any (shr (memory (start texts ts))) o.
Proof.
  assert (forall x, src_ok texts x -> src_fine (shr (memory (start texts ts))) x) as K.
  { intros [w|s]; cbn [src_ok src_fine]; [auto|]. intros L. apply nth_error_Some. rewrite start_shr. destruct (nth_error texts s) as [[[l i] n]|] eqn:E; [discriminate|]. apply nth_error_None in E. lia. }
  destruct o as [v l|v|v x|v w|v x i n|v x i y|v x i n|x i|x y|[w|s]|v j|v]; cbn [op_ok op_any op_fine]; auto; try (intros [H1 H2]; auto).
  intros H. rewrite start_shr. destruct (nth_error texts s) as [[[l i] n]|]; [|tauto]. eexists. split; [reflexivity|]. exact H.
Qed.
Lemma start_env n : env_ok (repeat empty_sv n) (repeat [] n) [].
Proof. induction n as [|n IH]; [now constructor|]. cbn. econstructor; [constructor|exact IH|reflexivity]. Qed.
Lemma start_inv texts ts : progs_ok texts ts ->
  winv (map mk_rf (index 0 texts)) (shr (memory (start texts ts))) (map seen texts) (sinit ts) (start texts ts).
Proof.
  intros P. exists (sinit ts), [], (map mk_pub (index 0 texts)). split; [|split; [apply start_hinv|split; [reflexivity|constructor]]].
  assert (forall ts', Forall (fun t => Forall (op_any (shr (memory (start texts ts)))) (snd t)) ts' ->
    all_ok (thread_ok (map mk_rf (index 0 texts)) (shr (memory (start texts ts))) (map seen texts)) (map (fun t => mkT (repeat empty_sv (fst t)) [] (snd t) None) ts') (sinit ts') []) as K.
  { induction 1 as [|t l H1 H2 IH]; [now constructor|]. cbn. apply ao_cons with (r := []) (R' := []); [|exact IH|reflexivity]. exists [], [], []. split; [reflexivity|]. split; [now constructor|]. split; [|exact H1]. unfold cur_ok. cbn. split; [apply start_env|auto]. }
  cbn [start threads]. apply K. eapply Forall_impl; [|exact P]. intros t H. eapply Forall_impl; [|exact H]. intros o. apply op_ok_any.
Qed.

Lemma linearizable texts ts sched : slices texts -> progs_ok texts ts ->
  exists w ss, run (start texts ts) sched = Ok w /\ srun (map seen texts) (sinit ts) (log w) ss /\
    Forall2 (fun t s => cur t = None -> todo t = stodo s) (threads w) ss.
Proof.
  intros SL P. destruct (run_inv _ _ _ _ (start_sees texts ts SL) sched _ (start_inv texts ts P)) as (w & E & (ss & R & u & A & H & E2 & S)).
  exists w, ss. split; [exact E|]. split; [exact S|]. clear -A. induction A as [|t s r l m R' R H A IH]; constructor; auto.
  intros C. destruct H as (R1 & R2 & q & _ & _ & K & _). unfold cur_ok in K. rewrite C in K. symmetry. apply K.
Qed.
Lemma env_free e vs R : env_ok e vs R -> Forall (fun v => scnt v = None) e -> R = [].
Proof.
  induction 1 as [R E|v s r l m R' R H A IH P]; intros F; [exact E|]. inversion F as [|v' l' F1 F2]; subst. rewrite (IH F2) in P.
  assert (r = []) as -> by (destruct H; [reflexivity|discriminate]). now apply Permutation_sym, Permutation_nil in P.
Qed.
Lemma released texts ts sched w : slices texts -> progs_ok texts ts -> run (start texts ts) sched = Ok w -> Forall finished (threads w) ->
  (exists n, bufs (memory w) = bufs (memory (start texts ts)) ++ repeat None n) /\ (exists n, cnts (memory w) = cnts (memory (start texts ts)) ++ repeat None n).
Proof.
  intros SL P E0 F. destruct (run_inv _ _ _ _ (start_sees texts ts SL) sched _ (start_inv texts ts P)) as (w' & E & (ss & R & u & A & H & E2 & S)).
  assert (w' = w) as -> by congruence. clear E E0 S.
  assert (R = []) as ->.
  { clear -A F. induction A as [R E|t s r l m R' R H A IH Pm]; [exact E|]. inversion F as [|t' l' F1 F2]; subst. rewrite (IH F2) in Pm.
    assert (r = []) as ->.
    { destruct H as (R1 & R2 & q & P & I & C & _). destruct F1 as (C0 & I0 & V0). unfold cur_ok in C. rewrite C0 in C. destruct C as (V & _). rewrite I0 in I.
      assert (R1 = []) as -> by (eapply env_free; eauto). assert (R2 = []) as -> by (inversion I; auto). now apply Permutation_sym, Permutation_nil in P. }
    now apply Permutation_sym, Permutation_nil in Pm. }
  cbn [app] in H. set (SH := map mk_rf (index 0 texts)) in *. destruct (no_pbs texts 0) as [N1 N2]. fold SH in N1, N2.
  assert (forall k l i n, nth_error texts k = Some (l, i, n) -> In (k, k, l ++ [0]) u) as X.
  { intros k l i n E. apply (h_rf _ _ _ H). apply in_map_iff. exists (k, (l, i, n)). split; [reflexivity|]. now apply index_in. }
  assert (forall c b t, In (c, b, t) u -> (c < length texts)%nat /\ b = c) as Y.
  { intros c b t I. destruct (h_pub _ _ _ H _ _ _ I) as (_ & _ & L). unfold SH in L. rewrite index_rfc in L. destruct (Nat.leb_spec 0 c), (Nat.ltb_spec c (0 + length texts)); cbn in L; try lia.
    split; [lia|]. destruct (nth_error texts c) as [[[l i] n]|] eqn:E; [|apply nth_error_None in E; lia]. destruct (pub_fun _ _ _ _ _ _ _ (h_nc _ _ _ H) I (X _ _ _ _ E)). auto. }
  assert (forall {B} (m0 m : list (option B)), length m0 = length texts -> (forall k, (k < length texts)%nat -> nth_error m k = nth_error m0 k) ->
     (forall k x, nth_error m k = Some (Some x) -> (k < length texts)%nat) -> exists n, m = m0 ++ repeat None n) as L.
  { intros B m0 m L0 L1 L2. exists (length m - length texts)%nat. apply nth_error_ext. intros k. destruct (Nat.lt_ge_cases k (length texts)) as [K|K].
    - rewrite nth_error_app1 by lia. auto.
    - rewrite nth_error_app2 by lia. destruct (nth_error m k) as [[x|]|] eqn:E.
      + apply L2 in E. lia.
      + apply nth_error_lt in E. symmetry. rewrite nth_error_repeat; [reflexivity|lia].
      + apply nth_error_None in E. symmetry. apply nth_error_None. rewrite repeat_length. lia. }
  split; apply L.
  - cbn. now rewrite map_length.
  - intros k K. destruct (nth_error texts k) as [[[l i] n]|] eqn:E; [|apply nth_error_None in E; lia]. cbn [start memory bufs]. rewrite nth_error_map, E. cbn [fst].
    destruct (h_pub _ _ _ H _ _ _ (X _ _ _ _ E)) as (B & _). exact B.
  - intros k x E. apply (h_lb _ _ _ H) in E. rewrite N1, app_nil_r in E. apply in_map_iff in E. destruct E as ([[c b] t] & E & I). cbn in E. subst. apply Y in I. lia.
  - cbn. now rewrite map_length.
  - intros k K. destruct (nth_error texts k) as [[[l i] n]|] eqn:E; [|apply nth_error_None in E; lia]. cbn [start memory cnts]. rewrite nth_error_map, E.
    destruct (h_pub _ _ _ H _ _ _ (X _ _ _ _ E)) as (_ & B & _). rewrite B. unfold SH. rewrite index_rfc. replace (Nat.leb 0 k && Nat.ltb k (0 + length texts)) with true by lia. reflexivity.
  - intros k x E. apply (h_lc _ _ _ H) in E. rewrite N2, app_nil_r in E. apply in_map_iff in E. destruct E as ([[c b] t] & E & I). cbn in E. subst. apply Y in I. lia.
Qed.

(* two threads share the variable that shows "BC" of "ABCD" and the variable that shows "xyz" of "xyz" *)
Definition demo_texts : list (list Z * Z * Z) := [([65; 66; 67; 68], 1, 2); ([120; 121; 122], 0, 3)].
Definition demo_programs : list (nat * list op) :=
  [(2%nat, [OSub 0 (Sh 0) 1 1; OInsert 1 (Own 0) 1 (Sh 1); OBuffer (Own 0); OSend 1 1; OCopy 1 (Sh 0); OClear 0; OClear 1]);
   (1%nat, [OCopy 0 (Sh 0); OCompare (Own 0) (Sh 0); OBuffer (Own 0); OReceive 0; OBuffer (Own 0); OAt (Own 0) 7; OClear 0])].
Definition demo_schedule : list nat := concat (repeat [0; 1; 1]%nat 60) ++ repeat 0%nat 40.
Lemma demo_ok : slices demo_texts /\ progs_ok demo_texts demo_programs.
Proof.
  split; unfold slices, progs_ok; repeat (apply Forall_cons || apply Forall_nil); cbn; repeat split; auto; try lia.
Qed.
Lemma demo_log : match run (start demo_texts demo_programs) demo_schedule with
  | Ok w => log w = [(1%nat, Done); (0%nat, Done); (1%nat, Ordering Eq); (1%nat, Text [66; 67]); (0%nat, Done); (0%nat, Text [67]); (0%nat, Done);
                     (1%nat, Done); (0%nat, Done); (1%nat, Text [67; 120; 121; 122]); (1%nat, Failed); (0%nat, Done); (1%nat, Done); (0%nat, Done)] /\
            length (bufs (memory w)) = 5%nat /\ Forall finished (threads w)
  | _ => False end.
Proof. vm_compute. split; [reflexivity|]. split; [reflexivity|]. repeat (apply Forall_cons || apply Forall_nil); repeat split; repeat (apply Forall_cons || apply Forall_nil); reflexivity. Qed.

(* Buffer() of a variable that several threads can see and that does not end where its text ends *)
Definition race (o : op) : list nat -> res world := run (start [([65; 66; 67], 0, 2)] [(0%nat, [OBuffer (Sh 0)]); (0%nat, [o])]).
Lemma race_buffer : race (OBuffer (Sh 0)) ([0; 0; 1; 1] ++ repeat 0 20 ++ repeat 1 5)%nat = UB.
Proof. vm_compute. reflexivity. Qed.
Lemma race_at : race (OAt (Sh 0) 0) ([0; 0; 1; 1] ++ repeat 0 20 ++ repeat 1 5)%nat = UB.
Proof. vm_compute. reflexivity. Qed.
Lemma shared_buffer : exists texts sched1 sched2, slices texts /\
  run (start texts [(0%nat, [OBuffer (Sh 0)]); (0%nat, [OBuffer (Sh 0)])]) sched1 = UB /\
  run (start texts [(0%nat, [OBuffer (Sh 0)]); (0%nat, [OAt (Sh 0) 0])]) sched2 = UB.
Proof.
  exists [([65; 66; 67], 0, 2)]. do 2 eexists. split; [repeat constructor; cbn; lia|]. split; [exact race_buffer|exact race_at].
Qed.
