From Coq Require Import ZifyBool ZifyNat.
From Verif Require Import Base BaseFacts PoaModel PoaSpec.
Open Scope Z_scope.

Lemma load_alloc {V} (h : heap V) x p v : load h p = Ok v -> load (h ++ [x]) p = Ok v.
Proof.
  unfold load. destruct (nth_error h (fst p)) eqn:E; [|discriminate]. intros H.
  rewrite nth_error_app1 by (eapply nth_error_lt; eauto). rewrite E. exact H.
Qed.
Lemma store_ok {V} (h : heap V) p v0 v : load h p = Ok v0 -> exists h', store h p v = Ok h' /\
  load h' p = Ok v /\ (forall q, q <> p -> load h' q = load h q) /\ length h' = length h /\
  (forall b c, nth_error h b = Some (Some c) -> exists c', nth_error h' b = Some (Some c') /\ zlen c' = zlen c).
Proof.
  unfold load, store. destruct (nth_error h (fst p)) as [[c|]|] eqn:E; try discriminate. intros H.
  pose proof (nth_error_lt _ _ _ E) as L.
  unfold aget, znth in H. destruct (snd p <? 0) eqn:N; [discriminate|].
  destruct (nth_error c (Z.to_nat (snd p))) eqn:Ec; [|discriminate]. pose proof (nth_error_lt _ _ _ Ec) as Lc.
  unfold aset. replace ((0 <=? snd p) && (snd p <? zlen c)) with true by (unfold zlen; lia). cbn [bind].
  eexists. split; [reflexivity|]. split; [|split; [|split]].
  - rewrite upd_same by auto. unfold aget, znth. rewrite N. rewrite upd_same by auto. reflexivity.
  - intros [b cc] Nq. cbn [fst snd]. destruct (Nat.eq_dec b (fst p)) as [->|Nb].
    + rewrite upd_same by auto. rewrite E. unfold aget, znth. destruct (cc <? 0) eqn:Nc; [reflexivity|].
      rewrite upd_other; [reflexivity|]. intros X. apply Nq. destruct p as [pb pc]. cbn [fst snd] in *. f_equal. lia.
    + rewrite upd_other by auto. reflexivity.
  - apply upd_length.
  - intros b c0 Hb. destruct (Nat.eq_dec b (fst p)) as [->|Nb].
    + rewrite upd_same by auto. eexists. split; [reflexivity|]. rewrite E in Hb. inversion Hb. subst.
      unfold zlen. now rewrite upd_length.
    + rewrite upd_other by auto. eauto.
Qed.

(* the allocator owns its blocks, which are large enough *)
Record ainv {V} (h : heap V) (a : poa) : Prop := mkAinv {
  ai_bs : 1 <= bsize a;
  ai_lo : 0 <= allocated a <= zlen (blocks a) * bsize a;
  ai_nd : NoDup (blocks a);
  ai_in : forall b, In b (blocks a) -> exists c, nth_error h b = Some (Some c) /\ zlen c = bsize a }.
(* the address of object i *)
Definition addr (a : poa) (i : Z) (p : ptr) : Prop :=
  znth (blocks a) (i / bsize a) = Some (fst p) /\ snd p = i mod bsize a.
Lemma addr_inj {V} (h : heap V) a i j p : ainv h a -> 0 <= i -> 0 <= j -> addr a i p -> addr a j p -> i = j.
Proof.
  intros [B _ N _] I J [H1 H2] [K1 K2].
  assert (0 <= i / bsize a) by (apply Z.div_pos; lia). assert (0 <= j / bsize a) by (apply Z.div_pos; lia).
  rewrite znth_z in H1, K1 by auto.
  assert (Z.to_nat (i / bsize a) = Z.to_nat (j / bsize a)) as Q.
  { eapply NoDup_nth_error; eauto. eapply nth_error_lt; eauto. congruence. }
  pose proof (Z.div_mod i (bsize a) ltac:(lia)). pose proof (Z.div_mod j (bsize a) ltac:(lia)).
  assert (i / bsize a = j / bsize a) as Q' by lia. rewrite <- Q' in *. lia.
Qed.
Lemma get_ok {V} (h : heap V) a i : ainv h a -> 0 <= i -> i < allocated a ->
  exists p, poa_get a i = Ok (Some p) /\ addr a i p /\ exists c, nth_error h (fst p) = Some (Some c) /\ 0 <= snd p < zlen c.
Proof.
  intros [B L N I] P Q. unfold poa_get.
  replace (i >=? allocated a) with false by lia. replace (bsize a =? 0) with false by lia.
  cbv zeta. rewrite Z.quot_div_nonneg, Z.rem_mod_nonneg by lia.
  assert (0 <= i / bsize a) as P1 by (apply Z.div_pos; lia).
  assert (i / bsize a < zlen (blocks a)) as P2 by (apply Z.div_lt_upper_bound; lia).
  rewrite znth_z by auto. destruct (nth_error (blocks a) (Z.to_nat (i / bsize a))) as [b|] eqn:E.
  2:{ exfalso. apply nth_error_None in E. unfold zlen in P2. lia. }
  pose proof (Z.mod_pos_bound i (bsize a) ltac:(lia)) as M.
  replace ((0 <=? i mod bsize a) && (i mod bsize a <? bsize a)) with true by lia.
  exists (b, i mod bsize a). split; [reflexivity|]. split; [split; [rewrite znth_z by auto; exact E|reflexivity]|].
  destruct (I b (nth_error_In _ _ E)) as (c & Hc & Lc). exists c. cbn [fst snd]. split; [auto|lia].
Qed.
Lemma get_none a i : allocated a <= i -> poa_get a i = Ok None.
Proof. intros H. unfold poa_get. now replace (i >=? allocated a) with true by lia. Qed.
(* Create: the allocator grows by one; old addresses stay *)
Lemma create_ok {V} (d : V) (h : heap V) a : ainv h a -> exists h' a' p, poa_create d h a = Ok (h', a', Some p) /\
  ainv h' a' /\ bsize a' = bsize a /\ allocated a' = allocated a + 1 /\ addr a' (allocated a) p /\
  (forall i q, addr a i q -> addr a' i q) /\ (exists x, h' = h \/ h' = h ++ [x]) /\
  (forall i q, allocated a <= i -> addr a' i q -> load h' q = Ok d \/ h' = h /\ addr a i q) /\
  (exists c, nth_error h' (fst p) = Some (Some c) /\ 0 <= snd p < zlen c).
Proof.
  intros H. destruct H as [B L N I]. unfold poa_create.
  assert (exists h' bl, (if allocated a =? zlen (blocks a) * bsize a
                 then do (h, b) <- alloc d h (bsize a); Ok (h, blocks a ++ [b])
                 else Ok (h, blocks a)) = Ok (h', bl) /\ ainv h' (mkPoa (bsize a) (allocated a + 1) bl) /\
                 (forall k b, znth (blocks a) k = Some b -> znth bl k = Some b) /\ (exists x, h' = h \/ h' = h ++ [x]) /\
                 (forall i q, allocated a <= i -> addr (mkPoa (bsize a) (allocated a + 1) bl) i q -> load h' q = Ok d \/ h' = h /\ addr a i q))
    as (h' & bl & -> & HI & HB & HH & HF).
  { destruct (Z.eqb_spec (allocated a) (zlen (blocks a) * bsize a)) as [E|E].
    - unfold alloc. replace (bsize a <? 0) with false by lia. cbn [bind].
      eexists. eexists. split; [reflexivity|]. split; [|split; [|split]].
      + constructor; cbn [bsize allocated blocks]; auto.
        * unfold zlen in *. rewrite app_length. cbn [length]. nia.
        * assert (forall b, In b (blocks a) -> b <> length h) as F.
          { intros b Ib ->. destruct (I _ Ib) as (c & Hc & _). apply nth_error_lt in Hc. lia. }
          clear -N F. induction (blocks a) as [|b l IH]; cbn; [constructor; auto; constructor|].
          inversion N; subst. constructor.
          -- rewrite in_app_iff. cbn. intros [X|[X|[]]]; [auto|]. apply (F b); cbn; auto.
          -- apply IH; auto. intros b' Ib'. apply F. cbn. auto.
        * intros b Ib. apply in_app_iff in Ib. destruct Ib as [Ib|[<-|[]]].
          -- destruct (I _ Ib) as (c & Hc & Lc). exists c. rewrite nth_error_app1 by (eapply nth_error_lt; eauto). auto.
          -- rewrite nth_error_app2, Nat.sub_diag by lia. cbn. eexists. split; [reflexivity|]. rewrite zlen_repeat. lia.
      + unfold znth. intros k b. destruct (k <? 0); [discriminate|]. intros Hk. rewrite nth_error_app1; auto. eapply nth_error_lt; eauto.
      + eexists. right. reflexivity.
      + intros i q Li [Q1 Q2]. cbn [bsize blocks] in *. left.
        assert (zlen (blocks a) <= i / bsize a) as Q3 by (apply Z.div_le_lower_bound; lia).
        pose proof (zlen_nonneg (blocks a)). rewrite znth_z in Q1 by lia. rewrite nth_error_app2 in Q1 by (unfold zlen in *; lia).
        destruct (Z.to_nat (i / bsize a) - length (blocks a))%nat as [|[|j]] eqn:Ej; try discriminate. cbn in Q1. inversion Q1 as [Q4].
        unfold load. rewrite <- Q4. rewrite nth_error_app2, Nat.sub_diag by lia. cbn [nth_error].
        pose proof (Z.mod_pos_bound i (bsize a) ltac:(lia)) as M. rewrite Q2.
        unfold aget. rewrite znth_z by lia. rewrite nth_error_repeat by lia. reflexivity.
    - exists h, (blocks a). split; [reflexivity|]. split; [|split; [auto|split; [exists None; auto|]]].
      2:{ intros i q Li [Q1 Q2]. right. split; [auto|]. split; auto. }
      constructor; cbn [bsize allocated blocks]; auto. lia. }
  cbn [bind bsize allocated].
  replace (allocated a + 1 - 1) with (allocated a) by lia.
  destruct (get_ok h' (mkPoa (bsize a) (allocated a + 1) bl) (allocated a) HI) as (p & E & A & C); cbn [allocated]; [lia|lia|].
  rewrite E. cbn [bind]. exists h', (mkPoa (bsize a) (allocated a + 1) bl), p. split; [reflexivity|].
  repeat split; auto; try apply HI; try apply A.
  - cbn [bsize blocks]. apply HB. apply H.
  - cbn [bsize]. apply H.
Qed.
Lemma free_all_ok {V} l : forall h : heap V, NoDup l -> (forall b, In b l -> exists c, nth_error h b = Some (Some c)) ->
  exists h', free_all h l = Ok h' /\ (forall b, In b l -> nth_error h' b = Some None) /\ (forall b, ~ In b l -> nth_error h' b = nth_error h b).
Proof.
  induction l as [|b l IH]; intros h N H; [exists h; repeat split; auto; intros b []|].
  inversion N; subst. cbn [free_all]. unfold free at 1. destruct (H b (or_introl eq_refl)) as (c & Hc). rewrite Hc. cbn [bind].
  pose proof (nth_error_lt _ _ _ Hc) as L.
  destruct (IH (upd h b None)) as (h' & R & A & O); auto.
  { intros b' Ib. destruct (H b' (or_intror Ib)) as (c' & Hc'). exists c'. rewrite upd_other; auto. intros ->. auto. }
  exists h'. split; [exact R|]. split.
  - intros b' [<-|Ib]; [|auto]. rewrite O by auto. now apply upd_same.
  - intros b' Nb. rewrite O by (intros X; apply Nb; cbn; auto). apply upd_other. intros ->. apply Nb. cbn. auto.
Qed.

(* ---- the client ------------------------------------------------------------------------- *)
Section client.
  Context {V : Type} (d : V).
  Record pinv (w : pworld V) (s : objs) : Prop := mkPinv {
    p_a : ainv (pheap w) (pal w);
    p_k : kept w = map fst s;
    p_n : allocated (pal w) = zlen s;
    p_ad : forall i p v, nth_error s i = Some (p, v) -> addr (pal w) (Z.of_nat i) p;
    p_v : forall i p v, nth_error s i = Some (p, v) -> load (pheap w) p = Ok v;
    p_f : forall i p, zlen s <= i -> addr (pal w) i p -> load (pheap w) p = Ok d }.
  Lemma pinit_inv bs : 1 <= bs -> pinv (pinit V bs) [].
  Proof.
    intros H. constructor; cbn [pinit pheap pal kept poa_new]; auto.
    - constructor; cbn; auto; try lia; try (intros b []); try constructor.
    - intros [|i] p v E; discriminate.
    - intros [|i] p v E; discriminate.
    - intros i p _ [A _]. cbn in A. unfold znth in A. destruct (_ <? 0) in A; [discriminate|]. destruct (Z.to_nat _) in A; discriminate.
  Qed.
  Lemma nth_fst (s : @objs V) k : nth_error (map fst s) k = match nth_error s k with Some (p, _) => Some p | None => None end.
  Proof. rewrite nth_error_map. destruct (nth_error s k) as [[p v]|]; reflexivity. Qed.
  Lemma pstep_ok w s o : pinv w s -> ok1 (length s) o -> exists w' x s', pstep d w o = Ok (w', x) /\ aspec d s o x s' /\ pinv w' s'.
  Proof.
    intros [A K N AD VV F] L. destruct o as [|i|k v|k|n]; cbn [pstep ok1] in *.
    - destruct (create_ok d (pheap w) (pal w) A) as (h' & a' & p & -> & A' & B' & N' & AP & OLD & (x & HX) & FX & (c & Hc & Lc)).
      cbn [bind]. eexists. eexists. exists (s ++ [(p, d)]). split; [reflexivity|].
      assert (forall q v, load (pheap w) q = Ok v -> load h' q = Ok v) as LD.
      { intros q v Hq. destruct HX as [->| ->]; auto using load_alloc. }
      assert (forall i q, zlen s <= i -> addr a' i q -> load h' q = Ok d) as FD.
      { intros i q Li Aq. destruct (FX i q ltac:(lia) Aq) as [X|[-> X]]; [auto|eauto]. }
      split.
      + apply as_create. intros X. apply in_map_iff in X. destruct X as ([q v] & <- & Iq). apply In_nth_error in Iq. destruct Iq as [i Iq].
        pose proof (nth_error_lt _ _ _ Iq). cbn [fst] in *.
        pose proof (addr_inj h' a' (Z.of_nat i) (allocated (pal w)) q A' ltac:(lia) ltac:(unfold zlen in *; lia) (OLD _ _ (AD _ _ _ Iq)) AP). unfold zlen in *. lia.
      + constructor; cbn [pheap pal kept]; auto.
        * rewrite map_app, K. reflexivity.
        * rewrite zlen_app, zlen_cons, zlen_nil. lia.
        * intros i q v E. destruct (Nat.lt_ge_cases i (length s)) as [C|C].
          -- rewrite nth_error_app1 in E by auto. eauto.
          -- rewrite nth_error_app2 in E by auto. destruct (i - length s)%nat as [|j] eqn:Ej; [|destruct j; discriminate]. cbn in E. inversion E; subst.
             replace (Z.of_nat i) with (allocated (pal w)) by (unfold zlen in *; lia). exact AP.
        * intros i q v E. destruct (Nat.lt_ge_cases i (length s)) as [C|C].
          -- rewrite nth_error_app1 in E by auto. eauto.
          -- rewrite nth_error_app2 in E by auto. destruct (i - length s)%nat as [|j] eqn:Ej; [|destruct j; discriminate]. cbn in E. inversion E; subst.
             eapply FD; [|exact AP]. lia.
        * intros i q Li. apply FD. rewrite zlen_app in Li. pose proof (zlen_nonneg [(p, d)]). lia.
    - destruct (Z.lt_ge_cases i (zlen s)) as [C|C].
      + destruct (get_ok (pheap w) (pal w) i A L ltac:(lia)) as (p & -> & AP & _). cbn [bind].
        destruct (nth_error s (Z.to_nat i)) as [[q v]|] eqn:E.
        2:{ apply nth_error_None in E. unfold zlen in C. lia. }
        assert (q = p).
        { pose proof (AD _ _ _ E) as [Q1 Q2]. destruct AP as [Q3 Q4]. rewrite Z2Nat.id in * by auto. destruct p, q; cbn [fst snd] in *. congruence. }
        subst q. eexists. eexists. exists s. split; [reflexivity|]. split; [|constructor; auto].
        pose proof (as_get d s (Z.to_nat i) p v E) as R. rewrite Z2Nat.id in R by auto. exact R.
      + rewrite get_none by lia. cbn [bind]. eexists. eexists. exists s. split; [reflexivity|]. split; [|constructor; auto].
        pose proof (as_get_none d s (Z.to_nat i) ltac:(unfold zlen in C; lia)) as R. rewrite Z2Nat.id in R by auto. exact R.
    - rewrite K, nth_fst. destruct (nth_error s k) as [[p v0]|] eqn:E; [|apply nth_error_None in E; lia].
      destruct (store_ok (pheap w) p v0 v (VV _ _ _ E)) as (h' & -> & L1 & L2 & L3 & L4). cbn [bind].
      eexists. eexists. exists (upd s k (p, v)). split; [reflexivity|]. split; [eapply as_write; eauto|].
      assert (forall i q v', nth_error (upd s k (p, v)) i = Some (q, v') -> exists v'', nth_error s i = Some (q, v'') /\ (i <> k -> v' = v'')) as U.
      { intros i q v' Ei. destruct (Nat.eq_dec k i) as [->|Nk].
        - rewrite upd_same in Ei by auto. inversion Ei; subst. exists v0. split; [auto|congruence].
        - rewrite upd_other in Ei by auto. exists v'. auto. }
      constructor; cbn [pheap pal kept]; auto.
      + destruct A as [A1 A2 A3 A4]. constructor; auto. intros b Ib. destruct (A4 b Ib) as (c & Hc & Lc). destruct (L4 b c Hc) as (c' & Hc' & Lc'). exists c'. split; [auto|lia].
      + apply nth_error_ext. intros i. rewrite !nth_fst. destruct (Nat.eq_dec k i) as [->|Nk].
        * rewrite E, upd_same by auto. reflexivity.
        * rewrite upd_other by auto. reflexivity.
      + unfold zlen in *. rewrite upd_length. auto.
      + intros i q v' Ei. destruct (U _ _ _ Ei) as (v'' & Ei' & _). eauto.
      + intros i q v' Ei. destruct (Nat.eq_dec k i) as [->|Nk].
        * rewrite upd_same in Ei by auto. inversion Ei; subst. auto.
        * rewrite upd_other in Ei by auto. rewrite L2; [eauto|]. intros ->. apply Nk.
          pose proof (addr_inj _ _ (Z.of_nat k) (Z.of_nat i) p A ltac:(lia) ltac:(lia) (AD _ _ _ E) (AD _ _ _ Ei)). lia.
      + intros i q Li Aq. unfold zlen in Li. rewrite upd_length in Li. rewrite L2; [eapply F; [exact Li|auto]|]. intros ->.
        pose proof (addr_inj _ _ (Z.of_nat k) i p A ltac:(lia) ltac:(lia) (AD _ _ _ E) Aq). lia.
    - rewrite K, nth_fst. destruct (nth_error s k) as [[p v0]|] eqn:E; [|apply nth_error_None in E; lia].
      rewrite (VV _ _ _ E). cbn [bind]. eexists. eexists. exists s. split; [reflexivity|]. split; [eapply as_read; eauto|constructor; auto].
    - unfold alloc. replace (Z.of_nat n <? 0) with false by lia. cbn [bind]. eexists. eexists. exists s. split; [reflexivity|]. split; [apply as_other|].
      constructor; cbn [pheap pal kept]; auto.
      + destruct A as [A1 A2 A3 A4]. constructor; auto. intros b Ib. destruct (A4 b Ib) as (c & Hc & Lc). exists c. rewrite nth_error_app1 by (eapply nth_error_lt; eauto). auto.
      + intros i p v Ei. apply load_alloc. eauto.
      + intros i p Li Ai. apply load_alloc. eauto.
  Qed.
  Lemma prun_ok ops : forall w s, pinv w s -> oks (length s) ops ->
    exists w' xs s', prun d w ops = Ok (w', xs) /\ aspecs d s ops xs s' /\ pinv w' s'.
  Proof.
    induction ops as [|o ops IH]; intros w s P L; [exists w, [], s; split; [reflexivity|split; [constructor|exact P]]|].
    destruct L as [L1 L2]. destruct (pstep_ok w s o P L1) as (w1 & x & s1 & R & S1 & P1). cbn [prun]. rewrite R. cbn [bind].
    destruct (IH w1 s1 P1) as (w2 & xs & s2 & R2 & S2 & P2).
    { destruct o; inversion S1; subst; try rewrite app_length, Nat.add_1_r; try rewrite upd_length; auto. }
    rewrite R2. cbn [bind]. exists w2, (x :: xs), s2. split; [reflexivity|split; [econstructor; eauto|exact P2]].
  Qed.
  Lemma poa_history bs ops : 1 <= bs -> oks 0 ops ->
    exists w xs s, prun d (pinit V bs) ops = Ok (w, xs) /\ aspecs d [] ops xs s.
  Proof. intros B L. destruct (prun_ok ops _ _ (pinit_inv bs B) L) as (w & xs & s & R & S & _). eauto 6. Qed.
  (* once the i-th object exists its address is what Get returns *)
  Lemma spec_keeps ops : forall s xs s' i p v, aspecs d s ops xs s' -> nth_error s i = Some (p, v) -> exists v', nth_error s' i = Some (p, v').
  Proof.
    induction ops as [|o ops IH]; intros s xs s' i p v H E; inversion H; subst; [eauto|].
    assert (exists v1, nth_error s1 i = Some (p, v1)) as [v1 E1].
    { match goal with H : aspec _ _ _ _ _ |- _ => inversion H; subst; eauto end.
      - exists v. rewrite nth_error_app1; [auto|]. eapply nth_error_lt; eauto.
      - destruct (Nat.eq_dec k i) as [->|Nk]; [|rewrite upd_other by auto; eauto].
        rewrite upd_same by (eapply nth_error_lt; eauto). match goal with H : nth_error s i = Some (?q, _) |- _ => replace q with p by congruence end. eauto. }
    eauto.
  Qed.
  Lemma poa_stable bs ops1 ops2 w1 xs1 w2 xs2 w3 p i : 1 <= bs -> oks 0 (ops1 ++ PCreate :: ops2) ->
    i = length (filter (fun o => match o with PCreate => true | _ => false end) ops1) ->
    prun d (pinit V bs) ops1 = Ok (w1, xs1) -> pstep d w1 PCreate = Ok (w2, PPtr (Some p)) -> prun d w2 ops2 = Ok (w3, xs2) ->
    poa_get (pal w3) (Z.of_nat i) = Ok (Some p).
  Proof.
    intros B L Ei R1 R2 R3.
    assert (forall ops s xs s', aspecs d s ops xs s' -> length s' = (length s + length (filter (fun o => match o with PCreate => true | _ => false end) ops))%nat) as LN.
    { induction ops as [|o ops IH]; intros s xs s' H; inversion H; subst; [cbn; lia|]. match goal with H : aspecs _ _ _ _ _, H' : aspecs _ _ (_ :: _) _ _ |- _ => rewrite (IH _ _ _ H) end.
      match goal with H : aspec _ _ _ _ _ |- _ => inversion H; subst; cbn [filter length] end; try lia.
      - rewrite app_length. cbn. lia.
      - rewrite upd_length. lia. }
    assert (forall a b n, oks n (a ++ b) -> @oks V n a /\ oks (n + length (filter (fun o => match o with PCreate => true | _ => false end) a))%nat b) as OA.
    { induction a as [|o a IH]; intros b n H; cbn [app oks filter length] in *; [rewrite Nat.add_0_r; auto|].
      destruct H as [H1 H2]. apply IH in H2. destruct H2 as [H2 H3]. split; [auto|]. destruct o; cbn [filter length] in *; auto.
      replace (n + S (length (filter (fun o => match o with PCreate => true | _ => false end) a)))%nat with (S n + length (filter (fun o => match o with PCreate => true | _ => false end) a))%nat by lia. auto. }
    apply OA in L. destruct L as [L1 L2]. rewrite <- Ei in L2. cbn [oks] in L2. destruct L2 as [_ L2].
    destruct (prun_ok ops1 _ _ (pinit_inv bs B) L1) as (w1' & xs1' & s1 & Q1 & S1 & P1).
    rewrite R1 in Q1. inversion Q1; subst w1' xs1'.
    pose proof (LN _ _ _ _ S1) as N1. cbn [length] in N1. rewrite Nat.add_0_l, <- Ei in N1.
    destruct (pstep_ok w1 s1 PCreate P1 I) as (w2' & x2 & s2 & Q2 & S2 & P2). rewrite R2 in Q2. inversion Q2; subst w2' x2.
    inversion S2; subst.
    destruct (prun_ok ops2 w2 _ P2) as (w3' & xs3 & s3 & Q3 & S3 & P3).
    { rewrite app_length, N1, Nat.add_1_r. exact L2. }
    rewrite R3 in Q3. inversion Q3; subst w3' xs3.
    destruct (spec_keeps ops2 _ _ _ (length s1) p d S3) as [v' E].
    { rewrite nth_error_app2, Nat.sub_diag by lia. reflexivity. }
    rewrite <- N1. destruct (pstep_ok w3 s3 (PGet (Z.of_nat (length s1))) P3) as (w4 & x4 & s4 & Q4 & S4 & _); [cbn; lia|].
    cbn [pstep] in Q4. destruct (poa_get (pal w3) (Z.of_nat (length s1))) as [q| | |] eqn:G; try discriminate. cbn [bind] in Q4. inversion Q4; subst.
    inversion S4; subst.
    - match goal with H : Z.of_nat _ = Z.of_nat _ |- _ => apply Nat2Z.inj in H; subst end. congruence.
    - match goal with H : Z.of_nat _ = Z.of_nat _ |- _ => apply Nat2Z.inj in H; subst end. apply nth_error_lt in E. lia.
  Qed.
  Lemma poa_destroyed bs ops w xs : 1 <= bs -> oks 0 ops -> prun d (pinit V bs) ops = Ok (w, xs) ->
    exists h, poa_destroy (pheap w) (pal w) = Ok h /\
      (forall p, In p (kept w) -> load h p = UB) /\
      (forall b, ~ In b (blocks (pal w)) -> nth_error h b = nth_error (pheap w) b).
  Proof.
    intros B L R. destruct (prun_ok ops _ _ (pinit_inv bs B) L) as (w1 & xs1 & s & Q & _ & P). rewrite R in Q. inversion Q; subst w1 xs1.
    destruct P as [[A1 A2 A3 A4] K N AD VV F]. destruct (free_all_ok (blocks (pal w)) (pheap w) A3) as (h & E & H1 & H2).
    { intros b Ib. destruct (A4 b Ib) as (c & Hc & _). eauto. }
    exists h. split; [exact E|]. split; [|exact H2]. intros p Ip. rewrite K in Ip. apply in_map_iff in Ip. destruct Ip as ([q v] & <- & Iq).
    apply In_nth_error in Iq. destruct Iq as [i Iq]. destruct (AD _ _ _ Iq) as [Q1 _]. unfold load. cbn [fst].
    unfold znth in Q1. destruct (_ <? 0) in Q1; [discriminate|]. rewrite (H1 (fst q)); [reflexivity|]. eapply nth_error_In; eauto.
  Qed.
  Definition q_inv (bs : Z) (w : pworld V) : Prop := bsize (pal w) = bs /\ 0 <= allocated (pal w) /\ (allocated (pal w) = 0 -> blocks (pal w) = []).
  Lemma q_step bs w o w' x : q_inv bs w -> pstep d w o = Ok (w', x) -> q_inv bs w'.
  Proof.
    intros (Q1 & Q2 & Q3) E. destruct o; cbn [pstep] in E.
    - unfold poa_create in E. destruct (allocated (pal w) =? zlen (blocks (pal w)) * bsize (pal w)).
      + destruct (alloc d (pheap w) (bsize (pal w))) as [[h b]| | |]; cbn [bind] in E; try discriminate. destruct (poa_get _ _) as [p| | |]; cbn [bind] in E; try discriminate. injection E as <- _. unfold q_inv. cbn [pal bsize allocated blocks]. split; [auto|split; [lia|intros; lia]].
      + cbn [bind] in E. destruct (poa_get _ _) as [p| | |]; cbn [bind] in E; try discriminate. injection E as <- _. unfold q_inv. cbn [pal bsize allocated blocks]. split; [auto|split; [lia|intros; lia]].
    - destruct (poa_get _ _); cbn [bind] in E; try discriminate. injection E as <- _. split; auto.
    - destruct (nth_error _ _); [|discriminate]. destruct (store _ _ _); cbn [bind] in E; try discriminate. injection E as <- _. split; auto.
    - destruct (nth_error _ _); [|discriminate]. destruct (load _ _); cbn [bind] in E; try discriminate. injection E as <- _. split; auto.
    - destruct (alloc _ _ _) as [[h b]| | |]; cbn [bind] in E; try discriminate. injection E as <- _. split; auto.
  Qed.
  Lemma q_run bs ops : forall w w' xs, q_inv bs w -> prun d w ops = Ok (w', xs) -> q_inv bs w'.
  Proof.
    induction ops as [|o ops IH]; intros w w' xs Q E; cbn [prun] in E; [injection E as <- _; exact Q|].
    destruct (pstep d w o) as [[w1 x]| | |] eqn:E1; cbn [bind] in E; try discriminate. destruct (prun d w1 ops) as [[w2 ys]| | |] eqn:E2; cbn [bind] in E; try discriminate. injection E as <- _.
    eapply IH; [eapply q_step; eauto|exact E2].
  Qed.
  (* Get with any index whatsoever *)
  Lemma poa_get_any bs ops w xs i : 1 <= bs -> oks 0 ops -> prun d (pinit V bs) ops = Ok (w, xs) ->
    poa_get (pal w) i =
      if 0 <=? i then Ok (nth_error (kept w) (Z.to_nat i))
      else if (- bs <? i) && negb (zlen (kept w) =? 0) then UB else Err.
  Proof.
    intros B L R. destruct (prun_ok ops _ _ (pinit_inv bs B) L) as (w1 & xs1 & s & Q & _ & P). rewrite R in Q. inversion Q; subst w1 xs1.
    assert (q_inv bs w) as (Q1 & Q2 & Q3) by (eapply q_run; [|exact R]; split; [reflexivity|]; cbn; split; [lia|auto]).
    destruct P as [A K N AD VV F]. rewrite K. assert (zlen (map fst s) = zlen s) as Lm by (unfold zlen; now rewrite map_length). rewrite Lm.
    destruct (Z.leb_spec 0 i) as [I|I].
    - destruct (Z.lt_ge_cases i (zlen s)) as [H|H].
      + destruct (get_ok (pheap w) (pal w) i A I ltac:(lia)) as (p & G & Ad & _). rewrite G. f_equal. rewrite nth_fst.
        destruct (nth_error s (Z.to_nat i)) as [[q v]|] eqn:E; [|apply nth_error_None in E; unfold zlen in H; lia]. pose proof (AD _ _ _ E) as Ad2. rewrite Z2Nat.id in Ad2 by lia.
        destruct Ad as [X1 X2], Ad2 as [Y1 Y2]. f_equal. destruct p, q. cbn [fst snd] in *. f_equal; congruence.
      + rewrite get_none by lia. f_equal. symmetry. apply nth_error_None. rewrite map_length. unfold zlen in H. lia.
    - unfold poa_get. replace (i >=? allocated (pal w)) with false by lia. rewrite Q1. replace (bs =? 0) with false by lia. cbv zeta.
      assert (0 <= - i) as I' by lia. replace i with (- (- i)) by lia. rewrite Z.quot_opp_l, Z.rem_opp_l by lia. rewrite Z.quot_div_nonneg, Z.rem_mod_nonneg by lia.
      set (j := - i) in *. destruct (Z.ltb_spec (- bs) (- j)) as [H|H].
      + rewrite Z.div_small, Z.mod_small by lia. change (- 0) with 0. destruct (Z.eqb_spec (zlen s) 0) as [Z0|Z0]; cbn [negb andb].
        * rewrite Q3 by lia. reflexivity.
        * destruct (blocks (pal w)) as [|b bl] eqn:Eb; [destruct A as [_ A2 _ _]; rewrite Eb in A2; cbn in A2; lia|]. unfold znth. cbn [Z.ltb Z.compare Z.to_nat nth_error].
          replace ((0 <=? - j) && (- j <? bs)) with false by lia. reflexivity.
      + cbn [andb]. assert (1 <= j / bs) by (apply Z.div_le_lower_bound; lia). unfold znth. replace (- (j / bs) <? 0) with true by lia. reflexivity.
  Qed.
End client.
Definition demo : list (pop Z) := [PCreate; POther 3; PCreate; PWrite 0 7; PCreate; PWrite 2 9; PGet 0; PGet 2; PRead 0; PRead 1; PRead 2; PGet 3].
Lemma demo_oks : oks 0 demo.
Proof. unfold demo. cbv [oks ok1]. repeat apply conj; try exact I; lia. Qed.

Lemma poa_get_range : exists w xs, prun 0 (pinit Z 2) [PCreate; PCreate; PCreate] = Ok (w, xs) /\
  (forall i, 3 <= i -> poa_get (pal w) i = Ok None) /\ poa_get (pal w) (-1) = UB /\ poa_get (pal w) (-2) = Err.
Proof.
  eexists. eexists. split; [reflexivity|]. split; [|split; reflexivity]. intros i H. apply get_none. cbn [pal allocated]. exact H.
Qed.
Lemma poa_bad_size V (d : V) bs : bs <= 0 -> pstep d (pinit V bs) PCreate = if bs =? 0 then UB else Err.
Proof.
  intros H. destruct bs; [reflexivity|lia|reflexivity].
Qed.
