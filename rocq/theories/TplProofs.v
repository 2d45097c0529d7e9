From Coq Require Import ZifyBool ZifyNat.
From Verif Require Import Base BaseFacts TplModel TplSpec.
Open Scope nat_scope.

Section Proofs.
Context {V : Type} (gone self : V -> V).
Notation memory := (list (cell V)).

Definition val (m : memory) (a : nat) : option V := match nth_error m a with Some (Val x) => Some x | _ => None end.
Definition live (m : memory) (a : nat) : Prop := nth_error m a = Some Raw \/ exists x, nth_error m a = Some (Val x).
Definition stays (m m' : memory) : Prop := forall a, live m a -> live m' a.

Lemma load_val m a x : load m a = Ok x <-> val m a = Some x.
Proof. unfold load, val. destruct (nth_error m a) as [[]|]; split; congruence. Qed.
Lemma val_live m a x : val m a = Some x -> live m a.
Proof. unfold val, live. destruct (nth_error m a) as [[| |y]|]; try discriminate. eauto. Qed.
Lemma live_lt m a : live m a -> a < length m.
Proof. intros [H|[x H]]; eapply nth_error_lt; eauto. Qed.
Lemma store_ok m a x m' : store m a x = Ok m' -> live m a /\ m' = upd m a (Val x).
Proof. unfold store, live. destruct (nth_error m a) as [[| |y]|]; try discriminate; intros H; split; eauto; congruence. Qed.
Lemma store_live m a x : live m a -> store m a x = Ok (upd m a (Val x)).
Proof. unfold store. intros [H|[y H]]; now rewrite H. Qed.
Lemma val_upd m a x b : a < length m -> val (upd m a (Val x)) b = if Nat.eqb b a then Some x else val m b.
Proof.
  intros L. unfold val. destruct (Nat.eqb_spec b a) as [->|N]; [now rewrite upd_same|]. now rewrite upd_other by auto.
Qed.
Lemma stays_upd m a x : stays m (upd m a (Val x)).
Proof.
  intros b L. destruct (Nat.eq_dec a b) as [->|N].
  - right. exists x. apply upd_same. now apply live_lt.
  - unfold live. now rewrite upd_other.
Qed.
Lemma stays_app m l : stays m (m ++ l).
Proof.
  intros b L. unfold live. rewrite nth_error_app1; auto. now apply live_lt.
Qed.
Lemma stays_trans a b c : stays a b -> stays b c -> stays a c.
Proof. intros H1 H2 x L. auto. Qed.
Lemma stays_refl a : stays a a.
Proof. intros x L. auto. Qed.

Lemma taken_S r refs p src j a : taken (r :: refs) (p :: src) (S j) a <-> taken refs src j a.
Proof. reflexivity. Qed.

Lemma build_ok refs : forall src m m' es, build gone refs src m = Ok (m', es) ->
  (forall i a mv, nth_error src i = Some (a, mv) -> a < length m) ->
  length es = length refs /\ length src = length refs /\ length m <= length m' /\ stays m m' /\
  (forall i a mv, nth_error refs i = Some true -> nth_error src i = Some (a, mv) -> nth_error es i = Some (Ref a)) /\
  (forall i a mv, nth_error refs i = Some false -> nth_error src i = Some (a, mv) ->
     exists b, nth_error es i = Some (Own b) /\ length m <= b /\ b < length m' /\ live m' b /\
       ((forall j, j < i -> ~ taken refs src j a) -> val m a <> None /\ val m' b = val m a)) /\
  (forall a, a < length m -> (forall j, ~ taken refs src j a) -> nth_error m' a = nth_error m a) /\
  (forall j a, taken refs src j a -> (forall k, taken refs src k a -> k = j) -> val m' a = option_map gone (val m a)) /\
  (forall i j b, nth_error es i = Some (Own b) -> nth_error es j = Some (Own b) -> i = j).
Proof.
  induction refs as [|r refs IH]; intros [|[a0 mv0] src] m m' es H LT; cbn [build] in H; try discriminate.
  { assert (m' = m /\ es = []) as [-> ->] by (split; congruence). split; auto. split; auto. split; auto. split; [apply stays_refl|].
    split; [intros [|i]; discriminate|]. split; [intros [|i]; discriminate|]. split; auto. split; [intros [|j] a [Q _]; discriminate|].
    intros [|i]; discriminate. }
  match type of H with (do (_, _) <- ?x; _) = _ => destruct x as [[m1 e]| | |] eqn:F end; cbn [bind] in H; try discriminate.
  destruct (build gone refs src m1) as [[m2 es']| | |] eqn:R; cbn [bind] in H; try discriminate.
  assert (m' = m2 /\ es = e :: es') as [-> ->] by (split; congruence). clear H.
  assert (a0 < length m) as L0 by (apply (LT 0 a0 mv0); reflexivity).
  destruct r.
  - assert (m1 = m /\ e = Ref a0) as [-> ->] by (split; congruence). clear F.
    destruct (IH _ _ _ _ R) as (I1 & I2 & I3 & I4 & I5 & I6 & I7 & I8 & I9); [intros i a mv Q; apply (LT (S i) a mv); exact Q|].
    assert (forall a, ~ taken (true :: refs) ((a0, mv0) :: src) 0 a) as T0 by (intros a [Q _]; discriminate Q).
    split; [cbn; lia|]. split; [cbn; lia|]. split; [lia|]. split; [auto|].
    split; [|split; [|split; [|split]]].
    + intros [|i] a mv Q1 Q2; cbn in *; [congruence|]. eauto.
    + intros [|i] a mv Q1 Q2; cbn [nth_error] in *; [discriminate|].
      destruct (I6 _ _ _ Q1 Q2) as (b & B1 & B2 & B3 & B4 & B5). exists b. split; auto. split; auto. split; auto. split; auto.
      intros K. apply B5. intros j J. apply (K (S j)). lia.
    + intros a La K. apply I7; auto. intros j. apply (K (S j)).
    + intros [|j] a T K; [now apply T0 in T|]. apply (I8 j); auto. intros k Tk. specialize (K (S k) Tk). lia.
    + intros [|i] [|j] b Q1 Q2; cbn [nth_error] in *; try discriminate; auto. f_equal; eauto.
  - destruct (load m a0) as [x| | |] eqn:X; cbn [bind] in F; try discriminate. cbv zeta in F. apply load_val in X.
    assert (exists m0, (if mv0 then store (m ++ [Val x]) a0 (gone x) else Ok (m ++ [Val x])) = Ok m0 /\ m1 = m0 /\ e = Own (length m)) as (m0 & F0 & -> & ->).
    { destruct (if mv0 then store (m ++ [Val x]) a0 (gone x) else Ok (m ++ [Val x])) as [m0| | |]; cbn [bind] in F; try discriminate.
      exists m0. repeat split; congruence. }
    clear F.
    assert (length m0 = S (length m) /\ stays m m0 /\ val m0 (length m) = Some x /\
            (forall b, b < length m -> ~ taken (false :: refs) ((a0, mv0) :: src) 0 b -> nth_error m0 b = nth_error m b) /\
            (mv0 = true -> val m0 a0 = Some (gone x))) as (L1 & St1 & X1 & O1 & G1).
    { assert (nth_error (m ++ [Val x]) (length m) = Some (Val x)) as Nx by (rewrite nth_error_app2, Nat.sub_diag; auto).
      destruct mv0.
      - apply store_ok in F0. destruct F0 as [_ ->]. rewrite upd_length, app_length. cbn [length].
        split; [lia|]. split; [eapply stays_trans; [apply stays_app|apply stays_upd]|].
        split; [unfold val; rewrite upd_other by lia; now rewrite Nx|]. split.
        + intros b Lb T. assert (b <> a0) by (intros ->; apply T; split; reflexivity). rewrite upd_other by auto. now rewrite nth_error_app1.
        + intros _. unfold val. rewrite upd_same by (rewrite app_length; lia). reflexivity.
      - assert (m0 = m ++ [Val x]) as -> by congruence. rewrite app_length. cbn [length].
        split; [lia|]. split; [apply stays_app|]. split; [unfold val; now rewrite Nx|]. split; [|discriminate].
        intros b Lb _. now rewrite nth_error_app1. }
    destruct (IH _ _ _ _ R) as (I1 & I2 & I3 & I4 & I5 & I6 & I7 & I8 & I9).
    { intros i a mv Q. specialize (LT (S i) a mv Q). lia. }
    assert (forall j b, taken refs src j b -> b < length m) as TL.
    { intros j b [_ Q]. apply (LT (S j) b true). exact Q. }
    split; [cbn; lia|]. split; [cbn; lia|]. split; [lia|]. split; [eapply stays_trans; eauto|].
    split; [|split; [|split; [|split]]].
    + intros [|i] a mv Q1 Q2; cbn [nth_error] in *; [discriminate|]. eauto.
    + intros [|i] a mv Q1 Q2; cbn [nth_error] in *.
      * assert (a = a0 /\ mv = mv0) as [-> ->] by (split; congruence). exists (length m). split; auto. split; auto. split; [lia|].
        assert (nth_error m2 (length m) = nth_error m0 (length m)) as Q.
        { apply I7; [lia|]. intros j T. apply TL in T. lia. }
        split; [apply I4; eapply val_live; eauto|].
        intros _. split; [congruence|]. unfold val at 1. rewrite Q. unfold val in X1. rewrite X1. congruence.
      * destruct (I6 _ _ _ Q1 Q2) as (b & B1 & B2 & B3 & B4 & B5). exists b. split; auto. split; [lia|]. split; auto. split; auto.
        intros K. assert (nth_error m0 a = nth_error m a) as Q.
        { apply O1; [apply (LT (S i) a mv); exact Q2|]. apply K. lia. }
        unfold val in B5. rewrite Q in B5. unfold val. apply B5. intros j J. apply (K (S j)). lia.
    + intros a La K. rewrite I7; [apply O1; auto; apply (K 0)|lia|]. intros j. apply (K (S j)).
    + intros [|j] a T K.
      * assert (a = a0 /\ mv0 = true) as [-> ->] by (destruct T as [_ T]; cbn in T; split; congruence).
        assert (nth_error m2 a0 = nth_error m0 a0) as Q.
        { apply I7; [lia|]. intros k Tk. specialize (K (S k) Tk). lia. }
        unfold val at 1. rewrite Q. specialize (G1 eq_refl). unfold val in G1. rewrite G1, X. reflexivity.
      * rewrite (I8 j a T); [|intros k Tk; specialize (K (S k) Tk); lia]. f_equal. unfold val. rewrite O1; auto.
        -- eapply TL; eauto.
        -- intros T'. specialize (K 0 T'). discriminate.
    + assert (forall i b, nth_error es' i = Some (Own b) -> S (length m) <= b) as NB.
      { intros i b Q. assert (i < length refs) as Li by (rewrite <- I1; eapply nth_error_lt; eauto).
        destruct (nth_error refs i) as [r|] eqn:Qr; [|apply nth_error_None in Qr; lia].
        destruct (nth_error src i) as [[a mv]|] eqn:Qs; [|apply nth_error_None in Qs; lia].
        destruct r; [rewrite (I5 _ _ _ Qr Qs) in Q; discriminate|]. destruct (I6 _ _ _ Qr Qs) as (b' & B1 & B2 & _). assert (b' = b) as -> by congruence. lia. }
      intros [|i] [|j] b Q1 Q2; cbn [nth_error] in *; auto.
      * apply NB in Q2. assert (b = length m) by congruence. lia.
      * apply NB in Q1. assert (b = length m) by congruence. lia.
      * f_equal. eauto.
Qed.

Lemma build_defined refs : forall src m, length refs = length src ->
  (forall i a mv, nth_error refs i = Some false -> nth_error src i = Some (a, mv) -> val m a <> None) ->
  exists m' es, build gone refs src m = Ok (m', es).
Proof.
  induction refs as [|r refs IH]; intros [|[a mv] src] m L K; try discriminate L; cbn [build]; [eauto|].
  cbn in L. destruct r.
  - cbn [bind]. destruct (IH src m) as (m' & es & ->); [lia|intros i; apply (K (S i))|]. cbn [bind]. eauto.
  - destruct (val m a) as [x|] eqn:X; [|exfalso; eapply (K 0); eauto; reflexivity].
    pose proof (proj2 (load_val m a x) X) as Q. rewrite Q. cbn [bind]. cbv zeta.
    assert (forall b, val m b <> None -> val (m ++ [Val x]) b <> None) as E1.
    { intros b. unfold val. destruct (nth_error m b) as [c|] eqn:Qb; [|congruence]. rewrite nth_error_app1, Qb by (eapply nth_error_lt; eauto). auto. }
    assert (exists m0, (if mv then store (m ++ [Val x]) a (gone x) else Ok (m ++ [Val x])) = Ok m0 /\ forall b, val m b <> None -> val m0 b <> None) as (m0 & -> & E0).
    { destruct mv; [|eexists; split; [reflexivity|auto]].
      pose proof (stays_app m [Val x] a (val_live _ _ _ X)) as Lv. rewrite store_live by auto. eexists. split; [reflexivity|].
      intros b Hb. rewrite val_upd by (now apply live_lt). destruct (Nat.eqb b a); [discriminate|auto]. }
    cbn [bind]. destruct (IH src m0) as (m' & es & ->); [lia|intros i a' mv' Q1 Q2; apply E0, (K (S i) a' mv'); auto|]. cbn [bind]. eauto.
Qed.

Lemma takes_S mv e es u us j a : takes mv (e :: es) (u :: us) (S j) a <-> takes mv es us j a.
Proof. reflexivity. Qed.
Lemma takes_0 mv e es u us a : takes mv (e :: es) (u :: us) 0 a <-> mv = true /\ (exists b, e = Own b) /\ at_ u = a.
Proof.
  unfold takes. cbn [nth_error]. split.
  - intros (M & [b B] & u' & U & A). split; auto. split; [exists b; congruence|congruence].
  - intros (M & [b B] & A). split; auto. split; [exists b; congruence|eauto].
Qed.

Lemma assign_ok mv es : forall us m m' es', assign gone self mv es us m = Ok (m', es') ->
  (forall i j a, nth_error es i = Some (Own a) -> nth_error es j = Some (Own a) -> i = j) ->
  length es = length us /\ length es' = length es /\ length m' = length m /\ stays m m' /\
  (forall i a u, nth_error es i = Some (Ref a) -> nth_error us i = Some u -> nth_error es' i = Some (Ref (at_ u))) /\
  (forall i a, nth_error es i = Some (Own a) -> nth_error es' i = Some (Own a)) /\
  (forall i a u, nth_error es i = Some (Own a) -> nth_error us i = Some u ->
     (forall j, j < i -> ~ writes es j (at_ u) /\ ~ takes mv es us j (at_ u)) -> (forall j, i <= j -> ~ takes mv es us j a) ->
     val m (at_ u) <> None /\ val m' a = val m (at_ u)) /\
  (forall a, (forall j, ~ writes es j a /\ ~ takes mv es us j a) -> nth_error m' a = nth_error m a) /\
  (forall j a, takes mv es us j a -> (forall k, takes mv es us k a -> k = j) -> (forall k, ~ writes es k a) ->
     val m' a = option_map gone (val m a)) /\
  (forall j a, takes mv es us j a -> (forall k, takes mv es us k a -> k = j) -> writes es j a ->
     val m' a = option_map self (val m a)).
Proof.
  induction es as [|e es IH]; intros [|u us] m m' es' H D; cbn [assign] in H; try discriminate.
  { assert (m' = m /\ es' = []) as [-> ->] by (split; congruence). split; auto. split; auto. split; auto. split; [apply stays_refl|].
    split; [intros [|i]; discriminate|]. split; [intros [|i]; discriminate|]. split; [intros [|i]; discriminate|]. split; auto.
    split; intros [|j] a (_ & [b Q] & _); discriminate Q. }
  match type of H with (do (_, _) <- ?x; _) = _ => destruct x as [[m1 e1]| | |] eqn:F end; cbn [bind] in H; try discriminate.
  destruct (assign gone self mv es us m1) as [[m2 es1]| | |] eqn:R; cbn [bind] in H; try discriminate.
  assert (m' = m2 /\ es' = e1 :: es1) as [-> ->] by (split; congruence). clear H.
  destruct (IH _ _ _ _ R) as (I1 & I2 & I3 & I4 & I5 & I6 & I7 & I8 & I9 & I10).
  { intros i j a Q1 Q2. assert (S i = S j) by (apply (D (S i) (S j) a); auto). lia. }
  destruct e as [a0|a0].
  - destruct (load m (at_ u)) as [x| | |] eqn:X; cbn [bind] in F; try discriminate. apply load_val in X.
    assert (e1 = Own a0 /\ length m1 = length m /\ stays m m1 /\
            (forall b, b <> a0 -> (mv = true -> b <> at_ u) -> nth_error m1 b = nth_error m b) /\
            ((mv = true -> a0 <> at_ u) -> val m1 a0 = Some x) /\
            (mv = true -> a0 <> at_ u -> val m1 (at_ u) = Some (gone x)) /\
            (mv = true -> a0 = at_ u -> val m1 a0 = Some (self x))) as (-> & L1 & St & O1 & W1 & G1 & S1).
    { destruct mv.
      - destruct (Nat.eqb_spec a0 (at_ u)) as [E|N].
        + destruct (store m a0 (self x)) as [m0| | |] eqn:Q; cbn [bind] in F; try discriminate. apply store_ok in Q. destruct Q as [Lv ->].
          assert (m1 = upd m a0 (Val (self x))) as -> by congruence. pose proof (live_lt _ _ Lv) as La.
          split; [congruence|]. split; [apply upd_length|]. split; [apply stays_upd|]. split; [intros b B _; now rewrite upd_other by auto|].
          split; [intros K; exfalso; exact (K eq_refl E)|]. split; [congruence|]. intros _ _. rewrite val_upd, Nat.eqb_refl by auto. reflexivity.
        + destruct (store m a0 x) as [m0| | |] eqn:Q; cbn [bind] in F; try discriminate. apply store_ok in Q. destruct Q as [Lv ->].
          match type of F with (do _ <- ?y; _) = _ => destruct y as [m0| | |] eqn:Q; cbn [bind] in F; try discriminate end. apply store_ok in Q. destruct Q as [Lv2 ->].
          match type of F with Ok (?y, _) = _ => assert (m1 = y) as -> by congruence end. pose proof (live_lt _ _ Lv) as La. pose proof (live_lt _ _ Lv2) as Lu.
          rewrite upd_length in Lu.
          split; [congruence|]. split; [rewrite !upd_length; reflexivity|]. split; [eapply stays_trans; apply stays_upd|].
          split; [intros b B1 B2; rewrite !upd_other; auto; intros E; subst; apply B2; auto|].
          split; [intros _; rewrite val_upd by (now rewrite upd_length); replace (a0 =? at_ u) with false by lia; rewrite val_upd, Nat.eqb_refl; auto|].
          split; [intros _ _; rewrite val_upd by (now rewrite upd_length); now rewrite Nat.eqb_refl|congruence].
      - destruct (store m a0 x) as [m0| | |] eqn:Q; cbn [bind] in F; try discriminate. apply store_ok in Q. destruct Q as [Lv ->].
        assert (m1 = upd m a0 (Val x)) as -> by congruence. pose proof (live_lt _ _ Lv) as La.
        split; [congruence|]. split; [apply upd_length|]. split; [apply stays_upd|]. split; [intros b B _; now rewrite upd_other by auto|].
        split; [intros _; rewrite val_upd, Nat.eqb_refl; auto|]. split; discriminate. }
    clear F.
    assert (forall b, ~ writes (Own a0 :: es) 0 b /\ ~ takes mv (Own a0 :: es) (u :: us) 0 b -> nth_error m1 b = nth_error m b) as O2.
    { intros b [B1 B2]. apply O1.
      - intros ->. apply B1. reflexivity.
      - intros Mv ->. apply B2. apply takes_0. eauto. }
    assert (forall j, ~ writes es j a0) as D0.
    { intros j W. specialize (D (S j) 0 a0 W eq_refl). discriminate. }
    split; [cbn; lia|]. split; [cbn; lia|]. split; [lia|]. split; [eapply stays_trans; eauto|].
    split; [|split; [|split; [|split; [|split]]]].
    + intros [|i] a u' Q1 Q2; cbn [nth_error] in *; [discriminate|]. eauto.
    + intros [|i] a Q; cbn [nth_error] in *; auto.
    + intros [|i] a u' Q1 Q2 B1 B2; cbn [nth_error] in *.
      * assert (a = a0 /\ u' = u) as [-> ->] by (split; congruence). split; [congruence|].
        unfold val at 1. rewrite I8; [|intros j; split; [apply D0|intros T; apply (B2 (S j)); [lia|exact T]]].
        fold (val m1 a0). rewrite W1, X; auto. intros Mv E. apply (B2 0); [lia|]. apply takes_0. eauto.
      * assert (nth_error m1 (at_ u') = nth_error m (at_ u')) as Q by (apply O2, (B1 0); lia).
        destruct (I7 i a u' Q1 Q2) as [C1 C2].
        { intros j J. apply (B1 (S j)). lia. }
        { intros j J. apply (B2 (S j)). lia. }
        unfold val in C1, C2. rewrite Q in C1, C2. split; auto.
    + intros a B. rewrite I8; [apply O2, (B 0)|]. intros j. apply (B (S j)).
    + intros [|j] a T K N.
      * apply takes_0 in T. destruct T as (Mv & _ & A).
        assert (a0 <> at_ u) as N0. { intros E. apply (N 0). unfold writes. cbn. congruence. }
        unfold val at 1. rewrite I8; [|intros k; split; [apply (N (S k))|intros Tk; specialize (K (S k) Tk); lia]].
        fold (val m1 a). rewrite <- A, G1, X; auto.
      * rewrite (I9 j a T); [|intros k Tk; specialize (K (S k) Tk); lia|intros k; apply (N (S k))].
        unfold val. rewrite O2; auto. split; [apply (N 0)|]. intros T'. specialize (K 0 T'). discriminate.
    + intros [|j] a T K W.
      * apply takes_0 in T. destruct T as (Mv & _ & A). assert (a = a0) as -> by (unfold writes in W; cbn in W; congruence).
        unfold val at 1. rewrite I8; [|intros k; split; [apply D0|intros Tk; specialize (K (S k) Tk); lia]].
        fold (val m1 a0). rewrite S1; auto. rewrite <- A, X. reflexivity.
      * rewrite (I10 j a T); [|intros k Tk; specialize (K (S k) Tk); lia|exact W].
        unfold val. rewrite O2; auto. split.
        -- intros W0. unfold writes in W0. cbn in W0. assert (a = a0) as -> by congruence. exact (D0 j W).
        -- intros T'. specialize (K 0 T'). discriminate.
  - assert (m1 = m /\ e1 = Ref (at_ u)) as [-> ->] by (split; congruence). clear F.
    assert (forall b, ~ takes mv (Ref a0 :: es) (u :: us) 0 b) as T0.
    { intros b T. apply takes_0 in T. destruct T as (_ & [c Q] & _). discriminate. }
    assert (forall b, ~ writes (Ref a0 :: es) 0 b) as W0 by (intros b Q; discriminate Q).
    split; [cbn; lia|]. split; [cbn; lia|]. split; [lia|]. split; [auto|].
    split; [|split; [|split; [|split; [|split]]]].
    + intros [|i] a u' Q1 Q2; cbn [nth_error] in *; [congruence|]. eauto.
    + intros [|i] a Q; cbn [nth_error] in *; [discriminate|auto].
    + intros [|i] a u' Q1 Q2 B1 B2; cbn [nth_error] in *; [discriminate|]. apply (I7 i a u' Q1 Q2).
      * intros j J. apply (B1 (S j)). lia.
      * intros j J. apply (B2 (S j)). lia.
    + intros a B. apply I8. intros j. apply (B (S j)).
    + intros [|j] a T K N; [now apply T0 in T|]. apply (I9 j a T); [intros k Tk; specialize (K (S k) Tk); lia|intros k; apply (N (S k))].
    + intros [|j] a T K W; [now apply T0 in T|]. apply (I10 j a T); [intros k Tk; specialize (K (S k) Tk); lia|exact W].
Qed.

Lemma assign_defined mv es : forall us m, length es = length us ->
  (forall i a, nth_error es i = Some (Own a) -> live m a) ->
  (forall i a u, nth_error es i = Some (Own a) -> nth_error us i = Some u -> val m (at_ u) <> None) ->
  exists m' es', assign gone self mv es us m = Ok (m', es').
Proof.
  induction es as [|e es IH]; intros [|u us] m L Lv K; try discriminate L; cbn [assign]; [eauto|]. cbn in L.
  destruct e as [a|a].
  - destruct (val m (at_ u)) as [x|] eqn:X; [|exfalso; eapply (K 0); eauto; reflexivity].
    pose proof (Lv 0 a eq_refl) as La. rewrite (proj2 (load_val m _ x) X). cbn [bind].
    assert (forall b y m0, live m b -> (forall c, val m c <> None -> val m0 c <> None) -> length m0 = length m ->
       forall c, val m c <> None -> val (upd m0 b (Val y)) c <> None) as E.
    { intros b y m0 Lb E L0 c Hc. rewrite val_upd by (rewrite L0; now apply live_lt). destruct (Nat.eqb c b); [discriminate|auto]. }
    assert (exists m1, (if mv then if a =? at_ u then do m <- store m a (self x); Ok (m, Own a)
         else do m <- store m a x; do m <- store m (at_ u) (gone x); Ok (m, Own a) else do m <- store m a x; Ok (m, Own a)) = Ok (m1, Own a) /\
       stays m m1 /\ forall c, val m c <> None -> val m1 c <> None) as (m1 & -> & St & E1).
    { destruct mv; [destruct (a =? at_ u)|].
      - rewrite store_live by auto. cbn [bind]. eexists. split; [reflexivity|]. split; [apply stays_upd|]. apply E; auto.
      - rewrite store_live by auto. cbn [bind]. rewrite store_live by (apply stays_upd; eapply val_live; eauto). cbn [bind].
        eexists. split; [reflexivity|]. split; [eapply stays_trans; apply stays_upd|]. apply E; [eapply val_live; eauto| |apply upd_length].
        apply E; auto.
      - rewrite store_live by auto. cbn [bind]. eexists. split; [reflexivity|]. split; [apply stays_upd|]. apply E; auto. }
    cbn [bind]. destruct (IH us m1) as (m' & es' & ->); [lia| | |cbn [bind]; eauto].
    + intros i b Q. apply St, (Lv (S i)). exact Q.
    + intros i b v Q1 Q2. apply E1, (K (S i) b v); auto.
  - cbn [bind]. destruct (IH us m) as (m' & es' & ->); [lia|intros i b Q; apply (Lv (S i)); exact Q|intros i b v Q1 Q2; apply (K (S i) b v); auto|].
    cbn [bind]. eauto.
Qed.
End Proofs.
