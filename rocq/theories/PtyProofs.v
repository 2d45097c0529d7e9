From Coq Require Import ZifyBool ZifyNat.
From Verif Require Import Base BaseFacts PtyModel PtySpec RcModel RcSpec RcProofs RcProofs2.
Open Scope nat_scope.

Definition rmap {A B} (f : A -> B) (r : res A) : res B := do x <- r; Ok (f x).

Lemma map_upd {A B} (f : A -> B) (l : list A) n x : map f (upd l n x) = upd (map f l) n (f x).
Proof. revert n. induction l as [|y l IH]; intros [|n]; cbn [upd map]; try reflexivity. now rewrite IH. Qed.

Section Sim.
  Variable cls : nat -> nat -> option nat.
  Variable up dyn : nat -> nat -> nat -> option nat.
  Variable vdtor : nat -> bool.
  Variable base : nat -> nat -> bool.
  Hypothesis H : hierarchy cls up dyn base.
  Notation tdec := (tdec cls vdtor).
  Notation tstep := (tstep cls up dyn vdtor).
  Notation can_delete := (can_delete cls vdtor).

  Lemma nth_var s v : nth_error (vs (erase s)) v = option_map er_var (nth_error (tvs s) v).
  Proof. unfold erase. cbn [vs]. apply nth_error_map. Qed.
  Lemma pget_er s v : pget (erase s) v = rmap er_ptr (tget s v).
  Proof. unfold pget, tget. rewrite nth_var. destruct (nth_error (tvs s) v) as [[[[p|] h] C]|]; reflexivity. Qed.
  Lemma pset_er s v p : pset (erase s) v (er_ptr p) = rmap erase (tset s v p).
  Proof.
    unfold pset, tset. rewrite nth_var. destruct (nth_error (tvs s) v) as [[[[q|] h] C]|]; try reflexivity.
    cbn [option_map er_var rmap bind]. unfold erase. cbn [cn ob vs tcn tob tvs]. now rewrite map_upd.
  Qed.
  Lemma pkill_er s v : pkill (erase s) v = rmap erase (tkill s v).
  Proof.
    unfold pkill, tkill. rewrite nth_var. destruct (nth_error (tvs s) v) as [[[[q|] h] C]|]; try reflexivity.
    cbn [option_map er_var rmap bind]. unfold erase. cbn [cn ob vs tcn tob tvs]. now rewrite map_upd.
  Qed.
  Lemma pinit_er s v p : pinit (erase s) v (er_ptr p) = rmap erase (tinit s v p).
  Proof.
    unfold pinit, tinit. rewrite nth_var. destruct (nth_error (tvs s) v) as [[[[q|] h] C]|]; try reflexivity.
    cbn [option_map er_var rmap bind]. unfold erase. cbn [cn ob vs tcn tob tvs]. now rewrite map_upd.
  Qed.
  Lemma cget_er s c : cget (erase s) c = tcget s c.
  Proof. reflexivity. Qed.
  Lemma cset_er s c o : cset (erase s) c o = erase (tcset s c o).
  Proof. reflexivity. Qed.
  Lemma alive_er s o : alive (erase s) o = talive s o.
  Proof.
    unfold alive, talive, erase. cbn [ob]. rewrite nth_error_map. destruct (nth_error (tob s) o) as [[b D]|]; reflexivity.
  Qed.
  Lemma inc_er s p : inc (erase s) (er_ptr p) = rmap erase (tinc s p).
  Proof.
    unfold inc, tinc. cbn [er_ptr pc]. destruct (tc p); [|reflexivity]. rewrite cget_er. unfold rmap.
    destruct (tcget s n); reflexivity.
  Qed.
  Lemma members_er s o : members (erase s) o = tmembers s o.
  Proof.
    unfold members, tmembers. f_equal. unfold erase at 2. cbn [vs]. rewrite map_length. apply filter_ext. intros u. rewrite nth_var.
    destruct (nth_error (tvs s) u) as [[[p [h|]] C]|]; reflexivity.
  Qed.
  Lemma fuel_er s : fuel_of (erase s) = tfuel s.
  Proof. unfold fuel_of, tfuel, erase. cbn [ob]. now rewrite map_length. Qed.

  (* ---- the invariant ---- *)
  Definition vok (s : tst) (C : nat) (p : tptr) : Prop :=
    (forall c, tc p = Some c -> exists o k E D k', to p = Some (o, k) /\ td p = Some E /\ dclass s o = Ok D /\
        can_delete D k E = true /\ In (EWrap c o k E) (tlog s) /\ tr p = Some (o, k')) /\
    (forall o k, tr p = Some (o, k) -> tc p <> None /\ exists D, dclass s o = Ok D /\ cls D k = Some C).
  Definition dels (l : list event) : list (nat * nat) :=
    flat_map (fun e => match e with EDelete c o _ _ => [(c, o)] | _ => [] end) l.
  Definition wraps (l : list event) : list nat :=
    flat_map (fun e => match e with EWrap c _ _ _ => [c] | _ => [] end) l.
  Record inv (s : tst) : Prop := {
    i_var : forall u p h C, nth_error (tvs s) u = Some (Some p, h, C) -> vok s C p;
    i_del : forall l1 c o k C l2, tlog s = l1 ++ EDelete c o k C :: l2 -> In (EWrap c o k C) l2;
    i_dead : forall o, o < length (tob s) -> talive s o = false -> exists c k C, In (EDelete c o k C) (tlog s);
    i_gone : forall c o, In (c, o) (dels (tlog s)) -> nth_error (tcn s) c = Some None /\ talive s o = false /\ o < length (tob s);
    i_once : NoDup (map fst (dels (tlog s))) /\ NoDup (map snd (dels (tlog s)));
    i_fresh : forall c, In c (wraps (tlog s)) -> c < length (tcn s);
    i_wraps : NoDup (wraps (tlog s)) }.

  (* what every step keeps *)
  Record ext (s t : tst) : Prop := {
    e_len : length (tvs t) = length (tvs s);
    e_cls : forall u, tclass t u = tclass s u;
    e_obj : length (tob t) = length (tob s);
    e_dcl : forall o, dclass t o = dclass s o;
    e_ali : forall o, talive s o = false -> talive t o = false;
    e_cn : length (tcn t) = length (tcn s) /\ forall c, nth_error (tcn s) c = Some None -> nth_error (tcn t) c = Some None;
    e_log : forall e, In e (tlog s) -> In e (tlog t);
    e_wrap : forall c o k C, In (EWrap c o k C) (tlog t) -> In (EWrap c o k C) (tlog s) }.
  Lemma ext_refl s : ext s s.
  Proof. constructor; auto. Qed.
  Lemma ext_trans a b c : ext a b -> ext b c -> ext a c.
  Proof.
    intros [A1 A2 A3 A4 A5 [A6 A7] A8 A9] [B1 B2 B3 B4 B5 [B6 B7] B8 B9]. constructor.
    - congruence.
    - intros u. now rewrite B2.
    - congruence.
    - intros u. now rewrite B4.
    - auto.
    - split; [congruence|auto].
    - auto.
    - auto.
  Qed.
  Lemma vok_ext s t C p : (forall o, dclass t o = dclass s o) -> (forall e, In e (tlog s) -> In e (tlog t)) -> vok s C p -> vok t C p.
  Proof.
    intros HD HL [V1 V2]. split.
    - intros c E. destruct (V1 c E) as (o & k & E' & D & k' & X1 & X2 & X3 & X4 & X5 & X6). exists o, k, E', D, k'. rewrite HD. repeat split; auto.
    - intros o k E. destruct (V2 o k E) as (X1 & D & X2 & X3). split; [exact X1|]. exists D. now rewrite HD.
  Qed.
  Lemma vok_null s C : vok s C tnull.
  Proof. split; intros; discriminate. Qed.

  Lemma var_upd {A} (l : list A) n x u y : nth_error (upd l n x) u = Some y -> (u = n /\ y = x) \/ (u <> n /\ nth_error l u = Some y).
  Proof.
    intros E. destruct (Nat.eq_dec u n) as [->|N].
    - left. split; auto. assert (n < length l). { rewrite <- (upd_length l n x). now apply nth_error_Some; congruence. }
      rewrite upd_same in E by auto. congruence.
    - right. rewrite upd_other in E by auto. auto.
  Qed.

  (* storing in a variable *)
  Lemma store_inv s v old h C q : inv s -> nth_error (tvs s) v = Some (old, h, C) -> (forall p, q = Some p -> vok s C p) ->
    inv (mkTst (tcn s) (tob s) (upd (tvs s) v (q, h, C)) (tlog s)) /\ ext s (mkTst (tcn s) (tob s) (upd (tvs s) v (q, h, C)) (tlog s)).
  Proof.
    intros I E V. split.
    - constructor; try apply I. cbn [tvs]. intros u p h' C' E'. destruct (var_upd _ _ _ _ _ E') as [[-> Eq]|[N E'']].
      + inversion Eq; subst. eapply vok_ext; [| |apply V; reflexivity]; auto.
      + eapply vok_ext; [| |eapply (i_var s I); eauto]; auto.
    - constructor; auto; cbn [tvs]; [apply upd_length|]. intros u. unfold tclass. cbn [tvs].
      destruct (Nat.eq_dec u v) as [->|N]; [rewrite upd_same by (apply nth_error_Some; congruence); now rewrite E|now rewrite upd_other by auto].
  Qed.
  Lemma tset_inv s v p t : inv s -> tset s v p = Ok t -> (forall C, tclass s v = Ok C -> vok s C p) -> inv t /\ ext s t.
  Proof.
    unfold tset, tclass. intros I E V. destruct (nth_error (tvs s) v) as [[[[q|] h] C]|] eqn:Ev; try discriminate.
    assert (t = mkTst (tcn s) (tob s) (upd (tvs s) v (Some p, h, C)) (tlog s)) by congruence. subst t.
    eapply store_inv; eauto. intros p' Hp. assert (p' = p) by congruence. subst. auto.
  Qed.
  Lemma tinit_inv s v p t : inv s -> tinit s v p = Ok t -> (forall C, tclass s v = Ok C -> vok s C p) -> inv t /\ ext s t.
  Proof.
    unfold tinit, tclass. intros I E V. destruct (nth_error (tvs s) v) as [[[[q|] h] C]|] eqn:Ev; try discriminate.
    assert (t = mkTst (tcn s) (tob s) (upd (tvs s) v (Some p, h, C)) (tlog s)) by congruence. subst t.
    eapply store_inv; eauto. intros p' Hp. assert (p' = p) by congruence. subst. auto.
  Qed.
  Lemma tkill_inv s v t : inv s -> tkill s v = Ok t -> inv t /\ ext s t.
  Proof.
    unfold tkill. intros I E. destruct (nth_error (tvs s) v) as [[[[q|] h] C]|] eqn:Ev; try discriminate.
    assert (t = mkTst (tcn s) (tob s) (upd (tvs s) v (None, h, C)) (tlog s)) by congruence. subst t.
    eapply store_inv; eauto. congruence.
  Qed.
  (* changing a counter that is in use *)
  Lemma tcset_inv s c n o : inv s -> tcget s c = Ok n -> inv (tcset s c o) /\ ext s (tcset s c o).
  Proof.
    unfold tcget. intros I E. destruct (nth_error (tcn s) c) as [[m|]|] eqn:Ec; try discriminate.
    assert (G : forall d, nth_error (tcn s) d = Some None -> nth_error (upd (tcn s) c o) d = Some None).
    { intros d Hd. rewrite upd_other; [exact Hd|]. congruence. }
    split.
    - constructor; cbn [tcset tlog tcn tob tvs]; try apply I.
      + intros d x Hd. destruct (i_gone s I d x Hd) as (X1 & X2 & X3). split; [now apply G|]. split; [exact X2|exact X3].
      + intros d Hd. rewrite upd_length. now apply (i_fresh s I).
    - constructor; auto. split; [apply upd_length|exact G].
  Qed.

  Definition each (f : nat) : list nat -> tst -> res tst :=
    fix each (ws : list nat) (s : tst) : res tst :=
      match ws with
      | [] => Ok s
      | w :: ws => do s <- tdec f true w s; do s <- tkill s w; each ws s
      end.
  Definition peach (f : nat) : list nat -> st -> res st :=
    fix each (ws : list nat) (s : st) : res st :=
      match ws with
      | [] => Ok s
      | w :: ws => do s <- dec f true w s; do s <- pkill s w; each ws s
      end.

  Lemma del_inv s c o k E D n : inv s -> tcget s c = Ok n -> In (EWrap c o k E) (tlog s) -> dclass s o = Ok D -> talive s o = true ->
    inv (mkTst (tcn (tcset s c None)) (upd (tob s) o (false, D)) (tvs s) (EDelete c o k E :: tlog s)) /\
    ext s (mkTst (tcn (tcset s c None)) (upd (tob s) o (false, D)) (tvs s) (EDelete c o k E :: tlog s)).
  Proof.
    intros I Ec W ED Al. destruct (tcset_inv s c n None I Ec) as [I1 X1].
    assert (Eo : exists b, nth_error (tob s) o = Some (b, D)).
    { unfold dclass in ED. destruct (nth_error (tob s) o) as [[b D']|]; [|discriminate]. assert (D' = D) by congruence. subst. eauto. }
    destruct Eo as [b Eo]. assert (Lo : o < length (tob s)) by (apply nth_error_Some; congruence).
    assert (DC : forall o', dclass (mkTst (tcn (tcset s c None)) (upd (tob s) o (false, D)) (tvs s) (EDelete c o k E :: tlog s)) o' = dclass s o').
    { intros o'. unfold dclass. cbn [tob]. destruct (Nat.eq_dec o' o) as [->|N]; [rewrite upd_same by auto; now rewrite Eo|now rewrite upd_other by auto]. }
    assert (AL : forall o', talive (mkTst (tcn (tcset s c None)) (upd (tob s) o (false, D)) (tvs s) (EDelete c o k E :: tlog s)) o' =
                 if Nat.eqb o' o then false else talive s o').
    { intros o'. unfold talive. cbn [tob]. destruct (Nat.eqb_spec o' o) as [->|N]; [rewrite upd_same by auto; reflexivity|now rewrite upd_other by auto]. }
    assert (Cc : c < length (tcn s)) by (apply (i_fresh s I), in_flat_map; exists (EWrap c o k E); split; [exact W|now left]).
    assert (NC : nth_error (tcn s) c <> Some None) by (unfold tcget in Ec; destruct (nth_error (tcn s) c) as [[m|]|]; congruence).
    split.
    - constructor; cbn [tlog tcn tob tvs tcset].
      + intros u p h C Hu. eapply vok_ext; [| |eapply (i_var s I); eauto]; [exact DC|]. cbn [tlog]. intros e He. now right.
      + intros l1 c' o' k' C' l2 He. destruct l1 as [|e l1]; cbn [app] in He; inversion He; subst; [exact W|]. eapply (i_del s I). eassumption.
      + intros o' Lo' Ao'. rewrite AL in Ao'. destruct (Nat.eqb_spec o' o) as [->|N]; [exists c, k, E; now left|].
        rewrite upd_length in Lo'. destruct (i_dead s I o' Lo' Ao') as (c' & k' & C' & Hin). exists c', k', C'. now right.
      + intros c' o' [He|He].
        * inversion He; subst. split; [apply upd_same; auto|]. split; [rewrite AL, Nat.eqb_refl; reflexivity|]. now rewrite upd_length.
        * destruct (i_gone s I c' o' He) as (Y1 & Y2 & Y3). split; [rewrite upd_other; [exact Y1|congruence]|].
          rewrite AL, Y2, upd_length. split; [now destruct (Nat.eqb o' o)|exact Y3].
      + destruct (i_once s I) as [O1 O2]. cbn [dels flat_map app map fst snd]. split; constructor; auto.
        * intros Hin. apply in_map_iff in Hin. destruct Hin as ((c' & o') & Ef & Hin). cbn [fst] in Ef. subst c'.
          destruct (i_gone s I c o' Hin) as (Y1 & _). congruence.
        * intros Hin. apply in_map_iff in Hin. destruct Hin as ((c' & o') & Ef & Hin). cbn [snd] in Ef. subst o'.
          destruct (i_gone s I c' o Hin) as (_ & Y2 & _). congruence.
      + intros d Hd. rewrite upd_length. now apply (i_fresh s I).
      + apply I.
    - constructor; cbn [tlog tcn tob tvs tcset]; auto.
      + apply upd_length.
      + intros o' Ho'. rewrite AL, Ho'. now destruct (Nat.eqb o' o).
      + split; [apply upd_length|]. intros d Hd. rewrite upd_other; [exact Hd|congruence].
      + intros e He. now right.
      + intros c' o' k' C' [He|He]; [discriminate|exact He].
  Qed.

  Lemma dec_sim : forall f del v s, inv s ->
    (dec f del v (erase s) = rmap erase (tdec f del v s)) /\ (forall t, tdec f del v s = Ok t -> inv t /\ ext s t).
  Proof.
    induction f as [|f IH]; intros del v s I; [split; [reflexivity|discriminate]|].
    assert (EACH : forall ws s, inv s -> peach f ws (erase s) = rmap erase (each f ws s) /\ (forall t, each f ws s = Ok t -> inv t /\ ext s t)).
    { induction ws as [|w ws IHw]; intros s0 I0; cbn [each peach].
      - split; [reflexivity|]. intros t Et. assert (t = s0) by congruence. subst. split; [exact I0|apply ext_refl].
      - destruct (IH true w s0 I0) as [E1 X1]. rewrite E1. unfold rmap at 1.
        destruct (tdec f true w s0) as [s1| | |]; cbn [bind]; try (split; [reflexivity|discriminate]).
        destruct (X1 s1 eq_refl) as [I1 Y1]. rewrite pkill_er. unfold rmap at 1.
        destruct (tkill s1 w) as [s2| | |] eqn:Ek; cbn [bind]; try (split; [reflexivity|discriminate]).
        destruct (tkill_inv _ _ _ I1 Ek) as [I2 Y2]. destruct (IHw s2 I2) as [E3 X3]. split; [exact E3|].
        intros t Et. destruct (X3 t Et) as [I3 Y3]. split; [exact I3|]. eapply ext_trans; [exact Y1|]. eapply ext_trans; eauto. }
    cbn [dec PtyModel.tdec]. rewrite pget_er. unfold rmap at 1. destruct (tget s v) as [p| | |] eqn:Eg; cbn [bind]; try (split; [reflexivity|discriminate]).
    assert (VP : exists C, tclass s v = Ok C /\ vok s C p).
    { unfold tget, tclass in *. destruct (nth_error (tvs s) v) as [[[[q|] h] C]|] eqn:Ev; try discriminate. exists C. split; auto.
      assert (q = p) by congruence. subst. eapply i_var; eauto. }
    destruct VP as (C & EC & [V1 V2]). cbn [er_ptr pc pd po].
    destruct (tc p) as [c|] eqn:Etc; [|split; [reflexivity|intros t Et; assert (t = s) by congruence; subst; split; [exact I|apply ext_refl]]].
    rewrite cget_er. destruct (tcget s c) as [n| | |] eqn:Ec; cbn [bind]; try (split; [reflexivity|discriminate]).
    cbv zeta. rewrite cset_er. destruct (tcset_inv s c n (Some (n - 1)%Z) I Ec) as [I1 Y1].
    destruct (n - 1 =? 0)%Z eqn:E0.
    2: { split; [reflexivity|]. intros t Et. assert (t = tcset s c (Some (n - 1)%Z)) by congruence. subst. auto. }
    destruct (V1 c eq_refl) as (o & k & E & D & k' & T1 & T2 & T3 & T4 & T5 & T6).
    assert (Hset : forall s1, inv s1 -> ext s s1 ->
      (pset (erase s1) v null = rmap erase (tset s1 v tnull)) /\ (forall t, tset s1 v tnull = Ok t -> inv t /\ ext s t)).
    { intros s1 J1 X1. split; [apply (pset_er s1 v tnull)|]. intros t Et.
      destruct (tset_inv s1 v tnull t J1 Et) as [J2 X2]; [intros; apply vok_null|]. split; [exact J2|]. eapply ext_trans; eauto. }
    destruct del.
    - rewrite T1, T2. cbn [option_map fst]. rewrite cset_er. rewrite alive_er.
      assert (ED : dclass (tcset (tcset s c (Some (n - 1)%Z)) c None) o = Ok D) by exact T3. rewrite ED. cbn [bind].
      rewrite T4. rewrite andb_true_r.
      assert (Ec1 : tcget (tcset s c (Some (n - 1)%Z)) c = Ok (n - 1)%Z).
      { unfold tcget, tcset. cbn [tcn]. rewrite upd_same; [reflexivity|]. unfold tcget in Ec. apply nth_error_Some. destruct (nth_error (tcn s) c); congruence. }
      destruct (talive (tcset (tcset s c (Some (n - 1)%Z)) c None) o) eqn:Eal; [|split; [reflexivity|discriminate]].
      destruct (del_inv (tcset s c (Some (n - 1)%Z)) c o k E D (n - 1)%Z I1 Ec1 T5 T3 Eal) as [I2 X2].
      set (s2 := mkTst (tcn (tcset (tcset s c (Some (n - 1)%Z)) c None)) (upd (tob (tcset s c (Some (n - 1)%Z))) o (false, D))
                   (tvs (tcset s c (Some (n - 1)%Z))) (EDelete c o k E :: tlog (tcset s c (Some (n - 1)%Z)))) in *.
      assert (ES : mkSt (cn (erase (tcset (tcset s c (Some (n - 1)%Z)) c None)))
                     (upd (ob (erase (tcset (tcset s c (Some (n - 1)%Z)) c None))) o false)
                     (vs (erase (tcset (tcset s c (Some (n - 1)%Z)) c None))) = erase s2).
      { unfold erase, s2. cbn [cn ob vs tcn tob tvs]. rewrite map_upd. reflexivity. }
      rewrite ES, members_er. change (tmembers (mkTst (tcn (tcset (tcset s c (Some (n - 1)%Z)) c None))
        (upd (tob (tcset (tcset s c (Some (n - 1)%Z)) c None)) o (false, D)) (tvs (tcset (tcset s c (Some (n - 1)%Z)) c None))
        (EDelete c o k E :: tlog (tcset (tcset s c (Some (n - 1)%Z)) c None))) o) with (tmembers s2 o).
      destruct (EACH (tmembers s2 o) s2 I2) as [E3 X3]. unfold peach, each in E3. unfold each in X3.
      change (mkTst (tcn (tcset (tcset s c (Some (n - 1)%Z)) c None))
        (upd (tob (tcset (tcset s c (Some (n - 1)%Z)) c None)) o (false, D)) (tvs (tcset (tcset s c (Some (n - 1)%Z)) c None))
        (EDelete c o k E :: tlog (tcset (tcset s c (Some (n - 1)%Z)) c None))) with s2.
      rewrite E3. unfold rmap at 1.
      match goal with |- context [do x <- ?e; Ok (erase x)] => destruct e as [s3| | |] eqn:E4 end; cbn [bind]; try (split; [reflexivity|discriminate]).
      destruct (X3 s3 eq_refl) as [I3 Y3]. apply Hset; [exact I3|]. eapply ext_trans; [exact Y1|]. eapply ext_trans; [exact X2|exact Y3].
    - cbn [bind]. apply Hset; auto.
  Qed.

  Lemma tinc_inv s p t : inv s -> tinc s p = Ok t -> inv t /\ ext s t.
  Proof.
    unfold tinc. intros I E. destruct (tc p) as [c|]; [|assert (t = s) by congruence; subst; split; [exact I|apply ext_refl]].
    destruct (tcget s c) as [n| | |] eqn:Ec; cbn [bind] in E; try discriminate.
    assert (t = tcset s c (Some (n + 1)%Z)) by congruence. subst. eapply tcset_inv; eauto.
  Qed.
  Lemma tget_vok s v p : inv s -> tget s v = Ok p -> exists C, tclass s v = Ok C /\ vok s C p.
  Proof.
    intros I. unfold tget, tclass. destruct (nth_error (tvs s) v) as [[[[q|] h] C]|] eqn:Ev; try discriminate. intros E. exists C. split; auto.
    assert (q = p) by congruence. subst. eapply i_var; eauto.
  Qed.
  Lemma vok_step s t C p : ext s t -> vok s C p -> vok t C p.
  Proof. intros X. apply vok_ext; apply X. Qed.

  Definition er_res (x : tst * option (nat * nat)) : st * option nat := (erase (fst x), option_map fst (snd x)).
  Record keep (s : tst) (op0 : top) (t : tst) : Prop := {
    k_cls : forall u C, tclass s u = Ok C -> tclass t u = Ok C;
    k_wrap : forall c o k C, In (EWrap c o k C) (tlog t) -> In (EWrap c o k C) (tlog s) \/ exists v, op0 = TWrap v o k /\ tclass s v = Ok C }.
  Lemma ext_keep s o t : ext s t -> keep s o t.
  Proof. intros X. constructor; [intros u C; now rewrite (e_cls _ _ X)|]. intros c o' k C Hin. left. now apply (e_wrap _ _ X) in Hin. Qed.
  Lemma keep_inv s o t : inv t /\ ext s t -> inv t /\ keep s o t.
  Proof. intros [A B]. split; [exact A|now apply ext_keep]. Qed.
  Definition good_step (s : tst) (o : top) : Prop :=
    step (erase s) (er_op dyn s o) = rmap er_res (tstep s o) /\ (forall t r, tstep s o = Ok (t, r) -> inv t /\ keep s o t).

  (* initialise and count *)
  Lemma init_inc s v p C : inv s -> tclass s v = Ok C -> vok s C p ->
    (do s1 <- pinit (erase s) v (er_ptr p); do s2 <- inc s1 (er_ptr p); Ok (s2, @None nat)) =
      rmap er_res (do s1 <- tinit s v p; do s2 <- tinc s1 p; Ok (s2, None)) /\
    (forall t r, (do s1 <- tinit s v p; do s2 <- tinc s1 p; Ok (s2, @None (nat * nat))) = Ok (t, r) -> inv t /\ ext s t).
  Proof.
    intros I EC V. rewrite pinit_er. unfold rmap at 1. destruct (tinit s v p) as [s1| | |] eqn:E1; cbn [bind]; try (split; [reflexivity|discriminate]).
    destruct (tinit_inv s v p s1 I E1) as [I1 X1]; [intros C' EC'; assert (C' = C) by congruence; now subst|].
    rewrite inc_er. unfold rmap at 1. destruct (tinc s1 p) as [s2| | |] eqn:E2; cbn [bind]; try (split; [reflexivity|discriminate]).
    split; [reflexivity|]. intros t r Et. assert (t = s2) by congruence. subst. destruct (tinc_inv _ _ _ I1 E2). split; [auto|]. eapply ext_trans; eauto.
  Qed.
  Lemma init_set s v w p C : inv s -> tclass s v = Ok C -> vok s C p ->
    (do s1 <- pinit (erase s) v (er_ptr p); do s2 <- pset s1 w null; Ok (s2, @None nat)) =
      rmap er_res (do s1 <- tinit s v p; do s2 <- tset s1 w tnull; Ok (s2, None)) /\
    (forall t r, (do s1 <- tinit s v p; do s2 <- tset s1 w tnull; Ok (s2, @None (nat * nat))) = Ok (t, r) -> inv t /\ ext s t).
  Proof.
    intros I EC V. rewrite pinit_er. unfold rmap at 1. destruct (tinit s v p) as [s1| | |] eqn:E1; cbn [bind]; try (split; [reflexivity|discriminate]).
    destruct (tinit_inv s v p s1 I E1) as [I1 X1]; [intros C' EC'; assert (C' = C) by congruence; now subst|].
    change null with (er_ptr tnull). rewrite pset_er. unfold rmap at 1.
    destruct (tset s1 w tnull) as [s2| | |] eqn:E2; cbn [bind]; try (split; [reflexivity|discriminate]).
    split; [reflexivity|]. intros t r Et. assert (t = s2) by congruence. subst.
    destruct (tset_inv _ _ _ _ I1 E2); [intros; apply vok_null|]. split; [auto|]. eapply ext_trans; eauto.
  Qed.
  Lemma init_null s v : inv s ->
    (do s1 <- pinit (erase s) v null; Ok (s1, @None nat)) = rmap er_res (do s1 <- tinit s v tnull; Ok (s1, None)) /\
    (forall t r, (do s1 <- tinit s v tnull; Ok (s1, @None (nat * nat))) = Ok (t, r) -> inv t /\ ext s t).
  Proof.
    intros I. change null with (er_ptr tnull). rewrite pinit_er. unfold rmap at 1.
    destruct (tinit s v tnull) as [s1| | |] eqn:E1; cbn [bind]; try (split; [reflexivity|discriminate]).
    split; [reflexivity|]. intros t r Et. assert (t = s1) by congruence. subst. eapply tinit_inv; eauto. intros; apply vok_null.
  Qed.
  Lemma tinit_class s v p t : tinit s v p = Ok t -> exists C, tclass s v = Ok C.
  Proof. unfold tinit, tclass. destruct (nth_error (tvs s) v) as [[[[q|] h] C]|]; try discriminate. eauto. Qed.

  Lemma conv_vok s p C B o k D k' : vok s C p -> tr p = Some (o, k) -> dclass s o = Ok D -> cls D k' = Some B ->
    vok s B (mkT (tc p) (Some (o, k')) (to p) (td p)).
  Proof.
    intros [V1 V2] Er ED Ek. destruct (V2 o k Er) as (Nc & _). split; cbn [tc tr to td].
    - intros c Ec. destruct (V1 c Ec) as (o1 & k1 & E & D1 & k2 & X1 & X2 & X3 & X4 & X5 & X6).
      assert (o1 = o /\ k2 = k) as [-> ->] by (split; congruence).
      exists o, k1, E, D1, k'. repeat split; auto.
    - intros o1 k1 E. assert (o1 = o /\ k1 = k') as [-> ->] by (split; congruence). split; [exact Nc|]. exists D. auto.
  Qed.

  Lemma raw_sim s D ms : inv s -> good_step s (TRaw D ms).
  Proof.
    intros I. unfold good_step. cbn [er_op step PtyModel.tstep rmap bind]. split.
    - unfold er_res, erase. cbn [fst snd cn ob vs tcn tob tvs option_map]. rewrite !map_app, !map_length. cbn [map fst].
      do 3 f_equal. f_equal. rewrite map_map. cbn [er_var option_map]. induction ms as [|m ms IH]; cbn [map repeat length]; [reflexivity|].
      now rewrite <- IH.
    - intros t r E. cbv zeta in E.
      assert (t = mkTst (tcn s) (tob s ++ [(true, D)]) (tvs s ++ map (fun C => (Some tnull, Some (length (tob s)), C)) ms) (tlog s)) by congruence.
      subst t. clear E. split.
      2: { constructor; [|intros; now left]. intros u C. unfold tclass. cbn [tvs]. destruct (nth_error (tvs s) u) as [[[x h] C']|] eqn:Eu; [|discriminate].
           rewrite nth_error_app1 by (apply nth_error_Some; congruence). now rewrite Eu. }
      assert (DC : forall o D', dclass s o = Ok D' ->
        dclass (mkTst (tcn s) (tob s ++ [(true, D)]) (tvs s ++ map (fun C => (Some tnull, Some (length (tob s)), C)) ms) (tlog s)) o = Ok D').
      { intros o D'. unfold dclass. cbn [tob]. destruct (nth_error (tob s) o) as [[b D'']|] eqn:Eo; [|discriminate].
        rewrite nth_error_app1 by (apply nth_error_Some; congruence). now rewrite Eo. }
      constructor; cbn [tcn tob tvs tlog]; try apply I.
      + intros u p h C Hu. destruct (Nat.lt_ge_cases u (length (tvs s))) as [L|L].
        * rewrite nth_error_app1 in Hu by auto. destruct (i_var s I u p h C Hu) as [V1 V2]. split.
          -- intros c Ec. destruct (V1 c Ec) as (o & k & E & D1 & k' & X1 & X2 & X3 & X4 & X5 & X6). exists o, k, E, D1, k'. repeat split; auto.
          -- intros o k E. destruct (V2 o k E) as (X1 & D1 & X2 & X3). split; [exact X1|]. exists D1. split; auto.
        * rewrite nth_error_app2 in Hu by auto. apply nth_error_In in Hu. apply in_map_iff in Hu. destruct Hu as (x & Ex & _).
          assert (p = tnull) by congruence. subst. apply vok_null.
      + intros o Lo Ao. apply (i_dead s I); unfold talive in *; cbn [tob] in *; rewrite app_length in Lo; cbn [length] in Lo.
        * destruct (Nat.eq_dec o (length (tob s))) as [->|N]; [|lia]. rewrite nth_error_app2, Nat.sub_diag in Ao by lia. discriminate.
        * destruct (Nat.eq_dec o (length (tob s))) as [->|N]; [rewrite nth_error_app2, Nat.sub_diag in Ao by lia; discriminate|].
          rewrite nth_error_app1 in Ao by lia. exact Ao.
      + intros c o Hd. destruct (i_gone s I c o Hd) as (X1 & X2 & X3). split; [exact X1|]. unfold talive in *. cbn [tob].
        rewrite nth_error_app1 by auto. split; [exact X2|]. rewrite app_length. lia.
  Qed.

  Lemma wrap_sim s v o k : inv s -> typed cls vdtor base s (TWrap v o k) -> good_step s (TWrap v o k).
  Proof.
    intros I (C & D & EC & ED & Ek & Hd). unfold good_step. cbn [er_op step PtyModel.tstep]. rewrite EC. cbn [bind]. cbv zeta.
    set (s1 := mkTst (tcn s ++ [Some 0%Z]) (tob s) (tvs s) (EWrap (length (tcn s)) o k C :: tlog s)).
    set (p := mkT (Some (length (tcn s))) (Some (o, k)) (Some (o, k)) (Some C)).
    assert (I1 : inv s1).
    { constructor; unfold s1; cbn [tcn tob tvs tlog].
      - intros u q h C' Hu. eapply vok_ext; [| |eapply (i_var s I); eauto]; [reflexivity|]. intros e He. now right.
      - intros l1 c' o' k' C' l2 He. destruct l1 as [|e l1]; cbn [app] in He; inversion He; subst. eapply (i_del s I). eassumption.
      - intros o' Lo' Ao'. destruct (i_dead s I o' Lo' Ao') as (c' & k' & C' & Hin). exists c', k', C'. now right.
      - intros c o' He. destruct (i_gone s I c o' He) as (X1 & X2 & X3). split; [|split; [exact X2|exact X3]].
        rewrite nth_error_app1 by (apply nth_error_Some; congruence). exact X1.
      - apply I.
      - intros c [He|He]; rewrite app_length; cbn [length]; [lia|]. apply (i_fresh s I) in He. lia.
      - cbn [wraps flat_map app]. constructor; [|apply I]. intros Hin. apply (i_fresh s I) in Hin. lia. }
    destruct (init_inc s1 v p C I1 EC) as [EQ KP].
    2: { split; [exact EQ|]. intros t r Et. destruct (KP t r Et) as [It Xt]. split; [exact It|]. constructor.
         - intros u C'. rewrite (e_cls _ _ Xt). exact (fun x => x).
         - intros c o' k' C' Hin. apply (e_wrap _ _ Xt) in Hin. destruct Hin as [He|Hin]; [|now left].
           inversion He; subst. right. exists v. auto. }
    split; unfold p; cbn [tc tr to td].
    - intros c Ec. assert (c = length (tcn s)) by congruence. subst c. exists o, k, C, D, k. repeat split; auto; [|now left].
      unfold PtyModel.can_delete. rewrite Ek, Nat.eqb_refl. cbn [andb]. destruct Hd as [->|Hd]; [|rewrite Hd; apply orb_true_r].
      rewrite (h_whole _ _ _ _ H) in Ek. assert (C = D) by congruence. subst. now rewrite Nat.eqb_refl.
    - intros o' k' E. assert (o' = o /\ k' = k) as [-> ->] by (split; congruence). split; [discriminate|]. exists D. auto.
  Qed.

  Lemma copy_sim s v w : inv s -> same_class s v w -> good_step s (TCopy v w) /\ good_step s (TMove v w).
  Proof.
    intros I SC. unfold good_step. cbn [er_op step PtyModel.tstep]. rewrite pget_er. unfold rmap at 1 3.
    destruct (tget s w) as [p| | |] eqn:Eg; cbn [bind]; try (split; split; (reflexivity || discriminate)).
    destruct (tget_vok s w p I Eg) as (C & EC & V). rewrite <- SC in EC.
    split; [destruct (init_inc s v p C I EC V) as [A B]|destruct (init_set s v w p C I EC V) as [A B]]; (split; [exact A|]); intros t r Et; apply keep_inv; eauto.
  Qed.
  Lemma conv_sim s v w : inv s -> (exists B C, tclass s v = Ok B /\ tclass s w = Ok C /\ base B C = true) ->
    good_step s (TConv v w) /\ good_step s (TConvMove v w).
  Proof.
    intros I (B & C & EB & EC & HB). unfold good_step. cbn [er_op step PtyModel.tstep]. rewrite pget_er. unfold rmap at 1 3.
    destruct (tget s w) as [p| | |] eqn:Eg; cbn [bind]; try (split; split; (reflexivity || discriminate)).
    destruct (tget_vok s w p I Eg) as (C' & EC' & V). assert (C' = C) by congruence. subst C'. rewrite EB. cbn [bind]. change (pr (er_ptr p)) with (option_map fst (tr p)).
    destruct (tr p) as [[o k]|] eqn:Er; cbn [option_map fst]; [|destruct (init_null s v I) as [A1 A2]; split; (split; [exact A1|]); intros t r Et; apply keep_inv; eauto].
    destruct (proj2 V o k Er) as (Nc & D & ED & Ek). rewrite ED. cbn [bind].
    destruct (h_base _ _ _ _ H D k C B HB Ek) as (k' & Eu & Ek'). rewrite Eu. cbv zeta.
    pose proof (conv_vok s p C B o k D k' V Er ED Ek') as Vq.
    assert (EP : er_ptr p = er_ptr (mkT (tc p) (Some (o, k')) (to p) (td p))) by (unfold er_ptr; rewrite Er; reflexivity).
    rewrite EP.
    split; [destruct (init_inc s v _ B I EB Vq) as [A1 A2]|destruct (init_set s v w _ B I EB Vq) as [A1 A2]]; (split; [exact A1|]); intros t r Et; apply keep_inv; eauto.
  Qed.
  Lemma cast_sim s v w : inv s -> good_step s (TCast v w).
  Proof.
    intros I. unfold good_step. cbn [er_op step PtyModel.tstep]. unfold PtySpec.cast_ok. rewrite pget_er. unfold rmap at 1.
    destruct (tget s w) as [p| | |] eqn:Eg; cbn [bind]; try (split; [reflexivity|discriminate]).
    destruct (tclass s v) as [C| | |] eqn:EC; cbn [bind].
    2-4: (unfold tclass in EC; destruct (nth_error (tvs s) v) as [[[x h] C]|] eqn:Ev; try discriminate;
          (split; [unfold pinit; rewrite nth_var, Ev; cbn [option_map bind]; reflexivity|discriminate])).
    destruct (tget_vok s w p I Eg) as (C' & EC' & V). cbn [er_ptr pr pc po pd].
    assert (NUL : vok s C (mkT None None (to p) (td p))) by (split; cbn [tc tr]; intros; discriminate).
    destruct (tr p) as [[o k]|] eqn:Er; cbn [option_map fst bind].
    2: { destruct (init_inc s v (mkT None None (to p) (td p)) C I EC NUL) as [A1 A2]; (split; [exact A1|]); intros t r Et; apply keep_inv; eauto. }
    destruct (proj2 V o k Er) as (Nc & D & ED & Ek). rewrite ED. cbn [bind]. cbv zeta.
    destruct (dyn D k C) as [k'|] eqn:Ed.
    - pose proof (conv_vok s p C' C o k D k' V Er ED (h_dyn _ _ _ _ H _ _ _ _ Ed)) as Vq.
      destruct (init_inc s v (mkT (tc p) (Some (o, k')) (to p) (td p)) C I EC Vq) as [A1 A2]; (split; [exact A1|]); intros t r Et; apply keep_inv; eauto.
    - destruct (init_inc s v (mkT None None (to p) (td p)) C I EC NUL) as [A1 A2]; (split; [exact A1|]); intros t r Et; apply keep_inv; eauto.
  Qed.
  Lemma assign_sim s v w : inv s -> same_class s v w -> good_step s (TAssign v w) /\ good_step s (TMoveAssign v w).
  Proof.
    intros I SC. unfold good_step. cbn [er_op step PtyModel.tstep]. destruct (Nat.eqb v w).
    - rewrite pget_er. unfold rmap at 1 3. destruct (tget s v) as [p| | |]; cbn [bind]; try (split; split; (reflexivity || discriminate)).
      split; (split; [reflexivity|]); intros t r E; assert (t = s) by congruence; subst; apply keep_inv; split; [exact I|apply ext_refl|exact I|apply ext_refl].
    - rewrite fuel_er. destruct (dec_sim (tfuel s) true v s I) as [E1 X1]. rewrite E1. unfold rmap at 1 3.
      destruct (tdec (tfuel s) true v s) as [s1| | |]; cbn [bind]; try (split; split; (reflexivity || discriminate)).
      destruct (X1 s1 eq_refl) as [I1 Y1]. rewrite pget_er. unfold rmap at 1 3.
      destruct (tget s1 w) as [p| | |] eqn:Eg; cbn [bind]; try (split; split; (reflexivity || discriminate)).
      destruct (tget_vok s1 w p I1 Eg) as (C & EC & V). rewrite pset_er. unfold rmap at 1 3.
      destruct (tset s1 v p) as [s2| | |] eqn:Es; cbn [bind]; try (split; split; (reflexivity || discriminate)).
      destruct (tset_inv s1 v p s2 I1 Es) as [I2 Y2].
      { intros C' EC'. rewrite (e_cls _ _ Y1), SC, <- (e_cls _ _ Y1), EC in EC'. assert (C' = C) by congruence. now subst. }
      split.
      + rewrite inc_er. unfold rmap at 1. destruct (tinc s2 p) as [s3| | |] eqn:Ei; cbn [bind]; try (split; [reflexivity|discriminate]).
        split; [reflexivity|]. intros t r E. assert (t = s3) by congruence. subst. destruct (tinc_inv _ _ _ I2 Ei). apply keep_inv. split; [auto|]. eapply ext_trans; [exact Y1|]. eapply ext_trans; eauto.
      + change null with (er_ptr tnull). rewrite pset_er. unfold rmap at 1.
        destruct (tset s2 w tnull) as [s3| | |] eqn:Ei; cbn [bind]; try (split; [reflexivity|discriminate]).
        split; [reflexivity|]. intros t r E. assert (t = s3) by congruence. subst.
        destruct (tset_inv _ _ _ _ I2 Ei); [intros; apply vok_null|]. apply keep_inv. split; [auto|]. eapply ext_trans; [exact Y1|]. eapply ext_trans; eauto.
  Qed.
  Lemma release_sim s v : inv s -> good_step s (TDestroy v) /\ good_step s (TSetNull v) /\ good_step s (TDetach v).
  Proof.
    intros I. unfold good_step. cbn [er_op step PtyModel.tstep]. rewrite fuel_er. split; [|split].
    - destruct (dec_sim (tfuel s) true v s I) as [E1 X1]. rewrite E1. unfold rmap at 1.
      destruct (tdec (tfuel s) true v s) as [s1| | |]; cbn [bind]; try (split; (reflexivity || discriminate)).
      destruct (X1 s1 eq_refl) as [I1 Y1]. rewrite pkill_er. unfold rmap at 1.
      destruct (tkill s1 v) as [s2| | |] eqn:Ek; cbn [bind]; try (split; (reflexivity || discriminate)).
      split; [reflexivity|]. intros t r E. assert (t = s2) by congruence. subst. destruct (tkill_inv _ _ _ I1 Ek). apply keep_inv. split; [auto|]. eapply ext_trans; eauto.
    - destruct (dec_sim (tfuel s) true v s I) as [E1 X1]. rewrite E1. unfold rmap at 1.
      destruct (tdec (tfuel s) true v s) as [s1| | |]; cbn [bind]; try (split; (reflexivity || discriminate)).
      destruct (X1 s1 eq_refl) as [I1 Y1]. change null with (er_ptr tnull). rewrite pset_er. unfold rmap at 1.
      destruct (tset s1 v tnull) as [s2| | |] eqn:Ek; cbn [bind]; try (split; (reflexivity || discriminate)).
      split; [reflexivity|]. intros t r E. assert (t = s2) by congruence. subst. destruct (tset_inv _ _ _ _ I1 Ek); [intros; apply vok_null|]. apply keep_inv. split; [auto|]. eapply ext_trans; eauto.
    - rewrite pget_er. unfold rmap at 1. destruct (tget s v) as [p| | |]; cbn [bind]; try (split; (reflexivity || discriminate)).
      destruct (dec_sim (tfuel s) false v s I) as [E1 X1]. rewrite E1. unfold rmap at 1.
      destruct (tdec (tfuel s) false v s) as [s1| | |]; cbn [bind]; try (split; (reflexivity || discriminate)).
      split; [reflexivity|]. intros t r E. assert (t = s1) by congruence. subst. apply keep_inv. now apply X1.
  Qed.
  Lemma step_sim s o : inv s -> typed cls vdtor base s o -> good_step s o.
  Proof.
    intros I T. destruct o; cbn [typed] in T.
    - unfold good_step. cbn [er_op step PtyModel.tstep]. destruct (init_null s v I) as [A B]. split; [exact A|]. intros t r Et. apply keep_inv. eauto.
    - now apply raw_sim.
    - now apply wrap_sim.
    - now apply copy_sim.
    - now apply conv_sim.
    - now apply copy_sim.
    - now apply conv_sim.
    - now apply cast_sim.
    - now apply release_sim.
    - now apply release_sim.
    - now apply assign_sim.
    - now apply assign_sim.
    - now apply release_sim.
  Qed.

  Lemma start_inv cs : inv (tstart cs).
  Proof.
    constructor; cbn [tstart tcn tob tvs tlog dels wraps flat_map map]; try (intros; match goal with X : In _ [] |- _ => destruct X end).
    - intros u p h C E. apply nth_error_In, in_map_iff in E. destruct E as (x & E & _). discriminate.
    - intros l1 c o k C l2 E. destruct l1; discriminate.
    - cbn [length]. lia.
    - split; constructor.
    - constructor.
  Qed.
  Lemma start_er cs : erase (tstart cs) = init (length cs).
  Proof. unfold erase, tstart, init. cbn [tcn tob tvs map]. f_equal. rewrite map_map. induction cs; cbn [map repeat length]; [reflexivity|]. now f_equal. Qed.

  Record reached (s : tst) (os : list top) (t : tst) : Prop := {
    r_inv : inv t;
    r_good : good (erase t);
    r_cls : forall u C, tclass s u = Ok C -> tclass t u = Ok C;
    r_wrap : forall c o k C, In (EWrap c o k C) (tlog t) -> In (EWrap c o k C) (tlog s) \/ exists v, In (TWrap v o k) os /\ tclass t v = Ok C;
    r_wrapped : forall v o k, In (TWrap v o k) os -> wrapped (er_run cls up dyn vdtor s os) o;
    r_detach : Forall (fun o => match o with TDetach _ => False | _ => True end) os -> no_detach (er_run cls up dyn vdtor s os) }.
  Lemma run_sim os : forall s, inv s -> good (erase s) -> tlegal_run cls up dyn vdtor base s os ->
    legal_run (erase s) (er_run cls up dyn vdtor s os) /\
    exists t rs, trun cls up dyn vdtor s os = Ok (t, rs) /\
      run (erase s) (er_run cls up dyn vdtor s os) = Ok (erase t, map (option_map fst) rs) /\ reached s os t.
  Proof.
    induction os as [|o os IH]; intros s I G L; cbn [er_run legal_run trun run].
    - split; [exact Logic.I|]. exists s, []. split; [reflexivity|]. split; [reflexivity|]. constructor; auto; [intros v o k []|constructor].
    - destruct L as (L1 & T & L2). destruct (step_sim s o I T) as [E X].
      destruct (step_ok (erase s) (er_op dyn s o) G L1) as (s' & r & E' & _ & G' & _).
      rewrite E in E'. unfold rmap in E'. destruct (tstep s o) as [[t r']| | |] eqn:Et; cbn [bind] in E'; try discriminate.
      assert (s' = erase t) by (unfold er_res in E'; cbn [fst snd] in E'; congruence). subst s'.
      destruct (X t r' eq_refl) as [It Kt].
      destruct (IH t It G' (L2 t r' eq_refl)) as (LL & t2 & rs & R1 & R2 & RR).
      assert (ES : step (erase s) (er_op dyn s o) = Ok (erase t, option_map fst r')) by exact E.
      split.
      + split; [exact L1|]. intros s'' r'' E''. rewrite ES in E''. assert (s'' = erase t) by congruence. now subst.
      + exists t2, (r' :: rs). rewrite ES. cbn [bind]. rewrite R1, R2. split; [reflexivity|]. split; [reflexivity|]. constructor.
        * apply RR.
        * apply RR.
        * intros u C EC. apply (r_cls _ _ _ RR). now apply (k_cls _ _ _ Kt).
        * intros c o' k C Hin. destruct (r_wrap _ _ _ RR c o' k C Hin) as [Hin'|(v & Hin' & EC)]; [|right; exists v; split; [now right|exact EC]].
          destruct (k_wrap _ _ _ Kt c o' k C Hin') as [Hin''|(v & -> & EC)]; [now left|]. right. exists v. split; [now left|].
          apply (r_cls _ _ _ RR). now apply (k_cls _ _ _ Kt).
        * cbn [er_run]. rewrite Et. intros v o' k [->|Hin]; [exists v; now left|]. destruct (r_wrapped _ _ _ RR v o' k Hin) as [v' Hv]. exists v'. now right.
        * cbn [er_run]. rewrite Et. intros ND. inversion ND; subst. constructor; [|now apply (r_detach _ _ _ RR)]. destruct o; cbn [er_op]; auto.
  Qed.

  Lemma history cs os : tlegal_run cls up dyn vdtor base (tstart cs) os ->
    legal_run (init (length cs)) (er_run cls up dyn vdtor (tstart cs) os) /\
    exists t rs, trun cls up dyn vdtor (tstart cs) os = Ok (t, rs) /\
      run (init (length cs)) (er_run cls up dyn vdtor (tstart cs) os) = Ok (erase t, map (option_map fst) rs).
  Proof.
    intros L. destruct (run_sim os (tstart cs)) as (A & t & rs & B & C & D); auto.
    - apply start_inv.
    - rewrite start_er. apply init_good.
    - rewrite start_er in *. split; [exact A|]. exists t, rs. auto.
  Qed.
  Lemma reach cs os t rs : tlegal_run cls up dyn vdtor base (tstart cs) os -> trun cls up dyn vdtor (tstart cs) os = Ok (t, rs) ->
    reached (tstart cs) os t /\ legal_run (init (length cs)) (er_run cls up dyn vdtor (tstart cs) os) /\
    run (init (length cs)) (er_run cls up dyn vdtor (tstart cs) os) = Ok (erase t, map (option_map fst) rs).
  Proof.
    intros L E. destruct (run_sim os (tstart cs)) as (A & t' & rs' & B & C & D); auto.
    - apply start_inv.
    - rewrite start_er. apply init_good.
    - rewrite start_er in *. assert (t' = t /\ rs' = rs) as [-> ->] by (split; congruence). auto.
  Qed.
  Lemma refers_er t u o : refers (world_of (erase t)) u o <-> exists p h C k, nth_error (tvs t) u = Some (Some p, h, C) /\ tr p = Some (o, k).
  Proof.
    unfold refers, world_of. cbn [wv]. rewrite nth_var. destruct (nth_error (tvs t) u) as [[[[p|] h] C]|]; cbn [option_map er_var er_ptr pr].
    - split.
      + intros E. destruct (tr p) as [[o' k]|] eqn:Er; cbn [option_map fst] in E; [|discriminate]. assert (o' = o) by congruence. subst. eauto 7.
      + intros (p' & h' & C' & k & E & Er). assert (p' = p) by congruence. subst. now rewrite Er.
    - split; [discriminate|]. intros (p' & h' & C' & k & E & Er). discriminate.
    - split; [discriminate|]. intros (p' & h' & C' & k & E & Er). discriminate.
  Qed.
  Lemma types cs os t rs u p h C o k : tlegal_run cls up dyn vdtor base (tstart cs) os -> trun cls up dyn vdtor (tstart cs) os = Ok (t, rs) ->
    nth_error (tvs t) u = Some (Some p, h, C) -> tr p = Some (o, k) ->
    talive t o = true /\ exists D, dclass t o = Ok D /\ cls D k = Some C.
  Proof.
    intros L E Hu Er. destruct (reach cs os t rs L E) as (R & _ & _). split.
    - rewrite <- alive_er. eapply good_refers; [apply R|]. apply refers_er. eauto 7.
    - destruct (i_var t (r_inv _ _ _ R) u p h C Hu) as [_ V2]. now apply (V2 o k).
  Qed.
  Lemma deletes cs os t rs : tlegal_run cls up dyn vdtor base (tstart cs) os -> trun cls up dyn vdtor (tstart cs) os = Ok (t, rs) ->
    (forall l1 c o k C l2, tlog t = l1 ++ EDelete c o k C :: l2 -> In (EWrap c o k C) l2) /\
    NoDup (deleted (tlog t)) /\
    (forall c o k C, In (EWrap c o k C) (tlog t) -> exists v, In (TWrap v o k) os /\ tclass t v = Ok C) /\
    (forall o, o < length (tob t) -> (talive t o = false <-> In o (deleted (tlog t)))).
  Proof.
    intros L E. destruct (reach cs os t rs L E) as (R & _ & _). pose proof (r_inv _ _ _ R) as I.
    assert (DD : deleted (tlog t) = map snd (dels (tlog t))).
    { clear. induction (tlog t) as [|[|] l IH]; cbn [deleted dels flat_map map snd app]; [reflexivity|exact IH|]. f_equal. exact IH. }
    split; [apply I|]. split; [rewrite DD; apply I|]. split.
    - intros c o k C Hin. destruct (r_wrap _ _ _ R c o k C Hin) as [[]|Hin']. exact Hin'.
    - intros o Lo. rewrite DD. split.
      + intros Ao. destruct (i_dead t I o Lo Ao) as (c & k & C & Hin). apply in_map_iff. exists (c, o). split; [reflexivity|].
        apply in_flat_map. exists (EDelete c o k C). split; [exact Hin|now left].
      + intros Hin. apply in_map_iff in Hin. destruct Hin as ((c & o') & Eo & Hin). cbn [snd] in Eo. subst o'. now apply (i_gone t I) in Hin.
  Qed.
  Lemma lives cs os t rs v o k : tlegal_run cls up dyn vdtor base (tstart cs) os -> trun cls up dyn vdtor (tstart cs) os = Ok (t, rs) ->
    Forall (fun o => match o with TDetach _ => False | _ => True end) os -> In (TWrap v o k) os ->
    (talive t o = true <-> exists u p h C j, nth_error (tvs t) u = Some (Some p, h, C) /\ tr p = Some (o, j)).
  Proof.
    intros L E ND Hin. destruct (reach cs os t rs L E) as (R & LL & RR).
    rewrite <- alive_er. rewrite (alive_ok _ _ _ _ o LL (r_detach _ _ _ R ND) RR (r_wrapped _ _ _ R v o k Hin)).
    split; intros [u Hu]; exists u; now apply refers_er.
  Qed.

  (* ---- single steps ---- *)
  Lemma tget_init s v q t u : tinit s v q = Ok t -> tget t u = if Nat.eqb u v then Ok q else tget s u.
  Proof.
    unfold tinit, tget. intros E. destruct (nth_error (tvs s) v) as [[[[x|] h] C]|] eqn:Ev; try discriminate.
    assert (t = mkTst (tcn s) (tob s) (upd (tvs s) v (Some q, h, C)) (tlog s)) by congruence. subst t. cbn [tvs].
    destruct (Nat.eqb_spec u v) as [->|N]; [rewrite upd_same by (apply nth_error_Some; congruence); reflexivity|now rewrite upd_other by auto].
  Qed.
  Lemma tinit_free s v q t : tinit s v q = Ok t -> tget s v = UB.
  Proof. unfold tinit, tget. destruct (nth_error (tvs s) v) as [[[[x|] h] C]|]; try discriminate. reflexivity. Qed.
  Lemma tget_inc s p t u : tinc s p = Ok t -> tget t u = tget s u /\ tclass t u = tclass s u /\ forall o, dclass t o = dclass s o.
  Proof.
    unfold tinc. destruct (tc p); [|intros E; assert (t = s) by congruence; now subst].
    destruct (tcget s n) as [z| | |]; try discriminate. cbn [bind]. intros E. assert (t = tcset s n (Some (z + 1)%Z)) by congruence. subst. repeat split.
  Qed.
  Lemma tinit_cls s v q t : tinit s v q = Ok t -> (forall u, tclass t u = tclass s u) /\ forall o, dclass t o = dclass s o.
  Proof.
    unfold tinit, tclass. intros E. destruct (nth_error (tvs s) v) as [[[[x|] h] C]|] eqn:Ev; try discriminate.
    assert (t = mkTst (tcn s) (tob s) (upd (tvs s) v (Some q, h, C)) (tlog s)) by congruence. subst t. cbn [tvs]. split; [|reflexivity].
    intros u. destruct (Nat.eq_dec u v) as [->|N]; [rewrite upd_same by (apply nth_error_Some; congruence); now rewrite Ev|now rewrite upd_other by auto].
  Qed.
  (* what a conversion or a cast stores *)
  Definition conv_of (s : tst) (p : tptr) (B : nat) : tptr :=
    match tr p with
    | None => tnull
    | Some (o, k) => match dclass s o with Ok D => match up D k B with Some k' => mkT (tc p) (Some (o, k')) (to p) (td p) | None => tnull end | _ => tnull end
    end.
  Definition castof (s : tst) (p : tptr) (C : nat) : tptr :=
    match tr p with
    | None => mkT None None (to p) (td p)
    | Some (o, k) => match dclass s o with Ok D => match dyn D k C with Some k' => mkT (tc p) (Some (o, k')) (to p) (td p)
                                                                     | None => mkT None None (to p) (td p) end | _ => tnull end
    end.
  Definition made (s : tst) (v : nat) (q : tptr) (t : tst) : Prop :=
    tget s v = UB /\ (forall u, tget t u = if Nat.eqb u v then Ok q else tget s u) /\ (forall u, tclass t u = tclass s u) /\ (forall o, dclass t o = dclass s o).
  Lemma made_inc s v q t r : (do s1 <- tinit s v q; do s2 <- tinc s1 q; Ok (s2, @None (nat * nat))) = Ok (t, r) -> made s v q t.
  Proof.
    intros E. destruct (tinit s v q) as [s1| | |] eqn:E1; cbn [bind] in E; try discriminate.
    destruct (tinc s1 q) as [s2| | |] eqn:E2; cbn [bind] in E; try discriminate. assert (t = s2) by congruence. subst t.
    destruct (tinit_cls _ _ _ _ E1) as [A1 A2].
    split; [eapply tinit_free; eauto|]. split; [|split]; intros u; destruct (tget_inc _ _ _ u E2) as (B1 & B2 & B3).
    - rewrite B1. now apply tget_init.
    - rewrite B2. apply A1.
    - rewrite B3. apply A2.
  Qed.
  Lemma conv_step s v w p B t r : tget s w = Ok p -> tclass s v = Ok B -> tstep s (TConv v w) = Ok (t, r) -> made s v (conv_of s p B) t.
  Proof.
    intros Eg EB. cbn [PtyModel.tstep]. rewrite Eg, EB. cbn [bind]. unfold conv_of. destruct (tr p) as [[o k]|].
    - destruct (dclass s o) as [D| | |]; cbn [bind]; try discriminate. destruct (up D k B) as [k'|]; [|discriminate]. cbv zeta. apply made_inc.
    - intros E. destruct (tinit s v tnull) as [s1| | |] eqn:E1; cbn [bind] in E; try discriminate. assert (t = s1) by congruence. subst.
      destruct (tinit_cls _ _ _ _ E1) as [A1 A2]. split; [eapply tinit_free; eauto|]. split; [intros u; now apply tget_init|]. split; auto.
  Qed.
  Lemma cast_step s v w p C t r : tget s w = Ok p -> tclass s v = Ok C -> tstep s (TCast v w) = Ok (t, r) -> made s v (castof s p C) t.
  Proof.
    intros Eg EC. cbn [PtyModel.tstep]. rewrite Eg, EC. cbn [bind]. unfold castof. destruct (tr p) as [[o k]|].
    - destruct (dclass s o) as [D| | |]; cbn [bind]; try discriminate. destruct (dyn D k C) as [k'|]; apply made_inc.
    - cbn [bind]. apply made_inc.
  Qed.
  Lemma made_neq s v q t w p : made s v q t -> tget s w = Ok p -> w <> v.
  Proof. intros (A & _) E ->. congruence. Qed.

  Definition eqp (p q : tptr) : bool :=
    match tr p, tr q with None, None => true | Some (o, k), Some (o', k') => Nat.eqb o o' && Nat.eqb k k' | _, _ => false end.
  Lemma tequal_eq s v w p q : tget s v = Ok p -> tget s w = Ok q -> tequal s v w = Ok (eqp p q).
  Proof. intros A B. unfold tequal. rewrite A, B. reflexivity. Qed.
  Lemma eqp_refl p q : tr p = tr q -> eqp p q = true.
  Proof. unfold eqp. intros ->. destruct (tr q) as [[o k]|]; [now rewrite !Nat.eqb_refl|reflexivity]. Qed.

  Lemma cast_back cs os s rs v b d B C s1 s2 r1 r2 :
    tlegal_run cls up dyn vdtor base (tstart cs) os -> trun cls up dyn vdtor (tstart cs) os = Ok (s, rs) ->
    tclass s v = Ok C -> tclass s d = Ok C -> tclass s b = Ok B -> base B C = true ->
    (forall p o k D k', tget s v = Ok p -> tr p = Some (o, k) -> dclass s o = Ok D -> up D k B = Some k' ->
       forall j, cls D j = Some C -> up D j B = Some k' -> j = k) ->
    tstep s (TConv b v) = Ok (s1, r1) -> tstep s1 (TCast d b) = Ok (s2, r2) ->
    tequal s2 v d = Ok true /\ (forall p, tget s2 v = Ok p -> tr p <> None -> tget s2 d = Ok p).
  Proof.
    intros L E EC Ed EB HB Un S1 S2. destruct (reach cs os s rs L E) as (R & _ & _). pose proof (r_inv _ _ _ R) as I.
    assert (Ev : exists p, tget s v = Ok p).
    { cbn [PtyModel.tstep] in S1. destruct (tget s v) as [p| | |]; try discriminate. eauto. }
    destruct Ev as [p Ev]. pose proof (conv_step s b v p B s1 r1 Ev EB S1) as M1. pose proof M1 as (F1 & G1 & K1 & D1).
    assert (Eb : tget s1 b = Ok (conv_of s p B)) by (rewrite G1, Nat.eqb_refl; reflexivity).
    assert (Ed1 : tclass s1 d = Ok C) by now rewrite K1.
    pose proof (cast_step s1 d b _ C s2 r2 Eb Ed1 S2) as M2. pose proof M2 as (F2 & G2 & K2 & D2).
    assert (Nb : v <> b) by (eapply made_neq; eauto).
    assert (Ev1 : tget s1 v = Ok p) by (rewrite G1; destruct (Nat.eqb_spec v b); congruence).
    assert (Nd : v <> d) by (eapply made_neq; eauto).
    assert (Ev2 : tget s2 v = Ok p) by (rewrite G2; destruct (Nat.eqb_spec v d); congruence).
    assert (Ed2 : tget s2 d = Ok (castof s1 (conv_of s p B) C)) by (rewrite G2, Nat.eqb_refl; reflexivity).
    assert (KEY : tr (castof s1 (conv_of s p B) C) = tr p /\ (tr p <> None -> castof s1 (conv_of s p B) C = p)).
    { unfold conv_of. destruct (tr p) as [[o k]|] eqn:Er; [|split; [reflexivity|congruence]].
      destruct (tget_vok s v p I Ev) as (C' & EC' & V). assert (C' = C) by congruence. subst C'.
      destruct (proj2 V o k Er) as (Nc & D & ED & Ek). rewrite ED. destruct (h_base _ _ _ _ H D k C B HB Ek) as (k' & Eu & Ek').
      rewrite Eu. unfold castof. cbn [tr tc to td]. rewrite D1, ED.
      rewrite (h_dyn_back _ _ _ _ H D k C B k' HB Ek Eu (Un p o k D k' Ev Er ED Eu)). cbn [tr]. split; [reflexivity|].
      intros _. destruct p as [x1 x2 x3 x4]. cbn [tr tc to td] in *. congruence. }
    destruct KEY as [K3 K4]. split.
    - rewrite (tequal_eq s2 v d p _ Ev2 Ed2). f_equal. apply eqp_refl. congruence.
    - intros p' Ep' Np'. assert (p' = p) by congruence. subst. rewrite Ed2, K4 by exact Np'. reflexivity.
  Qed.

  Lemma conv_path cs os s rs v b a1 a2 A B C s1 s2 s3 r1 r2 r3 :
    tlegal_run cls up dyn vdtor base (tstart cs) os -> trun cls up dyn vdtor (tstart cs) os = Ok (s, rs) ->
    tclass s v = Ok C -> tclass s b = Ok B -> tclass s a1 = Ok A -> tclass s a2 = Ok A ->
    base B C = true -> base A B = true -> base A C = true ->
    tstep s (TConv b v) = Ok (s1, r1) -> tstep s1 (TConv a1 b) = Ok (s2, r2) ->
    (tstep s2 (TConv a2 v) = Ok (s3, r3) \/ tstep s2 (TCast a2 v) = Ok (s3, r3)) ->
    tequal s3 a1 a2 = Ok true.
  Proof.
    intros L E EC EB EA1 EA2 HBC HAB HAC S1 S2 S3. destruct (reach cs os s rs L E) as (R & _ & _). pose proof (r_inv _ _ _ R) as I.
    assert (Ev : exists p, tget s v = Ok p).
    { cbn [PtyModel.tstep] in S1. destruct (tget s v) as [p| | |]; try discriminate. eauto. }
    destruct Ev as [p Ev]. pose proof (conv_step s b v p B s1 r1 Ev EB S1) as M1. pose proof M1 as (F1 & G1 & K1 & D1).
    assert (Eb : tget s1 b = Ok (conv_of s p B)) by (rewrite G1, Nat.eqb_refl; reflexivity).
    assert (EA1' : tclass s1 a1 = Ok A) by now rewrite K1.
    pose proof (conv_step s1 a1 b _ A s2 r2 Eb EA1' S2) as M2. pose proof M2 as (F2 & G2 & K2 & D2).
    assert (Nb : v <> b) by (eapply made_neq; eauto).
    assert (Ev1 : tget s1 v = Ok p) by (rewrite G1; destruct (Nat.eqb_spec v b); congruence).
    assert (Na : v <> a1) by (eapply made_neq; eauto).
    assert (Ev2 : tget s2 v = Ok p) by (rewrite G2; destruct (Nat.eqb_spec v a1); congruence).
    assert (EA2' : tclass s2 a2 = Ok A) by now rewrite K2, K1.
    assert (Ea1 : tget s2 a1 = Ok (conv_of s1 (conv_of s p B) A)) by (rewrite G2, Nat.eqb_refl; reflexivity).
    assert (KEY : tr (conv_of s1 (conv_of s p B) A) = tr (conv_of s2 p A) /\ tr (conv_of s2 p A) = tr (castof s2 p A)).
    { unfold conv_of. destruct (tr p) as [[o k]|] eqn:Er; [|unfold castof; rewrite Er; split; reflexivity].
      destruct (tget_vok s v p I Ev) as (C' & EC' & V). assert (C' = C) by congruence. subst C'.
      destruct (proj2 V o k Er) as (Nc & D & ED & Ek). rewrite ED. destruct (h_base _ _ _ _ H D k C B HBC Ek) as (k' & Eu & Ek').
      rewrite Eu. cbn [tr tc to td]. rewrite D1, ED. unfold castof. rewrite Er. rewrite D2, D1, ED.
      rewrite (h_path _ _ _ _ H D k C B A k' HBC HAB HAC Ek Eu).
      rewrite (h_dyn_up _ _ _ _ H D k C A HAC Ek).
      destruct (h_base _ _ _ _ H D k C A HAC Ek) as (k'' & Eu' & Ek''). rewrite Eu'. split; reflexivity. }
    destruct KEY as [Q1 Q2]. destruct S3 as [S3|S3].
    - pose proof (conv_step s2 a2 v p A s3 r3 Ev2 EA2' S3) as M3. pose proof M3 as (F3 & G3 & _).
      assert (N2 : a1 <> a2) by (eapply made_neq; eauto).
      rewrite (tequal_eq s3 a1 a2 (conv_of s1 (conv_of s p B) A) (conv_of s2 p A)); [f_equal; now apply eqp_refl| |].
      + rewrite G3. destruct (Nat.eqb_spec a1 a2); congruence.
      + now rewrite G3, Nat.eqb_refl.
    - pose proof (cast_step s2 a2 v p A s3 r3 Ev2 EA2' S3) as M3. pose proof M3 as (F3 & G3 & _).
      assert (N2 : a1 <> a2) by (eapply made_neq; eauto).
      rewrite (tequal_eq s3 a1 a2 (conv_of s1 (conv_of s p B) A) (castof s2 p A)); [f_equal; apply eqp_refl; congruence| |].
      + rewrite G3. destruct (Nat.eqb_spec a1 a2); congruence.
      + now rewrite G3, Nat.eqb_refl.
  Qed.
End Sim.

(* ---- examples ---- *)
Lemma ex_hierarchy : hierarchy ex_cls ex_up ex_dyn ex_base.
Proof.
  assert (K : forall D k C, ex_cls D k = Some C -> (k = 0 /\ C = D) \/ (D = 2 /\ k = 1 /\ C = 0) \/ (D = 2 /\ k = 2 /\ C = 1) \/ (D = 4 /\ k = 1 /\ C = 3)).
  { intros D k C. unfold ex_cls. destruct D as [|[|[|[|[|D]]]]], k as [|[|[|k]]]; intros E; try discriminate; injection E as <-; auto 10. }
  assert (Bs : forall B C, ex_base B C = true -> B = C \/ (B = 0 /\ C = 2) \/ (B = 1 /\ C = 2) \/ (B = 3 /\ C = 4)).
  { intros B C. unfold ex_base. destruct (Nat.eqb_spec B C) as [->|N]; [auto|]. cbn [orb].
    destruct B as [|[|[|[|B]]]], C as [|[|[|[|[|C]]]]]; intros E; try discriminate; auto 10. }
  assert (U0 : forall D k C, ex_cls D k = Some C -> ex_up D k C = Some k) by (intros D k C E; unfold ex_up; now rewrite E, Nat.eqb_refl).
  assert (W : forall D, ex_cls D 0 = Some D) by (intros [|[|[|[|[|D]]]]]; reflexivity).
  constructor; auto.
  - intros D k E. destruct (K _ _ _ E) as [[-> _]|[(-> & -> & X)|[(-> & -> & X)|(-> & -> & X)]]]; auto; discriminate.
  - intros D k C B HB E. destruct (Bs _ _ HB) as [->|[(-> & ->)|[(-> & ->)|(-> & ->)]]].
    + exists k. auto.
    + destruct (K _ _ _ E) as [[-> <-]|[(-> & -> & X)|[(-> & -> & X)|(-> & -> & X)]]]; try discriminate. exists 1. auto.
    + destruct (K _ _ _ E) as [[-> <-]|[(-> & -> & X)|[(-> & -> & X)|(-> & -> & X)]]]; try discriminate. exists 2. auto.
    + destruct (K _ _ _ E) as [[-> <-]|[(-> & -> & X)|[(-> & -> & X)|(-> & -> & X)]]]; try discriminate. exists 1. auto.
  - intros D k C B A k' H1 H2 H3 E Eu.
    destruct (Bs _ _ H1) as [->|[(-> & ->)|[(-> & ->)|(-> & ->)]]].
    + rewrite (U0 _ _ _ E) in Eu. congruence.
    + destruct (Bs _ _ H2) as [->|[(-> & X)|[(-> & X)|(-> & X)]]]; try discriminate.
      destruct (K _ _ _ E) as [[-> <-]|[(-> & -> & X)|[(-> & -> & X)|(-> & -> & X)]]]; try discriminate.
      cbn in Eu. injection Eu as <-. reflexivity.
    + destruct (Bs _ _ H2) as [->|[(-> & X)|[(-> & X)|(-> & X)]]]; try discriminate.
      destruct (K _ _ _ E) as [[-> <-]|[(-> & -> & X)|[(-> & -> & X)|(-> & -> & X)]]]; try discriminate.
      cbn in Eu. injection Eu as <-. reflexivity.
    + destruct (Bs _ _ H2) as [->|[(-> & X)|[(-> & X)|(-> & X)]]]; try discriminate.
      destruct (K _ _ _ E) as [[-> <-]|[(-> & -> & X)|[(-> & -> & X)|(-> & -> & X)]]]; try discriminate.
      cbn in Eu. injection Eu as <-. reflexivity.
  - intros D k C k'. unfold ex_dyn. destruct (Nat.eqb_spec C D) as [->|N]; [intros E; injection E as <-; apply W|].
    destruct D as [|[|[|[|[|D]]]]], C as [|[|[|[|[|C]]]]]; intros E; try discriminate; injection E as <-; reflexivity.
  - intros D k C B HB E. destruct (Bs _ _ HB) as [->|[(-> & ->)|[(-> & ->)|(-> & ->)]]].
    + rewrite (U0 _ _ _ E). destruct (K _ _ _ E) as [[-> ->]|[(-> & -> & ->)|[(-> & -> & ->)|(-> & -> & ->)]]]; try reflexivity.
      unfold ex_dyn. now rewrite Nat.eqb_refl.
    + destruct (K _ _ _ E) as [[-> <-]|[(-> & -> & X)|[(-> & -> & X)|(-> & -> & X)]]]; try discriminate. reflexivity.
    + destruct (K _ _ _ E) as [[-> <-]|[(-> & -> & X)|[(-> & -> & X)|(-> & -> & X)]]]; try discriminate. reflexivity.
    + destruct (K _ _ _ E) as [[-> <-]|[(-> & -> & X)|[(-> & -> & X)|(-> & -> & X)]]]; try discriminate. reflexivity.
  - intros D k C E. unfold ex_dyn. now rewrite Nat.eqb_refl.
  - intros D k C B k' HB E Eu Un. destruct (Bs _ _ HB) as [->|[(-> & ->)|[(-> & ->)|(-> & ->)]]].
    + rewrite (U0 _ _ _ E) in Eu. injection Eu as <-. destruct (K _ _ _ E) as [[-> ->]|[(-> & -> & ->)|[(-> & -> & ->)|(-> & -> & ->)]]]; try reflexivity.
      unfold ex_dyn. now rewrite Nat.eqb_refl.
    + destruct (K _ _ _ E) as [[-> <-]|[(-> & -> & X)|[(-> & -> & X)|(-> & -> & X)]]]; try discriminate. reflexivity.
    + destruct (K _ _ _ E) as [[-> <-]|[(-> & -> & X)|[(-> & -> & X)|(-> & -> & X)]]]; try discriminate. reflexivity.
    + destruct (K _ _ _ E) as [[-> <-]|[(-> & -> & X)|[(-> & -> & X)|(-> & -> & X)]]]; try discriminate. reflexivity.
Qed.
Ltac tnext := match goal with |- forall s' r, tstep _ _ _ _ _ _ = Ok (s', r) -> _ =>
  let s' := fresh "s" in let r := fresh "r" in let H := fresh "H" in
  intros s' r H; vm_compute in H; injection H as <- <- end.
Lemma ex_share_legal : tlegal_run ex_cls ex_up ex_dyn ex_vdtor ex_base (tstart ex_vars) ex_share.
Proof.
  unfold ex_share. cbn [tlegal_run typed].
  split; [exact I|]. split; [exact I|]. tnext.
  split; [split; [slot_ok|split; [reflexivity|no_refs]]|]. split; [exists 2, 2; repeat split; now left|]. tnext.
  split; [split; [slot_ok|discriminate]|]. split; [exists 0, 2; repeat split|]. tnext.
  split; [split; [slot_ok|discriminate]|]. split; [exists 1, 2; repeat split|]. tnext.
  split; [split; [discriminate|reflexivity]|]. split; [exact I|]. tnext.
  split; [split; [slot_ok|discriminate]|]. split; [exact I|]. tnext.
  split; [split; [discriminate|reflexivity]|]. split; [exact I|]. tnext.
  split; [split; [discriminate|reflexivity]|]. split; [exact I|]. tnext.
  split; [split; [discriminate|reflexivity]|]. split; [exact I|]. tnext. exact I.
Qed.
Lemma ex_plain_legal : tlegal_run ex_cls ex_up ex_dyn ex_vdtor ex_base (tstart [4; 3]) ex_plain.
Proof.
  unfold ex_plain. cbn [tlegal_run typed].
  split; [exact I|]. split; [exact I|]. tnext.
  split; [split; [slot_ok|split; [reflexivity|no_refs]]|]. split; [exists 4, 4; repeat split; now left|]. tnext.
  split; [split; [slot_ok|discriminate]|]. split; [exists 3, 4; repeat split|]. tnext.
  split; [split; [discriminate|reflexivity]|]. split; [exact I|]. tnext.
  split; [split; [discriminate|reflexivity]|]. split; [exact I|]. tnext. exact I.
Qed.
Lemma ex_share_runs : exists t rs, trun ex_cls ex_up ex_dyn ex_vdtor (tstart ex_vars) ex_share = Ok (t, rs) /\
  tlog t = [EDelete 0 0 0 2; EWrap 0 0 0 2] /\ talive t 0 = false.
Proof. eexists _, _. split; [vm_compute; reflexivity|]. split; reflexivity. Qed.
Lemma ex_plain_runs : exists t rs, trun ex_cls ex_up ex_dyn ex_vdtor (tstart [4; 3]) ex_plain = Ok (t, rs) /\
  tlog t = [EDelete 0 0 0 4; EWrap 0 0 0 4].
Proof. eexists _, _. split; [vm_compute; reflexivity|]. reflexivity. Qed.
Lemma ex_bad_ub : trun ex_cls ex_up ex_dyn ex_vdtor (tstart [4; 3]) ex_bad = UB.
Proof. vm_compute. reflexivity. Qed.
Lemma bad_refuted : exists cls up dyn vdtor base, hierarchy cls up dyn base /\
  (exists t rs, trun cls up dyn vdtor (tstart [4; 3]) ex_plain = Ok (t, rs) /\ tlog t = [EDelete 0 0 0 4; EWrap 0 0 0 4]) /\
  trun cls up dyn vdtor (tstart [4; 3]) ex_bad = UB /\ base 3 4 = true /\ up 4 0 3 = Some 1.
Proof.
  exists ex_cls, ex_up, ex_dyn, ex_vdtor, ex_base. split; [exact ex_hierarchy|]. split; [exact ex_plain_runs|]. split; [exact ex_bad_ub|]. split; reflexivity.
Qed.
