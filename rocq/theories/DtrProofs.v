From Coq Require Import ZifyBool ZifyNat.
From Verif Require Import Base BaseFacts RcModel RcSpec RcProofs RcProofs2 DtrModel DtrSpec.
Open Scope nat_scope.

(* ---- single operations on variables, while other operations are in progress ----------- *)
Section Store.
Variables (s : st) (E : eff) (X Y : list nat).
Hypothesis HJ : J s E X.

Lemma d_null v p : (forall x, In x X -> x = v \/ In x Y) -> v < length (vs s) -> blank E v -> pc p = None -> pr p = None ->
  J (sv s v (Some p)) (upd E v (Some None)) Y.
Proof using HJ.
  intros XY. destruct HJ as [A1 A2 A3 A4 A5 A6 A7 A8]. intros L Bl Pc Pr.
  destruct (blank_isc E v) as (x & Hx & Ix); [lia|auto|].
  assert (forall u, ex (sv s v (Some p)) u = if Nat.eqb u v then Some p else ex s u) as X2 by (intros; apply ex_sv; auto).
  assert (forall u, home (sv s v (Some p)) u = home s u) as H2 by (intros; apply home_sv; auto).
  assert (forall u, ev (upd E v (Some None)) u = if Nat.eqb u v then Some None else ev E u) as V2 by (intros; apply ev_upd; lia).
  assert (forall u q, ev (upd E v (Some None)) u = Some (Some q) -> ev E u = Some (Some q)) as V2'.
  { intros u q. rewrite V2. destruct (u =? v); [discriminate|auto]. }
  constructor.
  - unfold sv. cbn [vs]. now rewrite !upd_length.
  - intros u. rewrite X2, V2. destruct (u =? v); [exact I|apply A2].
  - intros u q N. rewrite X2, V2. destruct (Nat.eqb_spec u v) as [->|N']; [intros Q; inversion Q; subst; auto|].
    apply A3. intros I. destruct (XY _ I); auto.
  - intros c n H. pose proof (cc_upd E v _ (Some None) c Hx) as Q. rewrite Ix in Q. cbn [isc b2n] in Q.
    rewrite (A4 c n H). f_equal. lia.
  - intros u c o H. apply (A5 u c o); auto.
  - intros u1 u2 c1 c2 o1 o2 Q1 Q2. eapply A6; eauto.
  - intros u h. rewrite H2, X2. destruct (u =? v); [congruence|apply A7].
  - intros u h. rewrite H2. apply A8.
Qed.
Lemma d_kill v : (forall x, In x X -> x = v \/ In x Y) -> v < length (vs s) -> blank E v ->
  (forall h, home s v = Some h -> alive s h = false) ->
  J (sv s v None) (upd E v None) Y.
Proof using HJ.
  intros XY. destruct HJ as [A1 A2 A3 A4 A5 A6 A7 A8]. intros L Bl Hh.
  destruct (blank_isc E v) as (x & Hx & Ix); [lia|auto|].
  assert (forall u, ex (sv s v None) u = if Nat.eqb u v then None else ex s u) as X2 by (intros; apply ex_sv; auto).
  assert (forall u, home (sv s v None) u = home s u) as H2 by (intros; apply home_sv; auto).
  assert (forall u, ev (upd E v None) u = if Nat.eqb u v then None else ev E u) as V2 by (intros; apply ev_upd; lia).
  assert (forall u q, ev (upd E v None) u = Some (Some q) -> ev E u = Some (Some q)) as V2'.
  { intros u q. rewrite V2. destruct (u =? v); [discriminate|auto]. }
  constructor.
  - unfold sv. cbn [vs]. now rewrite !upd_length.
  - intros u. rewrite X2, V2. destruct (u =? v); [reflexivity|apply A2].
  - intros u q N. rewrite X2, V2. destruct (Nat.eqb_spec u v) as [->|N']; [discriminate|].
    apply A3. intros I. destruct (XY _ I); auto.
  - intros c n H. pose proof (cc_upd E v _ None c Hx) as Q. rewrite Ix in Q. cbn [isc b2n] in Q.
    rewrite (A4 c n H). f_equal. lia.
  - intros u c o H. apply (A5 u c o); auto.
  - intros u1 u2 c1 c2 o1 o2 Q1 Q2. eapply A6; eauto.
  - intros u h. rewrite H2, X2. destruct (Nat.eqb_spec u v) as [->|]; [|apply A7].
    intros Q1 Q2. apply Hh in Q1. change (alive s h = true) in Q2. congruence.
  - intros u h. rewrite H2. apply A8.
Qed.
Lemma d_copy v u c o : (forall x, In x X -> x = v \/ In x Y) -> v < length (vs s) -> blank E v -> ev E u = Some (Some (c, o)) ->
  let p := mkPtr (Some c) (Some o) (Some o) true in
  exists s', inc (sv s v (Some p)) p = Ok s' /\ J s' (upd E v (Some (Some (c, o)))) Y /\
    vs s' = vs (sv s v (Some p)) /\ ob s' = ob s /\
    (forall c', nth_error (cn s') c' = Some (Some 0%Z) -> nth_error (cn s) c' = Some (Some 0%Z)).
Proof using HJ.
  intros XY. destruct HJ as [A1 A2 A3 A4 A5 A6 A7 A8]. intros L Bl Hu p.
  destruct (blank_isc E v) as (x & Hx & Ix); [lia|auto|].
  destruct (A5 _ _ _ Hu) as [[n Hn] Ha].
  pose proof (nth_error_lt _ _ _ Hn) as Lc. pose proof (A4 _ _ Hn) as En.
  unfold inc. cbn [pc p]. unfold cget. change (cn (sv s v (Some p))) with (cn s). rewrite Hn. cbn [bind].
  set (s' := cset (sv s v (Some p)) c (Some (n + 1)%Z)).
  assert (forall u, ex s' u = if Nat.eqb u v then Some p else ex s u) as X2 by (intros; apply ex_sv; auto).
  assert (forall u, home s' u = home s u) as H2 by (intros; apply home_sv; auto).
  set (E' := upd E v (Some (Some (c, o)))).
  assert (forall u, ev E' u = if Nat.eqb u v then Some (Some (c, o)) else ev E u) as V2 by (intros; apply ev_upd; lia).
  assert (forall c', nth_error (cn s') c' = if Nat.eqb c' c then Some (Some (n + 1)%Z) else nth_error (cn s) c') as C2.
  { intros c'. unfold s', cset. cbn [cn]. destruct (Nat.eqb_spec c' c) as [->|N]; [now rewrite upd_same|now rewrite upd_other by auto]. }
  assert (forall t c' o', ev E' t = Some (Some (c', o')) -> exists t', ev E t' = Some (Some (c', o'))) as V2'.
  { intros t c' o'. rewrite V2. destruct (t =? v); [|eauto]. intros Q. exists u. congruence. }
  exists s'. split; [reflexivity|]. split; [|split; [reflexivity|split; [reflexivity|]]].
  constructor.
  - unfold s', sv, E'. cbn [vs cset]. now rewrite !upd_length.
  - intros t. rewrite X2, V2. destruct (t =? v); [reflexivity|apply A2].
  - intros t q N. rewrite X2, V2. destruct (Nat.eqb_spec t v) as [->|N']; [discriminate|].
    apply A3. intros I. destruct (XY _ I); auto.
  - intros c' m. rewrite C2. pose proof (cc_upd E v _ (Some (Some (c, o))) c' Hx) as Q. rewrite Ix in Q. fold E' in Q.
    cbn [isc] in Q. rewrite Nat.eqb_sym in Q. destruct (Nat.eqb_spec c' c) as [->|N]; cbn [b2n] in Q.
    + intros H. assert (m = n + 1)%Z by congruence. lia.
    + intros H. rewrite (A4 c' m H). f_equal. lia.
  - intros t c' o' H. apply V2' in H. destruct H as [t' H]. apply A5 in H. destruct H as [[m H] H']. split; [|exact H'].
    rewrite C2. destruct (c' =? c); eauto.
  - intros u1 u2 c1 c2 o1 o2 Q1 Q2. apply V2' in Q1, Q2. destruct Q1 as [t1 Q1], Q2 as [t2 Q2]. eapply A6; eauto.
  - intros t h. rewrite H2, X2. destruct (t =? v); [congruence|apply A7].
  - intros t h. rewrite H2. apply A8.
  - intros c'. rewrite C2. destruct (Nat.eqb_spec c' c) as [->|]; auto. intros H. exfalso.
    assert (n + 1 = 0)%Z by congruence. lia.
Qed.
Lemma d_move v u p x : (forall x, In x X -> x = v \/ In x Y) -> ~ In u X ->
  v < length (vs s) -> v <> u -> blank E v -> ex s u = Some p -> ev E u = Some x ->
  J (sv (sv s v (Some p)) u (Some null)) (upd (upd E v (Some x)) u (Some None)) Y.
Proof using HJ.
  intros XY Nu L N Bl Hp Hu. pose proof (j_var _ _ _ HJ u) as Vu. rewrite Hp, Hu in Vu.
  pose proof (ex_lt _ _ _ Hp) as Lu.
  destruct HJ as [A1 A2 A3 A4 A5 A6 A7 A8].
  destruct (blank_isc E v) as (y & Hy & Iy); [lia|auto|].
  set (s1 := sv s v (Some p)). set (s' := sv s1 u (Some null)). set (E1 := upd E v (Some x)). set (E' := upd E1 u (Some None)).
  assert (length (vs s1) = length (vs s)) as L1 by (unfold s1, sv; cbn [vs]; apply upd_length).
  assert (length E1 = length E) as L1' by (unfold E1; apply upd_length).
  assert (forall t, ex s' t = if Nat.eqb t u then Some null else if Nat.eqb t v then Some p else ex s t) as X2.
  { intros t. unfold s'. rewrite ex_sv by lia. destruct (t =? u); auto. apply ex_sv; auto. }
  assert (forall t, home s' t = home s t) as H2.
  { intros t. unfold s'. rewrite home_sv by lia. apply home_sv; auto. }
  assert (forall t, ev E' t = if Nat.eqb t u then Some None else if Nat.eqb t v then Some x else ev E t) as V2.
  { intros t. unfold E'. rewrite ev_upd by lia. destruct (t =? u); auto. apply ev_upd; lia. }
  assert (forall c, cc E' c = cc E c) as C2.
  { intros c. pose proof (cc_upd E v _ (Some x) c Hy) as Q1. rewrite Iy in Q1. fold E1 in Q1.
    assert (nth_error E1 u = Some (Some x)) as Hu1.
    { unfold E1. rewrite upd_other by auto. now apply ev_some. }
    pose proof (cc_upd E1 u _ (Some None) c Hu1) as Q2. fold E' in Q2. cbn [isc b2n] in Q1, Q2. lia. }
  assert (forall t c' o', ev E' t = Some (Some (c', o')) -> exists t', ev E t' = Some (Some (c', o'))) as V2'.
  { intros t c' o'. rewrite V2. destruct (t =? u); [discriminate|]. destruct (t =? v); [|eauto]. intros Q. exists u. congruence. }
  constructor.
  - unfold s', E', s1, sv. cbn [vs]. rewrite !upd_length. lia.
  - intros t. rewrite X2, V2. destruct (t =? u); [exact I|]. destruct (t =? v); [|apply A2].
    destruct x as [[c o]|]; auto.
  - intros t q NY. rewrite X2, V2. destruct (t =? u); [intros Q; inversion Q; now split|].
    destruct (Nat.eqb_spec t v) as [->|N'].
    + intros Q1 Q2. inversion Q1; subst q. inversion Q2; subst x. apply (A3 u); auto.
    + apply A3. intros I. destruct (XY _ I); auto.
  - intros c n H. rewrite C2. auto.
  - intros t c o H. apply V2' in H. destruct H as [t' H]. apply (A5 _ _ _ H).
  - intros u1 u2 c1 c2 o1 o2 Q1 Q2. apply V2' in Q1, Q2. destruct Q1 as [t1 Q1], Q2 as [t2 Q2]. eapply A6; eauto.
  - intros t h. rewrite H2, X2. destruct (t =? u); [congruence|]. destruct (t =? v); [congruence|apply A7].
  - intros t h. rewrite H2. apply A8.
Qed.
Lemma d_cases u p : ~ In u X -> ex s u = Some p ->
  (exists c o, ev E u = Some (Some (c, o)) /\ p = mkPtr (Some c) (Some o) (Some o) true) \/
  (ev E u = Some None /\ pc p = None /\ pr p = None).
Proof using HJ.
  intros N H. pose proof (j_var _ _ _ HJ u) as V. rewrite H in V. destruct (ev E u) as [[[c o]|]|] eqn:Q; [| |contradiction].
  - left. eauto.
  - right. split; auto. eapply (j_tight _ _ _ HJ u p); auto.
Qed.

(* the beginning of a release *)
Lemma start_dec_ok v p : ex s v = Some p -> ~ In v X ->
  exists s' ts E', start_dec v s = Ok (s', ts) /\ J s' E' (v :: X) /\ ev E' v = Some None /\
    (forall u, u <> v -> ev E' u = ev E u) /\ vs s' = vs s /\
    (forall c, nth_error (cn s') c = Some (Some 0%Z) -> nth_error (cn s) c = Some (Some 0%Z)) /\
    (forall o, alive s' o = true -> (exists u c, ev E u = Some (Some (c, o))) -> exists u c, ev E' u = Some (Some (c, o))) /\
    (ts = [] /\ ob s' = ob s /\ (forall c o, ev E v = Some (Some (c, o)) -> exists u c', u <> v /\ ev E u = Some (Some (c', o))) \/
     exists o, ts = [TBody o 0; TMembers (members s o); TNull v] /\ alive s o = true /\ ob s' = upd (ob s) o false /\
       (exists c, ev E v = Some (Some (c, o))) /\ forall u c', ev E u = Some (Some (c', o)) -> u = v).
Proof using HJ.
  intros Hp Nv. unfold start_dec. rewrite (pget_ok _ _ _ Hp). cbn [bind].
  pose proof (ex_lt _ _ _ Hp) as Lv.
  destruct (d_cases v p Nv Hp) as [(c & o & Hv & ->)|(Hv & Pc & Pr)].
  2:{ rewrite Pc. exists s, [], E. split; [reflexivity|]. split; [apply (j_more _ _ X); [cbn; auto|auto]|].
      split; [auto|]. split; [auto|]. split; [auto|]. split; [auto|]. split; [auto|]. left. split; [auto|]. split; [auto|]. congruence. }
  cbn [pc pd po].
  destruct (j_ref _ _ _ HJ _ _ _ Hv) as [[n Hn] Hao].
  unfold cget. rewrite Hn. cbn [bind].
  pose proof (j_cnt _ _ _ HJ _ _ Hn) as En.
  pose proof (cc_upd E v _ (Some None) c (ev_some _ _ _ Hv)) as Ec.
  cbn [isc] in Ec. rewrite Nat.eqb_refl in Ec. cbn [b2n] in Ec.
  assert (c < length (cn s)) as Lc by (eapply nth_error_lt; eauto).
  assert (v < length E) as Le by (eapply ev_lt; eauto).
  set (E1 := upd E v (Some None)) in *.
  assert (forall u, ev E1 u = if Nat.eqb u v then Some None else ev E u) as EvE1 by (intros; now apply ev_upd).
  assert (ev E1 v = Some None) as Ev1 by (rewrite EvE1; now rewrite Nat.eqb_refl).
  assert (forall u, u <> v -> ev E1 u = ev E u) as EvN.
  { intros u N. rewrite EvE1. apply Nat.eqb_neq in N. now rewrite N. }
  assert (forall u c' o', ev E1 u = Some (Some (c', o')) -> ev E u = Some (Some (c', o')) /\ u <> v) as EvE1'.
  { intros u c' o'. rewrite EvE1. destruct (Nat.eqb_spec u v); [discriminate|auto]. }
  assert (forall c', c' <> c -> cc E1 c' = cc E c') as Ec'.
  { intros c' N. pose proof (cc_upd E v _ (Some None) c' (ev_some _ _ _ Hv)) as Q. cbn [isc b2n] in Q.
    replace (c =? c') with false in Q by (symmetry; apply Nat.eqb_neq; congruence). cbn [b2n] in Q. fold E1 in Q. lia. }
  destruct (Z.eqb_spec (n - 1) 0) as [Z1|Z1].
  - cbv zeta. assert (cc E1 c = 0) as Cz by lia.
    set (s1 := cset (cset s c (Some (n - 1)%Z)) c None).
    assert (alive s1 o = true) as Hao1 by exact Hao. rewrite Hao1.
    set (s2 := mkSt (cn s1) (upd (ob s1) o false) (vs s1)).
    assert (o < length (ob s)) as Lo by (apply alive_true in Hao; eapply nth_error_lt; eauto).
    assert (forall o', alive s2 o' = if Nat.eqb o' o then false else alive s o') as Al2.
    { intros o'. unfold alive at 1, s2. cbn [ob]. apply alive_upd. exact Lo. }
    assert (forall u, ex s2 u = ex s u) as Ex2 by reflexivity.
    assert (forall u, home s2 u = home s u) as Ho2 by reflexivity.
    assert (forall c', nth_error (cn s2) c' = if Nat.eqb c' c then Some None else nth_error (cn s) c') as Cn2.
    { intros c'. unfold s2, s1, cset. cbn [cn ob vs]. destruct (Nat.eqb_spec c' c) as [->|N].
      - rewrite upd_same; auto. now rewrite upd_length.
      - rewrite !upd_other by auto. reflexivity. }
    assert (forall u c' o', ev E1 u = Some (Some (c', o')) -> c' <> c /\ o' <> o) as Nco.
    { intros u c' o' H. assert (c' <> c) as N by (intros ->; eapply cc_zero; eauto). split; auto.
      intros ->. apply EvE1' in H. destruct H as [H _]. apply N. eapply (j_inj _ _ _ HJ); eauto. }
    exists s2. eexists _, E1. split; [reflexivity|]. split; [|split; [exact Ev1|split; [exact EvN|split; [reflexivity|split; [|split]]]]].
    + destruct HJ as [A1 A2 A3 A4 A5 A6 A7 A8]; constructor.
      * unfold E1. rewrite upd_length. exact A1.
      * intros u. rewrite Ex2, EvE1. destruct (Nat.eqb_spec u v) as [->|N]; [now rewrite Hp|apply A2].
      * intros u q N. rewrite Ex2, EvE1. destruct (Nat.eqb_spec u v) as [->|N']; [exfalso; apply N; now left|].
        apply A3. intros I. apply N. now right.
      * intros c' m. rewrite Cn2. destruct (Nat.eqb_spec c' c) as [->|N]; [discriminate|].
        intros H. rewrite (Ec' c' N). auto.
      * intros u c' o' H. destruct (Nco _ _ _ H) as [N1 N2]. apply EvE1' in H. destruct H as [H _].
        apply A5 in H. rewrite Cn2, Al2. apply Nat.eqb_neq in N1, N2. now rewrite N1, N2.
      * intros u1 u2 c1 c2 o1 o2 H1 H2. apply EvE1' in H1, H2. destruct H1, H2. eapply A6; eauto.
      * intros u h H1. rewrite Al2. destruct (Nat.eqb_spec h o); [discriminate|]. apply A7. exact H1.
      * intros u h H1. unfold s2. cbn [ob]. rewrite upd_length. apply (A8 u h H1).
    + intros c'. rewrite Cn2. destruct (c' =? c); [discriminate|auto].
    + intros o' A (u & c' & H). exists u, c'. rewrite EvE1. destruct (Nat.eqb_spec u v) as [->|]; auto.
      exfalso. assert (o' = o) as -> by congruence. rewrite Al2, Nat.eqb_refl in A. discriminate.
    + right. exists o. split; [reflexivity|]. split; [exact Hao|]. split; [reflexivity|]. split; [eauto|].
      intros u c' Q. destruct (Nat.eq_dec u v) as [|N]; auto. exfalso. rewrite <- EvN in Q by auto. apply Nco in Q. tauto.
  - set (s1 := cset s c (Some (n - 1)%Z)).
    assert (forall c', nth_error (cn s1) c' = if Nat.eqb c' c then Some (Some (n - 1)%Z) else nth_error (cn s) c') as Cn1.
    { intros c'. unfold s1, cset. cbn [cn]. destruct (Nat.eqb_spec c' c) as [->|N]; [now rewrite upd_same|now rewrite upd_other by auto]. }
    exists s1, [], E1. split; [reflexivity|]. split; [|split; [exact Ev1|split; [exact EvN|split; [reflexivity|split; [|split]]]]].
    + destruct HJ as [A1 A2 A3 A4 A5 A6 A7 A8]. constructor; auto.
      * unfold E1. now rewrite upd_length.
      * intros u. change (ex s1 u) with (ex s u). rewrite EvE1. destruct (Nat.eqb_spec u v) as [->|N]; [now rewrite Hp|apply A2].
      * intros u q N. change (ex s1 u) with (ex s u). rewrite EvE1. destruct (Nat.eqb_spec u v) as [->|N']; [exfalso; apply N; now left|].
        apply A3. intros I. apply N. now right.
      * intros c' m. rewrite Cn1. destruct (Nat.eqb_spec c' c) as [->|N].
        -- intros H. assert (m = n - 1)%Z by congruence. lia.
        -- intros H. rewrite (Ec' c' N). auto.
      * intros u c' o' H. apply EvE1' in H. destruct H as [H _]. apply A5 in H. destruct H as [H1 H2]. split; [|exact H2].
        rewrite Cn1. destruct (c' =? c); eauto.
      * intros u1 u2 c1 c2 o1 o2 H1 H2. apply EvE1' in H1, H2. destruct H1, H2. eapply A6; eauto.
    + intros c'. rewrite Cn1. destruct (Nat.eqb_spec c' c) as [->|]; auto. intros H. exfalso. apply Z1. congruence.
    + intros o' A (u & c' & H). destruct (Nat.eq_dec u v) as [->|N].
      * assert (c' = c /\ o' = o) as [-> ->] by (split; congruence).
        destruct (cc_ex E1 c) as (t & o1 & Ht); [lia|]. exists t, c.
        pose proof (EvE1' _ _ _ Ht) as [Ht' _].
        assert (o1 = o) by (apply (j_inj _ _ _ HJ t v c c o1 o Ht' Hv); reflexivity). congruence.
      * exists u, c'. now rewrite EvN.
    + left. split; [reflexivity|]. split; [reflexivity|]. intros c' o' Q. assert (c' = c /\ o' = o) as [-> ->] by (split; congruence).
      destruct (cc_ex E1 c) as (t & o1 & Ht); [lia|]. pose proof (EvE1' _ _ _ Ht) as [Ht' Nt]. exists t, c. split; auto.
      assert (o1 = o) by (apply (j_inj _ _ _ HJ t v c c o1 o Ht' Hv); reflexivity). congruence.
Qed.
End Store.

(* ---- operations in progress -------------------------------------------------------------- *)
Fixpoint mems (ts : list task) : list nat :=
  match ts with [] => [] | TMembers ws :: ts => ws ++ mems ts | _ :: ts => mems ts end.
Fixpoint kills (ts : list task) : list nat :=
  match ts with [] => [] | TKill v :: ts => v :: kills ts | _ :: ts => kills ts end.
Fixpoint begins (ts : list task) : list nat :=
  match ts with [] => [] | TBody o 0 :: ts => o :: begins ts | _ :: ts => begins ts end.
Fixpoint wf (ts : list task) : Prop :=
  match ts with
  | [] => True
  | TKill v :: ts => ~ In v (busy ts) /\ ~ In v (sources ts) /\ ~ In v (mems ts) /\ wf ts
  | (TSet v w | TMoveSet v w) :: ts => v <> w /\ ~ In v (busy ts) /\ ~ In w (busy ts) /\ wf ts
  | TMembers ws :: ts => NoDup (ws ++ mems ts) /\ wf ts
  | _ :: ts => wf ts
  end.

Record Inv (es : list event) (s : st) (ts : list task) (E : eff) : Prop := {
  i_J : J s E (busy ts);
  i_busy : forall v, In v (busy ts) -> ev E v = Some None;
  i_src : forall u, In u (sources ts) -> ex s u <> None;
  i_wf : wf ts;
  i_mem : forall w, In w (mems ts) -> ex s w <> None /\ exists h, home s w = Some h /\ alive s h = false;
  i_kill : forall v h, In v (kills ts) -> home s v = Some h -> alive s h = false;
  i_gone : forall u h, home s u = Some h -> alive s h = false -> ex s u = None \/ In u (mems ts) \/ In u (kills ts);
  i_dtor : NoDup (dtors es ++ begins ts);
  i_dead : forall o, In o (dtors es ++ begins ts) <-> o < length (ob s) /\ alive s o = false;
  i_held : no_detach_in es -> forall o, wrapped_in es o -> alive s o = true -> exists u c, ev E u = Some (Some (c, o));
  i_old : forall o, wrapped_in es o -> o < length (ob s);
  i_leak : no_detach_in es -> forall c, nth_error (cn s) c <> Some (Some 0%Z)
}.

Lemma dtors_app a b : dtors (a ++ b) = dtors a ++ dtors b.
Proof. apply flat_map_app. Qed.
Lemma no_detach_app a b : no_detach_in (a ++ b) -> no_detach_in a /\ no_detach_in b.
Proof. intros H. split; intros v I; apply (H v), in_or_app; auto. Qed.
Lemma wrapped_app a b o : wrapped_in (a ++ b) o -> wrapped_in a o \/ wrapped_in b o.
Proof. intros [v H]. apply in_app_or in H. destruct H; [left|right]; now exists v. Qed.
Definition plain (es : list event) : Prop := dtors es = [] /\ (forall o, ~ wrapped_in es o).

Lemma mems_app a b : mems (a ++ b) = mems a ++ mems b.
Proof. induction a as [|[] a IH]; cbn; auto. rewrite IH. now rewrite app_assoc. Qed.

(* the release of v begins; [mid] is what follows it *)
Lemma release_begins es s t rest E v mid :
  Inv es s (t :: rest) E -> plain (event_of t) -> no_detach_in (event_of t) ->
  busy (t :: rest) = busy rest -> busy (mid ++ rest) = v :: busy rest -> wf (mid ++ rest) ->
  (forall u, In u (sources (mid ++ rest)) -> ex s u <> None) ->
  (forall w, In w (mems (mid ++ rest)) -> In w (mems (t :: rest))) ->
  (forall u h, In u (kills (mid ++ rest)) -> home s u = Some h -> alive s h = false) ->
  (forall u, In u (mems (t :: rest)) \/ In u (kills (t :: rest)) -> In u (mems (mid ++ rest)) \/ In u (kills (mid ++ rest))) ->
  begins (mid ++ rest) = begins (t :: rest) ->
  ex s v <> None -> ~ In v (busy rest) ->
  exists s' ts E', start_dec v s = Ok (s', ts) /\ Inv (es ++ event_of t) s' (ts ++ mid ++ rest) E'.
Proof.
  intros [I1 I2 I3 I4 I5 I6 I7 I8 I9 I10 I12 I11] [Pd Pw] Pn Hb Hb' Hw Hs Hm Hk Hmk Hbg Hv Nv.
  destruct (ex s v) as [p|] eqn:Hp; [clear Hv|congruence]. rewrite Hb in *.
  destruct (start_dec_ok s E (busy rest) I1 v p Hp Nv) as (s' & ts & E' & R & J' & V1 & V2 & Hvs & Hl & Hh & Hts0).
  assert (ts = [] /\ ob s' = ob s \/ exists o, ts = [TBody o 0; TMembers (members s o); TNull v] /\ alive s o = true /\ ob s' = upd (ob s) o false) as Hts.
  { destruct Hts0 as [(H1 & H2 & _)|(o & H1 & H2 & H3 & _)]; [left; auto|right; exists o; auto]. }
  assert (forall u, ex s' u = ex s u) as Xe by (intros u; unfold ex; now rewrite Hvs).
  assert (forall u, home s' u = home s u) as Xh by (intros u; unfold home; now rewrite Hvs).
  assert (forall o, alive s' o = true -> alive s o = true) as Xa.
  { intros o'. destruct Hts as [[_ Q]|(o & _ & Ao & Q)]; unfold alive; rewrite Q; auto.
    apply alive_true, nth_error_lt in Ao. rewrite alive_upd by auto. destruct (o' =? o); [discriminate|auto]. }
  assert (forall o, alive s o = false -> alive s' o = false) as Xa'.
  { intros o' Q. destruct (alive s' o') eqn:Q'; auto. apply Xa in Q'. congruence. }
  exists s', ts, E'. split; [exact R|].
  assert (busy (ts ++ mid ++ rest) = (match ts with [] => [] | _ => [v] end) ++ v :: busy rest) as B1.
  { destruct Hts as [[-> _]|(o & -> & _)]; cbn [app busy]; now rewrite Hb'. }
  assert (forall x, In x (busy (ts ++ mid ++ rest)) <-> x = v \/ In x (busy rest)) as B2.
  { intros x. rewrite B1. destruct ts; cbn [app In]; intuition. }
  assert (sources (ts ++ mid ++ rest) = sources (mid ++ rest)) as S1.
  { destruct Hts as [[-> _]|(o & -> & _)]; reflexivity. }
  assert (kills (ts ++ mid ++ rest) = kills (mid ++ rest)) as K1.
  { destruct Hts as [[-> _]|(o & -> & _)]; reflexivity. }
  constructor.
  - apply (j_more _ _ (v :: busy rest)); auto. intros x I. apply B2. destruct I; auto.
  - intros x I. apply B2 in I. destruct (Nat.eq_dec x v) as [->|N]; auto. rewrite V2 by auto. apply I2. destruct I; [contradiction|auto].
  - intros u. rewrite S1, Xe. auto.
  - destruct Hts as [[-> _]|(o & -> & Ao & _)]; [exact Hw|]. cbn [app wf]. split; [|exact Hw].
    cbn [mems]. assert (forall w, In w (members s o) -> ~ In w (mems (mid ++ rest))) as Dj.
    { intros w Q1 Q2. apply members_in in Q1. apply Hm, I5 in Q2. destruct Q2 as (_ & h & Q2 & Q3). congruence. }
    assert (NoDup (mems (mid ++ rest))) as Nd.
    { clear - Hw. revert Hw. generalize (mid ++ rest). induction l as [|[] l IH]; cbn; try tauto. intros _. constructor. }
    revert Dj. generalize (members_nodup s o). generalize (members s o). intros l. induction l as [|w l IH]; cbn; intros N Dj; auto.
    inversion N; subst. constructor; [|apply IH; auto]. rewrite in_app_iff. intros [Q|Q]; [auto|]. exact (Dj w (or_introl eq_refl) Q).
  - intros w I. rewrite Xe, Xh. destruct Hts as [[-> Q]|(o & -> & Ao & Q)].
    + apply Hm, I5 in I. destruct I as (Q1 & h & Q2 & Q3). split; eauto.
    + cbn [app mems] in I. apply in_app_or in I. destruct I as [I|I].
      * apply members_in in I. split; [apply (j_mem _ _ _ I1 w o I Ao)|]. exists o. split; auto.
        unfold alive. rewrite Q. apply alive_true, nth_error_lt in Ao. rewrite alive_upd by auto. now rewrite Nat.eqb_refl.
      * apply Hm, I5 in I. destruct I as (Q1 & h & Q2 & Q3). split; eauto.
  - intros u h. rewrite K1, Xh. intros Q1 Q2. apply Xa'. eauto.
  - intros u h. rewrite Xh, Xe, K1. intros Q1 Q2.
    assert (forall w, In w (mems (mid ++ rest)) -> In w (mems (ts ++ mid ++ rest))) as M1.
    { intros w I. rewrite mems_app. apply in_or_app. auto. }
    destruct (alive s h) eqn:A.
    + destruct Hts as [[-> Q]|(o & -> & Ao & Q)].
      * unfold alive in A, Q2. rewrite Q in Q2. congruence.
      * right. left. cbn [app mems]. apply in_or_app. left. apply members_in. rewrite Q1. f_equal.
        unfold alive in Q2. rewrite Q in Q2. rewrite alive_upd in Q2 by (apply alive_true, nth_error_lt in Ao; auto).
        destruct (Nat.eqb_spec h o); auto. unfold alive in A. congruence.
    + destruct (I7 u h Q1 A) as [Q|Q]; auto. apply Hmk in Q. destruct Q; auto.
  - rewrite dtors_app, Pd, app_nil_r. destruct Hts as [[-> Q]|(o & -> & Ao & Q)].
    + cbn [app]. now rewrite Hbg.
    + cbn [app begins]. rewrite Hbg. apply NoDup_Add with (a := o) (l := dtors es ++ begins (t :: rest)); [apply Add_app|].
      split; auto. rewrite I9. intros [_ Q']. congruence.
  - intros o'. rewrite dtors_app, Pd, app_nil_r. destruct Hts as [[-> Q]|(o & -> & Ao & Q)].
    + cbn [app]. rewrite Hbg, Q. unfold alive. rewrite Q. apply I9.
    + cbn [app begins]. rewrite Hbg. pose proof (proj1 (alive_true s o) Ao) as Lo. apply nth_error_lt in Lo.
      unfold alive. rewrite Q, upd_length, alive_upd by auto. rewrite in_app_iff. cbn [In].
      specialize (I9 o'). rewrite in_app_iff in I9. unfold alive in I9. destruct (Nat.eqb_spec o' o) as [->|N]; split.
      * auto.
      * intros _. right. now left.
      * intros [H|[H|H]]; [apply I9; auto|congruence|apply I9; auto].
      * intros H. apply I9 in H. tauto.
  - intros Q o W A. apply no_detach_app in Q. destruct Q as [Q _]. apply wrapped_app in W. destruct W as [W|W]; [|now apply Pw in W].
    apply Hh; auto.
  - intros o' W. apply wrapped_app in W. destruct W as [W|W]; [|now apply Pw in W].
    destruct Hts as [[-> Q]|(o & -> & Ao & Q)]; rewrite Q, ?upd_length; auto.
  - intros Q c H. apply no_detach_app in Q. destruct Q as [Q _]. apply (I11 Q c). auto.
Qed.

(* a step that changes variables only *)
Lemma update_ok es s t rest E s' E' :
  Inv es s (t :: rest) E -> dtors (event_of t) = [] ->
  mems (t :: rest) = mems rest -> begins (t :: rest) = begins rest -> (forall u, In u (sources rest) -> In u (sources (t :: rest))) ->
  wf rest -> (forall u, In u (kills (t :: rest)) -> In u (kills rest) \/ ex s' u = None) ->
  (forall u, In u (kills rest) -> In u (kills (t :: rest))) ->
  J s' E' (busy rest) -> (forall v, In v (busy rest) -> ev E' v = Some None) ->
  ob s' = ob s -> (forall u, home s' u = home s u) ->
  (forall u, ex s u <> None -> ex s' u <> None \/ ~ In u (sources rest) /\ ~ In u (mems rest)) ->
  (forall u, ex s' u <> None -> ex s u <> None \/ home s u = None) ->
  (forall v o, event_of t = [EOp (PWrap v o)] -> exists u c, ev E' u = Some (Some (c, o))) ->
  (no_detach_in (event_of t) ->
   (forall o u c, ev E u = Some (Some (c, o)) -> exists u' c', ev E' u' = Some (Some (c', o))) /\
   (forall c, nth_error (cn s') c = Some (Some 0%Z) -> nth_error (cn s) c = Some (Some 0%Z))) ->
  Inv (es ++ event_of t) s' rest E'.
Proof.
  intros [I1 I2 I3 I4 I5 I6 I7 I8 I9 I10 I12 I11] Pd Hm Hbg Hs Hw Hk Hk' J' Hb Ho Hh Hex Hex' Hwr Hnd.
  assert (forall o, alive s' o = alive s o) as Ha by (intros o; unfold alive; now rewrite Ho).
  constructor; auto.
  - intros u I. destruct (Hex u) as [Q|[Q _]]; auto; contradiction.
  - intros w I. rewrite Hh. rewrite Hm in I5. destruct (I5 w I) as (Q1 & h & Q2 & Q3). split; [|exists h; now rewrite Ha].
    destruct (Hex w Q1) as [Q|[_ Q]]; auto; contradiction.
  - intros v h I. rewrite Hh, Ha. eauto.
  - intros u h. rewrite Hh, Ha. intros Q1 Q2. destruct (I7 u h Q1 Q2) as [Q|[Q|Q]].
    + left. destruct (ex s' u) eqn:X; auto. destruct (Hex' u); congruence.
    + right. left. now rewrite Hm in Q.
    + apply Hk in Q. destruct Q; auto.
  - rewrite dtors_app, Pd, app_nil_r. now rewrite <- Hbg.
  - intros o. rewrite dtors_app, Pd, app_nil_r, <- Hbg, Ho, Ha. apply I9.
  - intros Q o W A. rewrite Ha in A. apply no_detach_app in Q. destruct Q as [Q Q']. apply wrapped_app in W. destruct W as [W|[v W]].
    + destruct (I10 Q o W A) as (u & c & V). destruct (Hnd Q') as [K _]. eauto.
    + assert (event_of t = [EOp (PWrap v o)]) as Et.
      { destruct t as [| |k | | | | ]; cbn in W; try contradiction; [|destruct k; cbn in W; [|contradiction]]; destruct W as [W|[]]; try discriminate. cbn. congruence. }
      eauto.
  - intros o W. apply wrapped_app in W. destruct W as [W|[v W]]; [rewrite Ho; auto|].
    assert (event_of t = [EOp (PWrap v o)]) as Et.
    { destruct t as [| |k | | | | ]; cbn in W; try contradiction; [|destruct k; cbn in W; [|contradiction]]; destruct W as [W|[]]; try discriminate. cbn. congruence. }
    destruct (Hwr _ _ Et) as (u & c & V). apply (j_ref _ _ _ J') in V. destruct V as [_ V]. apply alive_true in V. eapply nth_error_lt; eauto.
  - intros Q c H. apply no_detach_app in Q. destruct Q as [Q Q']. destruct (Hnd Q') as [_ K]. apply (I11 Q c). auto.
Qed.

Lemma own_ev es s ts E u o : Inv es s ts E -> (owner s ts u o <-> exists c, ev E u = Some (Some (c, o))).
Proof.
  intros HI. pose proof (i_J _ _ _ _ HI) as HJ. unfold owner, refers. rewrite wv_of. split.
  - intros [R N]. destruct (ex s u) as [p|] eqn:P; [|discriminate].
    destruct (d_cases s E _ HJ u p N P) as [(c & o' & V & ->)|(V & _ & Pr)]; [|congruence].
    cbn [pr] in R. exists c. congruence.
  - intros [c V]. split.
    + destruct (j_live _ _ _ _ _ HJ V) as [p P]. pose proof (j_var _ _ _ HJ u) as Q. rewrite P, V in Q. rewrite P. now subst p.
    + intros I. rewrite (i_busy _ _ _ _ HI u I) in V. discriminate.
Qed.
Lemma usable_ex s rest u : usable s rest u -> exists p, ex s u = Some p /\ ~ In u (busy rest).
Proof. intros [H N]. destruct (var_ex _ _ H) as [p P]. eauto. Qed.

Section Step.
Variable code : nat -> nat -> st -> option op.
Variables (es : list event) (s : st) (rest : list task) (E : eff).
Definition fine (t : task) : Prop := exists s' ts' E', dtr_step code s t rest = Ok (s', ts') /\ Inv (es ++ event_of t) s' ts' E'.

Lemma body_fine o k : Inv es s (TBody o k :: rest) E -> fine (TBody o k).
Proof.
  intros HI. unfold fine. cbn [dtr_step].
  assert (forall ts, busy ts = busy rest -> sources ts = sources rest -> mems ts = mems rest -> kills ts = kills rest ->
    begins ts = begins rest -> wf ts -> Inv (es ++ event_of (TBody o k)) s ts E) as K.
  { intros ts H1 H2 H3 H4 H5 H6. destruct HI as [I1 I2 I3 I4 I5 I6 I7 I8 I9 I10 I12 I11].
    assert (dtors (es ++ event_of (TBody o k)) ++ begins ts = dtors es ++ begins (TBody o k :: rest)) as D.
    { rewrite dtors_app, H5. destruct k; cbn [event_of dtors flat_map begins app]; [now rewrite <- app_assoc|now rewrite app_nil_r]. }
    constructor; rewrite ?H1, ?H2, ?H3, ?H4, ?D; auto.
    - intros Q o' W. apply no_detach_app in Q. destruct Q as [Q _]. apply wrapped_app in W.
      destruct W as [W|[v W]]; [auto|]. exfalso. destruct k; cbn in W; [destruct W as [W|[]]; discriminate|contradiction].
    - intros o' W. apply wrapped_app in W. destruct W as [W|[v W]]; [auto|].
      exfalso. destruct k; cbn in W; [destruct W as [W|[]]; discriminate|contradiction].
    - intros Q. apply no_detach_app in Q. destruct Q as [Q _]. exact (I11 Q). }
  pose proof (i_wf _ _ _ _ HI) as W. cbn [wf] in W.
  destruct (code o k s); eexists _, _, E; (split; [reflexivity|]); apply K; auto.
Qed.
Lemma app_rest (a : task) (ts r : list task) : ts ++ a :: r = ts ++ [a] ++ r.
Proof. reflexivity. Qed.
Lemma plain_op o : (forall v x, o <> PWrap v x) -> plain (event_of (TOp o)).
Proof. intros N. split; [reflexivity|]. intros x [v [H|[]]]. inversion H. eapply N; eauto. Qed.
Lemma keep_op o : (forall v, o <> PDetach v) -> no_detach_in (event_of (TOp o)).
Proof. intros N v [H|[]]. inversion H. eapply N; eauto. Qed.
Ltac pl := split; [reflexivity|intros ? [? [?|[]]]; discriminate].
Ltac nd := intros ? [?|[]]; discriminate.

Lemma members_fine ws : Inv es s (TMembers ws :: rest) E -> allowed s rest (TMembers ws) -> fine (TMembers ws).
Proof.
  intros HI HA. unfold fine. pose proof (i_wf _ _ _ _ HI) as W. cbn [wf] in W. destruct W as [W1 W2].
  destruct ws as [|w ws]; cbn [dtr_step].
  - exists s, rest, E. split; [reflexivity|]. destruct HI as [I1 I2 I3 I4 I5 I6 I7 I8 I9 I10 I12 I11].
    cbn [event_of]. rewrite app_nil_r. constructor; auto.
  - destruct HA as [N1 N2]. cbn [app] in W1. inversion W1 as [|? ? W3 W4]; subst.
    destruct (i_mem _ _ _ _ HI w) as (X & h & Hh & Ah); [now left|].
    destruct (release_begins es s (TMembers (w :: ws)) rest E w [TKill w; TMembers ws]) as (s' & ts & E' & R & I'); auto.
    + split; [reflexivity|]. intros o [v []].
    + intros v [].
    + cbn [app wf busy sources mems]. repeat (split; auto).
    + apply (i_src _ _ _ _ HI).
    + intros x I. cbn [app mems] in *. now right.
    + cbn [app kills]. intros u h' [<-|I] Q; [congruence|]. eapply (i_kill _ _ _ _ HI); eauto.
    + cbn [app kills mems In]. intros u [[->|Q]|Q]; auto.
    + rewrite R. cbn [bind]. exists s', (ts ++ TKill w :: TMembers ws :: rest), E'. split; [reflexivity|exact I'].
Qed.
Lemma destroy_fine v : Inv es s (TOp (PDestroy v) :: rest) E -> allowed s rest (TOp (PDestroy v)) -> fine (TOp (PDestroy v)).
Proof.
  intros HI (U & Hh & Ns). destruct (usable_ex _ _ _ U) as (p & P & N). rewrite wh_of in Hh. unfold fine. cbn [dtr_step].
  pose proof (i_wf _ _ _ _ HI) as W. cbn [wf] in W.
  destruct (release_begins es s (TOp (PDestroy v)) rest E v [TKill v]) as (s' & ts & E' & R & I'); auto.
  - pl.
  - nd.
  - cbn [app wf]. split; [auto|]. split; [auto|]. split; [|auto]. intros I. apply (i_mem _ _ _ _ HI) in I.
    destruct I as (_ & h & Q & _). congruence.
  - apply (i_src _ _ _ _ HI).
  - cbn [app kills]. intros u h' [<-|I] Q; [congruence|]. eapply (i_kill _ _ _ _ HI); eauto.
  - cbn [app kills mems In]. intros u [Q|Q]; auto.
  - congruence.
  - rewrite R. cbn [bind]. exists s', (ts ++ TKill v :: rest), E'. split; [reflexivity|exact I'].
Qed.
Lemma set_null_fine v : Inv es s (TOp (PSetNull v) :: rest) E -> allowed s rest (TOp (PSetNull v)) -> fine (TOp (PSetNull v)).
Proof.
  intros HI U. destruct (usable_ex _ _ _ U) as (p & P & N). unfold fine. cbn [dtr_step].
  pose proof (i_wf _ _ _ _ HI) as W. cbn [wf] in W.
  destruct (release_begins es s (TOp (PSetNull v)) rest E v [TNull v]) as (s' & ts & E' & R & I'); auto.
  - pl.
  - nd.
  - apply (i_src _ _ _ _ HI).
  - apply (i_kill _ _ _ _ HI).
  - congruence.
  - rewrite R. cbn [bind]. exists s', (ts ++ TNull v :: rest), E'. split; [reflexivity|exact I'].
Qed.
Lemma same_fine t : Inv es s (TOp t :: rest) E -> plain (event_of (TOp t)) -> no_detach_in (event_of (TOp t)) -> Inv (es ++ event_of (TOp t)) s rest E.
Proof.
  intros HI [P1 P2] P3. pose proof (i_wf _ _ _ _ HI) as W. cbn [wf] in W.
  eapply update_ok; eauto; try (exact (i_J _ _ _ _ HI)); try (exact (i_busy _ _ _ _ HI)).
  intros v o Q. exfalso. apply (P2 o). exists v. rewrite Q. now left.
Qed.
Lemma assign_fine v u : Inv es s (TOp (PAssign v u) :: rest) E -> allowed s rest (TOp (PAssign v u)) -> fine (TOp (PAssign v u)).
Proof.
  intros HI [U U']. destruct (usable_ex _ _ _ U) as (p & P & N). destruct (usable_ex _ _ _ U') as (p' & P' & N'). unfold fine. cbn [dtr_step].
  destruct (Nat.eqb_spec v u) as [<-|Nvu].
  { rewrite (pget_ok _ _ _ P). cbn [bind]. exists s, rest, E. split; [reflexivity|]. apply same_fine; auto; [pl|nd]. }
  pose proof (i_wf _ _ _ _ HI) as W. cbn [wf] in W.
  destruct (release_begins es s (TOp (PAssign v u)) rest E v [TSet v u]) as (s' & ts & E' & R & I'); auto.
  - pl.
  - nd.
  - cbn [app wf]. auto.
  - cbn [app sources]. intros x [<-|I]; [congruence|]. apply (i_src _ _ _ _ HI); auto.
  - apply (i_kill _ _ _ _ HI).
  - congruence.
  - rewrite R. cbn [bind]. exists s', (ts ++ TSet v u :: rest), E'. split; [reflexivity|exact I'].
Qed.
Lemma move_assign_fine v u : Inv es s (TOp (PMoveAssign v u) :: rest) E -> allowed s rest (TOp (PMoveAssign v u)) -> fine (TOp (PMoveAssign v u)).
Proof.
  intros HI [U U']. destruct (usable_ex _ _ _ U) as (p & P & N). destruct (usable_ex _ _ _ U') as (p' & P' & N'). unfold fine. cbn [dtr_step].
  destruct (Nat.eqb_spec v u) as [<-|Nvu].
  { rewrite (pget_ok _ _ _ P). cbn [bind]. exists s, rest, E. split; [reflexivity|]. apply same_fine; auto; [pl|nd]. }
  pose proof (i_wf _ _ _ _ HI) as W. cbn [wf] in W.
  destruct (release_begins es s (TOp (PMoveAssign v u)) rest E v [TMoveSet v u]) as (s' & ts & E' & R & I'); auto.
  - pl.
  - nd.
  - cbn [app wf]. auto.
  - cbn [app sources]. intros x [<-|I]; [congruence|]. apply (i_src _ _ _ _ HI); auto.
  - apply (i_kill _ _ _ _ HI).
  - congruence.
  - rewrite R. cbn [bind]. exists s', (ts ++ TMoveSet v u :: rest), E'. split; [reflexivity|exact I'].
Qed.

(* writing to one variable *)
Lemma write_null t v p : Inv es s (t :: rest) E -> (t = TNull v \/ exists o, t = TOp o /\ plain (event_of (TOp o)) /\ no_detach_in (event_of (TOp o))) ->
  (forall x, In x (busy (t :: rest)) -> x = v \/ In x (busy rest)) -> v < length (vs s) -> blank E v -> (ex s v = None -> home s v = None) ->
  pc p = None -> pr p = None -> Inv (es ++ event_of t) (sv s v (Some p)) rest (upd E v (Some None)).
Proof.
  intros HI Ht Hb L Bl Hh Pc Pr. pose proof (i_J _ _ _ _ HI) as HJ. pose proof (i_wf _ _ _ _ HI) as W.
  pose proof (j_len _ _ _ HJ) as LE.
  assert (dtors (event_of t) = [] /\ (forall v' o, event_of t <> [EOp (PWrap v' o)])) as [P1 P2].
  { destruct Ht as [->|(o & -> & [P1 P2] & _)]; [split; [auto|discriminate]|]. split; auto.
    intros v' o' Q. apply (P2 o'). exists v'. rewrite Q. now left. }
  assert (mems (t :: rest) = mems rest /\ begins (t :: rest) = begins rest /\ sources (t :: rest) = sources rest /\ wf rest /\
          kills (t :: rest) = kills rest /\ (forall x, In x (busy rest) -> In x (busy (t :: rest)))) as (M1 & M2 & M3 & M4 & M5 & M6).
  { destruct Ht as [->|(o & -> & _)]; cbn [mems begins sources wf kills busy] in *; repeat split; auto; intros; now right. }
  eapply (update_ok es s t rest E); eauto.
  - rewrite M3. auto.
  - rewrite M5. auto.
  - rewrite M5. auto.
  - eapply d_null; eauto.
  - intros x I. rewrite ev_upd by lia. destruct (Nat.eqb_spec x v); auto. apply (i_busy _ _ _ _ HI). auto.
  - intros x. now apply home_sv.
  - intros x Q. left. rewrite ex_sv by auto. destruct (x =? v); [discriminate|auto].
  - intros x. rewrite ex_sv by auto. destruct (Nat.eqb_spec x v) as [->|]; [|auto]. intros _. destruct (ex s v) eqn:X; [left; discriminate|auto].
  - intros v' o Q. exfalso. eapply P2; eauto.
  - intros _. split; [|auto]. intros o u c Q. exists u, c. rewrite ev_upd by lia. destruct (Nat.eqb_spec u v) as [->|]; auto.
    destruct Bl; congruence.
Qed.
Lemma write_copy t v u p : Inv es s (t :: rest) E -> (t = TSet v u \/ exists o, t = TOp o /\ plain (event_of (TOp o)) /\ no_detach_in (event_of (TOp o))) ->
  (forall x, In x (busy (t :: rest)) -> x = v \/ In x (busy rest)) -> ~ In v (busy rest) -> ~ In u (busy rest) -> u <> v ->
  v < length (vs s) -> blank E v -> (ex s v = None -> home s v = None) -> ex s u = Some p ->
  exists s' E', inc (sv s v (Some p)) p = Ok s' /\ Inv (es ++ event_of t) s' rest E'.
Proof.
  intros HI Ht Hb Nv Nu Nuv L Bl Hh P. pose proof (i_J _ _ _ _ HI) as HJ. pose proof (i_wf _ _ _ _ HI) as W.
  pose proof (j_len _ _ _ HJ) as LE.
  assert (dtors (event_of t) = [] /\ (forall v' o, event_of t <> [EOp (PWrap v' o)])) as [P1 P2].
  { destruct Ht as [->|(o & -> & [P1 P2] & _)]; [split; [auto|discriminate]|]. split; auto.
    intros v' o' Q. apply (P2 o'). exists v'. rewrite Q. now left. }
  assert (mems (t :: rest) = mems rest /\ begins (t :: rest) = begins rest /\ (forall x, In x (sources rest) -> In x (sources (t :: rest))) /\ wf rest /\
          kills (t :: rest) = kills rest /\ (forall x, In x (busy rest) -> In x (busy (t :: rest)))) as (M1 & M2 & M3 & M4 & M5 & M6).
  { destruct Ht as [->|(o & -> & _)]; cbn [mems begins sources wf kills busy] in *; repeat split; auto; try tauto; intros; now right. }
  assert (~ In u (busy (t :: rest))) as Nu' by (intros I; apply Hb in I; tauto).
  assert (forall s' x, J s' (upd E v x) (busy rest) -> (x = Some None \/ exists c o, x = Some (Some (c, o))) -> vs s' = vs (sv s v (Some p)) -> ob s' = ob s ->
    (forall c', nth_error (cn s') c' = Some (Some 0%Z) -> nth_error (cn s) c' = Some (Some 0%Z)) -> Inv (es ++ event_of t) s' rest (upd E v x)) as K.
  { intros s' x J' Hx Hv Ho Hl.
    assert (forall y, ex s' y = ex (sv s v (Some p)) y) as Xe by (intros y; unfold ex; now rewrite Hv).
    assert (forall y, home s' y = home (sv s v (Some p)) y) as Xh by (intros y; unfold home; now rewrite Hv).
    eapply (update_ok es s t rest E); eauto.
    - rewrite M5. auto.
    - rewrite M5. auto.
    - intros y I. rewrite ev_upd by lia. destruct (Nat.eqb_spec y v) as [->|]; [contradiction|]. apply (i_busy _ _ _ _ HI). auto.
    - intros y. rewrite Xh. now apply home_sv.
    - intros y Q. left. rewrite Xe, ex_sv by auto. destruct (y =? v); [discriminate|auto].
    - intros y. rewrite Xe, ex_sv by auto. destruct (Nat.eqb_spec y v) as [->|]; [|auto]. intros _. destruct (ex s v) eqn:X; [left; discriminate|auto].
    - intros v' o Q. exfalso. eapply P2; eauto.
    - intros _. split; [|auto]. intros o y c Q. exists y, c. rewrite ev_upd by lia. destruct (Nat.eqb_spec y v) as [->|]; auto.
      destruct Bl; congruence. }
  destruct (d_cases s E _ HJ u p Nu' P) as [(c & o & V & ->)|(V & Pc & Pr)].
  - destruct (d_copy s E _ (busy rest) HJ v u c o Hb L Bl V) as (s' & R & J' & Hv & Ho & Hl). exists s'. eexists. split; [exact R|].
    apply K; eauto.
  - unfold inc. rewrite Pc. eexists _, _. split; [reflexivity|]. apply (K (sv s v (Some p)) (Some None)); auto. eapply d_null; eauto.
Qed.
Lemma write_move t v u p : Inv es s (t :: rest) E -> (t = TMoveSet v u \/ exists o, t = TOp o /\ plain (event_of (TOp o)) /\ no_detach_in (event_of (TOp o))) ->
  (forall x, In x (busy (t :: rest)) -> x = v \/ In x (busy rest)) -> ~ In v (busy rest) -> ~ In u (busy rest) -> u <> v ->
  v < length (vs s) -> blank E v -> (ex s v = None -> home s v = None) -> ex s u = Some p ->
  exists s' E', pset (sv s v (Some p)) u null = Ok s' /\ Inv (es ++ event_of t) s' rest E'.
Proof.
  intros HI Ht Hb Nv Nu Nuv L Bl Hh P. pose proof (i_J _ _ _ _ HI) as HJ. pose proof (i_wf _ _ _ _ HI) as W.
  pose proof (j_len _ _ _ HJ) as LE. pose proof (ex_lt _ _ _ P) as Lu.
  assert (dtors (event_of t) = [] /\ (forall v' o, event_of t <> [EOp (PWrap v' o)])) as [P1 P2].
  { destruct Ht as [->|(o & -> & [P1 P2] & _)]; [split; [auto|discriminate]|]. split; auto.
    intros v' o' Q. apply (P2 o'). exists v'. rewrite Q. now left. }
  assert (mems (t :: rest) = mems rest /\ begins (t :: rest) = begins rest /\ (forall x, In x (sources rest) -> In x (sources (t :: rest))) /\ wf rest /\
          kills (t :: rest) = kills rest /\ (forall x, In x (busy rest) -> In x (busy (t :: rest)))) as (M1 & M2 & M3 & M4 & M5 & M6).
  { destruct Ht as [->|(o & -> & _)]; cbn [mems begins sources wf kills busy] in *; repeat split; auto; try tauto; intros; now right. }
  assert (~ In u (busy (t :: rest))) as Nu' by (intros I; apply Hb in I; tauto).
  destruct (j_ex _ _ _ _ _ HJ P) as [x Vx].
  assert (ex (sv s v (Some p)) u = Some p) as P'.
  { rewrite ex_sv by auto. replace (u =? v) with false by (symmetry; apply Nat.eqb_neq; auto). exact P. }
  pose proof (ex_lt _ _ _ P') as Lu'.
  assert (length (upd E v (Some x)) = length E) as LE' by apply upd_length.
  rewrite (pset_ok _ _ _ _ P'). eexists _, (upd (upd E v (Some x)) u (Some None)). split; [reflexivity|].
  assert (forall y, ex (sv (sv s v (Some p)) u (Some null)) y = if Nat.eqb y u then Some null else if Nat.eqb y v then Some p else ex s y) as Xe.
  { intros y. rewrite ex_sv by auto. destruct (y =? u); auto. now apply ex_sv. }
  eapply (update_ok es s t rest E); eauto.
  - rewrite M5. auto.
  - rewrite M5. auto.
  - apply (d_move s E _ (busy rest) HJ v u p x); auto.
  - intros y I. rewrite ev_upd by lia. destruct (Nat.eqb_spec y u); auto. rewrite ev_upd by lia.
    destruct (Nat.eqb_spec y v) as [->|]; [contradiction|]. apply (i_busy _ _ _ _ HI). auto.
  - intros y. rewrite home_sv by auto. now apply home_sv.
  - intros y Q. left. rewrite Xe. destruct (y =? u); [discriminate|]. destruct (y =? v); [discriminate|auto].
  - intros y. rewrite Xe. destruct (Nat.eqb_spec y u) as [->|]; [intros _; left; congruence|].
    destruct (Nat.eqb_spec y v) as [->|]; [|auto]. intros _. destruct (ex s v) eqn:X; [left; discriminate|auto].
  - intros v' o Q. exfalso. eapply P2; eauto.
  - intros _. split; [|auto]. intros o y c Q.
    assert (y <> v) as Nyv by (intros ->; destruct Bl; congruence).
    destruct (Nat.eq_dec y u) as [->|Nyu].
    + exists v, c. rewrite ev_upd by lia. replace (v =? u) with false by (symmetry; apply Nat.eqb_neq; auto).
      rewrite ev_upd by lia. rewrite Nat.eqb_refl. congruence.
    + exists y, c. rewrite ev_upd by lia. apply Nat.eqb_neq in Nyu, Nyv. rewrite Nyu, ev_upd by lia. now rewrite Nyv.
Qed.

Lemma slot_facts o v : Inv es s (TOp o :: rest) E -> free_slot (world_of s) v ->
  v < length (vs s) /\ ex s v = None /\ home s v = None /\ blank E v /\ ~ In v (busy rest).
Proof.
  intros HI F. destruct (slot _ _ F) as (L & X & H). pose proof (slot_blank _ _ _ _ (i_J _ _ _ _ HI) X) as Bl.
  split; [auto|]. split; [auto|]. split; [auto|]. split; [auto|]. intros I.
  pose proof (i_busy _ _ _ _ HI v I) as Q. destruct (j_live _ _ _ _ _ (i_J _ _ _ _ HI) Q). congruence.
Qed.
Ltac op_side := right; eexists; split; [reflexivity|split; [pl|nd]].

Lemma new_fine v : Inv es s (TOp (PNew v) :: rest) E -> allowed s rest (TOp (PNew v)) -> fine (TOp (PNew v)).
Proof.
  intros HI F. destruct (slot_facts _ _ HI F) as (L & X & H & Bl & N). unfold fine. cbn [dtr_step step].
  rewrite (pinit_ok _ _ _ L X). cbn [bind]. eexists _, _, _. split; [reflexivity|].
  apply write_null; auto. op_side.
Qed.
Lemma copy_fine v u : Inv es s (TOp (PCopy v u) :: rest) E -> allowed s rest (TOp (PCopy v u)) -> fine (TOp (PCopy v u)).
Proof.
  intros HI [F U]. destruct (slot_facts _ _ HI F) as (L & X & H & Bl & N). destruct (usable_ex _ _ _ U) as (p & P & Nu).
  assert (u <> v) as Nuv by congruence.
  destruct (write_copy (TOp (PCopy v u)) v u p HI) as (s' & E' & R & I'); auto; [op_side|].
  unfold fine. cbn [dtr_step step]. rewrite (pget_ok _ _ _ P). cbn [bind]. rewrite (pinit_ok _ _ _ L X). cbn [bind]. rewrite R. cbn [bind]. eauto.
Qed.
Lemma conv_fine v u : Inv es s (TOp (PConv v u) :: rest) E -> allowed s rest (TOp (PConv v u)) -> fine (TOp (PConv v u)).
Proof.
  intros HI [F U]. destruct (slot_facts _ _ HI F) as (L & X & H & Bl & N). destruct (usable_ex _ _ _ U) as (p & P & Nu).
  assert (u <> v) as Nuv by congruence.
  unfold fine. cbn [dtr_step step]. rewrite (pget_ok _ _ _ P). cbn [bind]. rewrite !(pinit_ok _ _ _ L X). cbn [bind].
  destruct (pr p).
  - destruct (write_copy (TOp (PConv v u)) v u p HI) as (s' & E' & R & I'); auto; [op_side|]. rewrite R. cbn [bind]. eauto.
  - eexists _, _, _. split; [reflexivity|]. apply write_null; auto. op_side.
Qed.
Lemma move_fine v u : Inv es s (TOp (PMove v u) :: rest) E -> allowed s rest (TOp (PMove v u)) -> fine (TOp (PMove v u)).
Proof.
  intros HI [F U]. destruct (slot_facts _ _ HI F) as (L & X & H & Bl & N). destruct (usable_ex _ _ _ U) as (p & P & Nu).
  assert (u <> v) as Nuv by congruence.
  destruct (write_move (TOp (PMove v u)) v u p HI) as (s' & E' & R & I'); auto; [op_side|].
  unfold fine. cbn [dtr_step step]. rewrite (pget_ok _ _ _ P). cbn [bind]. rewrite (pinit_ok _ _ _ L X). cbn [bind]. rewrite R. cbn [bind]. eauto.
Qed.
Lemma conv_move_fine v u : Inv es s (TOp (PConvMove v u) :: rest) E -> allowed s rest (TOp (PConvMove v u)) -> fine (TOp (PConvMove v u)).
Proof.
  intros HI [F U]. destruct (slot_facts _ _ HI F) as (L & X & H & Bl & N). destruct (usable_ex _ _ _ U) as (p & P & Nu).
  assert (u <> v) as Nuv by congruence.
  unfold fine. cbn [dtr_step step]. rewrite (pget_ok _ _ _ P). cbn [bind]. rewrite !(pinit_ok _ _ _ L X). cbn [bind].
  destruct (pr p).
  - destruct (write_move (TOp (PConvMove v u)) v u p HI) as (s' & E' & R & I'); auto; [op_side|]. rewrite R. cbn [bind]. eauto.
  - eexists _, _, _. split; [reflexivity|]. apply write_null; auto. op_side.
Qed.
Lemma cast_fine v u ok : Inv es s (TOp (PCast v u ok) :: rest) E -> allowed s rest (TOp (PCast v u ok)) -> fine (TOp (PCast v u ok)).
Proof.
  intros HI [F U]. destruct (slot_facts _ _ HI F) as (L & X & H & Bl & N). destruct (usable_ex _ _ _ U) as (p & P & Nu).
  assert (u <> v) as Nuv by congruence.
  unfold fine. cbn [dtr_step step]. rewrite (pget_ok _ _ _ P). cbn [bind]. rewrite !(pinit_ok _ _ _ L X). cbn [bind].
  destruct (if ok then pr p else None) as [o|] eqn:C.
  - destruct (d_cases s E _ (i_J _ _ _ _ HI) u p Nu P) as [(c & o' & V & ->)|(V & Pc & Pr)].
    + cbn [pc pr po pd] in *. assert (o' = o) as -> by (destruct ok; congruence).
      destruct (write_copy (TOp (PCast v u ok)) v u (mkPtr (Some c) (Some o) (Some o) true) HI) as (s' & E' & R & I'); auto; [op_side|].
      rewrite R. cbn [bind]. eauto.
    + exfalso. destruct ok; congruence.
  - cbn [inc pc bind]. eexists _, _, _. split; [reflexivity|]. apply write_null; auto. op_side.
Qed.
Lemma detach_fine v : Inv es s (TOp (PDetach v) :: rest) E -> allowed s rest (TOp (PDetach v)) -> fine (TOp (PDetach v)).
Proof.
  intros HI [U Hs]. destruct (usable_ex _ _ _ U) as (p & P & Nv).
  unfold fine. cbn [dtr_step step]. rewrite (pget_ok _ _ _ P). cbn [bind]. unfold fuel_of. rewrite dec_eq, (pget_ok _ _ _ P). cbn [bind].
  pose proof (ex_lt _ _ _ P) as L. pose proof (i_J _ _ _ _ HI) as HJ. cbn [busy] in HJ.
  pose proof (i_wf _ _ _ _ HI) as W. cbn [wf] in W.
  assert (~ no_detach_in (event_of (TOp (PDetach v)))) as ND by (intros Q; apply (Q v); now left).
  destruct (d_cases s E _ HJ v p Nv P) as [(c & o & Ec & ->)|(Ec & Pc & Pr)].
  2:{ rewrite Pc. cbn [bind]. exists s, rest, E. split; [reflexivity|].
      eapply (update_ok es s (TOp (PDetach v)) rest E); eauto.
      { exact (i_busy _ _ _ _ HI). }
      intros v' o Q. discriminate Q. }
  cbn [pc pr]. destruct (j_ref _ _ _ HJ _ _ _ Ec) as [[n Hn] Ha]. unfold cget. rewrite Hn. cbn [bind]. cbv zeta.
  assert (v < length E) as LE by (rewrite (j_len _ _ _ HJ); auto).
  set (E' := upd E v (Some None)).
  pose proof (cc_upd E v _ (Some None) c (ev_some _ _ _ Ec)) as Q. cbn [isc] in Q. rewrite Nat.eqb_refl in Q. cbn [b2n] in Q. fold E' in Q.
  assert (forall u, ev E' u = if Nat.eqb u v then Some None else ev E u) as V2 by (intros; apply ev_upd; auto).
  assert (cc E' c = 0) as Z0.
  { destruct (cc E' c) eqn:Z0; auto. destruct (cc_ex E' c) as (t & o' & Ht); [lia|]. exfalso. rewrite V2 in Ht.
    destruct (Nat.eqb_spec t v) as [->|Nt]; [discriminate|].
    assert (o' = o) as -> by (apply (j_inj _ _ _ HJ t v c c o' o Ht Ec); reflexivity).
    apply Nt. apply (Hs o t).
    - apply (proj2 (own_ev _ _ _ _ v o HI)). eauto.
    - apply (proj2 (own_ev _ _ _ _ t o HI)). eauto. }
  pose proof (j_cnt _ _ _ HJ _ _ Hn) as En.
  replace (n - 1 =? 0)%Z with true by lia.
  set (s1 := cset s c (Some (n - 1)%Z)).
  assert (ex s1 v = Some (mkPtr (Some c) (Some o) (Some o) true)) as P1 by exact P.
  cbn [bind]. rewrite (pset_ok s1 v null _ P1). cbn [bind]. exists (sv s1 v (Some null)), rest, E'. split; [reflexivity|].
  pose proof (nth_error_lt _ _ _ Hn) as Lc.
  assert (forall c', nth_error (cn s1) c' = if Nat.eqb c' c then Some (Some (n - 1)%Z) else nth_error (cn s) c') as Cn1.
  { intros c'. unfold s1, cset. cbn [cn]. destruct (Nat.eqb_spec c' c) as [->|Nc]; [now rewrite upd_same|now rewrite upd_other by auto]. }
  assert (forall u, ex (sv s1 v (Some null)) u = if Nat.eqb u v then Some null else ex s u) as X2 by (intros; apply (ex_sv s1); auto).
  assert (forall u, home (sv s1 v (Some null)) u = home s u) as H2 by (intros; apply (home_sv s1); auto).
  assert (forall u q, ev E' u = Some (Some q) -> ev E u = Some (Some q)) as V2'.
  { intros u q. rewrite V2. destruct (u =? v); [discriminate|auto]. }
  eapply (update_ok es s (TOp (PDetach v)) rest E); eauto.
  - destruct HJ as [A1 A2 A3 A4 A5 A6 A7 A8]. constructor.
    + unfold E', sv. cbn [vs]. now rewrite !upd_length.
    + intros u. rewrite X2, V2. destruct (u =? v); [exact I|apply A2].
    + intros u q N. rewrite X2, V2. destruct (u =? v); [intros Q1; inversion Q1; now split|apply A3; auto].
    + intros c' m. change (cn (sv s1 v (Some null))) with (cn s1). rewrite Cn1.
      destruct (Nat.eqb_spec c' c) as [->|Nc].
      * intros X. assert (m = n - 1)%Z by congruence. lia.
      * intros X. rewrite (A4 _ _ X). f_equal.
        pose proof (cc_upd E v _ (Some None) c' (ev_some _ _ _ Ec)) as Q'. cbn [isc] in Q'.
        replace (c =? c') with false in Q' by (symmetry; apply Nat.eqb_neq; auto). cbn [b2n] in Q'. fold E' in Q'. lia.
    + intros u c' o' X. apply V2' in X. apply A5 in X. destruct X as [[m X] Y]. split; [|exact Y].
      change (cn (sv s1 v (Some null))) with (cn s1). rewrite Cn1. destruct (c' =? c); eauto.
    + intros u1 u2 c1 c2 o1 o2 Y1 Y2. eapply A6; eauto.
    + intros u h. rewrite H2, X2. destruct (u =? v); [congruence|apply A7].
    + intros u h. rewrite H2. apply A8.
  - intros u I. rewrite V2. destruct (u =? v); auto. apply (i_busy _ _ _ _ HI). exact I.
  - intros u X. left. rewrite X2. destruct (u =? v); [discriminate|auto].
  - intros u. rewrite X2. destruct (Nat.eqb_spec u v) as [->|]; [|auto]. intros _. left. congruence.
  - intros v' o' X. discriminate X.
  - intros X. contradiction.
Qed.
Lemma wrap_fine v o : Inv es s (TOp (PWrap v o) :: rest) E -> allowed s rest (TOp (PWrap v o)) -> fine (TOp (PWrap v o)).
Proof.
  intros HI (F & Ha & Hn). destruct (slot_facts _ _ HI F) as (L & X & H & Bl & N).
  pose proof (i_J _ _ _ _ HI) as HJ. cbn [busy] in HJ. pose proof (i_wf _ _ _ _ HI) as W. cbn [wf] in W.
  unfold fine. cbn [dtr_step step]. set (c := length (cn s)). set (p := mkPtr (Some c) (Some o) (Some o) true).
  set (s1 := mkSt (cn s ++ [Some 0%Z]) (ob s) (vs s)).
  rewrite (pinit_ok s1 v p L X). cbn [bind]. unfold inc. cbn [p pc].
  unfold cget. unfold sv at 1. cbn [cn s1]. rewrite nth_error_app2 by (unfold c; lia).
  replace (c - length (cn s)) with 0 by (unfold c; lia). cbn [nth_error bind].
  set (s2 := cset (sv s1 v (Some p)) c (Some (0 + 1)%Z)).
  set (E' := upd E v (Some (Some (c, o)))). exists s2, rest, E'.
  split; [reflexivity|].
  assert (forall u c' o', ev E u = Some (Some (c', o')) -> c' <> c /\ o' <> o) as Nco.
  { intros u c' o' Q. split.
    - intros ->. destruct (j_ref _ _ _ HJ _ _ _ Q) as [[n Q1] _]. apply nth_error_lt in Q1. unfold c in Q1. lia.
    - intros ->. apply (Hn u). apply (proj2 (own_ev _ _ _ _ u o HI)). eauto. }
  assert (cc E c = 0) as Cz.
  { destruct (cc E c) eqn:Q; auto. destruct (cc_ex E c) as (u & o' & Q1); [lia|]. apply Nco in Q1. tauto. }
  assert (forall c', nth_error (cn s2) c' = if Nat.eqb c' c then Some (Some 1%Z) else nth_error (cn s) c') as C2.
  { intros c'. unfold s2, cset, sv, s1. cbn [cn]. destruct (Nat.eqb_spec c' c) as [->|Nc].
    - rewrite upd_same; auto. rewrite app_length. cbn. unfold c. lia.
    - rewrite upd_other by auto. destruct (Nat.lt_ge_cases c' (length (cn s))).
      + now rewrite nth_error_app1.
      + unfold c in Nc. rewrite nth_error_app2 by lia.
        replace (nth_error (cn s) c') with (@None (option Z)) by (symmetry; apply nth_error_None; lia).
        destruct (c' - length (cn s)) eqn:Q; [lia|]. now destruct n. }
  destruct (blank_isc E v) as (x & Hx & Ix); [rewrite (j_len _ _ _ HJ); auto|auto|].
  assert (forall u, ev E' u = if Nat.eqb u v then Some (Some (c, o)) else ev E u) as V2 by (intros; apply ev_upd; rewrite (j_len _ _ _ HJ); auto).
  assert (forall u, ex s2 u = if Nat.eqb u v then Some p else ex s u) as X2 by (intros; apply (ex_sv s1); auto).
  assert (forall u, home s2 u = home s u) as H2 by (intros; apply (home_sv s1); auto).
  eapply (update_ok es s (TOp (PWrap v o)) rest E); eauto.
  - destruct HJ as [A1 A2 A3 A4 A5 A6 A7 A8]. constructor.
    + unfold E', s2, sv, s1. cbn [vs cset]. now rewrite !upd_length.
    + intros u. rewrite X2, V2. destruct (u =? v); [reflexivity|apply A2].
    + intros u q Nu. rewrite X2, V2. destruct (u =? v); [discriminate|]. apply A3; auto.
    + intros c' m. rewrite C2. pose proof (cc_upd E v _ (Some (Some (c, o))) c' Hx) as Q. rewrite Ix in Q. fold E' in Q.
      cbn [isc] in Q. rewrite Nat.eqb_sym in Q. destruct (Nat.eqb_spec c' c) as [->|Nc]; cbn [b2n] in Q.
      * intros R. assert (m = 1)%Z by congruence. lia.
      * intros R. rewrite (A4 c' m R). f_equal. lia.
    + intros u c' o'. rewrite V2, C2. destruct (u =? v).
      * intros Q. assert (c' = c /\ o' = o) as [-> ->] by (split; congruence). rewrite Nat.eqb_refl. split; eauto.
      * intros Q. pose proof (Nco _ _ _ Q) as [Nc _]. apply Nat.eqb_neq in Nc. rewrite Nc. apply (A5 _ _ _ Q).
    + intros u1 u2 c1 c2 o1 o2. rewrite !V2. destruct (u1 =? v), (u2 =? v).
      * intros Q1 Q2. assert (c1 = c2 /\ o1 = o2) by (split; congruence). tauto.
      * intros Q1 Q2. apply Nco in Q2. assert (c = c1 /\ o = o1) as [<- <-] by (split; congruence).
        destruct Q2. split; congruence.
      * intros Q2 Q1. apply Nco in Q2. assert (c = c2 /\ o = o2) as [<- <-] by (split; congruence).
        destruct Q2. split; congruence.
      * eauto.
    + intros u h. rewrite H2, X2. destruct (u =? v); [congruence|apply A7].
    + intros u h. rewrite H2. apply A8.
  - intros u I. rewrite V2. destruct (Nat.eqb_spec u v) as [->|]; [contradiction|]. apply (i_busy _ _ _ _ HI). exact I.
  - intros u Q. left. rewrite X2. destruct (u =? v); [discriminate|auto].
  - intros u. rewrite X2. destruct (Nat.eqb_spec u v) as [->|]; auto.
  - intros v' o' Q. cbn [event_of] in Q. exists v, c. rewrite V2, Nat.eqb_refl. assert (o = o') as -> by congruence. reflexivity.
  - intros _. split.
    + intros o' u c' Q. exists u, c'. rewrite V2. destruct (Nat.eqb_spec u v) as [->|]; auto. destruct Bl; congruence.
    + intros c'. rewrite C2. destruct (c' =? c); [discriminate|auto].
Qed.
Lemma raw_fine k : Inv es s (TOp (PRaw k) :: rest) E -> fine (TOp (PRaw k)).
Proof.
  intros HI. pose proof (i_J _ _ _ _ HI) as HJ. cbn [busy] in HJ.
  unfold fine. cbn [dtr_step step bind].
  set (s' := mkSt (cn s) (ob s ++ [true]) (vs s ++ repeat (Some null, Some (length (ob s))) k)).
  assert (forall u, ex s' u = if Nat.ltb u (length (vs s)) then ex s u else if Nat.ltb u (length (vs s) + k) then Some null else None) as X.
  { intros u. unfold ex at 1, s'. cbn [vs]. destruct (Nat.ltb_spec u (length (vs s))).
    - now rewrite nth_error_app1.
    - rewrite nth_error_app2 by auto. destruct (Nat.ltb_spec u (length (vs s) + k)).
      + rewrite nth_error_repeat by lia. reflexivity.
      + replace (nth_error _ _) with (@None (option ptr * option nat)); auto.
        symmetry. apply nth_error_None. rewrite repeat_length. lia. }
  assert (forall u, home s' u = if Nat.ltb u (length (vs s)) then home s u else if Nat.ltb u (length (vs s) + k) then Some (length (ob s)) else None) as H.
  { intros u. unfold home at 1, s'. cbn [vs]. destruct (Nat.ltb_spec u (length (vs s))).
    - now rewrite nth_error_app1.
    - rewrite nth_error_app2 by auto. destruct (Nat.ltb_spec u (length (vs s) + k)).
      + rewrite nth_error_repeat by lia. reflexivity.
      + replace (nth_error _ _) with (@None (option ptr * option nat)); auto.
        symmetry. apply nth_error_None. rewrite repeat_length. lia. }
  assert (forall o, alive s' o = if Nat.eqb o (length (ob s)) then true else alive s o) as A.
  { intros o. unfold alive at 1, s'. cbn [ob]. destruct (Nat.eqb_spec o (length (ob s))) as [->|N].
    - rewrite nth_error_app2 by lia. now rewrite Nat.sub_diag.
    - unfold alive. destruct (Nat.lt_ge_cases o (length (ob s))).
      + now rewrite nth_error_app1.
      + rewrite nth_error_app2 by lia. destruct (o - length (ob s)) eqn:Q; [lia|]. cbn.
        destruct n; cbn; replace (nth_error (ob s) o) with (@None bool); auto; symmetry; apply nth_error_None; lia. }
  assert (alive s (length (ob s)) = false) as Af.
  { unfold alive. replace (nth_error _ _) with (@None bool); auto. symmetry. apply nth_error_None. lia. }
  set (E' := E ++ repeat (Some None) k).
  assert (forall u, ev E' u = if Nat.ltb u (length (vs s)) then ev E u else if Nat.ltb u (length (vs s) + k) then Some None else None) as V.
  { intros u. rewrite <- (j_len _ _ _ HJ). unfold ev at 1, E'. destruct (Nat.ltb_spec u (length E)).
    - now rewrite nth_error_app1.
    - rewrite nth_error_app2 by auto. destruct (Nat.ltb_spec u (length E + k)).
      + rewrite nth_error_repeat by lia. reflexivity.
      + replace (nth_error _ _) with (@None (option (option (nat * nat)))); auto.
        symmetry. apply nth_error_None. rewrite repeat_length. lia. }
  assert (forall u q, ev E' u = Some (Some q) -> ev E u = Some (Some q)) as V'.
  { intros u q. rewrite V. destruct (u <? _); auto. destruct (u <? _); discriminate. }
  assert (forall u x, ev E u = Some x -> ev E' u = Some x) as V''.
  { intros u x Q. rewrite V. replace (u <? length (vs s)) with true; auto. symmetry. apply Nat.ltb_lt. eapply j_lt; eauto. }
  assert (forall c, cc E' c = cc E c) as C.
  { intros c. unfold cc, E'. rewrite filter_app, app_length. replace (filter (isc c) (repeat (Some None) k)) with (@nil (option (option (nat * nat)))).
    - cbn. lia.
    - symmetry. apply filter_blank. }
  assert (forall u, ex s u <> None -> ex s' u = ex s u /\ home s' u = home s u) as Old.
  { intros u Q. destruct (ex s u) as [q|] eqn:Q1; [|congruence]. apply ex_lt in Q1 as Q2. apply Nat.ltb_lt in Q2. rewrite X, H, Q2. auto. }
  assert (forall u h, home s u = Some h -> u < length (vs s) /\ h < length (ob s)) as Hlt.
  { intros u h Q. split; [|apply (j_new _ _ _ HJ u h Q)]. unfold home in Q. destruct (nth_error (vs s) u) eqn:Q1; [|discriminate].
    eapply nth_error_lt; eauto. }
  exists s', rest, E'. split; [reflexivity|].
  destruct HI as [I1 I2 I3 I4 I5 I6 I7 I8 I9 I10 I12 I11]. cbn [busy sources mems kills begins wf] in *.
  constructor; auto.
  - destruct HJ as [A1 A2 A3 A4 A5 A6 A7 A8]. constructor.
    + unfold E', s'. cbn [vs]. rewrite !app_length, !repeat_length. lia.
    + intros u. rewrite X, V. destruct (u <? _); [apply A2|]. destruct (u <? _); auto.
    + intros u q N. rewrite X, V. destruct (u <? _); [apply A3; auto|]. destruct (u <? _); [|discriminate].
      intros Q. inversion Q. now split.
    + intros c n Q. rewrite C. auto.
    + intros u c o Q. apply V' in Q. destruct (A5 _ _ _ Q) as [Q1 Q2]. split; auto. rewrite A. destruct (o =? _); auto.
    + intros u1 u2 c1 c2 o1 o2 Q1 Q2. eapply A6; eauto.
    + intros u h. rewrite H, X, A. destruct (u <? _) eqn:Lu.
      * intros Q1. destruct (Nat.eqb_spec h (length (ob s))) as [->|].
        -- intros _. exfalso. pose proof (A8 u _ Q1). lia.
        -- eauto.
      * destruct (u <? length (vs s) + k); intros; congruence.
    + intros u h. rewrite H. unfold s'. cbn [ob]. rewrite app_length. cbn [length]. destruct (u <? _).
      * intros Q. pose proof (A8 _ _ Q). lia.
      * destruct (u <? _); [|discriminate]. intros Q. inversion Q. lia.
  - intros u I. destruct (Old u (I3 u I)) as [-> _]. auto.
  - intros w I. destruct (I5 w I) as (Q1 & h & Q2 & Q3). destruct (Old w Q1) as [-> ->]. split; auto. exists h. split; auto.
    rewrite A. apply Hlt in Q2. destruct (Nat.eqb_spec h (length (ob s))); [lia|auto].
  - intros v h I Q. rewrite H in Q. destruct (v <? length (vs s)) eqn:Lt.
    + rewrite A. destruct (Nat.eqb_spec h (length (ob s))); [apply Hlt in Q; lia|]. eauto.
    + exfalso. destruct (v <? length (vs s) + k); [|discriminate Q]. assert (h = length (ob s)) as -> by congruence.
      assert (In v (busy rest)) as I' by (clear - I; induction rest as [|[] l IH]; cbn in *; intuition).
      apply I2 in I'. apply (j_lt _ _ _ _ _ I1) in I'. apply Nat.ltb_lt in I'. congruence.
  - intros u h. rewrite H, A, X. destruct (u <? length (vs s)).
    + destruct (Nat.eqb_spec h (length (ob s))); [discriminate|]. apply I7.
    + destruct (u <? length (vs s) + k); [|discriminate]. intros Q. assert (h = length (ob s)) as -> by congruence.
      rewrite Nat.eqb_refl. discriminate.
  - rewrite dtors_app. cbn. now rewrite app_nil_r.
  - intros o. rewrite dtors_app. cbn [dtors flat_map event_of app]. rewrite app_nil_r, A, I9. unfold s'. cbn [ob]. rewrite app_length. cbn [length].
    destruct (Nat.eqb_spec o (length (ob s))) as [->|]; split.
    + lia.
    + intros [_ Q2]. discriminate.
    + intros [Q1 Q2]. split; auto. lia.
    + intros [Q1 Q2]. split; auto. lia.
  - intros Q o W. apply no_detach_app in Q. destruct Q as [Q _]. apply wrapped_app in W. destruct W as [W|[v [W|[]]]]; [|discriminate].
    rewrite A. destruct (Nat.eqb_spec o (length (ob s))) as [->|].
    + apply I12 in W. lia.
    + intros Q1. destruct (I10 Q o W Q1) as (u & c & Q2). eauto.
  - intros o W. unfold s'. cbn [ob]. rewrite app_length. apply wrapped_app in W. destruct W as [W|[v [W|[]]]]; [|discriminate].
    apply I12 in W. lia.
  - intros Q. apply no_detach_app in Q. destruct Q as [Q _]. exact (I11 Q).
Qed.

Lemma busy_ex ts v : Inv es s ts E -> In v (busy ts) -> exists p, ex s v = Some p.
Proof. intros HI I. apply (j_live _ _ _ _ _ (i_J _ _ _ _ HI) (i_busy _ _ _ _ HI v I)). Qed.
Lemma null_fine v : Inv es s (TNull v :: rest) E -> fine (TNull v).
Proof.
  intros HI. destruct (busy_ex _ v HI (or_introl eq_refl)) as [p P]. pose proof (ex_lt _ _ _ P) as L.
  unfold fine. cbn [dtr_step]. rewrite (pset_ok _ _ _ _ P). cbn [bind]. eexists _, _, _. split; [reflexivity|].
  apply (write_null (TNull v) v null); auto.
  - cbn [busy In]. intros x [<-|I]; auto.
  - right. apply (i_busy _ _ _ _ HI). now left.
  - congruence.
Qed.
Lemma kill_fine v : Inv es s (TKill v :: rest) E -> fine (TKill v).
Proof.
  intros HI. destruct (busy_ex _ v HI (or_introl eq_refl)) as [p P]. pose proof (ex_lt _ _ _ P) as L.
  pose proof (i_wf _ _ _ _ HI) as (W1 & W2 & W3 & W4). pose proof (i_J _ _ _ _ HI) as HJ. cbn [busy] in HJ.
  unfold fine. cbn [dtr_step]. rewrite (pkill_ok _ _ _ P). cbn [bind].
  exists (sv s v None), rest, (upd E v None). split; [reflexivity|].
  assert (ev E v = Some None) as V by (apply (i_busy _ _ _ _ HI); now left).
  pose proof (ev_lt _ _ _ V) as LE.
  eapply (update_ok es s (TKill v) rest E); eauto.
  - cbn [kills In]. intros u [<-|I]; auto. right. rewrite ex_sv by auto. now rewrite Nat.eqb_refl.
  - intros u I. cbn [kills]. now right.
  - apply (d_kill s E (v :: busy rest)); auto.
    + intros x [<-|I]; auto.
    + now right.
    + intros h Q. apply (i_kill _ _ _ _ HI v h); auto. now left.
  - intros u I. rewrite ev_upd by auto. destruct (Nat.eqb_spec u v) as [->|]; [contradiction|]. apply (i_busy _ _ _ _ HI). now right.
  - intros u. now apply home_sv.
  - intros u Q. rewrite ex_sv by auto. destruct (Nat.eqb_spec u v) as [->|]; auto.
  - intros u. rewrite ex_sv by auto. destruct (Nat.eqb_spec u v) as [->|]; auto.
  - intros v' o Q. discriminate Q.
  - intros _. split; [|auto]. intros o u c Q. exists u, c. rewrite ev_upd by auto. destruct (Nat.eqb_spec u v) as [->|]; [congruence|auto].
Qed.
Lemma set_fine v w : Inv es s (TSet v w :: rest) E -> fine (TSet v w).
Proof.
  intros HI. destruct (busy_ex _ v HI (or_introl eq_refl)) as [p P]. pose proof (ex_lt _ _ _ P) as L.
  pose proof (i_wf _ _ _ _ HI) as (W1 & W2 & W3 & W4).
  pose proof (i_src _ _ _ _ HI w (or_introl eq_refl)) as Q. destruct (ex s w) as [q|] eqn:Pw; [clear Q|congruence].
  unfold fine. cbn [dtr_step]. rewrite (pget_ok _ _ _ Pw). cbn [bind]. rewrite (pset_ok _ _ _ _ P). cbn [bind].
  destruct (write_copy (TSet v w) v w q HI) as (s' & E' & R & I'); auto.
  - cbn [busy In]. intros x [<-|I]; auto.
  - right. apply (i_busy _ _ _ _ HI). now left.
  - congruence.
  - rewrite R. cbn [bind]. eauto.
Qed.
Lemma move_set_fine v w : Inv es s (TMoveSet v w :: rest) E -> fine (TMoveSet v w).
Proof.
  intros HI. destruct (busy_ex _ v HI (or_introl eq_refl)) as [p P]. pose proof (ex_lt _ _ _ P) as L.
  pose proof (i_wf _ _ _ _ HI) as (W1 & W2 & W3 & W4).
  pose proof (i_src _ _ _ _ HI w (or_introl eq_refl)) as Q. destruct (ex s w) as [q|] eqn:Pw; [clear Q|congruence].
  unfold fine. cbn [dtr_step]. rewrite (pget_ok _ _ _ Pw). cbn [bind]. rewrite (pset_ok _ _ _ _ P). cbn [bind].
  destruct (write_move (TMoveSet v w) v w q HI) as (s' & E' & R & I'); auto.
  - cbn [busy In]. intros x [<-|I]; auto.
  - right. apply (i_busy _ _ _ _ HI). now left.
  - congruence.
  - rewrite R. cbn [bind]. eauto.
Qed.
Lemma all_fine t : Inv es s (t :: rest) E -> allowed s rest t -> fine t.
Proof.
  intros HI HA. destruct t as [o|o k|ws|v|v|v w|v w].
  - destruct o.
    + now apply new_fine. + now apply raw_fine. + now apply wrap_fine. + now apply copy_fine. + now apply conv_fine.
    + now apply move_fine. + now apply conv_move_fine. + now apply cast_fine. + now apply destroy_fine.
    + now apply set_null_fine. + now apply assign_fine. + now apply move_assign_fine. + now apply detach_fine.
  - now apply body_fine.
  - now apply members_fine.
  - now apply null_fine.
  - now apply kill_fine.
  - now apply set_fine.
  - now apply move_set_fine.
Qed.
End Step.
