From Coq Require Import ZifyBool ZifyNat.
From Verif Require Import Base BaseFacts RcModel RcSpec RcProofs.
Open Scope nat_scope.

Lemma world_eq a b : vs a = vs b -> ob a = ob b -> world_of a = world_of b.
Proof. intros H1 H2. unfold world_of, alive. now rewrite H1, H2. Qed.
Lemma world_sv s v x : v < length (vs s) -> same_world (world_of (sv s v x)) (set_var (world_of s) v (option_map pr x)).
Proof.
  intros L. split; [|split; [|split; [|split]]]; auto.
  - intros u. rewrite wv_of, ex_sv by auto. unfold set_var. cbn [wv]. destruct (u =? v); [now destruct x|now rewrite <- wv_of].
  - intros u. rewrite wh_of. now apply home_sv.
  - unfold sv, world_of. cbn [vs wm]. apply upd_length.
Qed.
Lemma same_trans a b c : same_world a b -> same_world b c -> same_world a c.
Proof. intros (A1 & A2 & A3 & A4 & A5) (B1 & B2 & B3 & B4 & B5). repeat split; intros; congruence. Qed.
Lemma same_set a b v x : same_world a b -> same_world (set_var a v x) (set_var b v x).
Proof.
  intros (A1 & A2 & A3 & A4 & A5). repeat split; auto. intros u. unfold set_var. cbn [wv]. destruct (u =? v); auto.
Qed.
Lemma same_refl a : same_world a a.
Proof. repeat split; auto. Qed.

Lemma filter_blank c k : filter (isc c) (repeat (Some None) k) = [].
Proof. induction k as [|k IH]; cbn; auto. Qed.

Definition result (s : st) (o : op) : Prop := exists s' r,
  step s o = Ok (s', r) /\ spec (world_of s) o (world_of s') r /\ good s' /\
  (match o with PDetach _ => False | _ => True end -> no_leak s -> no_leak s').

Lemma slot s v : free_slot (world_of s) v -> v < length (vs s) /\ ex s v = None /\ home s v = None.
Proof.
  intros (A & C & D). rewrite wv_of in C. split; [exact A|]. split; [|exact D]. destruct (ex s v); [discriminate|auto].
Qed.
Lemma var_ex s u : exists_var (world_of s) u -> exists p, ex s u = Some p.
Proof. unfold exists_var. rewrite wv_of. destruct (ex s u); eauto. congruence. Qed.
Lemma slot_blank s E X v : J s E X -> ex s v = None -> blank E v.
Proof. intros H1 H2. left. pose proof (j_var _ _ _ H1 v) as V. now rewrite H2 in V. Qed.

Section Steps.
Variable s : st.
Variable E : eff.
Hypothesis HJ : J s E [].
Hypothesis HG : forall u h, home s u = Some h -> alive s h = false -> ex s u = None.

Lemma j1 v : J s E [v].
Proof. apply (j_more _ _ []); [intros ? []|auto]. Qed.

(* the pointer in an existing variable *)
Lemma var_cases u p : ex s u = Some p ->
  (exists c o, ev E u = Some (Some (c, o)) /\ p = mkPtr (Some c) (Some o) (Some o) true) \/
  (ev E u = Some None /\ pc p = None /\ pr p = None).
Proof.
  intros H. pose proof (j_var _ _ _ HJ u) as V. rewrite H in V. destruct (ev E u) as [[[c o]|]|] eqn:Q; [| |contradiction].
  - left. eauto.
  - right. split; auto. eapply (j_tight _ _ _ HJ u p); auto.
Qed.

Lemma good_sv v x s' E' : v < length (vs s) -> (forall h, home s v = Some h -> alive s h = true) ->
  J s' E' [] -> vs s' = vs (sv s v x) -> ob s' = ob s -> good s'.
Proof.
  intros L A HJ' H1 H2. exists E'. split; auto. intros u h.
  assert (home s' u = home (sv s v x) u) as -> by (unfold home at 1; now rewrite H1).
  assert (ex s' u = ex (sv s v x) u) as -> by (unfold ex at 1; now rewrite H1).
  assert (alive s' h = alive s h) as -> by (unfold alive; now rewrite H2).
  rewrite home_sv, ex_sv by auto. intros Q1 Q2. destruct (Nat.eqb_spec u v) as [->|]; [|eauto].
  rewrite (A h Q1) in Q2. discriminate.
Qed.

Lemma new_null v p : v < length (vs s) -> ex s v = None -> home s v = None -> pc p = None -> pr p = None ->
  good (sv s v (Some p)) /\ same_world (world_of (sv s v (Some p))) (set_var (world_of s) v (Some None)).
Proof.
  intros L X H P1 P2. split.
  - eapply (good_sv v (Some p)); auto; [congruence|]. apply store_null; auto; [apply j1|eapply slot_blank; eauto].
  - pose proof (world_sv s v (Some p) L) as W. cbn [option_map] in W. now rewrite P2 in W.
Qed.
Lemma new_copy v u p : v < length (vs s) -> ex s v = None -> home s v = None -> ex s u = Some p ->
  exists s', (do s1 <- pinit s v p; do s2 <- inc s1 p; Ok (s2, @None nat)) = Ok (s', None) /\ good s' /\
    same_world (world_of s') (set_var (world_of s) v (Some (pr p))) /\ (no_leak s -> no_leak s').
Proof.
  intros L X H P. rewrite (pinit_ok _ _ _ L X). cbn [bind].
  destruct (var_cases u p P) as [(c & o & Ec & ->)|(Ec & Pc & Pr)].
  - destruct (store_copy s E v u c o (j1 v) L (slot_blank _ _ _ _ HJ X) Ec) as (s' & R & J' & Hv & Ho & Hl).
    rewrite R. cbn [bind]. exists s'. split; [reflexivity|]. split; [eapply good_sv; eauto; congruence|]. split.
    + rewrite (world_eq s' (sv s v (Some (mkPtr (Some c) (Some o) (Some o) true)))); auto. now apply world_sv.
    + intros N c' Q. apply (N c'). auto.
  - unfold inc. rewrite Pc. cbn [bind]. destruct (new_null v p) as [A B]; auto.
    exists (sv s v (Some p)). rewrite Pr. split; [reflexivity|]. split; [auto|]. split; [auto|]. auto.
Qed.

Lemma new_ok v : legal (world_of s) (PNew v) -> result s (PNew v).
Proof.
  intros Hl. destruct (slot _ _ Hl) as (L & X & H). destruct (new_null v null L X H eq_refl eq_refl) as [A B].
  exists (sv s v (Some null)), None. cbn [step]. rewrite (pinit_ok _ _ _ L X). cbn [bind].
  split; [reflexivity|]. split; [now constructor|]. split; [auto|]. auto.
Qed.

Lemma raw_ok k : result s (PRaw k).
Proof.
  set (s' := mkSt (cn s) (ob s ++ [true]) (vs s ++ repeat (Some null, Some (length (ob s))) k)).
  exists s', (Some (length (ob s))). cbn [step].
  assert (forall u, ex s' u = if Nat.ltb u (length (vs s)) then ex s u else if Nat.ltb u (length (vs s) + k) then Some null else None) as X.
  { intros u. unfold ex at 1, s'. cbn [vs]. destruct (Nat.ltb_spec u (length (vs s))).
    - now rewrite nth_error_app1.
    - rewrite nth_error_app2 by auto. destruct (Nat.ltb_spec u (length (vs s) + k)).
      + rewrite nth_error_repeat by lia. reflexivity.
      + replace (nth_error _ _) with (@None (option ptr * option nat)); auto.
        symmetry. apply nth_error_None. rewrite repeat_length. lia. }
  assert (forall u, home s' u = if Nat.ltb u (length (vs s)) then home s u else if Nat.ltb u (length (vs s) + k) then Some (length (ob s)) else None) as H.
  { intros u. unfold home at 1, s'. cbn [vs]. destruct (Nat.ltb_spec u (length (vs s))).
    - now rewrite nth_error_app1.
    - rewrite nth_error_app2 by auto. destruct (Nat.ltb_spec u (length (vs s) + k)).
      + rewrite nth_error_repeat by lia. reflexivity.
      + replace (nth_error _ _) with (@None (option ptr * option nat)); auto.
        symmetry. apply nth_error_None. rewrite repeat_length. lia. }
  assert (forall o, alive s' o = if Nat.eqb o (length (ob s)) then true else alive s o) as A.
  { intros o. unfold alive at 1, s'. cbn [ob]. destruct (Nat.eqb_spec o (length (ob s))) as [->|N].
    - rewrite nth_error_app2 by lia. now rewrite Nat.sub_diag.
    - unfold alive. destruct (Nat.lt_ge_cases o (length (ob s))).
      + now rewrite nth_error_app1.
      + rewrite nth_error_app2 by lia. destruct (o - length (ob s)) eqn:Q; [lia|]. cbn.
        destruct n; cbn; replace (nth_error (ob s) o) with (@None bool); auto; symmetry; apply nth_error_None; lia. }
  assert (alive s (length (ob s)) = false) as Af.
  { unfold alive. replace (nth_error _ _) with (@None bool); auto. symmetry. apply nth_error_None. lia. }
  set (E' := E ++ repeat (Some None) k).
  assert (forall u, ev E' u = if Nat.ltb u (length (vs s)) then ev E u else if Nat.ltb u (length (vs s) + k) then Some None else None) as V.
  { intros u. rewrite <- (j_len _ _ _ HJ). unfold ev at 1, E'. destruct (Nat.ltb_spec u (length E)).
    - now rewrite nth_error_app1.
    - rewrite nth_error_app2 by auto. destruct (Nat.ltb_spec u (length E + k)).
      + rewrite nth_error_repeat by lia. reflexivity.
      + replace (nth_error _ _) with (@None (option (option (nat * nat)))); auto.
        symmetry. apply nth_error_None. rewrite repeat_length. lia. }
  assert (forall u q, ev E' u = Some (Some q) -> ev E u = Some (Some q)) as V'.
  { intros u q. rewrite V. destruct (u <? _); auto. destruct (u <? _); discriminate. }
  assert (forall c, cc E' c = cc E c) as C.
  { intros c. unfold cc, E'. rewrite filter_app, app_length. replace (filter (isc c) (repeat (Some None) k)) with (@nil (option (option (nat * nat)))).
    - cbn. lia.
    - symmetry. apply filter_blank. }
  split; [reflexivity|]. split; [|split].
  - constructor.
    + intros u. rewrite wv_of, X, wv_of. cbn [world_of wm]. destruct (u <? _); auto. destruct (u <? _); auto.
    + intros u. rewrite !wh_of, H. reflexivity.
    + exact A.
    + cbn [world_of wn s' ob]. rewrite app_length. cbn. lia.
    + cbn [world_of wm s' vs]. rewrite app_length, repeat_length. reflexivity.
  - exists E'. split.
    + destruct HJ as [A1 A2 A3 A4 A5 A6 A7 A8]. constructor.
      * unfold E', s'. cbn [vs]. rewrite !app_length, !repeat_length. lia.
      * intros u. rewrite X, V. destruct (u <? _); [apply A2|]. destruct (u <? _); auto.
      * intros u q _. rewrite X, V. destruct (u <? _); [apply A3; auto|]. destruct (u <? _); [|discriminate].
        intros Q. inversion Q. now split.
      * intros c n Q. rewrite C. auto.
      * intros u c o Q. apply V' in Q. destruct (A5 _ _ _ Q) as [Q1 Q2]. split; auto. rewrite A. destruct (o =? _); auto.
      * intros u1 u2 c1 c2 o1 o2 Q1 Q2. eapply A6; eauto.
      * intros u h. rewrite H, X, A. destruct (u <? _) eqn:Lu.
        -- intros Q1. destruct (Nat.eqb_spec h (length (ob s))) as [->|].
           ++ intros _. exfalso. pose proof (A8 u _ Q1). lia.
           ++ eauto.
        -- destruct (u <? length (vs s) + k); intros; congruence.
      * intros u h. rewrite H. unfold s'. cbn [ob]. rewrite app_length. cbn [length]. destruct (u <? _).
        -- intros Q. pose proof (A8 _ _ Q). lia.
        -- destruct (u <? _); [|discriminate]. intros Q. inversion Q. lia.
    + intros u h. rewrite H, X, A. destruct (u <? _).
      * destruct (h =? _); [discriminate|eauto].
      * destruct (u <? _); auto. intros Q. inversion Q. rewrite Nat.eqb_refl. discriminate.
  - intros _ N c. exact (N c).
Qed.

Lemma wrap_ok v o : legal (world_of s) (PWrap v o) -> result s (PWrap v o).
Proof.
  intros (Hf & Ha & Hn). destruct (slot _ _ Hf) as (L & X & H). cbn [wa world_of] in Ha.
  cbn [result step]. set (c := length (cn s)). set (p := mkPtr (Some c) (Some o) (Some o) true).
  set (s1 := mkSt (cn s ++ [Some 0%Z]) (ob s) (vs s)).
  unfold result. cbn [step]. fold c. fold p. fold s1.
  rewrite (pinit_ok s1 v p L X). cbn [bind]. unfold inc. cbn [p pc].
  unfold cget. unfold sv at 1. cbn [cn s1]. rewrite nth_error_app2 by (unfold c; lia).
  replace (c - length (cn s)) with 0 by (unfold c; lia). cbn [nth_error bind].
  set (s2 := cset (sv s1 v (Some p)) c (Some (0 + 1)%Z)). exists s2, None.
  split; [reflexivity|].
  assert (forall u, ev E u = Some (Some (c, o)) -> False) as Nc.
  { intros u Q. destruct (j_ref _ _ _ HJ _ _ _ Q) as [[n Q1] _]. apply nth_error_lt in Q1. unfold c in Q1. lia. }
  assert (forall u c', ev E u = Some (Some (c', o)) -> False) as No.
  { intros u c' Q. apply (Hn u). apply (refers_ev s E u o HJ). eauto. }
  assert (forall u c' o', ev E u = Some (Some (c', o')) -> c' <> c /\ o' <> o) as Nco.
  { intros u c' o' Q. split.
    - intros ->. destruct (j_ref _ _ _ HJ _ _ _ Q) as [[n Q1] _]. apply nth_error_lt in Q1. unfold c in Q1. lia.
    - intros ->. eapply No; eauto. }
  assert (cc E c = 0) as Cz.
  { destruct (cc E c) eqn:Q; auto. destruct (cc_ex E c) as (u & o' & Q1); [lia|]. apply Nco in Q1. tauto. }
  assert (forall c', nth_error (cn s2) c' = if Nat.eqb c' c then Some (Some 1%Z) else nth_error (cn s) c') as C2.
  { intros c'. unfold s2, cset, sv, s1. cbn [cn]. destruct (Nat.eqb_spec c' c) as [->|N].
    - rewrite upd_same; auto. rewrite app_length. cbn. unfold c. lia.
    - rewrite upd_other by auto. destruct (Nat.lt_ge_cases c' (length (cn s))).
      + now rewrite nth_error_app1.
      + unfold c in N. rewrite nth_error_app2 by lia.
        replace (nth_error (cn s) c') with (@None (option Z)) by (symmetry; apply nth_error_None; lia).
        destruct (c' - length (cn s)) eqn:Q; [lia|]. now destruct n. }
  destruct (blank_isc E v) as (x & Hx & Ix); [rewrite (j_len _ _ _ HJ); auto|eapply slot_blank; eauto|].
  set (E' := upd E v (Some (Some (c, o)))).
  assert (forall u, ev E' u = if Nat.eqb u v then Some (Some (c, o)) else ev E u) as V2 by (intros; apply ev_upd; rewrite (j_len _ _ _ HJ); auto).
  assert (forall u, ex s2 u = if Nat.eqb u v then Some p else ex s u) as X2 by (intros; apply (ex_sv s1); auto).
  assert (forall u, home s2 u = home s u) as H2 by (intros; apply (home_sv s1); auto).
  split; [|split].
  - constructor. rewrite (world_eq s2 (sv s v (Some p))) by reflexivity. apply (world_sv s v (Some p) L).
  - apply (good_sv v (Some p) s2 E'); auto; [congruence|].
    destruct HJ as [A1 A2 A3 A4 A5 A6 A7 A8]. constructor.
    + unfold E', s2, sv, s1. cbn [vs cset]. now rewrite !upd_length.
    + intros u. rewrite X2, V2. destruct (u =? v); [reflexivity|apply A2].
    + intros u q _. rewrite X2, V2. destruct (u =? v); [discriminate|]. apply A3; auto.
    + intros c' m. rewrite C2. pose proof (cc_upd E v _ (Some (Some (c, o))) c' Hx) as Q. rewrite Ix in Q. fold E' in Q.
      cbn [isc] in Q. rewrite Nat.eqb_sym in Q. destruct (Nat.eqb_spec c' c) as [->|N]; cbn [b2n] in Q.
      * intros R. assert (m = 1)%Z by congruence. lia.
      * intros R. rewrite (A4 c' m R). f_equal. lia.
    + intros u c' o'. rewrite V2, C2. destruct (u =? v).
      * intros Q. assert (c' = c /\ o' = o) as [-> ->] by (split; congruence). rewrite Nat.eqb_refl. split; eauto.
      * intros Q. pose proof (Nco _ _ _ Q) as [N _]. apply Nat.eqb_neq in N. rewrite N. apply (A5 _ _ _ Q).
    + intros u1 u2 c1 c2 o1 o2. rewrite !V2. destruct (u1 =? v), (u2 =? v).
      * intros Q1 Q2. assert (c1 = c2 /\ o1 = o2) by (split; congruence). tauto.
      * intros Q1 Q2. apply Nco in Q2. assert (c = c1 /\ o = o1) as [<- <-] by (split; congruence).
        destruct Q2. split; congruence.
      * intros Q2 Q1. apply Nco in Q2. assert (c = c2 /\ o = o2) as [<- <-] by (split; congruence).
        destruct Q2. split; congruence.
      * eauto.
    + intros u h. rewrite H2, X2. destruct (u =? v); [congruence|apply A7].
    + intros u h. rewrite H2. apply A8.
  - intros _ N c'. rewrite C2. destruct (c' =? c); [congruence|auto].
Qed.

Lemma copy_ok v u : legal (world_of s) (PCopy v u) -> result s (PCopy v u).
Proof.
  intros [Hf He]. destruct (slot _ _ Hf) as (L & X & H). destruct (var_ex _ _ He) as [p P].
  destruct (new_copy v u p L X H P) as (s' & R & G & W & N). unfold result. cbn [step]. rewrite (pget_ok _ _ _ P). cbn [bind].
  rewrite R. exists s', None. split; [reflexivity|]. split; [|auto].
  econstructor; eauto. rewrite wv_of, P. reflexivity.
Qed.
Lemma conv_ok v u : legal (world_of s) (PConv v u) -> result s (PConv v u).
Proof.
  intros [Hf He]. destruct (slot _ _ Hf) as (L & X & H). destruct (var_ex _ _ He) as [p P].
  unfold result. cbn [step]. rewrite (pget_ok _ _ _ P). cbn [bind].
  assert (wv (world_of s) u = Some (pr p)) as Wu by (rewrite wv_of, P; reflexivity).
  destruct (pr p) eqn:Pr.
  - destruct (new_copy v u p L X H P) as (s' & R & G & W & N). rewrite Pr in W.
    rewrite R. exists s', None. split; [reflexivity|]. split; [|auto]. econstructor; eauto.
  - destruct (new_null v null L X H eq_refl eq_refl) as [A B].
    exists (sv s v (Some null)), None. rewrite (pinit_ok _ _ _ L X). cbn [bind].
    split; [reflexivity|]. split; [econstructor; eauto|]. split; [auto|]. auto.
Qed.
Lemma cast_ok v u ok : legal (world_of s) (PCast v u ok) -> result s (PCast v u ok).
Proof.
  intros [Hf He]. destruct (slot _ _ Hf) as (L & X & H). destruct (var_ex _ _ He) as [p P].
  unfold result. cbn [step]. rewrite (pget_ok _ _ _ P). cbn [bind].
  assert (wv (world_of s) u = Some (pr p)) as Wu by (rewrite wv_of, P; reflexivity).
  destruct (var_cases u p P) as [(c & o & Ec & ->)|(Ec & Pc & Pr)].
  - destruct ok.
    + destruct (new_copy v u _ L X H P) as (s' & R & G & W & N). cbn [pr pc po pd] in *.
      rewrite R. exists s', None. split; [reflexivity|]. split; [|auto]. econstructor; eauto.
    + cbn [pr pc po pd] in *. destruct (new_null v (mkPtr None None (Some o) true) L X H eq_refl eq_refl) as [A B].
      rewrite (pinit_ok _ _ _ L X). cbn [bind inc pc]. eexists _, None.
      split; [reflexivity|]. split; [econstructor; eauto|]. split; [auto|]. auto.
  - rewrite Pr in *. replace (if ok then None else None) with (@None nat) by now destruct ok.
    destruct (new_null v (mkPtr None None (po p) (pd p)) L X H eq_refl eq_refl) as [A B].
    rewrite (pinit_ok _ _ _ L X). cbn [bind inc pc]. eexists _, None.
    split; [reflexivity|]. split; [econstructor; eauto; now destruct ok|]. split; [auto|]. auto.
Qed.
Lemma new_move v u p : v < length (vs s) -> ex s v = None -> home s v = None -> ex s u = Some p ->
  exists s', (do s1 <- pinit s v p; do s2 <- pset s1 u null; Ok (s2, @None nat)) = Ok (s', None) /\ good s' /\
    same_world (world_of s') (set_var (set_var (world_of s) v (Some (pr p))) u (Some None)) /\ (no_leak s -> no_leak s').
Proof.
  intros L X H P. rewrite (pinit_ok _ _ _ L X). cbn [bind].
  assert (v <> u) as N by congruence.
  assert (ex (sv s v (Some p)) u = Some p) as P'.
  { rewrite ex_sv by auto. replace (u =? v) with false by (symmetry; apply Nat.eqb_neq; auto). auto. }
  rewrite (pset_ok _ _ _ _ P'). cbn [bind]. eexists. split; [reflexivity|].
  pose proof (ex_lt _ _ _ P) as Lu.
  destruct (j_ex _ _ _ _ _ HJ P) as [x Hx].
  assert (u < length (vs (sv s v (Some p)))) as Lu' by (unfold sv; cbn [vs]; rewrite upd_length; auto).
  split; [|split].
  - eexists. split; [eapply store_move; eauto; [apply j1|eapply slot_blank; eauto]|].
    intros t h. rewrite home_sv, home_sv, ex_sv, ex_sv by auto. cbn [alive sv]. intros Q1 Q2.
    change (alive s h = false) in Q2.
    destruct (Nat.eqb_spec t u) as [->|]; [rewrite (HG u h Q1 Q2) in P; discriminate|].
    destruct (Nat.eqb_spec t v) as [->|]; [congruence|eauto].
  - eapply same_trans; [apply world_sv; auto|]. apply same_set. apply (world_sv s v (Some p) L).
  - auto.
Qed.
Lemma move_ok v u : legal (world_of s) (PMove v u) -> result s (PMove v u).
Proof.
  intros [Hf He]. destruct (slot _ _ Hf) as (L & X & H). destruct (var_ex _ _ He) as [p P].
  destruct (new_move v u p L X H P) as (s' & R & G & W & N). unfold result. cbn [step]. rewrite (pget_ok _ _ _ P). cbn [bind].
  rewrite R. exists s', None. split; [reflexivity|]. split; [|auto].
  econstructor; eauto. rewrite wv_of, P. reflexivity.
Qed.
Lemma conv_move_ok v u : legal (world_of s) (PConvMove v u) -> result s (PConvMove v u).
Proof.
  intros [Hf He]. destruct (slot _ _ Hf) as (L & X & H). destruct (var_ex _ _ He) as [p P].
  unfold result. cbn [step]. rewrite (pget_ok _ _ _ P). cbn [bind].
  assert (wv (world_of s) u = Some (pr p)) as Wu by (rewrite wv_of, P; reflexivity).
  destruct (pr p) eqn:Pr.
  - destruct (new_move v u p L X H P) as (s' & R & G & W & N). rewrite Pr in W.
    rewrite R. exists s', None. split; [reflexivity|]. split; [|auto]. econstructor; eauto.
  - destruct (new_null v null L X H eq_refl eq_refl) as [A B].
    exists (sv s v (Some null)), None. rewrite (pinit_ok _ _ _ L X). cbn [bind].
    split; [reflexivity|]. split; [|split; [auto|auto]]. econstructor; eauto.
    destruct B as (B1 & B2 & B3 & B4 & B5). split; [|auto].
    intros t. rewrite B1. unfold set_var. cbn [wv]. destruct (Nat.eqb_spec t u) as [->|]; auto.
    destruct (u =? v); auto.
Qed.

(* what is left after releasing v: the new contents of v is given by w1' *)
Lemma collect_ok v p s1 E1 w1' s' :
  let w0 := world_of s in let w1 := set_var w0 v (Some None) in
  ex s v = Some p -> held w0 v v ->
  (forall o, (alive s1 o = true -> alive s o = true /\ ~ dies w0 w1 o) /\ (alive s o = true -> alive s1 o = true \/ dies w0 w1 o)) ->
  (forall u h, home s u = Some h -> dies w0 w1 h -> ex s1 u = None) ->
  (forall u, u <> v -> (forall h, home s u = Some h -> ~ dies w0 w1 h) -> ev E1 u = ev E u /\ ex s1 u = ex s u) ->
  moved [v] s E s1 E1 ->
  (forall o, dies w0 w1 o <-> dies w0 w1' o) ->
  (forall u, wh w1' u = home s u) -> (forall o, wa w1' o = alive s o) -> wn w1' = wn w0 -> wm w1' = wm w0 ->
  (forall u, home s' u = home s1 u) -> (forall o, alive s' o = alive s1 o) ->
  length (ob s') = length (ob s1) -> length (vs s') = length (vs s1) ->
  (forall u, (forall h, home s u = Some h -> ~ dies w0 w1 h) -> wv (world_of s') u = wv w1' u) ->
  (forall u, ex s1 u = None -> ex s' u = None) ->
  collect w0 w1' (world_of s').
Proof.
  intros w0 w1 P Hh A1 A2 A3 M D Q1 Q2 Q3 Q4 R1 R2 R3 R4 R5 R6. split; [|split; [|split; [|split; [|split; [|split]]]]].
  - intros o. cbn [wa world_of]. rewrite R2, Q2, <- D. apply A1.
  - intros o. cbn [wa world_of]. rewrite R2, Q2, <- D. apply A1.
  - intros u h Hu Hd. rewrite Q1 in Hu. rewrite wv_of. rewrite R6; auto. apply (A2 u h); auto. now apply D.
  - intros u K. apply R5. intros h Hu Hd. apply (K h); [now rewrite Q1|now apply D].
  - intros u. rewrite wh_of, R1, (m_home _ _ _ _ _ M), Q1. reflexivity.
  - cbn [wn world_of]. rewrite R3, (m_ob _ _ _ _ _ M), Q3. reflexivity.
  - cbn [wm world_of]. rewrite R4, (m_vs _ _ _ _ _ M), Q4. reflexivity.
Qed.
(* the object of a held variable does not go away *)
Lemma held_lives v u : held (world_of s) v u -> forall h, home s u = Some h -> ~ dies (world_of s) (set_var (world_of s) v (Some None)) h.
Proof.
  intros [_ Hh] h Hu. generalize (Hh h Hu). clear Hu. intros Rt. induction Rt as [h t N H2 _ IHr]. intros D. destruct D as [h _ F].
  destruct (F t) as (h' & H3 & D').
  - unfold refers, set_var. cbn [wv]. replace (t =? v) with false by (symmetry; apply Nat.eqb_neq; auto). exact H2.
  - exact (IHr h' H3 D').
Qed.
Lemma dies_equiv w0 a b : (forall u, wh a u = wh b u) -> (forall u o, refers a u o <-> refers b u o) ->
  forall o, dies w0 a o <-> dies w0 b o.
Proof.
  intros H R. assert (forall a b, (forall u, wh a u = wh b u) -> (forall u o, refers a u o <-> refers b u o) -> forall o, dies w0 a o -> dies w0 b o) as K.
  { clear. intros a b H R. apply dies_rec. intros o Q F. constructor; auto. intros u Hu. apply R in Hu.
    destruct (F u Hu) as (h & H1 & _ & H2). exists h. split; auto. now rewrite <- H. }
  intros o. split; apply K; auto. intros. symmetry. auto.
Qed.

Lemma destroy_ok v : legal (world_of s) (PDestroy v) -> result s (PDestroy v).
Proof.
  intros [He Hh]. cbn in Hh. change (home s v = None) in Hh. destruct (var_ex _ _ He) as [p P].
  assert (held (world_of s) v v) as Hld. { split; auto. intros h Q. change (home s v = Some h) in Q. congruence. }
  destruct (release s E v p HJ HG P Hld) as (s1 & E1 & p1 & R & J1 & V1 & P1 & M & G1 & A1 & A2 & A3).
  unfold result. cbn [step]. rewrite R. cbn [bind]. rewrite (pkill_ok _ _ _ P1). cbn [bind].
  pose proof (ex_lt _ _ _ P1) as L1. assert (home s1 v = None) as Hh1 by (rewrite (m_home _ _ _ _ _ M); auto).
  exists (sv s1 v None), None. split; [reflexivity|]. split; [|split].
  - constructor. eapply collect_ok with (v := v) (p := p) (s1 := s1) (E1 := E1); eauto.
    + apply dies_equiv; [reflexivity|]. intros u o. unfold refers, set_var. cbn [wv]. destruct (u =? v); split; discriminate || auto.
    + intros u. now apply home_sv.
    + unfold sv. cbn [vs]. apply upd_length.
    + intros u K. rewrite wv_of, ex_sv by auto. unfold set_var. cbn [wv]. destruct (Nat.eqb_spec u v); auto.
      rewrite wv_of. now destruct (A3 u) as [_ ->].
    + intros u Q. rewrite ex_sv by auto. now destruct (u =? v).
  - eexists. split; [apply kill_var; eauto; now right|]. intros u h. rewrite home_sv, ex_sv by auto. intros Q1 Q2.
    destruct (u =? v); auto. eapply G1; eauto.
  - intros _ N c Q. apply (N c). apply (m_stay _ _ _ _ _ M). exact Q.
Qed.
Lemma set_null_ok v : legal (world_of s) (PSetNull v) -> result s (PSetNull v).
Proof.
  intros Hld. cbn in Hld. destruct (var_ex _ _ (proj1 Hld)) as [p P].
  destruct (release s E v p HJ HG P Hld) as (s1 & E1 & p1 & R & J1 & V1 & P1 & M & G1 & A1 & A2 & A3).
  unfold result. cbn [step]. rewrite R. cbn [bind]. rewrite (pset_ok _ _ _ _ P1). cbn [bind].
  pose proof (ex_lt _ _ _ P1) as L1.
  exists (sv s1 v (Some null)), None. split; [reflexivity|]. split; [|split].
  - constructor. eapply collect_ok with (v := v) (p := p) (s1 := s1) (E1 := E1); eauto.
    + reflexivity.
    + intros u. now apply home_sv.
    + unfold sv. cbn [vs]. apply upd_length.
    + intros u K. rewrite wv_of, ex_sv by auto. unfold set_var. cbn [wv]. destruct (Nat.eqb_spec u v); auto.
      rewrite wv_of. now destruct (A3 u) as [_ ->].
    + intros u Q. rewrite ex_sv by auto. destruct (Nat.eqb_spec u v); [subst; congruence|auto].
  - eexists. split; [apply store_null; eauto; now right|]. intros u h. rewrite home_sv, ex_sv by auto. intros Q1 Q2.
    destruct (Nat.eqb_spec u v) as [->|]; [|eapply G1; eauto].
    exfalso. rewrite (G1 v h Q1 Q2) in P1. discriminate.
  - intros _ N c Q. apply (N c). apply (m_stay _ _ _ _ _ M). exact Q.
Qed.
Lemma nothing_dies : forall o, ~ dies (world_of s) (world_of s) o.
Proof.
  intros o H. revert o H. apply dies_rec. intros o [u R] F. destruct (F u R) as (h & _ & _ & []).
Qed.
Lemma assign_ok v u : legal (world_of s) (PAssign v u) -> result s (PAssign v u).
Proof.
  intros [Hld Hlu]. destruct (var_ex _ _ (proj1 Hld)) as [p P]. destruct (var_ex _ _ (proj1 Hlu)) as [q Q].
  unfold result. cbn [step]. destruct (Nat.eqb_spec v u) as [<-|N].
  { rewrite (pget_ok _ _ _ P). cbn [bind]. exists s, None. split; [reflexivity|]. split; [|split; [exists E; auto|auto]].
    assert (wv (world_of s) v = Some (pr p)) as W by (rewrite wv_of, P; reflexivity).
    econstructor; eauto. set (w1 := set_var (world_of s) v (Some (pr p))).
    assert (forall t, wv w1 t = wv (world_of s) t) as W1.
    { intros t. unfold w1, set_var. cbn [wv]. destruct (Nat.eqb_spec t v) as [->|]; auto. }
    assert (forall o, ~ dies (world_of s) w1 o) as ND.
    { intros o D. apply (nothing_dies o). revert D. apply dies_equiv; [reflexivity|]. intros t o'. unfold refers. now rewrite W1. }
    split; [|split; [|split; [|split; [|split; [|split]]]]]; auto.
    - intros t h _ D. exfalso. eapply ND; eauto. }
  destruct (release s E v p HJ HG P Hld) as (s1 & E1 & p1 & R & J1 & V1 & P1 & M & G1 & A1 & A2 & A3).
  rewrite R. cbn [bind].
  destruct (A3 u) as [Eu Xu]; [auto|now apply held_lives|]. rewrite Q in Xu.
  rewrite (pget_ok _ _ _ Xu). cbn [bind]. rewrite (pset_ok _ _ _ _ P1). cbn [bind].
  pose proof (ex_lt _ _ _ P1) as L1.
  assert (wv (world_of s) u = Some (pr q)) as Wu by (rewrite wv_of, Q; reflexivity).
  assert (forall o, dies (world_of s) (set_var (world_of s) v (Some None)) o <-> dies (world_of s) (set_var (world_of s) v (Some (pr q))) o) as DE.
  { intros o. split; revert o; apply dies_rec; intros o Ro F; (constructor; [exact Ro|]); intros t Ht.
    - unfold refers, set_var in Ht. cbn [wv] in Ht. destruct (Nat.eqb_spec t v) as [Et|Nt].
      + subst t. exfalso. destruct (F u) as (h & H1 & H2 & _).
        * unfold refers, set_var. cbn [wv]. replace (u =? v) with false by (symmetry; apply Nat.eqb_neq; auto). congruence.
        * exact (held_lives v u Hlu h H1 H2).
      + destruct (F t) as (h & H1 & _ & H2); eauto. unfold refers, set_var. cbn [wv].
        apply Nat.eqb_neq in Nt. now rewrite Nt.
    - unfold refers, set_var in Ht. cbn [wv] in Ht. destruct (Nat.eqb_spec t v) as [Et|Nt]; [discriminate|].
      destruct (F t) as (h & H1 & _ & H2); eauto. unfold refers, set_var. cbn [wv].
      apply Nat.eqb_neq in Nt. now rewrite Nt. }
  assert (exists s', inc (sv s1 v (Some q)) q = Ok s' /\ vs s' = vs (sv s1 v (Some q)) /\ ob s' = ob s1 /\
            (exists E', J s' E' []) /\
            (forall c', nth_error (cn s') c' = Some (Some 0%Z) -> nth_error (cn s1) c' = Some (Some 0%Z))) as (s' & Ri & Vi & Oi & [E' Ji] & Li).
  { destruct (var_cases u q Q) as [(c & o & Ec & ->)|(Ec & Pc & Pr)].
    - rewrite Ec in Eu. destruct (store_copy s1 E1 v u c o J1 L1 (or_intror V1) Eu) as (s' & X1 & X2 & X3 & X4 & X5).
      exists s'. repeat split; eauto.
    - unfold inc. rewrite Pc. eexists. split; [reflexivity|]. repeat split; auto. eexists. apply store_null; eauto. now right. }
  rewrite Ri. cbn [bind]. exists s', None. split; [reflexivity|].
  assert (forall t, home s' t = home s1 t) as Hs'.
  { intros t. unfold home at 1. rewrite Vi. now apply home_sv. }
  assert (forall t, ex s' t = if Nat.eqb t v then Some q else ex s1 t) as Xs'.
  { intros t. unfold ex at 1. rewrite Vi. now apply ex_sv. }
  assert (forall o, alive s' o = alive s1 o) as As' by (intros; unfold alive; now rewrite Oi).
  split; [|split].
  - econstructor; eauto. eapply collect_ok with (v := v) (p := p) (s1 := s1) (E1 := E1); eauto.
    + now rewrite Oi.
    + rewrite Vi. unfold sv. cbn [vs]. apply upd_length.
    + intros t K. rewrite wv_of, Xs'. unfold set_var. cbn [wv]. destruct (Nat.eqb_spec t v); auto.
      rewrite wv_of. now destruct (A3 t) as [_ ->].
    + intros t X. rewrite Xs'. destruct (Nat.eqb_spec t v); [subst; congruence|auto].
  - exists E'. split; auto. intros t h. rewrite Hs', Xs', As'. intros Q1 Q2.
    destruct (Nat.eqb_spec t v) as [->|]; [|eapply G1; eauto].
    exfalso. rewrite (G1 v h Q1 Q2) in P1. discriminate.
  - intros _ Nl c X. apply (Nl c). apply (m_stay _ _ _ _ _ M). auto.
Qed.
Lemma move_assign_ok v u : legal (world_of s) (PMoveAssign v u) -> result s (PMoveAssign v u).
Proof.
  intros [Hld Hlu]. destruct (var_ex _ _ (proj1 Hld)) as [p P]. destruct (var_ex _ _ (proj1 Hlu)) as [q Q].
  unfold result. cbn [step]. destruct (Nat.eqb_spec v u) as [<-|N].
  { rewrite (pget_ok _ _ _ P). cbn [bind]. exists s, None. split; [reflexivity|]. split; [|split; [exists E; auto|auto]].
    apply sp_move_self. apply same_refl. }
  destruct (release s E v p HJ HG P Hld) as (s1 & E1 & p1 & R & J1 & V1 & P1 & M & G1 & A1 & A2 & A3).
  rewrite R. cbn [bind].
  destruct (A3 u) as [Eu Xu]; [auto|now apply held_lives|]. rewrite Q in Xu.
  rewrite (pget_ok _ _ _ Xu). cbn [bind]. rewrite (pset_ok _ _ _ _ P1). cbn [bind].
  pose proof (ex_lt _ _ _ P1) as L1. pose proof (ex_lt _ _ _ Xu) as Lu.
  assert (ex (sv s1 v (Some q)) u = Some q) as Xu'.
  { rewrite ex_sv by auto. replace (u =? v) with false by (symmetry; apply Nat.eqb_neq; auto). auto. }
  rewrite (pset_ok _ _ _ _ Xu'). cbn [bind].
  set (w0 := world_of s) in *.
  assert (wv w0 u = Some (pr q)) as Wu by (unfold w0; rewrite wv_of, Q; reflexivity).
  set (w1' := set_var (set_var w0 v (Some (pr q))) u (Some None)).
  assert (forall t o, refers w1' t o <-> (t = v /\ pr q = Some o) \/ (t <> v /\ t <> u /\ refers w0 t o)) as RW.
  { intros t o. unfold refers, w1', set_var. cbn [wv]. destruct (Nat.eqb_spec t u) as [->|Nu].
    - split; [discriminate|]. intros [[? _]|[? [? _]]]; congruence.
    - destruct (Nat.eqb_spec t v) as [->|Nv].
      + split; [intros H; left; split; congruence|]. intros [[_ H]|[? _]]; congruence.
      + split; [intros H; right; auto|]. intros [[? _]|[_ [_ H]]]; congruence. }
  assert (forall t o, refers (set_var w0 v (Some None)) t o <-> t <> v /\ refers w0 t o) as RN.
  { intros t o. unfold refers, set_var. cbn [wv]. destruct (Nat.eqb_spec t v) as [->|Nv]; split; try discriminate; try tauto.
    all: intros [? ?]; congruence. }
  (* what u referred to does not go away *)
  assert (forall o, dies w0 w1' o -> pr q <> Some o) as KX.
  { assert (forall o, dies w0 w1' o -> ~ (rooted w0 (fun t => t = v) o \/ pr q = Some o)) as K; [|intros o D E'; apply (K o D); auto].
    apply dies_rec. intros o Ro F Hq.
    assert (pr q <> Some o) as Nq.
    { intros E'. destruct (F v) as (h & H1 & _ & H3); [apply RW; auto|]. apply H3. left. exact (proj2 Hld h H1). }
    destruct Hq as [Rt|Rt]; [|auto]. destruct Rt as [o t Nt T2 T1].
    destruct (F t) as (h & H1 & _ & H3); [|apply H3; left; exact (T1 h H1)].
    apply RW. right. split; [auto|]. split; [|exact T2]. intros ->. apply Nq. unfold refers in T2. congruence. }
  assert (forall o, dies w0 (set_var w0 v (Some None)) o <-> dies w0 w1' o) as DE.
  { intros o. split.
    - revert o. apply dies_rec. intros o Ro F; constructor; auto; intros t Ht.
      apply RW in Ht. destruct Ht as [[-> Hq]|(T1 & T2 & T3)].
      + exfalso. destruct (F u) as (h & H1 & H2 & _).
        * apply RN. split; auto. unfold refers. congruence.
        * exact (held_lives v u Hlu h H1 H2).
      + destruct (F t) as (h & H1 & _ & H2); eauto. apply RN. auto.
    - intros D. pose proof (KX o D) as K. revert o D K. 
      apply (dies_rec w0 w1' (fun o => pr q <> Some o -> dies w0 (set_var w0 v (Some None)) o)).
      intros o Ro F K. constructor; auto. intros t Ht. apply RN in Ht. destruct Ht as [T1 T2].
      assert (t <> u) as T3 by (intros ->; unfold refers in T2; congruence).
      destruct (F t) as (h & H1 & H2 & H3); [apply RW; auto|]. exists h. split; auto. }
  assert (forall t, home (sv (sv s1 v (Some q)) u (Some null)) t = home s1 t) as Hs'.
  { intros t. rewrite !home_sv; auto. unfold sv. cbn [vs]. now rewrite upd_length. }
  assert (forall t, ex (sv (sv s1 v (Some q)) u (Some null)) t = if Nat.eqb t u then Some null else if Nat.eqb t v then Some q else ex s1 t) as Xs'.
  { intros t. rewrite !ex_sv; auto. unfold sv. cbn [vs]. now rewrite upd_length. }
  eexists _, None. split; [reflexivity|].
  split; [|split].
  - eapply sp_move_assign; eauto. eapply collect_ok with (v := v) (p := p) (s1 := s1) (E1 := E1); eauto.
    + unfold sv. cbn [vs]. now rewrite !upd_length.
    + intros t K. rewrite wv_of, Xs'. unfold set_var. cbn [wv].
      destruct (Nat.eqb_spec t u); auto. destruct (Nat.eqb_spec t v); auto.
      unfold w0. rewrite wv_of. now destruct (A3 t) as [_ ->].
    + intros t X. rewrite Xs'. destruct (Nat.eqb_spec t u); [subst; congruence|].
      destruct (Nat.eqb_spec t v); [subst; congruence|auto].
  - destruct (j_ex _ _ _ _ _ J1 Xu) as [x Hx].
    eexists. split; [eapply store_move; eauto; now right|]. intros t h. rewrite Hs', Xs'. intros Q1 Q2.
    change (alive s1 h = false) in Q2.
    destruct (Nat.eqb_spec t u) as [->|]; [rewrite (G1 u h Q1 Q2) in Xu; discriminate|].
    destruct (Nat.eqb_spec t v) as [->|]; [|eapply G1; eauto].
    exfalso. rewrite (G1 v h Q1 Q2) in P1. discriminate.
  - intros _ Nl c X. apply (Nl c). apply (m_stay _ _ _ _ _ M). auto.
Qed.
Lemma detach_ok v : legal (world_of s) (PDetach v) -> result s (PDetach v).
Proof.
  intros [Hld Hs]. destruct (var_ex _ _ (proj1 Hld)) as [p P].
  assert (wv (world_of s) v = Some (pr p)) as Wv by (rewrite wv_of, P; reflexivity).
  unfold result. cbn [step]. rewrite (pget_ok _ _ _ P). cbn [bind]. unfold fuel_of. rewrite dec_eq, (pget_ok _ _ _ P). cbn [bind].
  pose proof (ex_lt _ _ _ P) as L.
  destruct (var_cases v p P) as [(c & o & Ec & ->)|(Ec & Pc & Pr)].
  - cbn [pc pr]. destruct (j_ref _ _ _ HJ _ _ _ Ec) as [[n Hn] Ha]. unfold cget. rewrite Hn. cbn [bind]. cbv zeta.
    assert (v < length E) as LE by (rewrite (j_len _ _ _ HJ); auto).
    set (E' := upd E v (Some None)).
    pose proof (cc_upd E v _ (Some None) c (ev_some _ _ _ Ec)) as Q. cbn [isc] in Q. rewrite Nat.eqb_refl in Q. cbn [b2n] in Q. fold E' in Q.
    assert (forall u, ev E' u = if Nat.eqb u v then Some None else ev E u) as V2 by (intros; apply ev_upd; auto).
    assert (cc E' c = 0) as Z.
    { destruct (cc E' c) eqn:Z; auto. destruct (cc_ex E' c) as (t & o' & Ht); [lia|]. exfalso. rewrite V2 in Ht.
      destruct (Nat.eqb_spec t v) as [->|Nt]; [discriminate|].
      assert (o' = o) as -> by (apply (j_inj _ _ _ HJ t v c c o' o Ht Ec); reflexivity).
      apply Nt. apply (Hs o); [apply (refers_ev s E v o HJ); eauto|apply (refers_ev s E t o HJ); eauto]. }
    pose proof (j_cnt _ _ _ HJ _ _ Hn) as En.
    replace (n - 1 =? 0)%Z with true by lia.
    set (s1 := cset s c (Some (n - 1)%Z)).
    assert (ex s1 v = Some (mkPtr (Some c) (Some o) (Some o) true)) as P1 by exact P.
    cbn [bind]. rewrite (pset_ok s1 v null _ P1). cbn [bind]. eexists _, _. split; [reflexivity|].
    pose proof (nth_error_lt _ _ _ Hn) as Lc.
    assert (forall c', nth_error (cn s1) c' = if Nat.eqb c' c then Some (Some (n - 1)%Z) else nth_error (cn s) c') as Cn1.
    { intros c'. unfold s1, cset. cbn [cn]. destruct (Nat.eqb_spec c' c) as [->|Nc]; [now rewrite upd_same|now rewrite upd_other by auto]. }
    split; [|split; [|intros []]].
    + econstructor; eauto. exact (world_sv s v (Some null) L).
    + assert (forall u, ex (sv s1 v (Some null)) u = if Nat.eqb u v then Some null else ex s u) as X2 by (intros; apply (ex_sv s1); auto).
      assert (forall u, home (sv s1 v (Some null)) u = home s u) as H2 by (intros; apply (home_sv s1); auto).
      assert (forall u q, ev E' u = Some (Some q) -> ev E u = Some (Some q)) as V2'.
      { intros u q. rewrite V2. destruct (u =? v); [discriminate|auto]. }
      exists E'. split.
      * destruct HJ as [A1 A2 A3 A4 A5 A6 A7 A8]. constructor.
        -- unfold E', sv. cbn [vs]. now rewrite !upd_length.
        -- intros u. rewrite X2, V2. destruct (u =? v); [exact I|apply A2].
        -- intros u q _. rewrite X2, V2. destruct (u =? v); [intros Q1; inversion Q1; now split|apply A3; auto].
        -- intros c' m. change (cn (sv s1 v (Some null))) with (cn s1). rewrite Cn1.
           destruct (Nat.eqb_spec c' c) as [->|Nc].
           ++ intros X. assert (m = n - 1)%Z by congruence. lia.
           ++ intros X. rewrite (A4 _ _ X). f_equal.
              pose proof (cc_upd E v _ (Some None) c' (ev_some _ _ _ Ec)) as Q'. cbn [isc] in Q'.
              replace (c =? c') with false in Q' by (symmetry; apply Nat.eqb_neq; auto). cbn [b2n] in Q'. fold E' in Q'. lia.
        -- intros u c' o' X. apply V2' in X. apply A5 in X. destruct X as [[m X] Y]. split; [|exact Y].
           change (cn (sv s1 v (Some null))) with (cn s1). rewrite Cn1. destruct (c' =? c); eauto.
        -- intros u1 u2 c1 c2 o1 o2 Y1 Y2. eapply A6; eauto.
        -- intros u h. rewrite H2, X2. destruct (u =? v); [congruence|apply A7].
        -- intros u h. rewrite H2. apply A8.
      * intros u h. rewrite H2, X2. intros Q1 Q2. change (alive s h = false) in Q2.
        destruct (Nat.eqb_spec u v) as [->|]; [|eauto]. rewrite (HG v h Q1 Q2) in P. discriminate.
  - rewrite Pc. cbn [bind]. exists s, (pr p). split; [reflexivity|]. split; [|split; [exists E; auto|intros []]].
    econstructor; eauto. rewrite Pr in Wv. split; [|repeat split; auto].
    intros u. unfold set_var. cbn [wv]. destruct (Nat.eqb_spec u v) as [->|]; auto.
Qed.
End Steps.

Lemma step_ok s o : good s -> legal (world_of s) o -> result s o.
Proof.
  intros (E & HJ & HG) L. destruct o.
  - eapply new_ok; eauto.
  - eapply raw_ok; eauto.
  - eapply wrap_ok; eauto.
  - eapply copy_ok; eauto.
  - eapply conv_ok; eauto.
  - eapply move_ok; eauto.
  - eapply conv_move_ok; eauto.
  - eapply cast_ok; eauto.
  - eapply destroy_ok; eauto.
  - eapply set_null_ok; eauto.
  - eapply assign_ok; eauto.
  - eapply move_assign_ok; eauto.
  - eapply detach_ok; eauto.
Qed.

(* ---- histories ---------------------------------------------------------------------- *)
Lemma run_ok os : forall s, good s -> legal_run s os ->
  exists s' rs, run s os = Ok (s', rs) /\ history s os s' rs /\ good s' /\ (no_detach os -> no_leak s -> no_leak s').
Proof.
  induction os as [|o os IH]; intros s G L.
  - exists s, []. repeat split; auto. constructor.
  - destruct L as [L1 L2]. destruct (step_ok s o G L1) as (s1 & r & R & Sp & G1 & N1).
    destruct (IH s1 G1 (L2 _ _ R)) as (s' & rs & R' & H' & G' & N').
    exists s', (r :: rs). cbn [run]. rewrite R. cbn [bind]. rewrite R'. cbn [bind]. split; [reflexivity|].
    split; [econstructor; eauto|]. split; [auto|]. intros Nd Nl. inversion Nd; subst. auto.
Qed.
Lemma ev_repeat {A} n u : ev (repeat (@None A) n) u = None.
Proof. unfold ev. destruct (nth_error _ u) eqn:Q; auto. apply nth_error_In, repeat_spec in Q. congruence. Qed.
Lemma init_vs n u : ex (init n) u = None /\ home (init n) u = None.
Proof.
  unfold ex, home, init. cbn [vs]. destruct (nth_error _ u) as [[p h]|] eqn:Q; auto.
  apply nth_error_In, repeat_spec in Q. inversion Q. auto.
Qed.
Lemma init_good n : good (init n).
Proof.
  exists (repeat None n). split.
  - constructor.
    + cbn. now rewrite !repeat_length.
    + intros u. rewrite (proj1 (init_vs n u)). apply ev_repeat.
    + intros u p _ H. now rewrite (proj1 (init_vs n u)) in H.
    + intros [|c] m H; discriminate.
    + intros u c o H. rewrite ev_repeat in H. discriminate.
    + intros u1 u2 c1 c2 o1 o2 H. rewrite ev_repeat in H. discriminate.
    + intros u h H. now rewrite (proj2 (init_vs n u)) in H.
    + intros u h H. now rewrite (proj2 (init_vs n u)) in H.
  - intros u h H. now rewrite (proj2 (init_vs n u)) in H.
Qed.
Lemma init_no_leak n : no_leak (init n).
Proof. intros [|c]; discriminate. Qed.

Lemma history_ok n os : legal_run (init n) os ->
  exists s rs, run (init n) os = Ok (s, rs) /\ history (init n) os s rs.
Proof.
  intros L. destruct (run_ok os _ (init_good n) L) as (s & rs & R & H & _). eauto.
Qed.
Lemma reach_good n os s rs : legal_run (init n) os -> run (init n) os = Ok (s, rs) -> good s /\ (no_detach os -> no_leak s).
Proof.
  intros L R. destruct (run_ok os _ (init_good n) L) as (s' & rs' & R' & _ & G & N).
  assert (s' = s) by congruence. subst. split; auto. intros Q. apply N; auto. apply init_no_leak.
Qed.

Lemma filter_len {A B} (f : A -> bool) (g : B -> bool) (l : list A) (m : list B) : length l = length m ->
  (forall i x y, nth_error l i = Some x -> nth_error m i = Some y -> f x = g y) ->
  length (filter f l) = length (filter g m).
Proof.
  revert m. induction l as [|x l IH]; intros [|y m] L H; cbn in *; try lia.
  rewrite (H 0 x y eq_refl eq_refl). assert (length (filter f l) = length (filter g m)) as Q.
  { apply IH; [lia|]. intros i. apply (H (S i)). }
  destruct (g y); cbn; lia.
Qed.
Lemma owners_ok s E u c o : J s E [] -> ev E u = Some (Some (c, o)) -> owners s o = cc E c.
Proof.
  intros HJ H. unfold owners, cc. apply filter_len.
  - symmetry. apply (j_len _ _ _ HJ).
  - intros i [q h] y Q1 Q2. pose proof (j_var _ _ _ HJ i) as V. unfold ex in V. rewrite Q1 in V.
    assert (ev E i = y) as Ey by (unfold ev; now rewrite Q2). destruct q as [q|].
    + destruct y as [[[c' o']|]|]; rewrite Ey in V; [| |contradiction].
      * subst q. cbn [pr isc]. pose proof (j_inj _ _ _ HJ _ _ _ _ _ _ Ey H) as I.
        destruct (Nat.eqb_spec o' o), (Nat.eqb_spec c' c); auto; exfalso; tauto.
      * destruct (j_tight _ _ _ HJ i q) as [_ P]; auto; [unfold ex; now rewrite Q1|]. now rewrite P.
    + rewrite V in Ey. now subst y.
Qed.
Lemma counter_ok n os s rs u p h o : legal_run (init n) os -> run (init n) os = Ok (s, rs) ->
  nth_error (vs s) u = Some (Some p, h) -> pr p = Some o ->
  alive s o = true /\ exists c, pc p = Some c /\ nth_error (cn s) c = Some (Some (Z.of_nat (owners s o))).
Proof.
  intros L R H P. destruct (reach_good _ _ _ _ L R) as [(E & HJ & _) _].
  assert (ex s u = Some p) as X by (unfold ex; now rewrite H).
  destruct (var_cases s E HJ u p X) as [(c & o' & Ec & ->)|(_ & _ & Pr)]; [|congruence].
  cbn in P. inversion P; subst o'. destruct (j_ref _ _ _ HJ _ _ _ Ec) as [[m Hm] A]. split; auto.
  exists c. split; auto. rewrite (owners_ok _ _ _ _ _ HJ Ec), Hm. repeat f_equal. apply (j_cnt _ _ _ HJ _ _ Hm).
Qed.
Lemma detach_exact n os s rs v p h o : legal_run (init n) os -> run (init n) os = Ok (s, rs) ->
  nth_error (vs s) v = Some (Some p, h) -> pr p = Some o ->
  exists c, pc p = Some c /\
    step s (PDetach v) = Ok (mkSt (upd (cn s) c (Some (Z.of_nat (owners s o) - 1)%Z)) (ob s)
                                  (if Nat.eqb (owners s o) 1 then upd (vs s) v (Some null, h) else vs s), Some o).
Proof.
  intros L R H P. destruct (counter_ok _ _ _ _ _ _ _ _ L R H P) as (_ & c & Hc & Cn). exists c. split; [exact Hc|].
  cbn [step]. unfold pget at 1. rewrite H. cbn [bind]. unfold fuel_of. rewrite dec_eq. unfold pget. rewrite H. cbn [bind]. rewrite Hc. unfold cget. rewrite Cn. cbn [bind].
  replace (Z.of_nat (owners s o) - 1 =? 0)%Z with (Nat.eqb (owners s o) 1) by (destruct (Nat.eqb_spec (owners s o) 1); lia).
  destruct (Nat.eqb (owners s o) 1); cbn [bind]; [unfold pset; cbn [vs cset]; rewrite H; cbn [bind]|]; rewrite P; reflexivity.
Qed.
Lemma counter_released n os s rs c k : legal_run (init n) os -> no_detach os -> run (init n) os = Ok (s, rs) ->
  nth_error (cn s) c = Some (Some k) -> exists u p h, nth_error (vs s) u = Some (Some p, h) /\ pc p = Some c.
Proof.
  intros L Nd R H. destruct (reach_good _ _ _ _ L R) as [(E & HJ & _) N]. specialize (N Nd).
  pose proof (j_cnt _ _ _ HJ _ _ H) as Q. destruct (cc E c) as [|m] eqn:C.
  - exfalso. apply (N c). rewrite H. subst k. reflexivity.
  - destruct (cc_ex E c) as (u & o & Eu); [lia|]. destruct (j_live _ _ _ _ _ HJ Eu) as [p Hp].
    pose proof (j_var _ _ _ HJ u) as V. rewrite Hp, Eu in V. subst p. unfold ex in Hp.
    destruct (nth_error (vs s) u) as [[q h]|] eqn:Qu; [|discriminate]. subst q. eexists u, _, h. split; [exact Qu|reflexivity].
Qed.

(* an object stays exactly while a variable refers to it *)
Definition kept (s : st) (o : nat) : Prop := alive s o = true <-> exists u, refers (world_of s) u o.
Lemma refers_dec s o : (exists u, refers (world_of s) u o) \/ (forall u, ~ refers (world_of s) u o).
Proof.
  assert (forall m, (exists u, u < m /\ refers (world_of s) u o) \/ (forall u, u < m -> ~ refers (world_of s) u o)) as K.
  { induction m as [|m [IH|IH]].
    - right. intros; lia.
    - left. destruct IH as (u & L & H). exists u. split; auto.
    - destruct (wv (world_of s) m) as [[o'|]|] eqn:Q.
      + destruct (Nat.eq_dec o' o) as [->|Ne]; [left; exists m; split; auto|].
        right. intros u L H. destruct (Nat.eq_dec u m) as [->|]; [unfold refers in H; congruence|apply (IH u); auto; lia].
      + right. intros u L H. destruct (Nat.eq_dec u m) as [->|]; [unfold refers in H; congruence|apply (IH u); auto; lia].
      + right. intros u L H. destruct (Nat.eq_dec u m) as [->|]; [unfold refers in H; congruence|apply (IH u); auto; lia]. }
  destruct (K (length (vs s))) as [(u & _ & H)|H]; [eauto|]. right. intros u R.
  assert (u < length (vs s)); [|apply (H u); auto].
  unfold refers in R. rewrite wv_of in R. destruct (ex s u) eqn:X; [eapply ex_lt; eauto|discriminate].
Qed.
Lemma good_refers s u o : good s -> refers (world_of s) u o -> alive s o = true.
Proof.
  intros (E & HJ & _) R. apply (refers_ev s E u o HJ) in R. destruct R as [c R]. apply (j_ref _ _ _ HJ _ _ _ R).
Qed.
Lemma collect_kept s s' w1 o : good s -> good s' -> collect (world_of s) w1 (world_of s') ->
  (forall u, wh w1 u = home s u) -> (forall o, wa w1 o = alive s o) ->
  (forall u h, home s u = Some h -> wv w1 u <> None -> alive s h = true) ->
  kept s o -> kept s' o.
Proof.
  intros G G' (C1 & C2 & C3 & C4 & _) Hh Ha Hx K. split; [|intros [u R]; eapply good_refers; eauto].
  intros A. destruct (refers_dec s' o) as [|Nr]; auto. exfalso.
  destruct (C1 o A) as [A0 Nd]. rewrite Ha in A0. apply Nd. constructor; [now apply K|].
  intros u R. destruct (wh w1 u) as [h|] eqn:Hu.
  - exists h. split; auto. destruct (C2 h) as [A2|]; auto.
    + rewrite Ha. eapply Hx; [rewrite <- Hh; eauto|]. unfold refers in R. congruence.
    + exfalso. apply (Nr u). unfold refers. rewrite C4; auto. intros h' Hh'. rewrite Hu in Hh'. inversion Hh'; subst.
      apply C1. exact A2.
  - exfalso. apply (Nr u). unfold refers. rewrite C4; auto. intros h' Hh'. congruence.
Qed.
Lemma same_kept s s' w o : good s' -> same_world (world_of s') w -> (forall o, wa w o = alive s o) ->
  (forall u, refers (world_of s) u o -> exists u', refers w u' o) -> kept s o -> kept s' o.
Proof.
  intros G' (W1 & _ & W3 & _) Ha R K. split; [|intros [u H]; eapply good_refers; eauto].
  intros A. change (wa (world_of s') o = true) in A. rewrite W3, Ha in A. apply K in A. destruct A as [u H].
  destruct (R u H) as [u' H']. exists u'. unfold refers in *. now rewrite W1.
Qed.
Lemma keep_new w v x u o : wv w v = None -> refers w u o -> refers (set_var w v x) u o.
Proof. unfold refers, set_var. cbn [wv]. intros H1 H2. destruct (Nat.eqb_spec u v) as [->|]; [congruence|auto]. Qed.
Lemma keep_move w v u x t o : wv w v = None -> wv w u = Some x -> refers w t o ->
  exists t', refers (set_var (set_var w v (Some x)) u (Some None)) t' o.
Proof.
  intros H1 H2 R. unfold refers, set_var in *. cbn [wv]. destruct (Nat.eq_dec t u) as [->|N].
  - exists v. replace (v =? u) with false by (symmetry; apply Nat.eqb_neq; congruence). rewrite Nat.eqb_refl. congruence.
  - exists t. destruct (Nat.eqb_spec t u); [congruence|]. destruct (Nat.eqb_spec t v); congruence.
Qed.
Lemma spec_kept s op0 s' r o : good s -> good s' -> legal (world_of s) op0 -> spec (world_of s) op0 (world_of s') r ->
  match op0 with PDetach _ => False | _ => True end -> o < length (ob s) -> kept s o -> kept s' o.
Proof.
  intros G G' Lg Sp Nd Lo K.
  assert (forall u h, home s u = Some h -> wv (world_of s) u <> None -> alive s h = true) as Hx.
  { destruct G as (E & HJ & HG). intros u h H1 H2. destruct (alive s h) eqn:A; auto.
    exfalso. apply H2. rewrite wv_of. now rewrite (HG u h H1 A). }
  assert (forall u v x h, wv (world_of s) v <> None -> home s u = Some h -> wv (set_var (world_of s) v x) u <> None -> alive s h = true) as Hx1.
  { intros u v x h H1 H2. unfold set_var. cbn [wv]. destruct (Nat.eqb_spec u v) as [->|]; eauto. }
  inversion Sp; subst; cbn [legal] in Lg; try contradiction.
  - eapply same_kept; eauto; [reflexivity|]. intros u R. exists u. apply keep_new; auto. apply Lg.
  - split; [|intros [u R]; eapply good_refers; eauto]. intros A. change (wa (world_of s') o = true) in A. rewrite H1 in A.
    cbn [wn world_of] in A. destruct (Nat.eqb_spec o (length (ob s))); [lia|].
    apply K in A. destruct A as [u R]. exists u. unfold refers in *. rewrite H.
    destruct (Nat.ltb_spec u (wm (world_of s))); auto. rewrite wv_of in R. destruct (ex s u) eqn:X; [|discriminate].
    apply ex_lt in X. cbn [wm world_of] in H4. lia.
  - eapply same_kept; eauto; [reflexivity|]. intros u R. exists u. apply keep_new; auto. apply Lg.
  - eapply same_kept; eauto; [reflexivity|]. intros t R. exists t. apply keep_new; auto. apply Lg.
  - eapply same_kept; eauto; [reflexivity|]. intros t R. exists t. apply keep_new; auto. apply Lg.
  - eapply same_kept; eauto; [reflexivity|]. intros t R. eapply keep_move; eauto. apply Lg.
  - eapply same_kept; eauto; [reflexivity|]. intros t R. eapply keep_move; eauto. apply Lg.
  - eapply same_kept; eauto; [reflexivity|]. intros t R. exists t. apply keep_new; auto. apply Lg.
  - eapply collect_kept with (s := s); eauto. intros u h. apply Hx1. apply Lg.
  - eapply collect_kept with (s := s); eauto. intros u h. apply Hx1. apply Lg.
  - eapply collect_kept with (s := s); eauto. intros t h. apply Hx1. apply Lg.
  - eapply collect_kept with (s := s); eauto. intros t h H2. destruct Lg as [[L1 _] [L2 _]]. unfold set_var. cbn [wv].
    destruct (Nat.eqb_spec t u) as [->|]; [eauto|]. destruct (Nat.eqb_spec t v) as [->|]; eauto.
  - eapply same_kept; eauto. reflexivity.
Qed.
Lemma spec_count w op0 w' r : spec w op0 w' r -> wn w <= wn w'.
Proof.
  assert (forall a b, same_world a b -> wn b <= wn a) as S by (intros a b H; destruct H as (_ & _ & _ & H & _); lia).
  assert (forall a b c, collect a b c -> wn b <= wn c) as C by (intros a b c H; destruct H as (_ & _ & _ & _ & _ & H & _); lia).
  intros H. inversion H; subst; try (apply S in H0; exact H0); try (apply S in H1; exact H1);
    try (apply C in H0; exact H0); try (apply C in H1; exact H1); try (apply C in H2; exact H2). lia.
Qed.
Lemma run_kept os : forall s s' rs o, good s -> legal_run s os -> no_detach os -> run s os = Ok (s', rs) ->
  (o < length (ob s) /\ kept s o) \/ wrapped os o -> kept s' o.
Proof.
  induction os as [|a os IH]; intros s s' rs o G L Nd R K.
  - cbn in R. inversion R; subst. destruct K as [[_ K]|[v []]]. exact K.
  - destruct L as [L1 L2]. destruct (step_ok s a G L1) as (s1 & r & R1 & Sp & G1 & N1).
    cbn [run] in R. rewrite R1 in R. cbn [bind] in R. destruct (run s1 os) as [[s2 rs2]| | |] eqn:R2; try discriminate.
    cbn [bind] in R. inversion R; subst. inversion Nd; subst.
    apply (IH s1 _ rs2 o); auto; [eapply L2; eauto|].
    pose proof (spec_count _ _ _ _ Sp) as Cnt. cbn [wn world_of] in Cnt.
    destruct K as [[Lo K]|[v [->|I]]].
    + left. split; [lia|]. apply (spec_kept s a s1 r o); auto.
    + left. cbn [legal] in L1. destruct L1 as (_ & A & _). change (alive s o = true) in A.
      pose proof A as A'. apply alive_true, nth_error_lt in A'. split; [lia|].
      inversion Sp; subst. match goal with H : same_world _ _ |- _ => destruct H as (W1 & _ & W3 & _) end. split.
      * intros _. exists v. unfold refers. rewrite W1. unfold set_var. cbn [wv]. now rewrite Nat.eqb_refl.
      * intros [u Q]. eapply good_refers; eauto.
    + right. exists v. exact I.
Qed.
Lemma alive_ok n os s rs o : legal_run (init n) os -> no_detach os -> run (init n) os = Ok (s, rs) -> wrapped os o ->
  (alive s o = true <-> exists u, refers (world_of s) u o).
Proof. intros L Nd R W. eapply run_kept; eauto. apply init_good. Qed.

(* a detached object is left alone *)
Lemma left_alone os : forall s s' rs o, good s -> legal_run s os -> run s os = Ok (s', rs) -> not_wrapped os o ->
  alive s o = true -> (forall u, ~ refers (world_of s) u o) ->
  alive s' o = true /\ forall u, ~ refers (world_of s') u o.
Proof.
  induction os as [|a os IH]; intros s s' rs o G L R Nw A Nr.
  - cbn in R. inversion R; subst. auto.
  - destruct L as [L1 L2]. destruct (step_ok s a G L1) as (s1 & r & R1 & Sp & G1 & N1).
    cbn [run] in R. rewrite R1 in R. cbn [bind] in R. destruct (run s1 os) as [[s2 rs2]| | |] eqn:R2; try discriminate.
    cbn [bind] in R. inversion R; subst.
    assert (alive s1 o = true /\ forall u, ~ refers (world_of s1) u o) as [A1 Nr1].
    { assert (forall w1, same_world (world_of s1) w1 -> (wa w1 o = alive s o) -> (forall u, ~ refers w1 u o) ->
                alive s1 o = true /\ forall u, ~ refers (world_of s1) u o) as KS.
      { intros w1 (W1 & _ & W3 & _) Ha Nr1. split.
        - change (wa (world_of s1) o = true). rewrite W3, Ha. exact A.
        - intros u Q. apply (Nr1 u). unfold refers in *. now rewrite <- W1. }
      assert (forall w1, collect (world_of s) w1 (world_of s1) -> (wa w1 o = alive s o) -> (forall u, ~ refers w1 u o) ->
                alive s1 o = true /\ forall u, ~ refers (world_of s1) u o) as KC.
      { intros w1 (C1 & C2 & C3 & C4 & C5 & _) Ha Nr1.
        assert (alive s1 o = true) as A1.
        { destruct (C2 o) as [|D]; auto; [congruence|]. exfalso. destruct D as [o [u Q] _]. apply (Nr u Q). }
        split; auto. intros u Q.
        destruct (wh w1 u) as [h|] eqn:Hh.
        - assert (alive s1 h = true) as Ah.
          { destruct G1 as (E1 & J1 & HG1). destruct (alive s1 h) eqn:Ah; auto. exfalso.
            assert (home s1 u = Some h) as Hu.
            { rewrite <- wh_of, C5. exact Hh. }
            pose proof (HG1 u h Hu Ah) as X. unfold refers in Q. rewrite wv_of, X in Q. discriminate. }
          apply (Nr1 u). unfold refers in *. rewrite <- C4; auto.
          intros h' Q'. rewrite Hh in Q'. inversion Q'; subst. apply C1. exact Ah.
        - apply (Nr1 u). unfold refers in *. rewrite <- C4; auto. intros h' Q'. congruence. }
      assert (forall w v x, (forall u, ~ refers w u o) -> x <> Some (Some o) -> forall u, ~ refers (set_var w v x) u o) as KV.
      { intros w v x N1' N2 u. unfold refers, set_var. cbn [wv]. destruct (u =? v); auto. apply N1'. }
      assert (forall u x, wv (world_of s) u = Some x -> Some x <> Some (Some o)) as KX.
      { intros u x H1 H2. apply (Nr u). unfold refers. congruence. }
      inversion Sp; subst.
      - eapply KS; [eauto|reflexivity|]. apply KV; [auto|congruence].
      - split.
        + change (wa (world_of s1) o = true). rewrite H1. destruct (o =? _); auto.
        + intros u Q. unfold refers in Q. rewrite H in Q. destruct (u <? _); [apply (Nr u Q)|].
          destruct (u <? _); discriminate.
      - eapply KS; [eauto|reflexivity|]. apply KV; auto. intros Q. inversion Q; subst. apply (Nw v). now left.
      - eapply KS; [eauto|reflexivity|]. apply KV; eauto.
      - eapply KS; [eauto|reflexivity|]. apply KV; eauto.
      - eapply KS; [eauto|reflexivity|]. apply KV; [apply KV; eauto|congruence].
      - eapply KS; [eauto|reflexivity|]. apply KV; [apply KV; eauto|congruence].
      - eapply KS; [eauto|reflexivity|]. apply KV; auto. destruct ok; [eauto|congruence].
      - eapply KC; [eauto|reflexivity|]. apply KV; [auto|congruence].
      - eapply KC; [eauto|reflexivity|]. apply KV; [auto|congruence].
      - eapply KC; [eauto|reflexivity|]. apply KV; eauto.
      - eapply KC; [eauto|reflexivity|]. apply KV; [apply KV; eauto|congruence].
      - eapply KS; eauto.
      - eapply KS; [eauto|reflexivity|]. apply KV; [auto|congruence]. }
    apply (IH s1 _ rs2 o); auto; [eapply L2; eauto|]. intros v I. apply (Nw v). now right.
Qed.
Lemma detach_alone n os v o os' s rs : legal_run (init n) (os ++ PDetach v :: os') -> not_wrapped os' o ->
  run (init n) (os ++ PDetach v :: os') = Ok (s, rs) -> nth_error rs (length os) = Some (Some o) ->
  alive s o = true /\ forall u, ~ refers (world_of s) u o.
Proof.
  intros L Nw R Q.
  assert (forall s0, good s0 -> legal_run s0 (os ++ PDetach v :: os') -> run s0 (os ++ PDetach v :: os') = Ok (s, rs) ->
            alive s o = true /\ forall u, ~ refers (world_of s) u o) as K; [|eapply K; eauto; apply init_good].
  clear L R. revert rs Q. induction os as [|a os IH]; intros rs Q s0 G [L1 L2] R;
    destruct (step_ok s0 _ G L1) as (s1 & r & R1 & Sp & G1 & N1); cbn [app run] in R; rewrite R1 in R; cbn [bind] in R.
  - destruct (run s1 os') as [[s2 rs2]| | |] eqn:R2; try discriminate. cbn [bind] in R. inversion R; subst.
    cbn in Q. inversion Q; subst r. cbn [legal] in L1. destruct L1 as [Hl Hs].
    inversion Sp; subst. match goal with H : same_world _ _ |- _ => destruct H as (W1 & _ & W3 & _) end.
    eapply left_alone; eauto.
    + change (wa (world_of s1) o = true). rewrite W3. apply (good_refers s0 v o G). unfold refers. assumption.
    + intros u Ru. unfold refers in Ru. rewrite W1 in Ru. unfold set_var in Ru. cbn [wv] in Ru.
      destruct (Nat.eqb_spec u v) as [|Nu]; [discriminate|]. apply Nu. apply (Hs o); auto.
  - destruct (run s1 (os ++ PDetach v :: os')) as [[s2 rs2]| | |] eqn:R2; try discriminate. cbn [bind] in R. inversion R; subst.
    apply (IH rs2 Q s1); auto. eapply L2; eauto.
Qed.

(* ---- concrete histories ------------------------------------------------------------- *)
Ltac no_refs := let u := fresh "u" in intros u; unfold refers; do 6 (destruct u as [|u]; [cbn; discriminate|]); cbn; destruct u; discriminate.
Ltac slot_ok := split; [cbn; lia|split; reflexivity].
Ltac next := match goal with |- forall s' r, step _ _ = Ok (s', r) -> _ =>
  let s' := fresh "s" in let r := fresh "r" in let H := fresh "H" in
  intros s' r H; vm_compute in H; injection H as <- <- end.

(* a list of two nodes, shared and then dropped *)
Definition demo : list op :=
  [PRaw 1; PWrap 0 0; PRaw 0; PWrap 1 1; PAssign 3 1; PDestroy 1; PCopy 2 0; PDestroy 0; PDestroy 2].
Lemma demo_legal : legal_run (init 3) demo.
Proof.
  unfold demo. cbn [legal_run].
  split; [exact I|]. next. split; [split; [slot_ok|split; [reflexivity|no_refs]]|]. next.
  split; [exact I|]. next. split; [split; [slot_ok|split; [reflexivity|no_refs]]|]. next.
  split.
  { split.
    - split; [discriminate|]. intros h H. cbn in H. injection H as <-.
      apply (rooted_by _ _ _ 0); [discriminate|reflexivity|]. intros h H. discriminate.
    - split; [discriminate|]. intros h H. discriminate. }
  next. split; [split; [discriminate|reflexivity]|]. next.
  split; [split; [slot_ok|discriminate]|]. next.
  split; [split; [discriminate|reflexivity]|]. next.
  split; [split; [discriminate|reflexivity]|]. next. exact I.
Qed.
Lemma demo_deletes : exists s rs, run (init 3) demo = Ok (s, rs) /\ alive s 0 = false /\ alive s 1 = false /\ cn s = [None; None] /\
  exists s' rs', run (init 3) (firstn 8 demo) = Ok (s', rs') /\ alive s' 0 = true /\ alive s' 1 = true.
Proof. eexists _, _. split; [vm_compute; reflexivity|]. repeat split. eexists _, _. split; [vm_compute; reflexivity|]. split; reflexivity. Qed.

(* the node after the next one: it is only held by a member of a member *)
Definition deep : list op :=
  [PRaw 1; PWrap 0 0; PRaw 1; PWrap 1 1; PMoveAssign 3 1; PRaw 0; PWrap 2 2; PMoveAssign 4 2; PSetNull 4; PDestroy 0].
Ltac chain t := let h := fresh "h" in let H := fresh "H" in intros h H; cbn in H; injection H as <-;
  apply (rooted_by _ _ _ t); [discriminate|reflexivity|].
Ltac on_stack := let h := fresh "h" in let H := fresh "H" in intros h H; discriminate H.
Lemma deep_legal : legal_run (init 3) deep.
Proof.
  unfold deep. cbn [legal_run].
  split; [exact I|]. next. split; [split; [slot_ok|split; [reflexivity|no_refs]]|]. next.
  split; [exact I|]. next. split; [split; [slot_ok|split; [reflexivity|no_refs]]|]. next.
  split; [split; (split; [discriminate|]); [chain 0; on_stack|on_stack]|]. next.
  split; [exact I|]. next. split; [split; [slot_ok|split; [reflexivity|no_refs]]|]. next.
  split; [split; (split; [discriminate|]); [chain 3; chain 0; on_stack|on_stack]|]. next.
  split; [split; [discriminate|]; chain 3; chain 0; on_stack|]. next.
  split; [split; [discriminate|reflexivity]|]. next. exact I.
Qed.
Lemma deep_runs : exists s rs, run (init 3) deep = Ok (s, rs) /\ ob s = [false; false; false] /\ cn s = [None; None; None] /\
  exists s' rs', run (init 3) (firstn 9 deep) = Ok (s', rs') /\ ob s' = [true; true; false].
Proof. eexists _, _. split; [vm_compute; reflexivity|]. split; [reflexivity|]. split; [reflexivity|]. eexists _, _. split; [vm_compute; reflexivity|reflexivity]. Qed.
Definition demo_detach : list op := [PRaw 0; PWrap 0 0; PDetach 0; PDestroy 0].
Lemma demo_detach_legal : legal_run (init 1) demo_detach.
Proof.
  unfold demo_detach. cbn [legal_run].
  split; [exact I|]. next. split; [split; [slot_ok|split; [reflexivity|no_refs]]|]. next.
  split.
  { split.
    - split; [discriminate|]. intros h H. discriminate.
    - intros o _ u R. unfold refers in R. destruct u as [|u]; auto. cbn in R. destruct u; discriminate. }
  next. split; [split; [discriminate|reflexivity]|]. next. exact I.
Qed.
Lemma demo_detach_leaks : exists s, run (init 1) demo_detach = Ok (s, [Some 0; None; Some 0; None]) /\
  (forall u, wv (world_of s) u = None) /\ nth_error (cn s) 0 = Some (Some 0%Z).
Proof.
  eexists. split; [vm_compute; reflexivity|]. split; [|reflexivity]. intros [|[|u]]; reflexivity.
Qed.
Lemma detach_shared : exists s1 rs1, run (init 2) [PRaw 0; PWrap 0 0; PCopy 1 0; PDetach 0] = Ok (s1, rs1) /\
  refers (world_of s1) 0 0 /\
  (exists s2 rs2, run (init 2) [PRaw 0; PWrap 0 0; PCopy 1 0; PDetach 0; PDestroy 1] = Ok (s2, rs2) /\ alive s2 0 = false) /\
  run (init 2) [PRaw 0; PWrap 0 0; PCopy 1 0; PDetach 0; PDestroy 1; PDestroy 0] = UB.
Proof.
  eexists _, _. split; [vm_compute; reflexivity|]. split; [reflexivity|]. split; [|vm_compute; reflexivity].
  eexists _, _. split; [vm_compute; reflexivity|]. reflexivity.
Qed.
Lemma assign_member : run (init 2) [PRaw 1; PWrap 0 0; PRaw 0; PWrap 1 1; PAssign 2 1; PDestroy 1; PAssign 0 2] = UB.
Proof. vm_compute. reflexivity. Qed.
