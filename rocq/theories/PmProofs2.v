From Coq Require Import ZifyBool ZifyNat.
From Verif Require Import Base BaseFacts ComModel ComSpec ComProofs PmModel PmSpec.
Open Scope nat_scope.

Definition mkept (es : list mop) : list cop :=
  flat_map (fun e => match e with MOp o => [o] | MFailWrap _ _ => [] | MFailSet v _ => [CSetNull v] end) es.

(* who else holds what v holds *)
Lemma num_one l v t : nth_error l v = Some (Some (Some t)) -> (forall u, nth_error l u = Some (Some (Some t)) -> u = v) -> num t l = 1.
Proof.
  intros H K. pose proof (num_upd l v _ (Some None) t H) as Q. cbn [holds b2n] in Q. rewrite Nat.eqb_refl in Q. cbn [b2n] in Q.
  assert (num t (upd l v (Some None)) = 0); [|lia].
  unfold num. destruct (filter (holds t) (upd l v (Some None))) as [|y m] eqn:F; auto. exfalso.
  assert (In y (filter (holds t) (upd l v (Some None)))) as I by (rewrite F; now left). apply filter_In in I. destruct I as [I P].
  apply In_nth_error in I. destruct I as [i I]. destruct y as [[t'|]|]; cbn in P; try discriminate. apply Nat.eqb_eq in P. subst t'.
  destruct (Nat.eq_dec i v) as [->|N].
  - rewrite upd_same in I by (eapply nth_error_lt; eauto). discriminate.
  - rewrite upd_other in I by auto. auto.
Qed.
Lemma vset_self s v p : nth_error (cvs s) v = Some (Some p) -> vset s v p = Ok s.
Proof.
  intros H. unfold vset. rewrite H. destruct s as [c l r]. cbn [cvs ccn crel] in *. do 2 f_equal.
  revert v H. induction l as [|x l IH]; intros [|v] H; cbn in *; try discriminate; [now inversion H|]. f_equal. auto.
Qed.
(* a failed assignment to a variable that shares nothing is v = nullptr *)
Lemma fail_alone s w v : Sim s w -> look w v <> None -> alone w v -> cdec s v = cstep s (CSetNull v).
Proof.
  intros H L A. cbn [cstep]. destruct (look w v) as [y|] eqn:Y; [|congruence]. clear L.
  pose proof (l_get _ _ _ v y H ltac:(discriminate) Y) as G. pose proof (look_nth _ _ _ Y) as Ln.
  unfold cdec, vget. rewrite G. cbn [bind]. destruct y as [t|].
  2:{ cbn [cc cnull bind]. symmetry. now apply vset_self. }
  cbn [cc cr]. pose proof (l_tok _ _ _ H _ _ Ln) as Lt.
  assert (num t (ov w) = 1) as N1.
  { eapply num_one; eauto. intros u Hu. apply (A t); auto. unfold look. now rewrite Hu. }
  unfold nget. rewrite (l_cnt _ _ _ H), N1. replace (t <? length (oo w)) with true by lia. cbn [Nat.eqb bind]. cbv zeta.
  change (Z.of_nat 1 - 1 =? 0)%Z with true. cbv iota. unfold vset at 1 2. cbn [cvs nset ccn crel]. rewrite G. cbn [bind].
  symmetry. apply vset_self. cbn [cvs]. apply upd_same. eapply nth_error_lt; eauto.
Qed.

Lemma mrun_ok es : forall s w, Sim s w -> mlegal_run w es ->
  exists s', mrun s es = Ok (s', mfails es) /\ crun s (mkept es) = Ok s' /\ olegal_run w (mkept es) /\
    mspec_run w es = ospec_run w (mkept es) /\ Sim s' (mspec_run w es).
Proof.
  induction es as [|e es IH]; intros s w H L.
  - exists s. repeat split; auto; apply H.
  - destruct L as [L1 L2]. destruct e as [o|v o|v o]; cbn [mlegal mspec] in *.
    + destruct (cstep_ok s w o H L1) as (s1 & R & S1). destruct (IH s1 _ S1 L2) as (s' & A & B & C & D & F).
      exists s'. cbn [mrun mstep]. rewrite R. cbn [bind]. rewrite A. cbn [bind mkept flat_map app mfails map crun olegal_run]. rewrite R. cbn [bind].
      change (flat_map _ es) with (mkept es). repeat split; auto; apply F.
    + destruct (IH s w H L2) as (s' & A & B & C & D & F). exists s'. cbn [mrun mstep].
      rewrite (l_var _ _ _ H v ltac:(discriminate)). cbn [olegal] in L1. rewrite L1. cbn [option_map bind]. rewrite A.
      cbn [bind mkept flat_map app mfails map]. change (flat_map _ es) with (mkept es). repeat split; auto; apply F.
    + destruct L1 as [L1 La]. cbn [olegal] in L1. destruct (cstep_ok s w (CSetNull v) H L1) as (s1 & R & S1). cbn [ospec] in S1.
      destruct (IH s1 _ S1 L2) as (s' & A & B & C & D & F). exists s'. cbn [mrun mstep]. rewrite (fail_alone s w v H L1 La), R. cbn [bind].
      rewrite A. cbn [bind mkept flat_map app mfails map crun olegal_run]. rewrite R. cbn [bind olegal].
      change (flat_map _ es) with (mkept es). repeat split; auto; apply F.
Qed.
Lemma mcom_ok n es : mlegal_run (oinit n) es ->
  exists s, mrun (cinit n) es = Ok (s, mfails es) /\ crel s = orel (mspec_run (oinit n) es) /\
    map (option_map cr) (cvs s) = shows (mspec_run (oinit n) es) /\
    (forall c k, nth_error (ccn s) c = Some (Some k) -> existsb (holds c) (ov (mspec_run (oinit n) es)) = true).
Proof.
  intros L. destruct (mrun_ok es _ _ (cinit_ok n) L) as (s & A & B & C & D & _). exists s. split; [exact A|].
  rewrite D. destruct (com_ok n _ C) as (s' & B' & K). assert (s' = s) by congruence. subst. exact K.
Qed.
Lemma offered_ok o es : offered o es = handed o (mkept es) + lost o es.
Proof.
  induction es as [|e es IH]; [reflexivity|]. unfold offered, lost in *. cbn [map list_sum fold_right mkept flat_map]. 
  change (fold_right Nat.add 0) with list_sum. rewrite IH. change (flat_map _ es) with (mkept es).
  destruct e as [[| | | | | | | | ]| |]; cbn [app handed]; lia.
Qed.
Lemma mbalance n es o : mlegal_run (oinit n) es ->
  count_occ Nat.eq_dec (orel (mspec_run (oinit n) es)) o + length (live (mspec_run (oinit n) es) o) + lost o es = offered o es.
Proof.
  intros L. destruct (mrun_ok es _ _ (cinit_ok n) L) as (s & A & B & C & D & _). rewrite D, (balance n _ o C), offered_ok. reflexivity.
Qed.

(* ---- a failed assignment to a variable that shares ------------------------------------ *)
Definition setv (s : cst) (v : nat) (x : option cptr) : cst := mkCst (ccn s) (upd (cvs s) v x) (crel s).
Lemma upd_comm {A} (l : list A) u v x y : u <> v -> upd (upd l u x) v y = upd (upd l v y) u x.
Proof. revert u v. induction l as [|z l IH]; intros [|u] [|v] N; cbn; auto; try congruence. f_equal. apply IH. lia. Qed.
Lemma destroy_frame s s' u v x : u <> v -> cstep s (CDestroy u) = Ok s' -> cstep (setv s v x) (CDestroy u) = Ok (setv s' v x).
Proof.
  intros N. cbn [cstep]. unfold cdec, vget, setv. cbn [cvs ccn crel]. rewrite upd_other by auto.
  destruct (nth_error (cvs s) u) as [[p|]|] eqn:E; try discriminate. cbn [bind]. destruct (cc p) as [c|].
  2:{ cbn [bind]. unfold vkill. cbn [cvs ccn crel]. rewrite upd_other by auto. rewrite E. intros Q. inversion Q; subst. cbn [cvs ccn crel].
      rewrite upd_comm by auto. reflexivity. }
  unfold nget. cbn [ccn]. destruct (nth_error (ccn s) c) as [[k|]|]; try discriminate. cbn [bind]. cbv zeta.
  destruct (k - 1 =? 0)%Z.
  - destruct (cr p) as [o|]; [|discriminate]. unfold vset, vkill. cbn [nset cvs ccn crel]. rewrite upd_other by auto. rewrite E. cbn [bind cvs ccn crel].
    pose proof (nth_error_lt _ _ _ E) as Lu. rewrite !upd_same by (rewrite ?upd_length; auto).
    intros Q. inversion Q; subst. cbn [cvs ccn crel]. do 2 f_equal. rewrite !upd_upd. apply upd_comm. auto.
  - unfold vkill. cbn [nset cvs ccn crel bind]. rewrite upd_other by auto. rewrite E. intros Q. inversion Q; subst. cbn [cvs ccn crel].
    do 2 f_equal. apply upd_comm. auto.
Qed.
Lemma destroys_frame us : forall s s' v x, ~ In v us -> crun s (map CDestroy us) = Ok s' ->
  crun (setv s v x) (map CDestroy us) = Ok (setv s' v x).
Proof.
  induction us as [|u us IH]; intros s s' v x N R; cbn [map crun] in *.
  - now inversion R.
  - destruct (cstep s (CDestroy u)) as [s1| | |] eqn:E; try discriminate. cbn [bind] in R.
    rewrite (destroy_frame s s1 u v x) by (auto; intros ->; apply N; now left). cbn [bind]. apply IH; auto. intros I. apply N. now right.
Qed.
(* destroying all the holders of t releases it *)
Lemma put_look w v x u : look (put w v x) u = if Nat.eqb u v then (if Nat.ltb v (length (ov w)) then x else None) else look w u.
Proof.
  unfold look. rewrite put_ov. destruct (Nat.eqb_spec u v) as [->|N].
  - destruct (v <? length (ov w)) eqn:Q; [rewrite upd_same by lia; reflexivity|].
    replace (nth_error (upd (ov w) v x) v) with (@None (option (option nat))); auto. symmetry. apply nth_error_None. rewrite upd_length. lia.
  - now rewrite upd_other by auto.
Qed.
Lemma destroy_all us : forall s w t, Sim s w -> NoDup us -> us <> [] -> (forall u, In u us <-> look w u = Some (Some t)) ->
  exists s' w', crun s (map CDestroy us) = Ok s' /\ Sim s' w' /\ oo w' = oo w /\ (forall u, look w' u <> Some (Some t)) /\
    crel s' = nth t (oo w) 0 :: crel s.
Proof.
  induction us as [|u us IH]; intros s w t H ND NE K; [congruence|].
  apply NoDup_cons_iff in ND. destruct ND as [Nu ND].
  assert (look w u = Some (Some t)) as Lu by (apply K; now left).
  assert (olegal w (CDestroy u)) as OL by (cbn [olegal]; congruence).
  destruct (cstep_ok s w (CDestroy u) H OL) as (s1 & R & S1). cbn [ospec] in S1.
  pose proof (look_nth _ _ _ Lu) as Ln. pose proof (nth_error_lt _ _ _ Ln) as Ll.
  assert (forall u', look (put w u None) u' = Some (Some t) <-> In u' us) as K1.
  { intros u'. rewrite put_look. destruct (Nat.eqb_spec u' u) as [->|N].
    - destruct (u <? _); split; intros Q; try discriminate; contradiction.
    - rewrite <- K. cbn [In]. split; intros Q; [destruct Q; congruence|auto]. }
  cbn [map crun]. rewrite R. cbn [bind]. destruct us as [|u2 us].
  - cbn [map crun]. exists s1, (put w u None). split; [reflexivity|]. split; [exact S1|]. split; [apply put_oo|]. split; [intros u' Q; apply K1 in Q; destruct Q|].
    rewrite (l_rel _ _ _ S1), (l_rel _ _ _ H). unfold put. rewrite Ln.
    destruct (existsb (holds t) (upd (ov w) u None)) eqn:X; [|reflexivity]. exfalso.
    apply existsb_exists in X. destruct X as (y & I & P). apply In_nth_error in I. destruct I as [i I].
    destruct y as [[t'|]|]; cbn in P; try discriminate. apply Nat.eqb_eq in P. subst t'.
    apply (K1 i). unfold look. rewrite put_ov, I. reflexivity.
  - assert (crel s1 = crel s) as Cr.
    { rewrite (l_rel _ _ _ S1), (l_rel _ _ _ H). unfold put. rewrite Ln.
      replace (existsb (holds t) (upd (ov w) u None)) with true; [reflexivity|]. symmetry. apply existsb_exists.
      exists (Some (Some t)). split; [|cbn; apply Nat.eqb_refl].
      assert (look (put w u None) u2 = Some (Some t)) as Q by (apply K1; now left). apply look_nth in Q. rewrite put_ov in Q. eapply nth_error_In; eauto. }
    destruct (IH s1 (put w u None) t S1 ND ltac:(discriminate)) as (s' & w' & A & B & C & D & F).
    { intros u'. symmetry. apply K1. }
    exists s', w'. split; [exact A|]. split; [exact B|]. split; [rewrite C; apply put_oo|]. split; [exact D|]. rewrite F, Cr, put_oo. reflexivity.
Qed.

Lemma shared_fail s w v o t us : Sim s w -> look w v = Some (Some t) -> NoDup us -> us <> [] ->
  (forall u, In u us <-> u <> v /\ look w u = Some (Some t)) ->
  exists s1 s2, mstep s (MFailSet v o) = Ok (s1, true) /\ cvs s1 = cvs s /\ crel s1 = crel s /\ crun s1 (map CDestroy us) = Ok s2 /\
    crel s2 = nth t (oo w) 0 :: crel s /\ nth_error (cvs s2) v = Some (Some (mkC (Some t) (Some (nth t (oo w) 0)))) /\
    cstep s2 (CDestroy v) = UB.
Proof.
  intros H Lv ND NE K. pose proof (look_nth _ _ _ Lv) as Ln. pose proof (nth_error_lt _ _ _ Ln) as Ll.
  pose proof (l_get _ _ _ v (Some t) H ltac:(discriminate) Lv) as G. cbv iota in G. set (p := mkC (Some t) (Some (nth t (oo w) 0))) in *.
  destruct (drop_ok s w v (Some t) H Lv) as (s1 & R & S1 & _).
  destruct us as [|u0 us0]; [congruence|]. set (us := u0 :: us0) in *.
  assert (u0 <> v /\ look w u0 = Some (Some t)) as [N0 L0] by (apply K; now left).
  (* what Dec did *)
  assert (cvs s1 = cvs s /\ crel s1 = crel s) as [V1 C1].
  { unfold cdec, vget in R. rewrite G in R. cbn [bind p cc cr] in R. unfold nget in R. rewrite (l_cnt _ _ _ H) in R.
    pose proof (num_upd (ov w) v _ (Some None) t Ln) as Q. cbn [holds b2n] in Q. rewrite Nat.eqb_refl in Q. cbn [b2n] in Q.
    assert (1 <= num t (upd (ov w) v (Some None))) as Q1.
    { apply (num_in _ u0). rewrite upd_other by auto. now apply look_nth. }
    pose proof (l_tok _ _ _ H _ _ Ln). replace (t <? length (oo w)) with true in R by lia. replace (num t (ov w) =? 0) with false in R by lia.
    cbn [bind] in R. cbv zeta in R. replace (Z.of_nat (num t (ov w)) - 1 =? 0)%Z with false in R by lia. inversion R; subst. auto. }
  assert (nth_error (cvs s1) v = Some (Some p)) as G1 by (now rewrite V1).
  (* the state with v emptied *)
  assert (Sim (setv s1 v (Some cnull)) (put w v (Some None))) as S2.
  { pose proof (fill_none s1 (put w v (Some None)) v (Some None) S1 (put_none_hole _ _ _ Lv) (or_intror eq_refl)) as X.
    cbn [option_map] in X. rewrite put_ov, upd_upd in X.
    replace (put w v (Some None)) with (mkOwn (upd (ov w) v (Some None)) (oo (put w v (Some None))) (orel (put w v (Some None)))); [exact X|].
    rewrite <- (put_ov w v (Some None)). now destruct (put w v (Some None)). }
  destruct (destroy_all us _ _ t S2 ND ltac:(discriminate)) as (s2 & w2 & A & B & C & D & F).
  { intros u. rewrite K, put_look. replace (v <? length (ov w)) with true by lia. destruct (Nat.eqb_spec u v) as [->|N].
    - split; [intros [? _]; congruence|discriminate].
    - tauto. }
  assert (~ In v us) as Nv by (intros I; apply K in I; tauto).
  pose proof (destroys_frame us _ _ v (Some p) Nv A) as A2.
  assert (setv (setv s1 v (Some cnull)) v (Some p) = s1) as E1.
  { unfold setv. cbn [cvs ccn crel]. rewrite upd_upd. destruct s1 as [c l r]. cbn [cvs ccn crel] in *. f_equal.
    pose proof (vset_self (mkCst c l r) v p G1) as X. unfold vset in X. cbn [cvs ccn crel] in X. rewrite G1 in X. congruence. }
  rewrite E1 in A2.
  assert (v < length (cvs s2)) as L2.
  { rewrite (l_len _ _ _ B). assert (length (ov w2) = length (cvs s2)) as X by (symmetry; apply (l_len _ _ _ B)).
    assert (forall us s s', crun s (map CDestroy us) = Ok s' -> length (cvs s') = length (cvs s)) as LK.
    { induction us1 as [|a us1 IH]; intros a1 a2 Q; cbn [map crun] in Q; [now inversion Q|].
      destruct (cstep a1 (CDestroy a)) as [a3| | |] eqn:Q1; try discriminate. cbn [bind] in Q. rewrite (IH _ _ Q).
      cbn [cstep] in Q1. unfold cdec, vget in Q1. destruct (nth_error (cvs a1) a) as [[p1|]|] eqn:E; try discriminate. cbn [bind] in Q1.
      destruct (cc p1) as [c|].
      2:{ cbn [bind] in Q1. unfold vkill in Q1. rewrite E in Q1. inversion Q1. cbn [cvs]. apply upd_length. }
      destruct (nget a1 c) as [k| | |]; try discriminate. cbn [bind] in Q1. cbv zeta in Q1. destruct (k - 1 =? 0)%Z.
      - destruct (cr p1); [|discriminate]. unfold vset in Q1. cbn [nset cvs ccn crel] in Q1. rewrite E in Q1. cbn [bind] in Q1.
        unfold vkill in Q1. cbn [cvs] in Q1. rewrite upd_same in Q1 by (eapply nth_error_lt; eauto). inversion Q1. cbn [cvs]. now rewrite !upd_length.
      - cbn [bind] in Q1. unfold vkill in Q1. cbn [nset cvs] in Q1. rewrite E in Q1. inversion Q1. cbn [cvs]. apply upd_length. }
    apply LK in A. cbn [setv cvs] in A. rewrite upd_length, V1 in A. rewrite X, A. eapply nth_error_lt; eauto. }
  exists s1, (setv s2 v (Some p)). cbn [mstep]. rewrite R. cbn [bind]. split; [reflexivity|]. split; [exact V1|]. split; [exact C1|]. split; [exact A2|].
  cbn [setv crel cvs]. rewrite F, put_oo. cbn [setv crel]. rewrite C1. split; [reflexivity|]. rewrite upd_same by auto. split; [reflexivity|].
  unfold setv. cbn [cstep]. unfold cdec, vget. cbn [cvs]. rewrite upd_same by auto. cbn [bind p cc]. unfold nget. cbn [ccn].
  rewrite (l_cnt _ _ _ B). assert (num t (ov w2) = 0) as Z.
  { destruct (num t (ov w2)) eqn:Q; auto. exfalso. assert (existsb (holds t) (ov w2) = true) as X by (rewrite num_pos; lia).
    apply existsb_exists in X. destruct X as (y & I & P). apply In_nth_error in I. destruct I as [i I].
    destruct y as [[t'|]|]; cbn in P; try discriminate. apply Nat.eqb_eq in P. subst t'. apply (D i). unfold look. now rewrite I. }
  rewrite Z. cbn [Nat.eqb]. destruct (t <? length (oo w2)); reflexivity.
Qed.
Lemma shared_refuted n es v o t us : mlegal_run (oinit n) es -> look (mspec_run (oinit n) es) v = Some (Some t) -> NoDup us -> us <> [] ->
  (forall u, In u us <-> u <> v /\ look (mspec_run (oinit n) es) u = Some (Some t)) ->
  exists s s1 s2, mrun (cinit n) es = Ok (s, mfails es) /\ mstep s (MFailSet v o) = Ok (s1, true) /\
    cvs s1 = cvs s /\ crel s1 = crel s /\ crun s1 (map CDestroy us) = Ok s2 /\
    crel s2 = nth t (oo (mspec_run (oinit n) es)) 0 :: crel s /\ option_map (option_map cr) (nth_error (cvs s2) v) = Some (Some (Some (nth t (oo (mspec_run (oinit n) es)) 0))) /\
    cstep s2 (CDestroy v) = UB.
Proof.
  intros L Lv ND NE K. destruct (mrun_ok es _ _ (cinit_ok n) L) as (s & A & _ & _ & _ & S).
  destruct (shared_fail s _ v o t us S Lv ND NE K) as (s1 & s2 & B & C & D & E & F & G & H).
  exists s, s1, s2. rewrite G. repeat split; auto.
Qed.
