(* RemoveRange, and the list that moves its elements to a smaller buffer *)
From Verif Require Import Base BaseFacts RcModel RcSpec RcProofs RcProofs2 LpModel LpSpec LpProofs LpProofs2 LpProofs3 LpProofs4 LpProofs5 LpProofs6.
From Coq Require Import ZifyBool ZifyNat.
Open Scope nat_scope.

Lemma shrink_ok r k s l x nc : good r -> Inv (world_of r) k s -> at_list s l x -> cnt x <= nc ->
  held_by (world_of r) (inb x) (lhome x) ->
  exists r0 k0 r2 k1 k2, allocate r k (lhome x) nc = (r0, k0) /\
    exec (move_ctors (length (vs r)) (base x) (cnt x) ++ dtors (base x) (cnt x)) r0 k0 = Ok (r2, k1) /\ deallocate k1 (base x) (room x) = Ok k2 /\
    good r2 /\ keep r r2 /\ lives (world_of r2) (lhome x) /\
    Inv (world_of r2) k2 (upd s l (Some (mkL (lhome x) (length (vs r)) (cnt x) nc))) /\
    asame (lw (world_of r2) k2 (upd s l (Some (mkL (lhome x) (length (vs r)) (cnt x) nc)))) (lw (world_of r) k s).
Proof.
  intros G I A Hnc H. pose proof (held_lives' _ _ _ G H) as L. pose proof (i_cnt _ _ _ I _ _ A) as Hc.
  assert (forall a, inb x a -> wh (world_of r) a = lhome x /\ wv (world_of r) a <> None) as Bx.
  { intros a X. destruct (inb_i _ _ X) as (j & Lj & ->). split; [eapply (i_wh _ _ _ I); eauto|eapply (i_wv _ _ _ I); eauto]. }
  set (n := cnt x) in *. set (b := base x) in *.
  destruct (allocate r k (lhome x) nc) as [r0 k0] eqn:Al.
  destruct (allocate_ok _ _ _ _ _ _ G L Al) as (G0 & NL0 & Ek0 & V0 & H0 & A0 & Lo & Lv).
  destruct (Inv_alloc _ _ _ _ _ _ _ G I L Al) as [I0 S0].
  set (nb := length (vs r)) in *. pose proof (i_len _ _ _ I) as Lk. cbn [world_of wm] in Lk. fold nb in Lk.
  assert (forall a, kind_of k0 a = if inr a nb nc then KRaw else kind_of k a) as K0 by (intros; rewrite Ek0, kind_app, Lk; reflexivity).
  assert (forall a, inb x a -> a < nb) as Lt.
  { intros a X. rewrite <- Lk. apply kind_lt. destruct (inb_kind _ _ _ _ _ _ I A X) as [-> | ->]; discriminate. }
  assert (forall a, inb x a -> wv (world_of r0) a = wv (world_of r) a) as Sx.
  { intros a X. pose proof (Lt a X). rewrite V0. replace (a <? nb) with true by lia. auto. }
  assert (forall j, j < n -> kind_of k0 (b + j) = KMade) as Kx0.
  { intros j Lj. unfold b. rewrite (i_kind _ _ _ I0 _ _ _ A) by (unfold n in *; lia). fold n. now replace (j <? n) with true by lia. }
  assert (0 < room x -> b + room x <= nb) as Apart. { intros Q0. pose proof (Lt (b + (room x - 1)) ltac:(unfold inb; fold b; lia)). lia. }
  assert (n <= room x) as Hc' by (unfold n; lia).
  set (x1 := mkL (lhome x) nb n nc). set (os := move_ctors nb b n ++ dtors b n).
  destruct (checks_ctors nb b n k0) as (ka & Ca & La & Ka).
  { intros j Lj. rewrite K0. rng. auto. } { intros j Lj. right. apply Kx0. lia. }
  destruct (checks_dtors b n ka) as (kc & Cc & Lc & Kc).
  { intros j Lj. rewrite Ka. unfold kset. rng; auto. }
  assert (checks os k0 = Ok kc) as Cos. { unfold os. rewrite !checks_app, Ca. cbn [bind]. exact Cc. }
  assert (forall a, inb x1 a -> wh (world_of r0) a = lhome x /\ wv (world_of r0) a = Some None) as Bn.
  { intros a X. unfold inb in X. cbn [x1 base room] in X. rewrite wh_of, H0, V0. replace (a <? nb) with false by lia. replace (a <? nb + nc) with true by lia. auto. }
  assert (held_by (world_of r0) (fun a => inb x a \/ inb x1 a) (lhome x)) as Hh.
  { revert H. apply held_same. intros t o Nt R1.
    assert (t < nb) as Ltt. { rewrite <- Lk. apply kind_lt. destruct (ref_live _ _ _ _ _ I R1) as [-> | ->]; discriminate. }
    split; [|split].
    - intros [X|X]; auto. unfold inb in X. cbn [x1 base room] in X. lia.
    - unfold refers in *. rewrite V0. replace (t <? nb) with true by lia. auto.
    - rewrite wh_of, H0. replace (t <? nb) with true by lia. auto. }
  destruct (plan_run (fun a => inb x a \/ inb x1 a) r0 k0 os kc (lhome x) G0 Cos Hh) as (r2 & R2 & T2 & N2).
  { intros v Uv. assert (inb x v \/ inb x1 v) as Bv.
    { unfold inb. cbn [x1 base room]. unfold os in Uv. fold b. apply uses_app in Uv. destruct Uv as [Uv|Uv].
      - apply uses_ctors in Uv. lia.
      - apply uses_dtors in Uv; lia. }
    destruct Bv as [X|X].
    - destruct (Bx v X) as [Q1 Q2]. pose proof (Sx v X) as Q3. split; auto. split.
      + rewrite wh_of, H0. pose proof (Lt v X). replace (v <? nb) with true by lia. auto.
      + rewrite Q3. auto.
    - destruct (Bn v X) as [Q1 Q2]. split; auto. split; auto. rewrite Q2. discriminate. }
  set (w2 := pures os (world_of r0)) in *.
  assert (forall a, wv w2 a = ended b n (shift nb b n (wv (world_of r0))) a) as Vp.
  { intros a. unfold w2, os. rewrite !pures_app, pures_end. unfold ended. rng; auto. apply move_ctors_ok; [lia|].
    intros j Lj. rewrite Sx; [|unfold inb; fold b; lia]. apply Bx. unfold inb. fold b. lia. }
  destruct (deallocate_ok b (room x) kc) as (kd & Cd & Ld & Kd).
  { intros j Lj. rewrite Kc. unfold kset. rng; auto. rewrite Ka. unfold kset. rng; auto.
    unfold b. rewrite (i_kind _ _ _ I0 _ _ _ A) by lia. fold n. now replace (j <? n) with false by lia. }
  assert (forall a, kind_of kd a = kset b (room x) KFree (kset b n KRaw (kset nb n KMade (kind_of k0))) a) as KD.
  { intros a. rewrite Kd. unfold kset. rng; auto; rewrite Kc; unfold kset; rng; auto; rewrite Ka; unfold kset; rng; auto. }
  assert (lives (world_of r0) (lhome x)) as L0. { intros o E. change (alive r0 o = true). rewrite A0. apply L. auto. }
  destruct (Inv_update (world_of r0) k0 s l x w2 kd x1 I0 A L0 eq_refl (pures_rest _ _)) as [I2 S2].
  { congruence. }
  { intros a X X1. unfold inb in X, X1. cbn [x1 base room] in X1. fold b in X. rewrite KD, Vp. unfold kset, ended, shift. rng. auto. }
  { intros a X _. split.
    * rewrite KD. unfold kset. unfold inb in X. fold b in X. rng. intros [?|?]; discriminate.
    * intros o. unfold refers. rewrite Vp. pose proof (Lt a X). unfold inb in X. fold b in X. unfold ended, shift. rng; try discriminate.
      destruct (inb_i x a) as (j & Lj & ->); [unfold inb; fold b; lia|]. rewrite (raw_null _ _ _ _ _ j I0 A L0); [discriminate|]. fold n. fold b in R. lia. }
  { intros a X1 X. unfold inb in X1. cbn [x1 base room] in X1. split; [rewrite K0; rng; auto|].
    intros m y N B Y. assert (a < nb); [|lia]. rewrite <- Lk. apply kind_lt. destruct (inb_kind _ _ _ _ _ _ I B Y) as [-> | ->]; discriminate. }
  { cbn [x1 cnt room]. auto. }
  { intros j Lj. cbn [x1 base room cnt] in *. destruct (Bn (nb + j)) as [Q1 Q2]; [unfold inb; cbn [x1 base room]; lia|]. split; [|split; [auto|]].
    - rewrite KD. unfold kset. destruct (Nat.ltb_spec j n); rng; auto; rewrite K0; rng; auto.
    - rewrite Vp. unfold ended, shift. split.
      + rng; try discriminate; try (rewrite Q2; discriminate). rewrite Sx; [|unfold inb; fold b; lia]. apply Bx. unfold inb. fold b. lia.
      + intros Q3 o. unfold refers. rewrite Vp. unfold ended, shift. rng; try discriminate; rewrite Q2; discriminate. }
  pose proof (track_collect _ _ _ _ T2) as C2.
  exists r0, k0, r2, kc, kd. fold b. split; [auto|]. split; [exact R2|]. split; [exact Cd|]. split; [apply (k_good _ _ _ _ T2)|]. split.
  { split; [auto|]. intros KP. eapply track_kp; [exact T2|]. exact (alloc_kp _ _ _ _ _ _ G L Al KP). }
  split; [eapply track_held; [exact T2|exact Hh]|]. split; [exact (collect_Inv _ _ _ _ _ I2 C2)|].
  eapply asame_trans; [|exact S0].
  assert (asame (lw w2 kd (upd s l (Some x1))) (lw (world_of r0) k0 s)) as S3.
  { eapply asame_trans; [exact S2|]. assert (items w2 x1 = items (world_of r0) x) as ->.
    { apply items_ext; auto. intros i Li. cbn [x1 cnt base] in *. rewrite Vp. unfold ended, shift. fold b. rng; auto. f_equal. lia. }
    unfold set_l. split; [auto|]. split; [auto|]. split; [auto|]. split; [|auto 10].
    cbn [al]. intros m. destruct (Nat.eqb_spec m l) as [->|]; auto. symmetry. now apply al_at. }
  eapply asame_trans; [|exact S3]. eapply no_deaths; [|exact (transfer _ _ _ _ _ _ _ I0 I2 C2)].
  intros p o R. exists p. unfold arefers in *. rewrite (asame_at _ _ p S3). exact R.
Qed.

Lemma upd_twice {A} (s : list A) : forall l x y, upd (upd s l x) l y = upd s l y.
Proof. induction s as [|h t IH]; intros [|l] x y; cbn; auto. now rewrite IH. Qed.
Lemma exec_checks os : forall r k r' k', exec os r k = Ok (r', k') -> checks os k = Ok k'.
Proof.
  induction os as [|o os IH]; intros r k r' k' E; cbn [exec checks] in *; [congruence|].
  destruct (check k o) as [k1| | |]; cbn [bind] in *; try discriminate. destruct (step r (effect_of o)) as [[r1 q]| | |]; cbn [bind] in E; try discriminate.
  eapply IH; eauto.
Qed.

Lemma remove_ok s l i n : lgood s -> llegal (lworld_of s) (LRemove l i n) -> lresult s (LRemove l i n).
Proof.
  intros (G & I & NL & KP) ((c & Ec & Hi) & Hl). destruct (list_ok s l c I Ec) as (x & A & L & Cx & Gx & Lc). rewrite Lc in Hi.
  unfold lworld_of in Hl. rewrite (alh_at _ _ _ _ _ A) in Hl. pose proof (held_list s l x _ I A Hl) as H.
  set (r := rc s) in *. set (k := kd s) in *. set (w := world_of r) in *. pose proof (i_cnt _ _ _ I _ _ A) as Hc.
  assert (forall a, inb x a -> wh w a = lhome x /\ wv w a <> None) as Bx.
  { intros a X. destruct (inb_i _ _ X) as (j & Lj & ->). split; [eapply (i_wh _ _ _ I); eauto|eapply (i_wv _ _ _ I); eauto]. }
  set (b := base x) in *. set (m := cnt x) in *. set (x1 := mkL (lhome x) b (m - n) (room x)).
  assert (forall j, j < m -> kind_of k (b + j) = KMade) as Kx.
  { intros j Lj. unfold b. rewrite (i_kind _ _ _ I _ _ _ A) by lia. fold m. now replace (j <? m) with true by lia. }
  set (oa := move_assignments (b + i) (b + i + n) (m - i - n)). set (os := oa ++ dtors (b + (m - n)) n).
  assert (checks oa k = Ok k) as Ca.
  { apply checks_assignments; intros j Lj; [|right].
    - rewrite <- Nat.add_assoc. apply Kx. lia.
    - replace (b + i + n + j) with (b + (i + n + j)) by lia. apply Kx. lia. }
  destruct (checks_dtors (b + (m - n)) n k) as (k1 & Cb & L1 & K1).
  { intros j Lj. rewrite <- Nat.add_assoc. apply Kx. lia. }
  assert (checks os k = Ok k1) as Cos by (unfold os; rewrite checks_app, Ca; exact Cb).
  destruct (plan_run (inb x) r k os k1 (lhome x) G Cos H) as (r1 & R1 & T1 & N1).
  { intros v Uv. assert (inb x v) as X.
    { unfold inb. fold b. unfold os, oa in Uv. apply uses_app in Uv. destruct Uv as [Uv|Uv]; [apply uses_assignments in Uv; lia|apply uses_dtors in Uv; lia]. }
    destruct (Bx v X). auto. }
  set (w1 := pures os w) in *. change (track (inb x) w w1 r1) in T1.
  assert (forall a, wv w1 a = if inr a (b + i) (m - i - n) then wv w (a + n) else if inr a (b + (m - n)) n then Some None else wv w a) as V1.
  { intros a. unfold w1, os, oa. rewrite pures_app, pures_end. unfold ended. destruct (Nat.eq_dec n 0) as [->|Nn].
    - unfold move_assignments. replace (b + i <? b + i + 0) with false by lia. replace (b + i + 0 <? b + i) with false by lia. cbn [pures]. rng; auto; f_equal; lia.
    - assert (forall a', wv (pures (move_assignments (b + i) (b + i + n) (m - i - n)) w) a' = shift (b + i) (b + i + n) (m - i - n) (wv w) a') as Q.
      { intros a'. apply move_assignments_ok; [lia|]. intros j Lj. apply Bx. unfold inb. fold b. lia. }
      rewrite Q. unfold shift. rng; auto. f_equal. lia. }
  destruct (Inv_update w k (ls s) l x w1 k1 x1 I A L eq_refl (pures_rest _ _)) as [I1 S1].
  { exact L1. }
  { intros a X _. unfold inb in X. fold b in X. rewrite K1, V1. unfold kset. rng. auto. }
  { intros a X X1. exfalso. apply X1. exact X. }
  { intros a X X1. exfalso. apply X1. exact X. }
  { cbn [x1 cnt room]. lia. }
  { intros j Lj. cbn [x1 base cnt room] in *. destruct (Bx (b + j)) as [Q1 Q2]; [unfold inb; fold b; lia|].
    assert (m <= j -> wv w (b + j) = Some None) as Q3.
    { intros Q3. apply (raw_null _ _ _ _ _ j I A L). fold m. lia. }
    split; [|split; [auto|split]].
    - rewrite K1. unfold kset. destruct (Nat.ltb_spec j (m - n)); rng; auto.
      + apply Kx. lia.
      + unfold b. rewrite (i_kind _ _ _ I _ _ _ A) by lia. fold m. now replace (j <? m) with false by lia.
    - rewrite V1. rng; auto; try discriminate. apply Bx. unfold inb. fold b. lia.
    - intros Q4 o. unfold refers. rewrite V1. rng; try discriminate. rewrite Q3 by lia. discriminate. }
  pose proof (track_collect _ _ _ _ T1) as C1.
  pose proof (collect_Inv _ _ _ _ _ I1 C1) as IF. pose proof (transfer _ _ _ _ _ _ _ I I1 C1) as AC.
  assert (items w1 x1 = firstn i c ++ skipn (i + n) c) as It.
  { assert (length (firstn i c) = i) as Lf by (rewrite firstn_length; lia).
    apply nth_error_ext. intros j. rewrite nth_items. cbn [x1 cnt base]. rewrite V1. destruct (Nat.ltb_spec j (m - n)) as [Lj|Lj].
    - destruct (Nat.lt_ge_cases j i).
      + rewrite nth_error_app1 by lia. rewrite nth_error_firstn. replace (j <? i) with true by lia. rewrite Cx, nth_items. fold m. fold b.
        replace (j <? m) with true by lia. rng. auto.
      + rewrite nth_error_app2 by lia. rewrite Lf, nth_error_skipn. replace (i + n + (j - i)) with (j + n) by lia. rewrite Cx, nth_items. fold m. fold b.
        replace (j + n <? m) with true by lia. rewrite Nat.add_assoc. rng. auto.
    - symmetry. apply nth_error_None. rewrite app_length, Lf, skipn_length. lia. }
  assert (lives (world_of r1) (lhome x)) as LF by (eapply track_held; [exact T1|exact H]).
  assert (held_by (world_of r1) (inb x1) (lhome x)) as HF.
  { apply (held_after w w1 (world_of r1) (inb x) (lhome x)); auto.
    - intros u. apply (proj1 (pures_rest os w)).
    - intros t N. rewrite V1. unfold inb in N. fold b in N. rng. auto. }
  assert (acollect (lworld_of s) (set_l (lworld_of s) l (Some (firstn i c ++ skipn (i + n) c))) (lw (world_of r1) k1 (upd (ls s) l (Some x1)))) as AC1.
  { eapply acollect_ext; [apply asame_refl| |apply asame_refl|exact AC]. rewrite <- It. exact S1. }
  assert (good r1) as G1 by apply (k_good _ _ _ _ T1).
  assert (kp r -> kp r1) as KP1 by (intros; eapply track_kp; [exact T1|auto]).
  assert (at_list (upd (ls s) l (Some x1)) l x1) as A1 by (apply (at_upd' _ _ _ _ _ _ A); now rewrite Nat.eqb_refl).
  assert (exists ra, exec oa r k = Ok (ra, k) /\ exec (dtors (b + (m - n)) n) ra k = Ok (r1, k1)) as (ra & Ea & Eb).
  { unfold os in R1. rewrite exec_app in R1. destruct (exec oa r k) as [[ra ka]| | |] eqn:Q; try discriminate. cbn [bind] in R1.
    pose proof (exec_checks _ _ _ _ _ Q) as Q1. exists ra. rewrite Ca in Q1. assert (ka = k) by congruence. subst ka. auto. }
  assert (exists r2 k2 x2, release ra k x1 m = Ok (r2, k2, x2) /\ good r2 /\ keep r1 r2 /\ lives (world_of r2) (lhome x) /\
     Inv (world_of r2) k2 (upd (ls s) l (Some x2)) /\ asame (lw (world_of r2) k2 (upd (ls s) l (Some x2))) (lw (world_of r1) k1 (upd (ls s) l (Some x1)))) as (r2 & k2 & x2 & E2 & G2 & [N2 KP2] & L2 & I2 & S2).
  { unfold release. cbn [x1 room cnt base lhome]. destruct (Nat.eqb_spec (room x) 0) as [Z0|Z0].
    - assert (m = 0) by (unfold m; lia). assert (n = 0) by lia. subst n. cbn [dtors map seq exec] in Eb. assert (ra = r1 /\ k = k1) as [-> ->] by (split; congruence).
      exists r1, k1, x1. split; [reflexivity|]. split; [auto|]. split; [split; auto|]. split; [auto|]. split; [exact IF|apply asame_refl].
    - replace (m - (m - n)) with n by lia. rewrite Eb. cbn [bind].
      destruct ((m - n <=? room x / 2) && (m - n <=? 8) && (m - n <? room x * 5 / 8)) eqn:Sm.
      + destruct (shrink_ok r1 k1 (upd (ls s) l (Some x1)) l x1 (room x * 5 / 8) G1 IF A1) as (r0 & k0 & r2 & k2a & k2 & Q1 & Q2 & Q3 & Q4 & Q5 & Q6 & Q7 & Q8).
        { cbn [x1 cnt]. lia. } { exact HF. }
        cbn [x1 lhome base cnt room] in Q1, Q2, Q3. rewrite Q1, Q2. cbn [bind]. rewrite Q3. cbn [bind].
        rewrite upd_twice in Q7, Q8. do 3 eexists. split; [reflexivity|]. auto.
      + exists r1, k1, x1. split; [reflexivity|]. split; [auto|]. split; [split; auto|]. split; [auto|]. split; [exact IF|apply asame_refl]. }
  exists (mkT r2 k2 (upd (ls s) l (Some x2))). split; [|split].
  - cbn [lstep]. change (rc s) with r. change (kd s) with k. rewrite Gx. cbn [bind]. replace (i + n <=? cnt x) with true by lia. fold b m oa. rewrite Ea. cbn [bind].
    fold x1. rewrite E2. cbn [bind]. eapply pure_put; eauto.
  - apply (ls_remove _ _ _ _ c); auto. eapply acollect_ext; [apply asame_refl|apply asame_refl|apply asame_sym; exact S2|exact AC1].
  - split; [auto|]. split; [exact I2|]. auto.
Qed.
