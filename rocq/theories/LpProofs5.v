(* Whole list operations: elements *)
From Verif Require Import Base BaseFacts RcModel RcSpec RcProofs RcProofs2 LpModel LpSpec LpProofs LpProofs2 LpProofs3 LpProofs4.
From Coq Require Import ZifyBool ZifyNat.
Open Scope nat_scope.

Definition held_by (w : world) (P : nat -> Prop) (h : option nat) : Prop := forall o, h = Some o -> rooted w P o.
Lemma anchored_by P w u h : wh w u = h -> held_by w P h -> anchored P w u.
Proof. intros <- H. exact H. Qed.
Lemma aheld_by w k s M P h : Inv w k s -> aheld (lw w k s) M h -> (forall t u, addr k s t u -> ~ M t -> ~ P u) -> held_by w P h.
Proof.
  intros I A C o E. specialize (A o E). clear E. induction A as [o t N R _ IH]. destruct (place_ref _ _ _ _ _ I R) as (u & B & Ru & Hu).
  apply (rooted_by _ _ o u); [eapply C; eauto|auto|]. intros h' Q. apply IH. congruence.
Qed.
Lemma held_less w (P P' : nat -> Prop) h : (forall a, P' a -> P a) -> held_by w P h -> held_by w P' h.
Proof. intros S H o E. specialize (H o E). clear E. induction H as [o t N R _ IH]. apply (rooted_by _ _ o t); auto. Qed.
Lemma held_same w w' (P P' : nat -> Prop) h : (forall t o, ~ P t -> refers w t o -> ~ P' t /\ refers w' t o /\ wh w' t = wh w t) ->
  held_by w P h -> held_by w' P' h.
Proof.
  intros S H o E. specialize (H o E). clear E. induction H as [o t N R _ IH]. destruct (S t o N R) as (N' & R' & Hh).
  apply (rooted_by _ _ o t); auto. intros h' Q. apply IH. congruence.
Qed.
Lemma held_lives' r P h : good r -> held_by (world_of r) P h -> lives (world_of r) h.
Proof. intros G H o E. destruct (H o E) as [o' t _ R _]. eapply good_refers; eauto. Qed.
Lemma ref_live w k s u o : Inv w k s -> refers w u o -> live_kind (kind_of k u).
Proof.
  intros I R. destruct (kind_of k u) eqn:K; try (now left); try (now right); exfalso; (eapply (i_blank _ _ _ I); [rewrite K; intros [?|?]; discriminate|eauto]).
Qed.
(* an object held from the stack by something else stays held *)
Lemma held_after w0 w1 w2 P h : collect w0 w1 w2 -> (forall u, wh w1 u = wh w0 u) -> (forall t, ~ P t -> wv w1 t = wv w0 t) ->
  held_by w0 P h -> held_by w2 P h.
Proof.
  intros (C1 & C2 & C3 & C4 & C5 & _) Hh V H o E. specialize (H o E). clear E. induction H as [o t N R Rt IH].
  apply (rooted_by _ _ o t); auto.
  - unfold refers in *. rewrite C4; [now rewrite V|]. intros h' Q. rewrite Hh in Q. apply (root_stays P w0 w1); auto.
  - intros h' Q. rewrite C5, Hh in Q. auto.
Qed.
Lemma raw_null w k s l x i : Inv w k s -> at_list s l x -> lives w (lhome x) -> cnt x <= i < room x -> wv w (base x + i) = Some None.
Proof.
  intros I A L Hi. pose proof (i_wv _ _ _ I _ _ i A ltac:(lia) L) as N. destruct (wv w (base x + i)) as [[o|]|] eqn:W; auto; [|congruence].
  exfalso. apply (i_blank _ _ _ I (base x + i) o); [|exact W]. rewrite (i_kind _ _ _ I _ _ i A) by lia.
  replace (i <? cnt x) with false by lia. intros [?|?]; discriminate.
Qed.

(* every object is referred to *)
Definition kp (r : st) : Prop := forall o, alive r o = true -> exists u, refers (world_of r) u o.
Definition keep (r r' : st) : Prop := (no_leak r -> no_leak r') /\ (kp r -> kp r').
Lemma keep_trans a b c : keep a b -> keep b c -> keep a c.
Proof. intros [A1 A2] [B1 B2]. split; auto. Qed.
Lemma track_kp P r w1 r' : track P (world_of r) w1 r' -> kp r -> kp r'.
Proof. intros T K o A. apply (k_kept _ _ _ _ T); auto. apply K. exact (k_old _ _ _ _ T o A). Qed.

Lemma drop_ok r k s l x : good r -> Inv (world_of r) k s -> at_list s l x -> held_by (world_of r) (inb x) (lhome x) ->
  exists r' k' w1, drop r k x = Ok (r', k') /\ good r' /\ keep r r' /\ collect (world_of r) w1 (world_of r') /\
    (forall u, wh w1 u = wh (world_of r) u) /\ (forall t, ~ inb x t -> wv w1 t = wv (world_of r) t) /\
    Inv w1 k' (upd s l (Some (mkL (lhome x) 0 0 0))) /\
    asame (lw w1 k' (upd s l (Some (mkL (lhome x) 0 0 0)))) (set_l (lw (world_of r) k s) l (Some [])).
Proof.
  intros G I A H. pose proof (held_lives' _ _ _ G H) as L. pose proof (i_cnt _ _ _ I _ _ A) as Hc.
  destruct (checks_dtors (base x) (cnt x) k) as (k1 & C1 & L1 & K1).
  { intros i Li. rewrite (i_kind _ _ _ I _ _ _ A) by lia. now replace (i <? cnt x) with true by lia. }
  destruct (exec_ok (inb x) (world_of r) (dtors (base x) (cnt x)) (world_of r) r k k1 (track_init _ _ G) C1) as (r' & R' & T' & N').
  { intros o Io v Uv. assert (base x <= v < base x + cnt x) as Rv by (apply uses_dtors; exists o; auto).
    destruct (inb_i x v) as (i & Li & ->); [unfold inb; lia|]. split.
    - apply (anchored_by _ _ _ (lhome x)); auto. eapply (i_wh _ _ _ I); eauto.
    - eapply (i_wv _ _ _ I); eauto. }
  { intros o Io v Wv. assert (base x <= v < base x + cnt x) as Rv by (apply uses_dtors; exists o; split; auto; now apply writes_uses). unfold inb. lia. }
  destruct (deallocate_ok (base x) (room x) k1) as (k2 & C2 & L2 & K2).
  { intros i Li. rewrite K1. unfold kset. rng; auto. rewrite (i_kind _ _ _ I _ _ _ A) by lia. now replace (i <? cnt x) with false by lia. }
  set (w1 := pures (dtors (base x) (cnt x)) (world_of r)) in *.
  assert (forall a, wv w1 a = ended (base x) (cnt x) (wv (world_of r)) a) as V by (intros; apply pures_end).
  pose proof (pures_rest (dtors (base x) (cnt x)) (world_of r)) as Rst. fold w1 in Rst.
  assert (forall a, ~ inb (mkL (lhome x) 0 0 0) a) as Nb by (intros a; unfold inb; cbn [base room]; lia).
  exists r', k2, w1. unfold drop. rewrite R'. cbn [bind]. rewrite C2. cbn [bind]. split; [reflexivity|].
  split; [apply (k_good _ _ _ _ T')|]. split; [split; [auto|eapply track_kp; eauto]|]. split; [apply track_collect with (P := inb x); auto|]. split; [apply Rst|]. split.
  { intros t N. rewrite V. unfold ended. rng; auto. exfalso. apply N. unfold inb. lia. }
  apply (Inv_update (world_of r) k s l x w1 k2 (mkL (lhome x) 0 0 0) I A L); auto.
  - congruence.
  - intros a N _. rewrite K2, V. unfold kset, ended, inb in *. rng. rewrite K1. unfold kset. rng. auto.
  - intros a X _. rewrite K2. unfold kset. destruct (inb_i _ _ X) as (i & Li & ->). rng. split; [intros [?|?]; discriminate|].
    intros o. unfold refers. rewrite V. unfold ended. rng; [discriminate|]. rewrite (raw_null _ _ _ _ _ i I A L); [discriminate|lia].
  - intros a X. exfalso. eapply Nb; eauto.
  - cbn [room]. intros; lia.
Qed.

Lemma plan_run P r k os k1 h : good r -> checks os k = Ok k1 -> held_by (world_of r) P h ->
  (forall v, uses_any os v -> P v /\ wh (world_of r) v = h /\ wv (world_of r) v <> None) ->
  exists r', exec os r k = Ok (r', k1) /\ track P (world_of r) (pures os (world_of r)) r' /\ (no_leak r -> no_leak r').
Proof.
  intros G C H U. apply exec_ok; auto.
  - now apply track_init.
  - intros o Io v Uv. destruct (U v) as (_ & Q1 & Q2); [exists o; auto|]. split; auto. apply (anchored_by _ _ _ h); auto.
  - intros o Io v Wv. apply U. exists o. split; auto. now apply writes_uses.
Qed.

Lemma alloc_kp r k h n r' k' : good r -> lives (world_of r) h -> allocate r k h n = (r', k') -> kp r -> kp r'.
Proof.
  intros G L E K o A. destruct (allocate_ok _ _ _ _ _ _ G L E) as (_ & _ & _ & V & _ & Al & _). rewrite Al in A.
  destruct (K o A) as [u R]. exists u. unfold refers in *. rewrite V. replace (u <? length (vs r)) with true; auto.
  symmetry. apply Nat.ltb_lt. rewrite wv_of in R. destruct (ex r u) eqn:X; [eapply ex_lt; eauto|discriminate].
Qed.
(* room for one more element at index i *)
Definition gap_at (w0 : world) (k0 : list kind) (s : list (option lrec)) (l : nat) (x x1 : lrec) (i : nat) (w2 : world) (k2 : list kind) : Prop :=
  lhome x1 = lhome x /\ cnt x1 = S (cnt x) /\ S (cnt x) <= room x1 /\ length k2 = length k0 /\ rest w2 w0 /\
  (forall a, ~ inb x a -> ~ inb x1 a -> kind_of k2 a = kind_of k0 a /\ wv w2 a = wv w0 a) /\
  (forall a, inb x a -> ~ inb x1 a -> ~ live_kind (kind_of k2 a) /\ forall o, ~ refers w2 a o) /\
  (forall a, inb x1 a -> ~ inb x a -> kind_of k0 a = KRaw /\ forall m y, m <> l -> at_list s m y -> ~ inb y a) /\
  (forall j, j < room x1 -> wh w0 (base x1 + j) = lhome x /\
     kind_of k2 (base x1 + j) = (if j =? i then KRaw else if j <? S (cnt x) then KMade else KRaw) /\
     wv w2 (base x1 + j) = (if j <? i then wv w0 (base x + j) else if j =? i then Some None
                            else if j <? S (cnt x) then wv w0 (base x + (j - 1)) else Some None)).
Lemma gap_ok r k s l x i (Q : nat -> Prop) : good r -> Inv (world_of r) k s -> at_list s l x -> i <= cnt x ->
  held_by (world_of r) (fun a => inb x a \/ Q a) (lhome x) ->
  exists r2 k2 x1 r0 k0 w2, insert_uninitialized r k x i 1 = Ok (r2, k2, x1) /\ good r0 /\ (no_leak r -> no_leak r2) /\ (kp r -> kp r0) /\
    Inv (world_of r0) k0 s /\ asame (lw (world_of r0) k0 s) (lw (world_of r) k s) /\
    (forall a, live_kind (kind_of k a) -> kind_of k0 a = kind_of k a /\ wv (world_of r0) a = wv (world_of r) a /\ wh (world_of r0) a = wh (world_of r) a) /\
    track (fun a => inb x a \/ inb x1 a \/ Q a) (world_of r0) w2 r2 /\ gap_at (world_of r0) k0 s l x x1 i w2 k2.
Proof.
  intros G I A Hi H. pose proof (held_lives' _ _ _ G H) as L. pose proof (i_cnt _ _ _ I _ _ A) as Hc.
  assert (forall j, j < cnt x -> kind_of k (base x + j) = KMade) as Kx.
  { intros j Lj. rewrite (i_kind _ _ _ I _ _ _ A) by lia. now replace (j <? cnt x) with true by lia. }
  assert (forall j, cnt x <= j < room x -> kind_of k (base x + j) = KRaw) as Kr.
  { intros j Lj. rewrite (i_kind _ _ _ I _ _ _ A) by lia. now replace (j <? cnt x) with false by lia. }
  assert (forall a, inb x a -> wh (world_of r) a = lhome x /\ wv (world_of r) a <> None) as Bx.
  { intros a X. destruct (inb_i _ _ X) as (j & Lj & ->). split; [eapply (i_wh _ _ _ I); eauto|eapply (i_wv _ _ _ I); eauto]. }
  unfold insert_uninitialized. set (n := cnt x) in *. set (b := base x) in *. destruct (Nat.ltb_spec (room x) (n + 1)) as [Full|Room].
  - (* a new buffer *)
    set (nc := (n + 1) * 5 / 4 + 1). assert (n + 1 <= nc) as Hnc.
    { unfold nc. pose proof (Nat.div_le_lower_bound ((n + 1) * 5) 4 (n + 1)). lia. }
    destruct (allocate r k (lhome x) nc) as [r0 k0] eqn:Al.
    destruct (allocate_ok _ _ _ _ _ _ G L Al) as (G0 & NL0 & Ek0 & V0 & H0 & A0 & Lo & Lv).
    destruct (Inv_alloc _ _ _ _ _ _ _ G I L Al) as [I0 S0].
    set (nb := length (vs r)) in *. pose proof (i_len _ _ _ I) as Lk. cbn [world_of wm] in Lk. fold nb in Lk.
    assert (forall a, kind_of k0 a = if inr a nb nc then KRaw else kind_of k a) as K0 by (intros; rewrite Ek0, kind_app, Lk; reflexivity).
    assert (forall a, inb x a -> a < nb) as Lt.
    { intros a X. rewrite <- Lk. apply kind_lt. destruct (inb_kind _ _ _ _ _ _ I A X) as [-> | ->]; discriminate. }
    assert (forall a, inb x a -> kind_of k0 a = kind_of k a /\ wv (world_of r0) a = wv (world_of r) a) as Sx.
    { intros a X. pose proof (Lt a X). rewrite K0, V0. rng. replace (a <? nb) with true by lia. auto. }
    assert (forall j, j < n -> kind_of k0 (b + j) = KMade) as Kx0.
    { intros j Lj. destruct (Sx (b + j)) as [-> _]; [unfold inb; lia|auto]. }
    assert (n <= room x) as Hc' by (unfold n; lia).
    assert (0 < n -> b + n <= nb) as Apart. { intros Q0. pose proof (Lt (b + (n - 1)) ltac:(unfold inb; lia)). lia. }
    set (x1 := mkL (lhome x) nb (n + 1) nc).
    set (os := move_ctors nb b i ++ move_ctors (nb + i + 1) (b + i) (n - i) ++ dtors b n).
    destruct (checks_ctors nb b i k0) as (ka & Ca & La & Ka).
    { intros j Lj. rewrite K0. rng. auto. } { intros j Lj. right. apply Kx0. lia. }
    destruct (checks_ctors (nb + i + 1) (b + i) (n - i) ka) as (kb & Cb & Lb & Kb).
    { intros j Lj. rewrite Ka. unfold kset. rng. rewrite K0. rng. auto. }
    { intros j Lj. right. rewrite Ka. unfold kset. rng; auto. rewrite <- Nat.add_assoc. apply Kx0. lia. }
    destruct (checks_dtors b n kb) as (kc & Cc & Lc & Kc).
    { intros j Lj. rewrite Kb. unfold kset. rng; auto. rewrite Ka. unfold kset. rng; auto. }
    assert (checks os k0 = Ok kc) as Cos. { unfold os. rewrite !checks_app, Ca. cbn [bind]. rewrite checks_app, Cb. cbn [bind]. exact Cc. }
    assert (forall a, inb x1 a -> wh (world_of r0) a = lhome x /\ wv (world_of r0) a = Some None) as Bn.
    { intros a X. unfold inb in X. cbn [x1 base room] in X. rewrite wh_of, H0, V0. replace (a <? nb) with false by lia. replace (a <? nb + nc) with true by lia. auto. }
    assert (held_by (world_of r0) (fun a => inb x a \/ inb x1 a \/ Q a) (lhome x)) as Hh.
    { revert H. apply held_same. intros t o Nt R1.
      assert (t < nb) as Ltt. { rewrite <- Lk. apply kind_lt. destruct (ref_live _ _ _ _ _ I R1) as [-> | ->]; discriminate. }
      split; [|split].
      - intros [X|[X|X]]; auto. unfold inb in X. cbn [x1 base room] in X. lia.
      - unfold refers in *. rewrite V0. replace (t <? nb) with true by lia. auto.
      - rewrite wh_of, H0. replace (t <? nb) with true by lia. auto. }
    destruct (plan_run (fun a => inb x a \/ inb x1 a \/ Q a) r0 k0 os kc (lhome x) G0 Cos Hh) as (r2 & R2 & T2 & N2).
    { intros v Uv. assert (inb x v \/ inb x1 v) as Bv.
      { unfold inb. cbn [x1 base room]. unfold os in Uv. fold b. apply uses_app in Uv. destruct Uv as [Uv|Uv].
        - apply uses_ctors in Uv. lia.
        - apply uses_app in Uv. destruct Uv as [Uv|Uv]; [apply uses_ctors in Uv; lia|apply uses_dtors in Uv; lia]. }
      destruct Bv as [X|X].
      - destruct (Bx v X) as [Q1 Q2]. destruct (Sx v X) as [_ Q3]. split; auto. split.
        + rewrite wh_of, H0. pose proof (Lt v X). replace (v <? nb) with true by lia. auto.
        + rewrite Q3. auto.
      - destruct (Bn v X) as [Q1 Q2]. split; auto. split; auto. rewrite Q2. discriminate. }
    assert (forall a, wv (pures os (world_of r0)) a =
       ended b n (shift (nb + i + 1) (b + i) (n - i) (shift nb b i (wv (world_of r0)))) a) as Vp.
    { intros a. unfold os. rewrite !pures_app, pures_end. unfold ended. rng; auto.
      rewrite move_ctors_ok.
      - unfold shift at 1. symmetry. unfold shift at 1. rng; auto; rewrite move_ctors_ok; auto; try lia; intros j Lj;
          (destruct (Sx (b + j)) as [_ ->]; [unfold inb; fold b; lia|apply Bx; unfold inb; fold b; lia]).
      - lia.
      - intros j Lj. rewrite move_ctors_ok; [|lia|].
        + unfold shift. rng; try discriminate. rewrite <- Nat.add_assoc. destruct (Sx (b + (i + j))) as [_ ->]; [unfold inb; fold b; lia|apply Bx; unfold inb; fold b; lia].
        + intros j' Lj'. destruct (Sx (b + j')) as [_ ->]; [unfold inb; fold b; lia|apply Bx; unfold inb; fold b; lia]. }
    destruct (deallocate_ok b (room x) kc) as (kd & Cd & Ld & Kd).
    { intros j Lj. rewrite Kc. unfold kset. rng; auto. }
    exists r2, kd, x1, r0, k0, (pures os (world_of r0)). fold os. rewrite R2. cbn [bind]. rewrite Cd. cbn [bind].
    split; [reflexivity|]. split; [auto|]. split; [auto|]. split; [eapply alloc_kp; eauto|]. split; [auto|]. split; [auto|]. split.
    { intros a La0. assert (a < nb) as Q1. { rewrite <- Lk. apply kind_lt. destruct La0 as [-> | ->]; discriminate. }
      rewrite K0, V0, !wh_of, H0. rng. replace (a <? nb) with true by lia. auto. }
    split; [exact T2|].
    assert (forall a, kind_of kd a = kset b (room x) KFree (kset b n KRaw (kset (nb + i + 1) (n - i) KMade (kset nb i KMade (kind_of k0)))) a) as KD.
    { intros a. rewrite Kd. unfold kset. rng; auto; rewrite Kc; unfold kset; rng; auto; rewrite Kb; unfold kset; rng; auto; rewrite Ka; unfold kset; rng; auto. }
    split; [reflexivity|]. split; [cbn [x1 cnt]; unfold n; lia|]. split; [cbn [x1 room]; unfold n in Hnc; lia|]. split; [congruence|].
    split; [apply pures_rest|]. split; [|split; [|split]].
    + intros a X X1. unfold inb in X, X1. cbn [x1 base room] in X1. fold b in X. rewrite KD, Vp. unfold kset, ended, shift. rng. auto.
    + intros a X _. split.
      * rewrite KD. unfold kset. unfold inb in X. fold b in X. rng. intros [?|?]; discriminate.
      * intros o. unfold refers. rewrite Vp. pose proof (Lt a X). unfold inb in X. fold b in X. unfold ended, shift. rng; try discriminate.
    + intros a X1 X. unfold inb in X1. cbn [x1 base room] in X1. split; [rewrite K0; rng; auto|].
      intros m y N B Y. assert (a < nb); [|lia]. rewrite <- Lk. apply kind_lt. destruct (inb_kind _ _ _ _ _ _ I B Y) as [-> | ->]; discriminate.
    + intros j Lj. cbn [x1 base room] in *. fold n. split; [apply Bn; unfold inb; cbn [x1 base room]; lia|]. split.
      * rewrite KD. unfold kset. assert (0 < room x -> b + room x <= nb) as Q0.
        { intros Q0. pose proof (Lt (b + (room x - 1)) ltac:(unfold inb; fold b; lia)). lia. }
        destruct (Nat.eqb_spec j i).
        -- rng; auto. rewrite K0. rng. auto.
        -- destruct (Nat.ltb_spec j (S n)); rng; auto; rewrite K0; rng; auto.
      * rewrite Vp. unfold ended, shift. destruct (Nat.ltb_spec j i).
        -- rng. f_equal. lia.
        -- destruct (Nat.eqb_spec j i).
           ++ rng; auto. apply Bn. unfold inb. cbn [x1 base room]. lia.
           ++ destruct (Nat.ltb_spec j (S n)); rng; auto.
              ** f_equal. lia.
              ** apply Bn. unfold inb. cbn [x1 base room]. lia.
  - (* the same buffer *)
    assert (held_by (world_of r) (fun a => inb x a \/ inb x a \/ Q a) (lhome x)) as Hh.
    { eapply held_less; [|exact H]. cbn. intros; tauto. }
    set (x1 := mkL (lhome x) b (n + 1) (room x)).
    assert (forall a, inb x1 a <-> inb x a) as Bq by (intros; unfold inb; cbn [x1 base room]; fold b; tauto).
    assert (exists os k2, (if i <? n then exec (if n - i <=? 1 then move_ctors (b + i + 1) (b + i) (n - i) ++ dtors (b + i) (n - i)
              else move_ctors (b + n) (b + n - 1) 1 ++ move_assignments (b + i + 1) (b + i) (n - i - 1) ++ dtors (b + i) 1) r k else Ok (r, k)) = exec os r k /\
       checks os k = Ok k2 /\ length k2 = length k /\
       (forall v, uses_any os v -> inb x v) /\
       (forall a, kind_of k2 a = if a =? b + i then KRaw else if inr a (b + i) (n - i + 1) then KMade else kind_of k a) /\
       (forall a, wv (pures os (world_of r)) a = if a =? b + i then Some None else if inr a (b + i + 1) (n - i) then wv (world_of r) (a - 1) else wv (world_of r) a))
      as (os & k2 & Eos & Cos & Los & Uos & Kos & Vos).
    { destruct (Nat.ltb_spec i n) as [Lin|].
      - destruct (Nat.leb_spec (n - i) 1) as [One|More].
        + exists (move_ctors (b + i + 1) (b + i) (n - i) ++ dtors (b + i) (n - i)).
          destruct (checks_ctors (b + i + 1) (b + i) (n - i) k) as (ka & Ca & La & Ka).
          { intros j Lj. replace (b + i + 1 + j) with (b + (i + 1 + j)) by lia. apply Kr. fold n. lia. }
          { intros j Lj. right. rewrite <- Nat.add_assoc. apply Kx. lia. }
          destruct (checks_dtors (b + i) (n - i) ka) as (kb & Cb & Lb & Kb).
          { intros j Lj. rewrite Ka. unfold kset. rng. rewrite <- Nat.add_assoc. apply Kx. lia. }
          exists kb. split; [reflexivity|]. split; [rewrite checks_app, Ca; exact Cb|]. split; [congruence|]. split; [|split].
          * intros v Uv. unfold inb. fold b. apply uses_app in Uv. destruct Uv as [Uv|Uv]; [apply uses_ctors in Uv; lia|apply uses_dtors in Uv; lia].
          * intros a. rewrite Kb. unfold kset. rng; auto; rewrite Ka; unfold kset; rng; auto.
          * intros a. rewrite pures_app, pures_end. unfold ended. rng; auto; (rewrite move_ctors_ok; [|lia|]).
            -- unfold shift. rng. f_equal. lia.
            -- intros j Lj. apply Bx. unfold inb. fold b. lia.
            -- unfold shift. rng. auto.
            -- intros j Lj. apply Bx. unfold inb. fold b. lia.
        + exists (move_ctors (b + n) (b + n - 1) 1 ++ move_assignments (b + i + 1) (b + i) (n - i - 1) ++ dtors (b + i) 1).
          destruct (checks_ctors (b + n) (b + n - 1) 1 k) as (ka & Ca & La & Ka).
          { intros j Lj. rewrite <- Nat.add_assoc. apply Kr. fold n. lia. }
          { intros j Lj. right. replace (b + n - 1 + j) with (b + (n - 1 + j)) by lia. apply Kx. lia. }
          assert (checks (move_assignments (b + i + 1) (b + i) (n - i - 1)) ka = Ok ka) as Cb.
          { apply checks_assignments; intros j Lj; [|right]; rewrite Ka; unfold kset; rng; auto.
            - replace (b + i + 1 + j) with (b + (i + 1 + j)) by lia. apply Kx. lia.
            - rewrite <- Nat.add_assoc. apply Kx. lia. }
          destruct (checks_dtors (b + i) 1 ka) as (kb & Cc & Lb & Kb).
          { intros j Lj. rewrite Ka. unfold kset. rng. rewrite <- Nat.add_assoc. apply Kx. lia. }
          exists kb. split; [reflexivity|]. split; [rewrite checks_app, Ca; cbn [bind]; rewrite checks_app, Cb; exact Cc|]. split; [congruence|]. split; [|split].
          * intros v Uv. unfold inb. fold b. apply uses_app in Uv. destruct Uv as [Uv|Uv]; [apply uses_ctors in Uv; lia|].
            apply uses_app in Uv. destruct Uv as [Uv|Uv]; [apply uses_assignments in Uv; lia|apply uses_dtors in Uv; lia].
          * intros a. rewrite Kb. unfold kset. rng; auto; rewrite Ka; unfold kset; rng; auto.
            replace a with (b + (a - b)) by lia. apply Kx. lia.
          * assert (forall a, wv (pures (move_ctors (b + n) (b + n - 1) 1) (world_of r)) a = shift (b + n) (b + n - 1) 1 (wv (world_of r)) a) as Q1.
            { intros a. apply move_ctors_ok; [lia|]. intros j Lj. apply Bx. unfold inb. fold b. lia. }
            intros a. rewrite !pures_app, pures_end. unfold ended.
            rewrite move_assignments_ok; [|lia|].
            -- unfold shift. rewrite !Q1. unfold shift. rng; auto; f_equal; lia.
            -- intros j Lj. rewrite Q1. unfold shift. rng; try discriminate; apply Bx; unfold inb; fold b; lia.
      - assert (i = n) by lia. subst i. exists [], k. split; [reflexivity|]. split; [reflexivity|]. split; [reflexivity|]. split; [|split].
        + intros v (o & [] & _).
        + intros a. destruct (Nat.eqb_spec a (b + n)) as [->|].
          * apply Kr. fold n. lia.
          * rng. auto.
        + intros a. cbn [pures]. destruct (Nat.eqb_spec a (b + n)) as [->|].
          * apply (raw_null _ _ _ _ _ _ I A L). fold n. lia.
          * rng. auto. }
    assert ((if i <? n then do (r, k) <- exec (if n - i <=? 1 then move_ctors (b + i + 1) (b + i) (n - i) ++ dtors (b + i) (n - i)
              else move_ctors (b + n) (b + n - 1) 1 ++ move_assignments (b + i + 1) (b + i) (n - i - 1) ++ dtors (b + i) 1) r k;
              Ok (r, k, x1) else Ok (r, k, x1)) = do (r, k) <- exec os r k; Ok (r, k, x1)) as Eo.
    { rewrite <- Eos. destruct (i <? n); reflexivity. }
    destruct (plan_run (fun a => inb x a \/ inb x a \/ Q a) r k os k2 (lhome x) G Cos Hh) as (r2 & R2 & T2 & N2).
    { intros v Uv. pose proof (Uos v Uv) as X. destruct (Bx v X). auto. }
    exists r2, k2, x1, r, k, (pures os (world_of r)). split; [etransitivity; [exact Eo|]; rewrite R2; reflexivity|].
    split; [auto|]. split; [auto|]. split; [auto|]. split; [auto|]. split; [apply asame_refl|]. split; [auto|]. split.
    { destruct T2 as [T1 T2 T3 T4 T5 T6 T7 T8 T9 T10 T11 T12 T13]. constructor; auto. }
    split; [reflexivity|]. split; [cbn [x1 cnt]; fold n; lia|]. split; [cbn [x1 room]; fold n; lia|]. split; [auto|]. split; [apply pures_rest|].
    split; [|split; [|split]].
    + intros a X _. unfold inb in X. fold b in X. rewrite Kos, Vos. rng. auto.
    + intros a X X1. rewrite Bq in X1. contradiction.
    + intros a X1 X. rewrite Bq in X1. contradiction.
    + intros j Lj. cbn [x1 base room] in *. split; [apply Bx; unfold inb; fold b; lia|]. fold n. rewrite Kos, Vos. split.
      * destruct (Nat.eqb_spec j i); rng; auto.
        -- replace (j <? S n) with true by lia. auto.
        -- destruct (Nat.ltb_spec j (S n)); [apply Kx; lia|apply Kr; fold n; lia].
      * destruct (Nat.ltb_spec j i).
        -- rng. auto.
        -- destruct (Nat.eqb_spec j i); rng; auto.
           ++ replace (j <? S n) with true by lia. f_equal. lia.
           ++ replace (j <? S n) with false by lia. apply (raw_null _ _ _ _ _ _ I A L). fold n. lia.
Qed.
