From Coq Require Import ZifyBool ZifyNat Permutation.
From Verif Require Import Base BaseFacts StrModel StrSpec StrProofs SlModel SlSpec SlProofs.
From Verif Require LstModel LstSpec LstProofs.
Open Scope Z_scope.

(* ---- moving into a new buffer -------------------------------------------------------- *)
(* Everything the list code does when it replaces a buffer: [go] is what happens to the
   plain buffers, [p] the statements. *)
Lemma sim_replace s vs x y nb' m' newcap p sp :
  Rel (objs s) vs -> lrep vs x y -> held s (base x, room x) = true -> 0 < newcap -> sp = [(length (vars (objs s)), newcap); (base x, room x)] ->
  (forall ws, rep ws (length vs) (LstModel.allocate _ newcap) -> rep ws (base x) (LstModel.buf y) ->
     zlen nb' = newcap /\ zlen m' = room x /\
     exists ws', sexec sp p ws = Ok ws' /\ rep ws' (length vs) nb' /\ rep ws' (base x) m' /\
       frame (fun a => at_span (length vs) newcap a \/ span x a) ws ws') ->
  LstModel.deallocate _ m' = Ok tt ->
  let (s1, nb) := allocate s newcap in
  exists s2 s3 vs2, nb = length (vars (objs s)) /\ exec sp p s1 = Ok s2 /\ deallocate s2 (base x) (room x) = Ok s3 /\ Rel (objs s3) vs2 /\
    rep vs2 (length vs) nb' /\ zlen nb' = newcap /\
    forall n, changes vs x vs2 (mkSl nb n newcap) /\ swap (live s) x (live s3) (mkSl nb n newcap).
Proof.
  intros R LR Hd Hn -> G D. unfold allocate. cbv zeta.
  pose proof (rel_len _ _ R) as RL. pose proof (fun a => lrep_span vs x y a LR) as Sp.
  destruct LR as (Hc & Hr & Hl & Rp).
  destruct (G (vs ++ repeat None (Z.to_nat newcap))) as (L1 & L2 & ws' & E & R1 & R2 & F).
  { rewrite LstProofs.allocate_pos by lia. apply rep_new. }
  { now apply rep_app. }
  set (st1 := mkSt _ _).
  assert (H1 : held st1 (length (vars (objs s)), newcap) = true) by (eapply held_first; reflexivity).
  assert (H2 : held st1 (base x, room x) = true) by (eapply held_new; [reflexivity|exact Hd]).
  destruct (exec_ok [(length (vars (objs s)), newcap); (base x, room x)] p st1 _ _ ltac:(cbn [forallb]; now rewrite H1, H2) (rel_alloc _ _ (Z.to_nat newcap) R) E) as (s2 & E2 & RR).
  exists (mkSt s2 (live st1)), (mkSt s2 (del x (live st1))), ws'. split; [reflexivity|]. split; [exact E2|].
  assert (Old : forall a, span x a -> nth_error ws' a = Some None).
  { intros a Ha. eapply dealloc_raw; [exact R2|exact D|]. now rewrite L2. }
  split; [apply (dealloc_ok (mkSt s2 (live st1)) ws'); auto|]. split; [exact RR|]. split; [exact R1|]. split; [exact L1|].
  destruct F as [FL F]. rewrite app_length, repeat_length in FL.
  intros n. split.
  2:{ right. unfold st1, add, del. cbn [live base room filter fst]. replace (newcap =? 0) with false by lia.
      destruct (room x =? 0) eqn:Er; [reflexivity|].
      assert (base x < length vs)%nat.
      { apply Sp. unfold span, at_span. pose proof (zlen_nonneg (LstModel.buf y)). lia. }
      replace (length (vars (objs s)) =? base x)%nat with false by lia. reflexivity. }
  split; [|split].
  - unfold span. cbn [base room]. intros a [Ha1 Ha2]. lia.
  - intros a _ Ha. now apply Old.
  - unfold span. cbn [base room]. intros a Na Nx. destruct (Nat.lt_ge_cases a (length vs)) as [Hlt|Hge].
    + rewrite F; [|intros [X|X]; [apply Na; rewrite RL; exact X|exact (Nx X)]]. now rewrite nth_error_app1.
    + assert (length ws' <= a)%nat.
      { rewrite FL. destruct (Nat.lt_ge_cases a (length vs + Z.to_nat newcap)); [|lia]. exfalso. apply Na. unfold at_span. lia. }
      transitivity (@None (option (list Z))); [|symmetry]; apply nth_error_None; lia.
Qed.

Lemma okinj {A} (a b : A) : Ok a = Ok b -> a = b.
Proof. congruence. Qed.

Lemma new_old_disjoint vs x y newcap : lrep vs x y -> forall a, at_span (length vs) newcap a -> ~ at_span (base x) (room x) a.
Proof. intros L a [H1 _] H2. pose proof (lrep_span vs x y a L H2). lia. Qed.

Lemma allocate_len n : 0 <= n -> zlen (LstModel.allocate (list Z) n) = n.
Proof. intros H. rewrite LstProofs.allocate_pos, zlen_repeat by exact H. lia. Qed.

Lemma sim_insert_uninit s vs x y i k y' : Rel (objs s) vs -> lrep vs x y -> held s (base x, room x) = true -> 0 <= i <= LstModel.count y -> 0 <= k ->
  LstModel.insert_uninitialized _ y i k = Ok y' ->
  exists s' x' vs', insert_uninitialized s x i k = Ok (s', x') /\ Rel (objs s') vs' /\ lrep vs' x' y' /\ changes vs x vs' x' /\ swap (live s) x (live s') x' /\
    (base x' = base x /\ room x' = room x \/ base x' = length vs).
Proof.
  intros R LR Hd Hi Hk H. pose proof LR as (Hc & Hr & Hl & Rp). assert (LY : zlen (LstModel.buf y) = room x) by congruence. pose proof (rel_len _ _ R) as RL.
  assert (Sp : forall a, span x a -> (a < length vs)%nat) by (intros a; exact (lrep_span vs x y a LR)).
  unfold LstModel.insert_uninitialized in H. unfold insert_uninitialized. cbv zeta in *. rewrite Hc, Hr.
  destruct (LstModel.count y + k >? LstModel.cap y) eqn:E0.
  - replace (LstModel.count y + k <? LstModel.cap y) with false in * by lia.
    set (newcap := (LstModel.count y + k) * 5 / 4 + 1) in *.
    assert (Hn : 0 < newcap) by (unfold newcap; lia). assert (Hn' : 0 <= newcap) by lia. clearbody newcap.
    peel H q1 H1. destruct q1 as [nb1 m1]. peel H q2 H2. destruct q2 as [nb2 m2]. peel H m3 H3. peel H u H4. destruct u.
    apply okinj in H. subst y'.
    pose proof (sim_replace s vs x y nb2 m3 newcap
       (move_ctors (length (vars (objs s))) 0 (base x) 0 (Z.to_nat i) ++
        move_ctors (length (vars (objs s))) (i + k) (base x) i (Z.to_nat (LstModel.count y - i)) ++
        dtors (base x) 0 (Z.to_nat (LstModel.count y)))
       [(length (vars (objs s)), newcap); (base x, room x)] R LR Hd Hn eq_refl) as K.
    destruct K as (s2 & s3 & vs2 & _ & E2 & D2 & R2 & Rep2 & L2 & Ch).
    + intros ws W1 W2. rewrite RL.
      set (sp := [(length vs, newcap); (base x, room x)]).
      assert (C1 : covers sp (length vs) newcap) by apply covers_1.
      assert (C2 : covers sp (base x) (room x)) by (apply covers_2, covers_1).
      pose proof (new_old_disjoint vs x y newcap LR) as Dj.
      destruct (sim_across sp _ _ _ _ C1 C2 Dj _ _ _ _ _ _ _ ws (allocate_len _ Hn') LY W1 W2 H1)
        as (A1 & A2 & w1 & X1 & P1 & P2 & F1).
      destruct (sim_across sp _ _ _ _ C1 C2 Dj _ _ _ _ _ _ _ w1 A1 A2 P1 P2 H2)
        as (A3 & A4 & w2 & X2 & P3 & P4 & F2).
      destruct (sim_dtors sp _ _ C2 _ _ _ _ w2 A4 P4 H3) as (A5 & w3 & X3 & P5 & F3).
      split; [exact A3|]. split; [exact A5|]. exists w3.
      split; [rewrite (sexec_app _ _ _ _ _ X1), (sexec_app _ _ _ _ _ X2); exact X3|].
      split; [|split; [exact P5|]].
      * eapply rep_frame; [exact P3|exact F3|]. intros a Ha. rewrite A3 in Ha. now apply Dj.
      * eapply frame_trans; [exact F1|]. eapply frame_trans; [exact F2|]. eapply frame_mono; [|exact F3]. intros a Ha. now right.
    + exact H4.
    + unfold allocate in *. rewrite Hr in E2, D2. rewrite E2. cbn [bind]. rewrite D2. cbn [bind].
      do 3 eexists. split; [reflexivity|]. split; [exact R2|]. split; [|split; [apply Ch|split; [apply Ch|right; exact RL]]].
      split; [reflexivity|]. split; [reflexivity|]. split; [exact L2|]. cbn [base LstModel.buf]. rewrite RL. exact Rep2.
  - set (sp := [(base x, LstModel.cap y)]).
    assert (C : covers sp (base x) (room x)) by (unfold sp; rewrite <- Hr; apply covers_1).
    assert (HS : forallb (held s) sp = true) by (unfold sp; cbn [forallb]; rewrite <- Hr, Hd; reflexivity).
    destruct (i <? LstModel.count y) eqn:E1.
    + destruct (k >=? LstModel.count y - i) eqn:E2.
      * peel H m1 H1. peel H m2 H2. apply okinj in H. subst y'.
        destruct (sim_within sp _ _ C _ _ _ _ _ vs LY Rp H1) as (A1 & w1 & X1 & P1 & F1).
        destruct (sim_dtors sp _ _ C _ _ _ _ w1 A1 P1 H2) as (A2 & w2 & X2 & P2 & F2).
        destruct (exec_ok sp (move_ctors (base x) (i + k) (base x) i (Z.to_nat (LstModel.count y - i)) ++ dtors (base x) i (Z.to_nat (LstModel.count y - i))) s vs w2 HS R)
          as (s' & E & R'); [rewrite (sexec_app _ _ _ _ _ X1); exact X2|].
        rewrite E. cbn [bind]. do 3 eexists. split; [reflexivity|]. split; [exact R'|].
        split; [split; [reflexivity|split; [reflexivity|split; [cbn; lia|exact P2]]]|].
        split; [|split; [left; cbn; auto|left; cbn; auto]].
        apply changes_frame; auto. eapply frame_trans; eauto.
      * peel H m1 H1. peel H m2 H2. peel H m3 H3. apply okinj in H. subst y'.
        destruct (sim_within sp _ _ C _ _ _ _ _ vs LY Rp H1) as (A1 & w1 & X1 & P1 & F1).
        destruct (sim_overlapped sp _ _ _ _ _ _ _ w1 C A1 P1 H2) as (A2 & w2 & X2 & P2 & F2).
        destruct (sim_dtors sp _ _ C _ _ _ _ w2 A2 P2 H3) as (A3 & w3 & X3 & P3 & F3).
        match goal with |- context [exec sp ?p s] => destruct (exec_ok sp p s vs w3 HS R) as (s' & E & R') end;
          [rewrite (sexec_app _ _ _ _ _ X1), (sexec_app _ _ _ _ _ X2); exact X3|].
        rewrite E. cbn [bind]. do 3 eexists. split; [reflexivity|]. split; [exact R'|].
        split; [split; [reflexivity|split; [reflexivity|split; [cbn; lia|exact P3]]]|].
        split; [|split; [left; cbn; auto|left; cbn; auto]].
        apply changes_frame; auto. eapply frame_trans; [exact F1|]. eapply frame_trans; eauto.
    + apply okinj in H. subst y'. exists s, (mkSl (base x) (LstModel.count y + k) (LstModel.cap y)), vs. split; [reflexivity|]. split; [exact R|].
      split; [split; [reflexivity|split; [reflexivity|split; [exact Hl|exact Rp]]]|].
      split; [|split; [left; cbn; auto|left; cbn; auto]].
      apply changes_frame; auto. apply frame_refl.
Qed.

(* ---- ReleaseUnnecessaryBuffer ----------------------------------------------------------- *)
Lemma changes_trans_frame vs vs1 vs2 x x1 x2 : base x1 = base x -> room x1 = room x ->
  frame (span x) vs vs1 -> changes vs1 x1 vs2 x2 -> changes vs x vs2 x2.
Proof.
  intros E1 E2 [L F] (C1 & C2 & C3). assert (Q : forall a, span x1 a <-> span x a) by (intros a; unfold span; rewrite E1, E2; tauto).
  split; [|split].
  - intros a Ha. destruct (C1 a Ha) as (H1 & [H2|H2]); (split; [exact H1|]); [left; now apply Q|right; lia].
  - intros a Na Ha. apply C2; auto. now apply Q.
  - intros a Na Nx. rewrite C3; auto. intros X. apply Nx. now apply Q.
Qed.

Lemma zlen_zero {A} (l : list A) : zlen l = 0 -> l = [].
Proof. destruct l; auto. rewrite zlen_cons. pose proof (zlen_nonneg l). lia. Qed.

Lemma sim_release s vs x y old y' : Rel (objs s) vs -> lrep vs x y -> held s (base x, room x) = true -> 0 <= LstModel.count y ->
  LstModel.release _ y old = Ok y' ->
  exists s' x' vs', release s x old = Ok (s', x') /\ Rel (objs s') vs' /\ lrep vs' x' y' /\ changes vs x vs' x' /\ swap (live s) x (live s') x'.
Proof.
  intros R LR Hd H0 H. pose proof LR as (Hc & Hr & Hl & Rp). assert (LY : zlen (LstModel.buf y) = room x) by congruence. pose proof (rel_len _ _ R) as RL.
  assert (Sp : forall a, span x a -> (a < length vs)%nat) by (intros a; exact (lrep_span vs x y a LR)).
  unfold LstModel.release in H. unfold release. cbv zeta in *.
  destruct (room x =? 0) eqn:Er.
  { assert (LstModel.buf y = []) as Eb by (apply zlen_zero; lia). rewrite Eb in H. apply okinj in H. subst y'.
    exists s, x, vs. split; [reflexivity|]. split; [exact R|]. split; [exact LR|]. split; [|left; auto]. apply changes_frame; auto. apply frame_refl. }
  destruct (LstModel.buf y) as [|s0 b0] eqn:Eb; [unfold zlen in Hl; cbn in Hl; lia|]. rewrite <- Eb in *. clear Eb s0 b0.
  rewrite Hc, Hr.
  set (sp := [(base x, LstModel.cap y)]).
  assert (C : covers sp (base x) (room x)) by (unfold sp; rewrite <- Hr; apply covers_1).
  assert (HS : forallb (held s) sp = true) by (unfold sp; cbn [forallb]; rewrite <- Hr, Hd; reflexivity).
  peel H m1 H1.
  assert (K : zlen m1 = room x /\ exists s1 vs1, (if LstModel.count y <? old then exec sp (dtors (base x) (LstModel.count y) (Z.to_nat (old - LstModel.count y))) s else Ok s) = Ok s1 /\
     Rel (objs s1) vs1 /\ live s1 = live s /\ rep vs1 (base x) m1 /\ frame (span x) vs vs1).
  { destruct (LstModel.count y <? old) eqn:E.
    - destruct (sim_dtors sp _ _ C _ _ _ _ vs LY Rp H1) as (A1 & w1 & X1 & P1 & F1). split; [exact A1|].
      destruct (exec_ok _ _ _ _ _ HS R X1) as (s1 & E1 & R1). eexists _, w1. split; [exact E1|]. split; [exact R1|]. split; [reflexivity|]. split; [exact P1|exact F1].
    - apply okinj in H1. subst m1. split; [lia|]. exists s, vs. split; [reflexivity|]. split; [exact R|]. split; [reflexivity|]. split; [exact Rp|apply frame_refl]. }
  destruct K as (Lm & s1 & vs1 & E1 & R1 & LV & P1 & F1). rewrite E1. cbn [bind].
  assert (Ret : LstModel.mkLst m1 (LstModel.count y) (LstModel.cap y) (LstModel.moves y) = y' ->
     exists s' x' vs', Ok (s1, x) = Ok (s', x') /\ Rel (objs s') vs' /\ lrep vs' x' y' /\ changes vs x vs' x' /\ swap (live s) x (live s') x').
  { intros <-. exists s1, x, vs1. split; [reflexivity|]. split; [exact R1|].
    split; [split; [exact Hc|split; [exact Hr|split; [cbn; lia|exact P1]]]|]. split; [|left; auto]. apply changes_frame; auto. }
  destruct ((LstModel.count y <=? LstModel.cap y / 2) && (LstModel.count y <=? 8)) eqn:E2; [|apply okinj in H; auto].
  destruct (LstModel.count y <? LstModel.cap y * 5 / 8) eqn:E3; [|apply okinj in H; auto].
  set (newcap := LstModel.cap y * 5 / 8) in *. assert (Hn : 0 < newcap) by lia. assert (Hn' : 0 <= newcap) by lia. clearbody newcap.
  peel H q2 H2. destruct q2 as [nb2 m2]. peel H m3 H3. peel H u H4. destruct u. apply okinj in H. subst y'.
  set (y1 := LstModel.mkLst m1 (LstModel.count y) (LstModel.cap y) (LstModel.moves y)).
  assert (LR1 : lrep vs1 x y1) by (split; [exact Hc|split; [exact Hr|split; [cbn; lia|exact P1]]]).
  assert (Hd1 : held s1 (base x, room x) = true) by (rewrite (held_live s s1) by exact LV; exact Hd).
  pose proof (sim_replace s1 vs1 x y1 nb2 m3 newcap
       (move_ctors (length (vars (objs s1))) 0 (base x) 0 (Z.to_nat (LstModel.count y)) ++
        dtors (base x) 0 (Z.to_nat (LstModel.count y)))
       [(length (vars (objs s1)), newcap); (base x, room x)] R1 LR1 Hd1 Hn eq_refl) as K.
  pose proof (rel_len _ _ R1) as RL1.
  destruct K as (s2 & s3 & vs2 & _ & X2 & D2 & R2 & Rep2 & L2 & Ch).
  - intros ws W1 W2. rewrite RL1. cbn [y1 LstModel.buf] in W2.
    set (sq := [(length vs1, newcap); (base x, room x)]).
    assert (C1 : covers sq (length vs1) newcap) by apply covers_1.
    assert (C2 : covers sq (base x) (room x)) by (apply covers_2, covers_1).
    pose proof (new_old_disjoint vs1 x y1 newcap LR1) as Dj.
    destruct (sim_across sq _ _ _ _ C1 C2 Dj _ _ _ _ _ _ _ ws (allocate_len _ Hn') Lm W1 W2 H2)
      as (A1 & A2 & w1 & Y1 & Q1 & Q2 & G1).
    destruct (sim_dtors sq _ _ C2 _ _ _ _ w1 A2 Q2 H3) as (A5 & w3 & Y3 & Q5 & G3).
    split; [exact A1|]. split; [exact A5|]. exists w3.
    split; [rewrite (sexec_app _ _ _ _ _ Y1); exact Y3|].
    split; [|split; [exact Q5|]].
    + eapply rep_frame; [exact Q1|exact G3|]. intros a Ha. rewrite A1 in Ha. now apply Dj.
    + eapply frame_trans; [exact G1|]. eapply frame_mono; [|exact G3]. intros a Ha. now right.
  - exact H4.
  - unfold allocate in *. subst sp. rewrite Hr in X2, D2. rewrite X2. cbn [bind]. rewrite D2. cbn [bind].
    do 3 eexists. split; [reflexivity|]. split; [exact R2|]. split.
    + split; [reflexivity|]. split; [reflexivity|]. split; [exact L2|]. cbn [base LstModel.buf]. rewrite RL1. exact Rep2.
    + split; [apply (changes_trans_frame vs vs1 vs2 x x); [reflexivity|reflexivity|exact F1|apply Ch]|]. rewrite <- LV. apply Ch.
Qed.

Lemma sim_remove_core s vs x y i n y' : Rel (objs s) vs -> lrep vs x y -> held s (base x, room x) = true -> 0 <= LstModel.count y - n ->
  (do m <- LstModel.assign_overlapped _ (LstModel.buf y) i (i + n) (LstModel.count y - i - n);
   LstModel.release _ (LstModel.mkLst m (LstModel.count y - n) (LstModel.cap y) (LstModel.moves y + (LstModel.count y - i - n))) (LstModel.count y)) = Ok y' ->
  exists s' x' vs',
   (do s <- exec [(base x, room x)] (assign_overlapped (base x) i (i + n) (cnt x - i - n)) s;
    release s (mkSl (base x) (cnt x - n) (room x)) (cnt x)) = Ok (s', x') /\ Rel (objs s') vs' /\ lrep vs' x' y' /\ changes vs x vs' x' /\ swap (live s) x (live s') x'.
Proof.
  intros R LR Hd H0 H. pose proof LR as (Hc & Hr & Hl & Rp). assert (LY : zlen (LstModel.buf y) = room x) by congruence. rewrite Hc.
  assert (HS : forallb (held s) [(base x, room x)] = true) by (cbn [forallb]; rewrite Hd; reflexivity).
  peel H m H1.
  destruct (sim_overlapped [(base x, room x)] (base x) (room x) _ _ _ _ _ vs (covers_1 _ _ _) LY Rp H1) as (A1 & w1 & X1 & P1 & F1).
  destruct (exec_ok _ _ _ _ _ HS R X1) as (s1 & E1 & R1). rewrite E1. cbn [bind].
  assert (L1 : lrep w1 (mkSl (base x) (LstModel.count y - n) (room x))
     (LstModel.mkLst m (LstModel.count y - n) (LstModel.cap y) (LstModel.moves y + (LstModel.count y - i - n)))).
  { split; [reflexivity|split; [exact Hr|split; [cbn [LstModel.buf LstModel.cap]; congruence|exact P1]]]. }
  destruct (sim_release (mkSt s1 (live s)) _ _ _ _ _ R1 L1 Hd H0 H) as (s' & x' & vs' & E & R' & L' & C' & Sw).
  exists s', x', vs'. split; [exact E|]. split; [exact R'|]. split; [exact L'|].
  split; [eapply (changes_trans_frame vs w1 vs'); [| |exact F1|exact C']; reflexivity|exact Sw].
Qed.

(* ---- Clear and the destructor -------------------------------------------------------------- *)
Lemma sim_dead s vs x y m : Rel (objs s) vs -> lrep vs x y -> held s (base x, room x) = true ->
  LstModel.dtors _ (LstModel.buf y) 0 (Z.to_nat (LstModel.count y)) = Ok m -> LstModel.deallocate _ m = Ok tt ->
  exists s' s2 vs', exec [(base x, room x)] (dtors (base x) 0 (Z.to_nat (cnt x))) s = Ok s' /\
    deallocate s' (base x) (room x) = Ok s2 /\ Rel (objs s2) vs' /\ live s2 = del x (live s) /\ forall b, changes vs x vs' (mkSl b 0 0).
Proof.
  intros R LR Hd H D. assert (HS : forallb (held s) [(base x, room x)] = true) by (cbn [forallb]; rewrite Hd; reflexivity).
  pose proof LR as (Hc & Hr & Hl & Rp). assert (LY : zlen (LstModel.buf y) = room x) by congruence. rewrite Hc.
  destruct (sim_dtors [(base x, room x)] (base x) (room x) (covers_1 _ _ _) _ _ _ _ vs LY Rp H) as (A1 & w1 & X1 & P1 & F1).
  destruct (exec_ok _ _ _ _ _ HS R X1) as (s1 & E1 & R1). exists (mkSt s1 (live s)), (mkSt s1 (del x (live s))), w1. split; [exact E1|].
  assert (Old : forall a, span x a -> nth_error w1 a = Some None).
  { intros a Ha. eapply dealloc_raw; [exact P1|exact D|]. rewrite A1. exact Ha. }
  split; [apply (dealloc_ok (mkSt s1 (live s)) w1); auto|]. split; [exact R1|]. split; [reflexivity|]. intros b. destruct F1 as [FL F].
  split; [|split].
  - unfold span. cbn [base room]. intros a [Ha1 Ha2]. lia.
  - intros a _ Ha. now apply Old.
  - intros a _ Nx. now apply F.
Qed.
