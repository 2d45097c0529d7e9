(* Proofs about ExvModel. *)
From Coq Require Import Lia.
From Verif Require Import Base BaseFacts VarModel VarSpec VarProofs ExvModel ExvSpec.

Section proofs.
  Context {V : Type} (alts : list alt) (moved : nat -> V -> V).
  Ltac peel H := match type of H with bind ?x _ = Ok _ => let E := fresh "E" in destruct x eqn:E; cbn [bind] in H; try discriminate end.

  Lemma var_inv w x (n : variant V) : var w x = Ok n -> nth_error (vars w) x = Some (Some n).
  Proof. unfold var. destruct (nth_error (vars w) x) as [[m|]|]; congruence. Qed.
  Lemma hollow_object w x i (v : V) : hollow w x -> object w x i = Ok v -> False.
  Proof. intros (n & H & R) E. unfold object, var in E. rewrite H in E. cbn [bind] in E. rewrite R in E. discriminate. Qed.
  (* x stays hollow when the variable y, which is not hollow or not there, is changed *)
  Lemma hollow_upd w x y (n : option (variant V)) l : hollow w x -> x <> y -> hollow (mkVW (upd (vars w) y n) l) x.
  Proof. intros (m & H & R) N. exists m. split; [cbn [vars]; now rewrite upd_other by congruence|exact R]. Qed.
  Lemma hollow_set_index w x y i w' : hollow w x -> set_index w y i = Ok w' -> hollow (V := V) w' x.
  Proof.
    intros H E. unfold set_index in E. peel E. injection E as <-. apply var_inv in E0. destruct (Nat.eq_dec x y) as [->|N]; [|exact (hollow_upd _ _ _ _ _ H N)].
    destruct H as (m & H & R). assert (m = a) by congruence. subst. eexists. unfold put. cbn [vars]. split; [apply upd_same; apply nth_error_Some; congruence|exact R].
  Qed.
  Lemma hollow_destroy w x y i w' : hollow w x -> destroy w y i = Ok w' -> x <> y /\ hollow (V := V) w' x.
  Proof.
    intros H E. unfold destroy in E. peel E. assert (N : x <> y) by (intros ->; exact (hollow_object _ _ _ _ H E0)).
    peel E. injection E as <-. split; [exact N|exact (hollow_upd _ _ _ _ _ H N)].
  Qed.
  Lemma hollow_assign w x y i v w' : hollow w x -> assign w y i v = Ok w' -> hollow (V := V) w' x.
  Proof.
    intros H E. unfold assign in E. peel E. assert (N : x <> y) by (intros ->; exact (hollow_object _ _ _ _ H E0)).
    peel E. injection E as <-. exact (hollow_upd _ _ _ _ _ H N).
  Qed.
  Lemma hollow_construct w x y i v w' : hollow w x -> x <> y -> construct w y i v = Ok w' -> hollow (V := V) w' x.
  Proof.
    intros H N E. unfold construct in E. peel E. destruct (buffer a); [|discriminate]. injection E as <-. exact (hollow_upd _ _ _ _ _ H N).
  Qed.
  Lemma hollow_copy w x y i w' v : hollow w x -> by_copy y w i = Ok (w', v) -> hollow (V := V) w' x.
  Proof. intros H E. unfold by_copy in E. peel E. injection E as <- <-. exact H. Qed.
  Lemma hollow_move w x y i w' v : hollow w x -> by_move moved y w i = Ok (w', v) -> hollow (V := V) w' x.
  Proof.
    intros H E. unfold by_move in E. peel E. assert (N : x <> y) by (intros ->; exact (hollow_object _ _ _ _ H E0)).
    peel E. injection E as <- <-. exact (hollow_upd _ _ _ _ _ H N).
  Qed.
  Lemma any_inv f act l : forall I idx r, any (V := V) f I l idx act = Ok r -> r = None \/ exists i w, act i = Ok w /\ r = Some w.
  Proof.
    induction l as [|a l IH]; intros I idx r E; cbn [any] in E; [left; congruence|]. destruct (_ && _); [|exact (IH _ _ _ E)].
    peel E. injection E as <-. right. eauto.
  Qed.
  Lemma hollow_dtor w x y r : hollow w x -> dtor alts w y = Ok r -> r = None \/ exists w', r = Some w' /\ x <> y /\ hollow (V := V) w' x.
  Proof.
    intros H E. unfold dtor in E. peel E. destruct (any_inv _ _ _ _ _ _ E) as [->|(i & w' & D & ->)]; [now left|right].
    exists w'. split; [reflexivity|]. exact (hollow_destroy _ _ _ _ _ H D).
  Qed.
  Lemma hollow_ctor f get w x y r : hollow w x -> x <> y -> (forall w i w' v, hollow w x -> get w i = Ok (w', v) -> hollow (V := V) w' x) ->
    ctor_from alts f get w y = Ok r -> r = None \/ exists w', r = Some w' /\ hollow w' x.
  Proof.
    intros H N G E. unfold ctor_from in E. peel E. destruct (any_inv _ _ _ _ _ _ E) as [->|(i & w' & D & ->)]; [now left|right].
    exists w'. split; [reflexivity|]. peel D. destruct a0 as [w1 v]. exact (hollow_construct _ _ _ _ _ _ (G _ _ _ _ H E1) N D).
  Qed.
  Lemma hollow_assign_from f get w x y r : hollow w x -> (forall w i w' v, hollow w x -> get w i = Ok (w', v) -> hollow (V := V) w' x) ->
    assign_from alts f get w y = Ok r -> r = None \/ exists w', r = Some w' /\ hollow w' x.
  Proof.
    intros H G E. unfold assign_from in E. peel E. destruct (any_inv _ _ _ _ _ _ E) as [->|(i & w' & D & ->)]; [now left|right].
    exists w'. split; [reflexivity|]. peel D. destruct a0 as [w1 v]. exact (hollow_assign _ _ _ _ _ _ (G _ _ _ _ H E1) D).
  Qed.
  Lemma hollow_fresh w x y i w' : hollow w x -> fresh w y i = Ok w' -> x <> y /\ hollow (V := V) w' x.
  Proof.
    intros H E. unfold fresh in E. destruct (nth_error (vars w) y) as [[m|]|] eqn:Y; try discriminate. injection E as <-.
    assert (N : x <> y) by (intros ->; destruct H as (n & H & _); congruence). split; [exact N|exact (hollow_upd _ _ _ _ _ H N)].
  Qed.
  Lemma hollow_new f get w x y z w' o : hollow w x -> (forall w i w' v, hollow w x -> get w i = Ok (w', v) -> hollow (V := V) w' x) ->
    new_from alts f get w y z = Ok (w', o) -> hollow w' x.
  Proof.
    intros H G E. unfold new_from in E. peel E. peel E. destruct (hollow_fresh _ _ _ _ _ H E1) as [N H1]. peel E.
    destruct (hollow_ctor _ _ _ _ _ _ H1 N G E2) as [->|(w2 & -> & H2)]; injection E as <- <-; assumption.
  Qed.
  Lemma hollow_assign_variant f g get w x y z w' o : hollow w x -> (forall w i w' v, hollow w x -> get w i = Ok (w', v) -> hollow (V := V) w' x) ->
    assign_variant alts f g get w y z = Ok (w', o) -> hollow w' x.
  Proof.
    intros H G E. unfold assign_variant in E. destruct (Nat.eqb y z); [injection E as <- <-; exact H|]. peel E. peel E. destruct (Nat.eqb _ _).
    - peel E. destruct (hollow_assign_from _ _ _ _ _ _ H G E2) as [->|(w2 & -> & H2)]; injection E as <- <-; assumption.
    - peel E. destruct (hollow_dtor _ _ _ _ H E2) as [->|(w2 & -> & N & H2)]; [injection E as <- <-; exact H|].
      peel E. peel E. pose proof (hollow_set_index _ _ _ _ _ H2 E3) as H3.
      destruct (hollow_ctor _ _ _ _ _ _ H3 N G E4) as [->|(w4 & -> & H4)]; injection E as <- <-; assumption.
  Qed.
  Lemma hollow_set_value get w x y i w' o : hollow w x -> set_value alts get w y i = Ok (w', o) -> hollow (V := V) w' x.
  Proof.
    intros H E. unfold set_value in E. peel E. destruct (Nat.eqb _ _).
    - peel E. peel E. injection E as <- <-. exact (hollow_assign _ _ _ _ _ _ H E2).
    - peel E. destruct (hollow_dtor _ _ _ _ H E1) as [->|(w2 & -> & N & H2)]; [injection E as <- <-; exact H|].
      peel E. peel E. peel E. injection E as <- <-. exact (hollow_construct _ _ _ _ _ _ (hollow_set_index _ _ _ _ _ H2 E2) N E4).
  Qed.
  Lemma hollow_step w x o w' r : hollow w x -> vstep alts moved w o = Ok (w', r) -> hollow (V := V) w' x.
  Proof.
    intros H E. destruct o; cbn [vstep] in E.
    - peel E. peel E. injection E as <- <-. destruct (hollow_fresh _ _ _ _ _ H E0) as [N H1]. exact (hollow_construct _ _ _ _ _ _ H1 N E1).
    - refine (hollow_new _ _ _ _ _ _ _ _ H _ E). intros; eapply hollow_copy; eassumption.
    - refine (hollow_new _ _ _ _ _ _ _ _ H _ E). intros; eapply hollow_move; eassumption.
    - peel E. destruct (hollow_dtor _ _ _ _ H E0) as [->|(w2 & -> & N & H2)]; injection E as <- <-; [exact H|]. exact (hollow_upd _ _ _ _ _ H2 N).
    - refine (hollow_assign_variant _ _ _ _ _ _ _ _ _ H _ E). intros; eapply hollow_copy; eassumption.
    - refine (hollow_assign_variant _ _ _ _ _ _ _ _ _ H _ E). intros; eapply hollow_move; eassumption.
    - exact (hollow_set_value _ _ _ _ _ _ _ H E).
    - peel E. destruct a; [exact (hollow_set_value _ _ _ _ _ _ _ H E)|injection E as <- <-; exact H].
    - exact (hollow_set_value _ _ _ _ _ _ _ H E).
    - peel E. injection E as <- <-. exact H.
    - peel E. injection E as <- <-. exact H.
    - peel E. injection E as <- <-. exact H.
    - peel E. peel E. injection E as <- <-. exact H.
    - peel E. peel E. injection E as <- <-. exact H.
  Qed.
  Lemma hollow_xstep w x o w' r : hollow w x -> xvstep alts moved w o = Ok (w', r) -> hollow (V := V) w' x.
  Proof.
    intros H E. destruct o as [o|y|y i v]; cbn [xvstep] in E.
    - peel E. destruct a as [w1 r1]. injection E as <- <-. exact (hollow_step _ _ _ _ _ H E0).
    - peel E. injection E as <- <-. exact H.
    - peel E. destruct (Nat.eqb _ _).
      + peel E. injection E as <- <-. exact (hollow_assign _ _ _ _ _ _ H E1).
      + peel E. destruct (hollow_dtor _ _ _ _ H E1) as [->|(w2 & -> & N & H2)]; [injection E as <- <-; exact H|].
        peel E. injection E as <- <-. exact (hollow_set_index _ _ _ _ _ H2 E2).
  Qed.
  Lemma hollow_run ops : forall w x w' rs, hollow w x -> xvrun alts moved w ops = Ok (w', rs) -> hollow (V := V) w' x.
  Proof.
    induction ops as [|o ops IH]; intros w x w' rs H E; cbn [xvrun] in E; [injection E as <- <-; exact H|].
    peel E. destruct a as [w1 r]. peel E. destruct a as [w2 rs2]. injection E as <- <-. exact (IH _ _ _ _ (hollow_xstep _ _ _ _ _ H E0) E1).
  Qed.
  (* the exception *)
  Lemma xv_app os1 os2 : forall w, xvrun alts moved w (os1 ++ os2) =
    do (w1, r1) <- xvrun (V := V) alts moved w os1; do (w2, r2) <- xvrun alts moved w1 os2; Ok (w2, r1 ++ r2).
  Proof.
    induction os1 as [|o os1 IH]; intro w; cbn [xvrun app bind].
    - destruct (xvrun alts moved w os2) as [[w2 r2]| | |]; reflexivity.
    - destruct (xvstep alts moved w o) as [[w1 r]| | |]; cbn [bind]; try reflexivity. rewrite IH.
      destruct (xvrun alts moved w1 os1) as [[w2 r1]| | |]; cbn [bind]; try reflexivity.
      destruct (xvrun alts moved w2 os2) as [[w3 r2]| | |]; reflexivity.
  Qed.
  Lemma set_hollow w (s : @env V) x i j u v : sim alts w s -> nth_error s x = Some (Some (j, u)) -> j <> i ->
    exists w', xvstep alts moved w (VSetThrows x i v) = Ok (w', VThrown) /\ hollow w' x.
  Proof.
    intros S H N. cbn [xvstep]. unfold var at 1. rewrite (s_v _ _ _ S), H. cbn [option_map bind enc fst snd index].
    replace (Nat.eqb j i) with false by (symmetry; now apply Nat.eqb_neq). pose proof (s_i _ _ _ S x j u H) as Lj.
    assert (Hx : nth_error (vars w) x = Some (Some (mkV j (Live j u)))) by (rewrite (s_v _ _ _ S), H; reflexivity).
    assert (Lx : x < length (vars w)) by (apply nth_error_Some; congruence).
    unfold dtor, var. rewrite Hx. cbn [bind index]. rewrite (any_ok alts moved _ _ j Lj), (able_true alts moved j Lj).
    unfold destroy, object, var. rewrite Hx. cbn [bind buffer]. rewrite Nat.eqb_refl. cbn [bind index].
    unfold set_index, var. cbn [vars]. rewrite upd_same by exact Lx. cbn [bind buffer].
    eexists. split; [reflexivity|]. eexists. unfold put. cbn [vars]. split; [apply upd_same; now rewrite upd_length|reflexivity].
  Qed.
  Lemma set_same w (s : @env V) x i u v : sim alts w s -> nth_error s x = Some (Some (i, u)) ->
    exists w', xvstep alts moved w (VSetThrows x i v) = Ok (w', VThrown) /\ vstep alts moved w (VSet x i v) = Ok (w', VUnit).
  Proof.
    intros S H. cbn [xvstep vstep]. unfold set_value, var. rewrite (s_v _ _ _ S), H. cbn [option_map bind enc fst snd index]. rewrite Nat.eqb_refl. cbn [bind].
    unfold assign, object, var. rewrite (s_v _ _ _ S), H. cbn [option_map bind enc fst snd buffer index]. rewrite Nat.eqb_refl. cbn [bind]. eauto.
  Qed.
  Lemma xvstep_ok w (s : @env V) o : sim alts w s -> xvlegal alts s o ->
    exists w', xvstep alts moved w o = Ok (w', snd (xvspec alts moved s o)) /\ sim alts w' (fst (xvspec alts moved s o)).
  Proof.
    intros S L. destruct o as [o|x|x i v]; cbn [xvlegal xvspec fst snd] in *.
    - destruct (vstep_ok alts moved w s o S L) as (w' & R & S'). cbn [xvstep]. rewrite R. cbn [bind]. eauto.
    - cbn [xvstep]. unfold fresh. rewrite (s_v _ _ _ S), L. cbn [option_map bind]. eauto.
    - destruct L as (u & H). destruct (set_same w s x i u v S H) as (w2 & R & R2).
      destruct (vstep_ok alts moved w s (VSet x i v) S) as (w' & R' & S').
      + cbn [vlegal]. split; [unfold here; eauto|exact (s_i _ _ _ S x i u H)].
      + rewrite R2 in R'. injection R' as <-. eauto.
  Qed.
  Lemma xvrun_ok ops : forall w (s : @env V), sim alts w s -> xvlegals alts moved s ops ->
    exists w', xvrun alts moved w ops = Ok (w', snd (xvspecs alts moved s ops)) /\ sim alts w' (fst (xvspecs alts moved s ops)).
  Proof.
    induction ops as [|o ops IH]; intros w s S L; [exists w; auto|]. destruct L as [L1 L2].
    destruct (xvstep_ok w s o S L1) as (w1 & R1 & S1). cbn [xvrun xvspecs]. rewrite R1. cbn [bind].
    destruct (xvspec alts moved s o) as [s1 x] eqn:E. cbn [fst snd] in *. destruct (IH w1 s1 S1 L2) as (w2 & R2 & S2).
    rewrite R2. cbn [bind]. destruct (xvspecs alts moved s1 ops) as [s2 xs]. cbn [fst snd] in *. eauto.
  Qed.
  Lemma exv_history n ops : xvlegals alts moved (repeat None n) ops ->
    exists w, xvrun alts moved (vinit n) ops = Ok (w, snd (xvspecs alts moved (repeat None n) ops)) /\
      (forall x, nth_error (vars w) x = option_map (option_map (fun a => mkV (fst a) (Live (fst a) (snd a)))) (nth_error (fst (xvspecs alts moved (repeat None n) ops)) x)) /\
      forall x, alternates x (lives w) (alternative (fst (xvspecs alts moved (repeat None n) ops)) x).
  Proof. intros L. destruct (xvrun_ok ops _ _ (vinit_sim alts n) L) as (w & R & S). exists w. split; [exact R|]. split; apply S. Qed.
  Lemma exv_no_return n ops1 x i j u v ops2 : xvlegals alts moved (repeat None n) ops1 ->
    nth_error (fst (xvspecs alts moved (repeat None n) ops1)) x = Some (Some (j, u)) -> j <> i ->
    (exists w rs, xvrun alts moved (vinit n) (ops1 ++ [VSetThrows x i v]) = Ok (w, rs)) /\
    forall w rs, xvrun alts moved (vinit n) (ops1 ++ VSetThrows x i v :: ops2) = Ok (w, rs) -> hollow w x.
  Proof.
    intros L H N. destruct (xvrun_ok ops1 _ _ (vinit_sim alts n) L) as (w1 & R1 & S1).
    destruct (set_hollow w1 _ x i j u v S1 H N) as (w2 & R2 & H2). split.
    - rewrite xv_app, R1. cbn [bind xvrun]. rewrite R2. cbn [bind]. eauto.
    - intros w rs E. rewrite xv_app, R1 in E. cbn [bind xvrun] in E. rewrite R2 in E. cbn [bind] in E.
      peel E. destruct a as [w3 r3]. injection E as <- <-. peel E0. destruct a as [w4 r4]. injection E0 as <- <-. exact (hollow_run _ _ _ _ _ H2 E).
  Qed.
  Lemma hollow_drop (w : vworld V) x : hollow w x -> in_range alts w x ->
    vstep alts moved w (VDrop x) = UB /\ forall i w' v, vstep alts moved w (VGet x i) <> Ok (w', VVal (Some v)).
  Proof.
    intros H (n & Hn & L). split.
    - destruct H as (m & Hm & R). assert (m = n) by congruence. subst m. cbn [vstep]. unfold dtor, var at 1. rewrite Hn. cbn [bind].
      rewrite (any_ok alts moved _ _ _ L), (able_true alts moved _ L). unfold destroy, object, var. rewrite Hn. cbn [bind]. rewrite R. reflexivity.
    - intros i w' v E. destruct H as (m & Hm & R). assert (m = n) by congruence. subst m. cbn [vstep] in E. unfold try_get, object, var in E. rewrite Hn in E. cbn [bind] in E. rewrite R in E.
      destruct (Nat.eqb _ _) in E; cbn [bind] in E; congruence.
  Qed.
End proofs.
Definition xv_demo : list (xvop Z) := [VNewThrows 0; VPlain (VNew 0 1 5%Z); VSetThrows 0 1 6%Z; VPlain (VGet 0 1); VPlain (VNew 1 0 7%Z); VPlain (VMoveAssign 1 0)].
Lemma xv_demo_ok : xvlegals two (fun _ v => v) (repeat None 2) xv_demo /\
  snd (xvspecs two (fun _ v => v) (repeat None 2) xv_demo) = [VThrown; VRet VUnit; VThrown; VRet (VVal (Some 6%Z)); VRet VUnit; VRet VUnit] /\
  nth_error (fst (xvspecs two (fun _ v => v) (repeat None 2) xv_demo)) 1 = Some (Some (1, 6%Z)) /\
  exists w, xvrun two (fun _ v => v) (vinit 2) (xv_demo ++ [VSetThrows 1 0 6%Z; VPlain (VIndex 1)]) =
    Ok (w, [VThrown; VRet VUnit; VThrown; VRet (VVal (Some 6%Z)); VRet VUnit; VRet VUnit; VThrown; VRet (VNat 0)]).
Proof.
  split; [|split; [reflexivity|split; [reflexivity|eexists; reflexivity]]].
  unfold xv_demo. cbn. unfold gone, here, holds. cbn. repeat split; eauto; try lia.
  all: intros i j [v1 A] [v2 B] N; inversion A; inversion B; subst; cbn; congruence.
Qed.
