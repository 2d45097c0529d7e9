From Coq Require Import ZifyBool ZifyNat.
From Verif Require Import Base BaseFacts PgrModel PgrSpec PgrProofs PgrProofs2 PgrProofs3 PgrProofs4.
Open Scope nat_scope.

Lemma inc_shape w o w' : inc w o = Ok w' -> exists n l c, nth_error (heap w) o = Some (mkO (Some n) l c) /\ w' = seto w o (mkO (Some (n + 1)%Z) l c).
Proof. unfold inc. destruct (nth_error (heap w) o) as [[[n|] l c]|]; try discriminate. intros H. injection H as <-. eauto 6. Qed.
Lemma deref_shape w o b : deref w o = Ok b -> nth_error (heap w) o = Some b /\ lf b = Alive.
Proof. unfold deref. destruct (nth_error (heap w) o) as [x|]; try discriminate. destruct (lf x) eqn:E; try discriminate. intros H. injection H as <-. auto. Qed.

(* what one step may do to the objects and the log *)
Inductive hstep (t : thread) (w w' : pg) : Prop :=
| hs_same : heap w' = heap w -> log w' = log w -> hstep t w w'
| hs_cnt o b c : nth_error (heap w) o = Some b -> (1 <= hv o t \/ 1 <= tc o t \/ exists y q f, fin t = RInc y q f o) -> heap w' = upd (heap w) o (mkO c (lf b) (cells b)) -> log w' = log w -> hstep t w w'
| hs_destroy o k b : work t = TDestroy o :: k -> nth_error (heap w) o = Some b -> lf b = Alive ->
    heap w' = upd (heap w) o (mkO (cnt b) Dying []) -> log w' = log w -> hstep t w w'
| hs_free o k c l : work t = TFree o :: k -> nth_error (heap w) o = Some (mkO c Dying l) ->
    heap w' = upd (heap w) o (mkO c Gone l) -> log w' = o :: log w -> hstep t w w'
| hs_new y acc : work t = [] -> fin t = RBuild y [] acc -> heap w' = heap w ++ [mkO (Some 1%Z) Alive acc] -> log w' = log w -> hstep t w w'
| hs_cell w1 o b f v : work t = [] -> nth_error (heap w1) o = Some b -> lf b = Alive -> (heap w1 = heap w \/ exists o' b' c', nth_error (heap w) o' = Some b' /\ 1 <= hv o' t /\ heap w1 = upd (heap w) o' (mkO c' (lf b') (cells b'))) ->
    ((exists x, fin t = RStore o f x) \/ (exists y, fin t = RTake y o f) \/
     (exists x y p, prog t = Store x f y :: p /\ fin t = RNone /\ getv (vars t) x = Some o /\ existsb (uses_cell o f) (ths w) = false)) ->
    heap w' = upd (heap w1) o (setcell b f v) -> log w' = log w -> hstep t w w'.
(* what it does to the thread *)
Definition tshape (t t' : thread) : Prop :=
  (prog t' = prog t \/ exists s, prog t = s :: prog t') /\
  (forall o f, writes_cell o f t' = true -> writes_cell o f t = true \/
     exists s, In s (prog t) /\ match s with Store _ _ _ | Take _ _ _ => True | _ => False end).
Lemma step_shape w i t w' : nth_error (ths w) i = Some t -> tstep w i = Ok w' ->
  (w' = w /\ done_t t = true) \/ (exists t', ths w' = upd (ths w) i t' /\ tshape t t' /\ hstep t w w').
Proof.
  intros Et. unfold tstep. rewrite Et. destruct (work t) as [|a k] eqn:Ew.
  2:{ intros H. right. destruct a as [o|o|o|o]; cbn [do_task] in H.
    - destruct (nth_error (heap w) o) as [[[n|] l c]|] eqn:E; try discriminate. injection H as <-. eexists. split; [reflexivity|]. split; [split; auto|].
      eapply hs_cnt; [exact E| |reflexivity|reflexivity]. left. unfold hv. rewrite Ew, sum_cons. cbn [is_dec]. rewrite Nat.eqb_refl. lia.
    - destruct (nth_error (heap w) o) as [[[n|] l c]|] eqn:E; try discriminate. injection H as <-. eexists. split; [reflexivity|]. split; [split; auto|].
      eapply hs_cnt; [exact E| |reflexivity|reflexivity]. right. left. unfold tc. rewrite Ew, sum_cons. cbn [is_counter]. rewrite Nat.eqb_refl. lia.
    - destruct (existsb (uses_obj o) (ths w)); [discriminate|]. destruct (deref w o) as [b| | |] eqn:D; try discriminate. apply deref_shape in D. destruct D as [D1 D2].
      cbn [bind] in H. injection H as <-. eexists. split; [reflexivity|]. split; [split; auto|]. eapply hs_destroy; eauto.
    - destruct (nth_error (heap w) o) as [[c [] l]|] eqn:E; try discriminate. injection H as <-. eexists. split; [reflexivity|]. split; [split; auto|]. eapply hs_free; eauto. }
  destruct (fin t) as [|y q|y x|y x|y o f|y o f p|o f x|y o f|y ms acc] eqn:Ef.
  { destruct (prog t) as [|s p] eqn:Ep.
    - intros H. injection H as <-. left. split; auto. unfold done_t. now rewrite Ew, Ef, Ep.
    - intros H. right.
      assert (forall v k r, (forall o f, writes_cell o f (mkT v p k r) = true -> match s with Store _ _ _ | Take _ _ _ => True | _ => False end) -> tshape t (mkT v p k r)) as TS.
      { intros v k r Hr. split; [right; exists s; rewrite Ep; reflexivity|]. intros o f K. right. exists s. split; [rewrite Ep; now left|]. eapply Hr; eauto. }
      assert (forall v k r, (forall o f, writes_cell o f (mkT v p k r) = false) -> tshape t (mkT v p k r)) as TS0.
      { intros v k r Hr. apply TS. intros o f K. rewrite Hr in K. discriminate. }
      destruct s as [y ms|y x|y x|y|y x f|x f y|y x f|x]; unfold do_stmt in H.
      + destruct (Nat.ltb y (length (vars t))); injection H as <-; (eexists; split; [reflexivity|split; [apply TS0; reflexivity|apply hs_same; reflexivity]]).
      + destruct (Nat.ltb y (length (vars t)) && negb (Nat.eqb y x)); injection H as <-; (eexists; split; [reflexivity|split; [apply TS0; reflexivity|apply hs_same; reflexivity]]).
      + destruct (Nat.ltb y (length (vars t)) && negb (Nat.eqb y x)); injection H as <-; (eexists; split; [reflexivity|split; [apply TS0; reflexivity|apply hs_same; reflexivity]]).
      + destruct (Nat.ltb y (length (vars t))); injection H as <-; (eexists; split; [reflexivity|split; [apply TS0; reflexivity|apply hs_same; reflexivity]]).
      + destruct (getv (vars t) x) as [o|]; [|injection H as <-; (eexists; split; [reflexivity|split; [apply TS0; reflexivity|apply hs_same; reflexivity]])].
        destruct (deref w o) as [b| | |]; try discriminate. cbn [bind] in H.
        destruct (Nat.ltb y (length (vars t)) && Nat.ltb f (length (cells b))); [destruct (existsb _ _); [discriminate|]|];
          injection H as <-; (eexists; split; [reflexivity|split; [apply TS0; reflexivity|apply hs_same; reflexivity]]).
      + destruct (getv (vars t) x) as [o|] eqn:Eg; [|injection H as <-; (eexists; split; [reflexivity|split; [apply TS0; reflexivity|apply hs_same; reflexivity]])].
        destruct (deref w o) as [b| | |] eqn:D; try discriminate. apply deref_shape in D. destruct D as [D1 D2]. cbn [bind] in H.
        destruct (Nat.ltb y (length (vars t)) && Nat.ltb f (length (cells b))); [destruct (existsb _ _) eqn:Ex; [discriminate|]|];
          injection H as <-; (eexists; split; [reflexivity|split]).
        * apply TS. auto.
        * eapply (hs_cell t w _ w o b f None); [exact Ew|exact D1|exact D2|now left|right; right; eauto 8|reflexivity|reflexivity].
        * apply TS0. reflexivity.
        * apply hs_same; reflexivity.
      + destruct (getv (vars t) x) as [o|]; [|injection H as <-; (eexists; split; [reflexivity|split; [apply TS0; reflexivity|apply hs_same; reflexivity]])].
        destruct (deref w o) as [b| | |]; try discriminate. cbn [bind] in H.
        destruct (Nat.ltb y (length (vars t)) && Nat.ltb f (length (cells b))); [destruct (existsb _ _); [discriminate|]|];
          injection H as <-; (eexists; split; [reflexivity|split; [|apply hs_same; reflexivity]]).
        * apply TS. auto.
        * apply TS0. reflexivity.
      + destruct (getv (vars t) x) as [o|]; [|injection H as <-; (eexists; split; [reflexivity|split; [apply TS0; reflexivity|apply hs_same; reflexivity]])].
        destruct (deref w o) as [b| | |]; try discriminate. cbn [bind] in H.
        injection H as <-; (eexists; split; [reflexivity|split; [apply TS0; reflexivity|apply hs_same; reflexivity]]). }
  all: intros H; right; unfold do_rest in H; rewrite Ef in H.
  all: assert (forall v r, (forall o f, writes_cell o f (mkT v (prog t) [] r) = false) -> tshape t (mkT v (prog t) [] r)) as TS0
    by (intros v r Hr; split; [left; reflexivity|intros o1 f1 K; rewrite Hr in K; discriminate]).
  - injection H as <-. (eexists; split; [reflexivity|split; [apply TS0; reflexivity|apply hs_same; reflexivity]]).
  - destruct (getv (vars t) x) as [o|] eqn:Ex.
    + destruct (inc w o) as [w1| | |] eqn:E; try discriminate. apply inc_shape in E. destruct E as (n & l & c & E & ->). cbn [bind] in H.
      injection H as <-. (eexists; split; [reflexivity|split; [apply TS0; reflexivity|eapply hs_cnt; [exact E|left; apply hv_held; eapply getv_in; eauto|reflexivity|reflexivity]]]).
    + injection H as <-. (eexists; split; [reflexivity|split; [apply TS0; reflexivity|apply hs_same; reflexivity]]).
  - injection H as <-. (eexists; split; [reflexivity|split; [apply TS0; reflexivity|apply hs_same; reflexivity]]).
  - destruct (deref w o) as [b| | |]; try discriminate. cbn [bind] in H. injection H as <-.
    (eexists; split; [reflexivity|split; [apply TS0; intros; unfold writes_cell; cbn [fin]; destruct (getv (cells b) f); reflexivity|apply hs_same; reflexivity]]).
  - destruct (inc w p) as [w1| | |] eqn:E; try discriminate. apply inc_shape in E. destruct E as (n & l & c & E & ->). cbn [bind] in H.
    injection H as <-. (eexists; split; [reflexivity|split; [apply TS0; reflexivity|eapply hs_cnt; [exact E|right; right; eauto|reflexivity|reflexivity]]]).
  - destruct (getv (vars t) x) as [p|] eqn:Ex.
    + destruct (inc w p) as [w1| | |] eqn:E; try discriminate. apply inc_shape in E. destruct E as (n & l & c & E & E1). cbn [bind] in H.
      destruct (deref w1 o) as [b| | |] eqn:D; try discriminate. apply deref_shape in D. destruct D as [D1 D2]. cbn [bind] in H.
      injection H as <-. eexists. split; [rewrite E1; reflexivity|split; [apply TS0; reflexivity|]].
      eapply (hs_cell t w _ w1 o b f (Some p)); [exact Ew|exact D1|exact D2| |left; eauto|reflexivity|rewrite E1; reflexivity].
      right. exists p, (mkO (Some n) l c), (Some (n + 1)%Z). split; [auto|split; [apply hv_held; eapply getv_in; eauto|]]. rewrite E1. reflexivity.
    + injection H as <-. (eexists; split; [reflexivity|split; [apply TS0; reflexivity|apply hs_same; reflexivity]]).
  - destruct (deref w o) as [b| | |] eqn:D; try discriminate. apply deref_shape in D. destruct D as [D1 D2]. cbn [bind] in H. injection H as <-.
    eexists. split; [reflexivity|split; [apply TS0; reflexivity|]].
    eapply (hs_cell t w _ w o b f None); [exact Ew|exact D1|exact D2|now left|right; left; eauto|reflexivity|reflexivity].
  - destruct ms as [|m ms].
    + injection H as <-. eexists. split; [reflexivity|split; [split; [now left|discriminate]|]]. eapply hs_new; eauto; reflexivity.
    + destruct (getv (vars t) m) as [p|] eqn:Ex.
      * destruct (inc w p) as [w1| | |] eqn:E; try discriminate. apply inc_shape in E. destruct E as (n & l & c & E & ->). cbn [bind] in H.
        injection H as <-. (eexists; split; [reflexivity|split; [apply TS0; reflexivity|eapply hs_cnt; [exact E|left; apply hv_held; eapply getv_in; eauto|reflexivity|reflexivity]]]).
      * injection H as <-. (eexists; split; [reflexivity|split; [apply TS0; reflexivity|apply hs_same; reflexivity]]).
Qed.

Lemma step_none w i : nth_error (ths w) i = None -> tstep w i = Ok w.
Proof. unfold tstep. now intros ->. Qed.
(* an object is destroyed by a step taken when no Ptr refers to it *)
Lemma step_last w i w' o : inv w -> tstep w i = Ok w' -> exists_now w o -> ~ exists_now w' o -> pointers w o = 0.
Proof.
  intros I E (b & Eb & Lb) N. destruct (nth_error (ths w) i) as [t|] eqn:Et; [|rewrite step_none in E by auto; injection E as <-; exfalso; apply N; exists b; auto].
  destruct (step_shape w i t w' Et E) as [(-> & _)|(t' & _ & _ & H)]; [exfalso; apply N; exists b; auto|].
  assert (forall h, (forall b', nth_error h o = Some b' -> lf b' = Alive) -> nth_error h o <> None -> heap w' = h -> False) as F.
  { intros h H1 H2 H3. apply N. unfold exists_now. rewrite H3. destruct (nth_error h o) as [b'|] eqn:X; [|congruence]. exists b'. auto. }
  pose proof (nth_error_lt _ _ _ Eb) as Lo.
  assert (forall q x, lf x = Alive \/ q <> o -> (forall b', nth_error (upd (heap w) q x) o = Some b' -> lf b' = Alive) /\ nth_error (upd (heap w) q x) o <> None) as U.
  { intros q x Hx. destruct (Nat.eq_dec q o) as [->|Nq]; [rewrite upd_same by auto|rewrite upd_other by auto; rewrite Eb]; split; try discriminate; intros b' X; injection X as <-; [destruct Hx; congruence|auto]. }
  destruct H as [H _|q x c Eq _ H _|q k x Hw Eq Lx H _|q k c l Hw Eq H _|y acc _ _ H _|w1 q x f v _ Eq Lx Hx _ H _].
  - exfalso. apply (F _ (fun b' X => eq_trans (f_equal lf (eq_sym (f_equal (fun z => match z with Some y => y | None => b end) (eq_trans (eq_sym Eb) X)))) Lb)) in H; auto. congruence.
  - exfalso. destruct (U q (mkO c (lf x) (cells x))) as [U1 U2]; [|eapply F; eauto]. cbn [lf]. destruct (Nat.eq_dec q o); [left; congruence|auto].
  - destruct (Nat.eq_dec q o) as [->|Nq]; [|exfalso; destruct (U q (mkO (cnt x) Dying [])) as [U1 U2]; [auto|eapply F; eauto]].
    pose proof (i_obj w I o) as K. pose proof (sum_in (td o) _ _ _ Et) as Q. unfold td in Q at 1. rewrite Hw, sum_cons in Q. cbn [is_destroy] in Q. rewrite Nat.eqb_refl in Q.
    rewrite Eb in K. destruct b as [[n|] lb c]; cbn [lf] in Lb; subst lb; cbn [okb lf cnt] in K; [lia|].
    unfold pointers. pose proof (sum_le (fun t => occ o (vars t)) (hv o) (ths w)) as Q2. unfold ce in K.
    assert (sum (fun t => occ o (vars t)) (ths w) <= sum (hv o) (ths w)) by (apply Q2; intros; unfold hv; lia). lia.
  - exfalso. destruct (U q (mkO c Gone l)) as [U1 U2]; [|eapply F; eauto]. right. intros ->. rewrite Eb in Eq. injection Eq as ->. discriminate.
  - exfalso. eapply F; eauto; rewrite nth_error_app1 by auto; [intros b' X|]; congruence.
  - exfalso. assert ((forall b', nth_error (heap w1) o = Some b' -> lf b' = Alive) /\ nth_error (heap w1) o <> None) as [U1 U2].
    { destruct Hx as [->|(q' & x' & c' & Eq' & _ & ->)]; [rewrite Eb; split; [intros b' X|]; congruence|].
      apply U. cbn [lf]. destruct (Nat.eq_dec q' o); [left; congruence|auto]. }
    eapply F; [| |exact H].
    + intros b' X. destruct (Nat.eq_dec q o) as [->|Nq]; [rewrite upd_same in X by (eapply nth_error_lt; eauto); injection X as <-; exact Lx|rewrite upd_other in X by auto; auto].
    + destruct (Nat.eq_dec q o) as [->|Nq]; [rewrite upd_same by (eapply nth_error_lt; eauto); discriminate|rewrite upd_other by auto; auto].
Qed.
