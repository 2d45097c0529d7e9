From Coq Require Import ZifyBool ZifyNat.
From Verif Require Import Base BaseFacts PgrModel PgrSpec PgrProofs PgrProofs2 PgrProofs3 PgrProofs4 PgrProofs5.
Open Scope nat_scope.

(* ---- members that are never changed ---- *)
Definition frz (w : pg) : Prop := forall i t, nth_error (ths w) i = Some t -> frozen (prog t) /\ forall o f, writes_cell o f t = false.
Lemma frz_step w i w' : frz w -> tstep w i = Ok w' -> frz w'.
Proof.
  intros F E. destruct (nth_error (ths w) i) as [t|] eqn:Et; [|rewrite step_none in E by auto; now injection E as <-].
  destruct (step_shape w i t w' Et E) as [(-> & _)|(t' & Eh & [H1 H2] & _)]; [exact F|].
  destruct (F _ _ Et) as [F1 F2]. intros j s. rewrite Eh. destruct (Nat.eq_dec i j) as [<-|N]; [|rewrite upd_other by auto; apply F].
  rewrite upd_same by (eapply nth_error_lt; eauto). intros X. injection X as <-. split.
  - destruct H1 as [->|(s0 & H1)]; auto. intros x Hx. apply F1. rewrite H1. now right.
  - intros o f. destruct (writes_cell o f t') eqn:K; auto. destruct (H2 _ _ K) as [K2|(x & K2 & K3)]; [now rewrite F2 in K2|].
    specialize (F1 _ K2). destruct x; contradiction.
Qed.
Lemma frz_run sched : forall w w', frz w -> prun w sched = Ok w' -> frz w'.
Proof.
  induction sched as [|i sched IH]; intros w w' F E; cbn [prun] in E; [now injection E as <-|].
  destruct (tstep w i) as [w1| | |] eqn:E1; try discriminate. cbn [bind] in E. eapply IH; [|exact E]. eapply frz_step; eauto.
Qed.
Lemma frz_race w i : frz w -> race w i -> False.
Proof.
  intros F (j & t & u & s & p & o & f & c & _ & Et & Ep & _ & _ & Ea & Eu & _ & [->|K]).
  - destruct (F _ _ Et) as [F1 _]. specialize (F1 s). rewrite Ep in F1. specialize (F1 (or_introl eq_refl)).
    destruct s; cbn [access] in Ea; try discriminate; try contradiction. destruct (getv (vars t) x); discriminate.
  - destruct (F _ _ Eu) as [_ F2]. now rewrite F2 in K.
Qed.
Lemma frz_start g l : Forall (fun t => frozen (snd t)) l -> frz (start g l).
Proof.
  intros F i t E. unfold start in E. cbn [ths] in E. rewrite nth_error_map in E. destruct (nth_error l i) eqn:El; [|discriminate]. injection E as <-.
  rewrite Forall_forall in F. split; [apply F; eapply nth_error_In; eauto|reflexivity].
Qed.
Lemma pgr_frozen g l sched : wf g l -> Forall (fun t => no_self (snd t)) l -> Forall (fun t => frozen (snd t)) l ->
  exists w, prun (start g l) sched = Ok w /\ intact w.
Proof.
  intros W N F. destruct (pgr_safe g l sched W N) as [H|(_ & a & i & b & w & _ & E & R)]; [exact H|].
  exfalso. eapply frz_race; [|exact R]. eapply frz_run; [|exact E]. now apply frz_start.
Qed.
(* ---- one thread ---- *)
Lemma len_step w i w' : tstep w i = Ok w' -> length (ths w') = length (ths w).
Proof.
  intros E. destruct (nth_error (ths w) i) as [t|] eqn:Et; [|rewrite step_none in E by auto; now injection E as <-].
  destruct (step_shape w i t w' Et E) as [(-> & _)|(t' & Eh & _)]; [reflexivity|]. rewrite Eh. apply upd_length.
Qed.
Lemma len_run sched : forall w w', prun w sched = Ok w' -> length (ths w') = length (ths w).
Proof.
  induction sched as [|i sched IH]; intros w w' E; cbn [prun] in E; [now injection E as <-|].
  destruct (tstep w i) as [w1| | |] eqn:E1; try discriminate. cbn [bind] in E. rewrite (IH _ _ E). eapply len_step; eauto.
Qed.
Lemma pgr_single g t sched : wf g [t] -> no_self (snd t) -> exists w, prun (start g [t]) sched = Ok w /\ intact w.
Proof.
  intros W N. destruct (pgr_safe g [t] sched W) as [H|(_ & a & i & b & w & _ & E & (j & x & u & _ & _ & _ & _ & _ & Nj & Ex & _ & _ & _ & _ & Eu & _))]; [auto|exact H|].
  apply len_run in E. cbn in E. apply nth_error_lt in Ex, Eu. lia.
Qed.
(* ---- the last pointer ---- *)
Lemma pgr_last g l sched i w w' o : wf g l -> Forall (fun t => no_self (snd t)) l -> prun (start g l) sched = Ok w -> tstep w i = Ok w' ->
  exists_now w o -> ~ exists_now w' o -> pointers w o = 0.
Proof. intros W N E. apply step_last. eapply run_inv; eauto. Qed.

(* ---- nothing is lost ---- *)
Definition dsc (w : pg) : Prop :=
  (forall o b p, nth_error (heap w) o = Some b -> In (Some p) (cells b) -> p < o) /\
  (forall o b, nth_error (heap w) o = Some b -> lf b <> Alive -> cells b = []).
Lemma dsc_step w i w' : inv w -> frz w -> dsc w -> tstep w i = Ok w' -> dsc w'.
Proof.
  intros I F [D1 D2] E. destruct (nth_error (ths w) i) as [t|] eqn:Et; [|rewrite step_none in E by auto; injection E as <-; split; auto].
  destruct (F _ _ Et) as [F1 F2].
  destruct (step_shape w i t w' Et E) as [(-> & _)|(t' & _ & _ & H)]; [split; auto|].
  assert (forall o b x, nth_error (heap w) o = Some b -> (cells x = cells b /\ lf x = lf b) \/ cells x = [] ->
     heap w' = upd (heap w) o x -> dsc w') as U.
  { intros o b x Eb Hx Eh. unfold dsc. rewrite Eh. split; intros q y.
    - intros p. destruct (Nat.eq_dec o q) as [<-|N]; [rewrite upd_same by (eapply nth_error_lt; eauto); intros X; injection X as <-|rewrite upd_other by auto; apply D1].
      destruct Hx as [[-> _]| ->]; [eapply D1; eauto|intros []].
    - destruct (Nat.eq_dec o q) as [<-|N]; [rewrite upd_same by (eapply nth_error_lt; eauto); intros X; injection X as <-|rewrite upd_other by auto; apply D2].
      destruct Hx as [[-> ->]| ->]; eauto. }
  destruct H as [H _|q x c Eq _ H _|q k x Hw Eq Lx H _|q k c l Hw Eq H _|y acc Hw Hf H _|w1 q x f v _ Eq Lx _ [(x1 & Q)|[(y1 & Q)|(x1 & y1 & p1 & Q & _)]] H _].
  - unfold dsc. now rewrite H.
  - apply (U q x (mkO c (lf x) (cells x)) Eq); auto.
  - apply (U q x (mkO (cnt x) Dying []) Eq); auto.
  - apply (U q _ (mkO c Gone l) Eq); auto. right. apply (D2 _ _ Eq). discriminate.
  - unfold dsc. rewrite H. split; intros q b.
    + intros p Eb Hp. destruct (Nat.lt_ge_cases q (length (heap w))) as [L|L]; [rewrite nth_error_app1 in Eb by auto; eapply D1; eauto|].
      rewrite nth_error_app2 in Eb by auto. destruct (q - length (heap w)) as [|z] eqn:Ez; [|destruct z; discriminate]. injection Eb as <-. cbn [cells] in Hp.
      assert (1 <= hv p t) as Hh by (unfold hv; rewrite Hf; cbn [fref]; apply occ_in in Hp; lia).
      destruct (held_obj w i t p I Et Hh) as (n & c & E0). apply nth_error_lt in E0. lia.
    + intros Eb Lb. destruct (Nat.lt_ge_cases q (length (heap w))) as [L|L]; [rewrite nth_error_app1 in Eb by auto; eapply D2; eauto|].
      rewrite nth_error_app2 in Eb by auto. destruct (q - length (heap w)) as [|z] eqn:Ez; [|destruct z; discriminate]. injection Eb as <-. now contradiction Lb.
  - specialize (F2 q f). unfold writes_cell in F2. rewrite Q, !Nat.eqb_refl in F2. discriminate.
  - specialize (F2 q f). unfold writes_cell in F2. rewrite Q, !Nat.eqb_refl in F2. discriminate.
  - specialize (F1 (Store x1 f y1)). rewrite Q in F1. destruct (F1 (or_introl eq_refl)).
Qed.
Lemma dsc_run sched : forall w w', inv w -> frz w -> dsc w -> prun w sched = Ok w' -> dsc w'.
Proof.
  induction sched as [|i sched IH]; intros w w' I F D E; cbn [prun] in E; [now injection E as <-|].
  destruct (tstep w i) as [w1| | |] eqn:E1; try discriminate. cbn [bind] in E. eapply IH; [| | |exact E].
  - destruct (step_ok w i I) as [(w2 & E2 & I2)|(E2 & _)]; [|congruence]. rewrite E1 in E2. now injection E2 as <-.
  - eapply frz_step; eauto.
  - eapply dsc_step; eauto.
Qed.
Lemma dsc_start g l : descending g -> dsc (start g l).
Proof.
  intros D. split; intros o b; rewrite start_heap; destruct (nth_error g o) as [c|] eqn:E; try discriminate.
  - intros p X. injection X as <-. cbn [cells]. eapply D; eauto.
  - intros X. injection X as <-. cbn [lf]. congruence.
Qed.
Lemma reach_exists w o : inv w -> reach w o -> exists_now w o.
Proof.
  intros I H. destruct (inv_intact w I) as (A & B & _). destruct H as [t o Ht Ho|o b p _ Eb Hp]; [eauto|]. eapply B; [eapply nth_error_In; eauto|exact Hp].
Qed.
Lemma exists_reach w : inv w -> quiet w -> dsc w -> forall n o, length (heap w) - o <= n -> exists_now w o -> reach w o.
Proof.
  intros I Q [D1 D2]. induction n as [|n IH]; intros o Hn (b & Eb & Lb); pose proof (nth_error_lt _ _ _ Eb) as Lo; [lia|].
  destruct (inv_quiet w o I Q Lo) as [(_ & _ & P)|(K & _)].
  2:{ destruct (inv_intact w I) as (_ & _ & _ & G). apply G in K. destruct K as (b' & E' & L'). congruence. }
  unfold pointers in P. destruct (Nat.eq_dec (sum (fun t => occ o (vars t)) (ths w)) 0) as [Z|Z].
  - destruct (sum_pos (fun b => occ o (cells b)) (heap w)) as (x & Hx & Ox); [lia|]. apply occ_in in Ox. apply In_nth_error in Hx. destruct Hx as [q Eq].
    pose proof (D1 _ _ _ Eq Ox) as Lq. eapply r_member; [|exact Eq|exact Ox]. apply IH; [lia|]. exists x. split; auto.
    destruct (lf x) eqn:Lx; auto; rewrite (D2 _ _ Eq) in Ox by congruence; destruct Ox.
  - destruct (sum_pos (fun t => occ o (vars t)) (ths w)) as (x & Hx & Ox); [lia|]. apply occ_in in Ox. eapply r_var; eauto.
Qed.
Lemma pgr_reach g l sched w o : wf g l -> Forall (fun t => no_self (snd t)) l -> prun (start g l) sched = Ok w -> reach w o -> exists_now w o.
Proof. intros W N E. apply reach_exists. eapply run_inv; eauto. Qed.
Lemma pgr_nothing_lost g l sched w o : wf g l -> Forall (fun t => no_self (snd t)) l -> Forall (fun t => frozen (snd t)) l -> descending g ->
  prun (start g l) sched = Ok w -> quiet w -> (exists_now w o <-> reach w o).
Proof.
  intros W N F D E Q. assert (inv w) as I by (eapply run_inv; eauto).
  split; [|now apply reach_exists]. apply (exists_reach w I Q) with (n := length (heap w)); [|lia].
  eapply dsc_run; [|apply frz_start; eauto|apply dsc_start; eauto|exact E]. now apply start_inv.
Qed.
Lemma pgr_all_deleted g l sched w : wf g l -> Forall (fun t => no_self (snd t)) l -> Forall (fun t => frozen (snd t)) l -> descending g ->
  prun (start g l) sched = Ok w -> quiet w -> (forall t o, In t (ths w) -> ~ In (Some o) (vars t)) ->
  NoDup (log w) /\ forall o, In o (log w) <-> o < length (heap w).
Proof.
  intros W N F D E Q Z. assert (inv w) as I by (eapply run_inv; eauto). destruct (inv_intact w I) as (_ & _ & G1 & G2). split; [exact G1|].
  intros o. split.
  - intros H. apply G2 in H. destruct H as (b & Eb & _). eapply nth_error_lt; eauto.
  - intros L. destruct (inv_quiet w o I Q L) as [(X & _)|[X _]]; [|exact X]. exfalso.
    apply (pgr_nothing_lost g l sched w o W N F D E Q) in X. clear - X Z. induction X as [t o Ht Ho|o b p _ IH _ _]; [eapply Z; eauto|exact IH].
Qed.

(* ---- nobody waits ---- *)
Definition ksome (l : list (option nat)) : nat := length (somes l).
Definition mlife (b : obj) : nat := match lf b with Alive => 2 + ksome (cells b) | Dying => 1 | Gone => 0 end.
Definition mo (b : obj) : nat := mlife b + match cnt b with Some _ => 1 | None => 0 end.
Definition mtask (a : task) : nat := match a with TDec _ => 1 | _ => 0 end.
Definition mrest (r : rest) : nat :=
  match r with
  | RNone => 0 | RSet _ _ | RCopy _ _ | RMove _ _ | RInc _ _ _ _ | RTake _ _ _ => 1
  | RRead _ _ _ | RStore _ _ _ => 2
  | RBuild _ ms acc => 6 + 2 * length ms + ksome acc
  end.
Definition mstmt (s : stmt) : nat :=
  match s with New _ ms => 7 + 2 * length ms | Copy _ _ | Move _ _ | Store _ _ _ | Take _ _ _ => 3 | Reset _ => 2 | Load _ _ _ => 4 | Use _ => 1 end.
Definition mt (t : thread) : nat := sum mtask (work t) + mrest (fin t) + sum mstmt (prog t).
Definition mw (w : pg) : nat := sum mo (heap w) + sum mt (ths w).
Definition k1 (v : option nat) : nat := match v with Some _ => 1 | None => 0 end.
Lemma ksome_cons v l : ksome (v :: l) = k1 v + ksome l.
Proof. unfold ksome, somes. cbn [flat_map]. rewrite app_length. destruct v; reflexivity. Qed.
Lemma ksome_app a b : ksome (a ++ b) = ksome a + ksome b.
Proof. induction a as [|v a IH]; cbn [app]; rewrite ?ksome_cons; [reflexivity|lia]. Qed.
Lemma ksome_upd l i v : ksome (upd l i v) + k1 (getv l i) <= ksome l + k1 v.
Proof.
  unfold getv. revert i. induction l as [|x l IH]; intros [|i]; cbn [upd nth_error]; rewrite ?ksome_cons; cbn [k1]; try lia.
  specialize (IH i). lia.
Qed.
Lemma dec_of_m v : sum mtask (dec_of v) = k1 v.
Proof. destruct v; reflexivity. Qed.
Lemma tdec_m l : sum mtask (map TDec l) = length l.
Proof. unfold sum. induction l as [|x l IH]; cbn [map fold_right length mtask]; [reflexivity|lia]. Qed.
Lemma k1_le v : k1 v <= 1.
Proof. destruct v; cbn [k1]; lia. Qed.
(* the change of the measure by new threads and objects *)
Lemma mw_sett w i t t' : nth_error (ths w) i = Some t -> mw (sett w i t') + mt t = mw w + mt t'.
Proof. intros E. unfold mw, sett. cbn [heap ths]. pose proof (sum_upd mt _ _ _ t' E). lia. Qed.
Lemma mw_seto w o b b' : nth_error (heap w) o = Some b -> mw (seto w o b') + mo b = mw w + mo b'.
Proof. intros E. unfold mw, seto. cbn [heap ths]. pose proof (sum_upd mo _ _ _ b' E). lia. Qed.
Lemma mw_inc w o w' : inc w o = Ok w' -> mw w' = mw w /\ ths w' = ths w.
Proof.
  intros E. apply inc_shape in E. destruct E as (n & l & c & E & ->). split; [|reflexivity].
  pose proof (mw_seto w o _ (mkO (Some (n + 1)%Z) l c) E) as Q. unfold mo, mlife in Q. cbn [lf cnt cells] in Q. lia.
Qed.
Lemma mw_cell w o b f v : nth_error (heap w) o = Some b -> lf b = Alive -> mw (seto w o (setcell b f v)) + k1 (getv (cells b) f) <= mw w + k1 v.
Proof.
  intros E L. pose proof (mw_seto w o b (setcell b f v) E) as Q. pose proof (ksome_upd (cells b) f v) as K.
  unfold mo, mlife, setcell in *. cbn [lf cnt cells] in *. rewrite L in *. lia.
Qed.
Lemma busy_step w i t w' : nth_error (ths w) i = Some t -> done_t t = false -> tstep w i = Ok w' -> mw w' < mw w.
Proof.
  intros Et Nd. unfold tstep. rewrite Et. unfold done_t in Nd. destruct (work t) as [|a k] eqn:Ew.
  2:{ intros H.
    assert (forall w1 k', ths w1 = ths w -> mw (sett w1 i (mkT (vars t) (prog t) k' (fin t))) + mtask a + sum mtask k = mw w1 + sum mtask k') as Q.
    { intros w1 k' E1. rewrite <- E1 in Et. pose proof (mw_sett w1 i t (mkT (vars t) (prog t) k' (fin t)) Et) as Q. unfold mt in Q. cbn [work fin prog] in Q. rewrite Ew, sum_cons in Q. lia. }
    destruct a as [o|o|o|o]; cbn [do_task] in H.
    - destruct (nth_error (heap w) o) as [[[n|] l c]|] eqn:E; try discriminate. injection H as <-.
      pose proof (mw_seto w o _ (mkO (Some (n - 1)%Z) l c) E) as Q2. unfold mo, mlife in Q2. cbn [lf cnt cells] in Q2.
      specialize (Q (seto w o (mkO (Some (n - 1)%Z) l c)) (if (n - 1 =? 0)%Z then TCounter o :: k else k) eq_refl).
      assert (sum mtask (if (n - 1 =? 0)%Z then TCounter o :: k else k) = sum mtask k) as X by (destruct (n - 1 =? 0)%Z; rewrite ?sum_cons; reflexivity).
      rewrite X in Q. cbn [mtask] in Q. lia.
    - destruct (nth_error (heap w) o) as [[[n|] l c]|] eqn:E; try discriminate. injection H as <-.
      pose proof (mw_seto w o _ (mkO None l c) E) as Q2. unfold mo, mlife in Q2. cbn [lf cnt cells] in Q2.
      specialize (Q (seto w o (mkO None l c)) (TDestroy o :: k) eq_refl). rewrite ?sum_cons in Q; cbn [mtask] in Q. lia.
    - destruct (existsb (uses_obj o) (ths w)); [discriminate|]. destruct (deref w o) as [b| | |] eqn:D; try discriminate. apply deref_shape in D. destruct D as [D1 D2].
      cbn [bind] in H. injection H as <-.
      pose proof (mw_seto w o _ (mkO (cnt b) Dying []) D1) as Q2. unfold mo, mlife in Q2. cbn [lf cnt cells] in Q2. rewrite D2 in Q2.
      specialize (Q (seto w o (mkO (cnt b) Dying [])) (map TDec (rev (somes (cells b))) ++ TFree o :: k) eq_refl).
      rewrite sum_app, tdec_m, rev_length, sum_cons in Q. cbn [mtask] in Q. fold (ksome (cells b)) in Q. lia.
    - destruct (nth_error (heap w) o) as [[c [] l]|] eqn:E; try discriminate. injection H as <-.
      pose proof (mw_seto w o _ (mkO c Gone l) E) as Q2. unfold mo, mlife in Q2. cbn [lf cnt cells] in Q2.
      specialize (Q (mkW (heap (seto w o (mkO c Gone l))) (ths w) (o :: log w)) k eq_refl). cbn [mtask] in Q.
      change (mw (mkW (heap (seto w o (mkO c Gone l))) (ths w) (o :: log w))) with (mw (seto w o (mkO c Gone l))) in Q.
      change (heap (seto w o (mkO c Gone l))) with (upd (heap w) o (mkO c Gone l)) in Q. lia. }
  assert (forall w1 v p k r, ths w1 = ths w -> mw (sett w1 i (mkT v p k r)) + mrest (fin t) + sum mstmt (prog t) = mw w1 + sum mtask k + mrest r + sum mstmt p) as Q.
  { intros w1 v p k r E1. rewrite <- E1 in Et. pose proof (mw_sett w1 i t (mkT v p k r) Et) as Q. unfold mt in Q. cbn [work fin prog] in Q. rewrite Ew, sum_nil in Q. lia. }
  pose proof (fun v => k1_le v) as KL.
  destruct (fin t) as [|y q|y x|y x|y o f|y o f p|o f x|y o f|y ms acc] eqn:Ef.
  { destruct (prog t) as [|s p] eqn:Ep; [discriminate|]. intros H.
    pose proof (fun w1 v k r (E1 : ths w1 = ths w) => Q w1 v p k r E1) as Q'. clear Q. rewrite sum_cons in Q'. cbn [mrest] in Q'.
    assert (mw (sett w i (mkT (vars t) p [] RNone)) + mstmt s = mw w) as Sk by (specialize (Q' w (vars t) [] RNone eq_refl); rewrite sum_nil in Q'; cbn [mrest] in Q'; lia).
    assert (forall v y, mw (sett w i (mkT v p (dec_of (getv (vars t) y)) RNone)) + mstmt s <= mw w + 1 + 0) as Tk0.
    { intros v y. specialize (Q' w v (dec_of (getv (vars t) y)) RNone eq_refl). rewrite dec_of_m in Q'. specialize (KL (getv (vars t) y)). cbn [mrest] in Q'. lia. }
    assert (forall v y r, mw (sett w i (mkT v p (dec_of (getv (vars t) y)) r)) + mstmt s <= mw w + 1 + mrest r) as Tk.
    { intros v y r. specialize (Q' w v (dec_of (getv (vars t) y)) r eq_refl). rewrite dec_of_m in Q'. specialize (KL (getv (vars t) y)). lia. }
    destruct s as [y ms|y x|y x|y|y x f|x f y|y x f|x]; unfold do_stmt in H; cbn [mstmt] in *.
    - destruct (Nat.ltb y (length (vars t))); injection H as <-; [|lia]. specialize (Q' w (vars t) [] (RBuild y ms []) eq_refl). rewrite sum_nil in Q'. cbn [mrest ksome somes flat_map length] in Q'. change (ksome []) with 0 in Q'. lia.
    - destruct (Nat.ltb y (length (vars t)) && negb (Nat.eqb y x)); injection H as <-; [|lia]. specialize (Tk (upd (vars t) y None) y (RCopy y x)). cbn [mrest] in Tk. lia.
    - destruct (Nat.ltb y (length (vars t)) && negb (Nat.eqb y x)); injection H as <-; [|lia]. specialize (Tk (upd (vars t) y None) y (RMove y x)). cbn [mrest] in Tk. lia.
    - destruct (Nat.ltb y (length (vars t))); injection H as <-; [|lia]. specialize (Tk (upd (vars t) y None) y RNone). cbn [mrest] in Tk. lia.
    - destruct (getv (vars t) x) as [o|]; [|injection H as <-; lia].
      destruct (deref w o) as [b| | |]; try discriminate. cbn [bind] in H.
      destruct (Nat.ltb y (length (vars t)) && Nat.ltb f (length (cells b))); [destruct (existsb _ _); [discriminate|]|]; injection H as <-; [|lia].
      specialize (Tk (upd (vars t) y None) y (RRead y o f)). cbn [mrest] in Tk. lia.
    - destruct (getv (vars t) x) as [o|]; [|injection H as <-; lia].
      destruct (deref w o) as [b| | |] eqn:D; try discriminate. apply deref_shape in D. destruct D as [D1 D2]. cbn [bind] in H.
      destruct (Nat.ltb y (length (vars t)) && Nat.ltb f (length (cells b))); [destruct (existsb _ _); [discriminate|]|]; injection H as <-; [|lia].
      pose proof (mw_cell w o b f None D1 D2) as C. specialize (Q' (seto w o (setcell b f None)) (vars t) (dec_of (getv (cells b) f)) (RStore o f y) eq_refl).
      rewrite dec_of_m in Q'. cbn [mrest k1] in *. lia.
    - destruct (getv (vars t) x) as [o|]; [|injection H as <-; lia].
      destruct (deref w o) as [b| | |]; try discriminate. cbn [bind] in H.
      destruct (Nat.ltb y (length (vars t)) && Nat.ltb f (length (cells b))); [destruct (existsb _ _); [discriminate|]|]; injection H as <-; [|lia].
      specialize (Tk (upd (vars t) y None) y (RTake y o f)). cbn [mrest] in Tk. lia.
    - destruct (getv (vars t) x) as [o|]; [|injection H as <-; lia].
      destruct (deref w o) as [b| | |]; try discriminate. cbn [bind] in H. injection H as <-. lia. }
  all: intros H; unfold do_rest in H; rewrite Ef in H.
  all: assert (forall w1 v k r, ths w1 = ths w -> mw (sett w1 i (mkT v (prog t) k r)) + mrest (fin t) = mw w1 + sum mtask k + mrest r) as Q1
    by (intros w1 v1 k1' r1 E1; rewrite Ef; specialize (Q w1 v1 (prog t) k1' r1 E1); lia).
  all: clear Q; rewrite Ef in Q1; cbn [mrest] in Q1.
  - injection H as <-. specialize (Q1 w (upd (vars t) y (Some q)) [] RNone eq_refl). rewrite sum_nil in Q1. cbn [mrest] in Q1. lia.
  - destruct (getv (vars t) x) as [o|].
    + destruct (inc w o) as [w1| | |] eqn:E; try discriminate. apply mw_inc in E. destruct E as [E1 E2]. cbn [bind] in H. injection H as <-.
      specialize (Q1 w1 (upd (vars t) y (Some o)) [] RNone E2). rewrite sum_nil in Q1. cbn [mrest] in Q1. lia.
    + injection H as <-. specialize (Q1 w (vars t) [] RNone eq_refl). rewrite sum_nil in Q1. cbn [mrest] in Q1. lia.
  - injection H as <-. specialize (Q1 w (upd (upd (vars t) y (getv (vars t) x)) x None) [] RNone eq_refl). rewrite sum_nil in Q1. cbn [mrest] in Q1. lia.
  - destruct (deref w o) as [b| | |]; try discriminate. cbn [bind] in H. injection H as <-.
    specialize (Q1 w (vars t) [] (match getv (cells b) f with Some p => RInc y o f p | None => RNone end) eq_refl). rewrite sum_nil in Q1.
    assert (mrest (match getv (cells b) f with Some p => RInc y o f p | None => RNone end) <= 1) by (destruct (getv (cells b) f); cbn [mrest]; lia). lia.
  - destruct (inc w p) as [w1| | |] eqn:E; try discriminate. apply mw_inc in E. destruct E as [E1 E2]. cbn [bind] in H. injection H as <-.
    specialize (Q1 w1 (upd (vars t) y (Some p)) [] RNone E2). rewrite sum_nil in Q1. cbn [mrest] in Q1. lia.
  - destruct (getv (vars t) x) as [p|].
    + destruct (inc w p) as [w1| | |] eqn:E; try discriminate. apply mw_inc in E. destruct E as [E1 E2]. cbn [bind] in H.
      destruct (deref w1 o) as [b| | |] eqn:D; try discriminate. apply deref_shape in D. destruct D as [D1 D2]. cbn [bind] in H. injection H as <-.
      pose proof (mw_cell w1 o b f (Some p) D1 D2) as C. specialize (Q1 (seto w1 o (setcell b f (Some p))) (vars t) [] RNone E2). rewrite sum_nil in Q1. cbn [mrest k1] in *. lia.
    + injection H as <-. specialize (Q1 w (vars t) [] RNone eq_refl). rewrite sum_nil in Q1. cbn [mrest] in Q1. lia.
  - destruct (deref w o) as [b| | |] eqn:D; try discriminate. apply deref_shape in D. destruct D as [D1 D2]. cbn [bind] in H. injection H as <-.
    pose proof (mw_cell w o b f None D1 D2) as C. specialize (Q1 (seto w o (setcell b f None)) (upd (vars t) y (getv (cells b) f)) [] RNone eq_refl). rewrite sum_nil in Q1. cbn [mrest k1] in *. lia.
  - destruct ms as [|m ms].
    + injection H as <-. specialize (Q1 (mkW (heap w ++ [mkO (Some 1%Z) Alive acc]) (ths w) (log w)) (upd (vars t) y None) (dec_of (getv (vars t) y)) (RSet y (length (heap w))) eq_refl).
      rewrite dec_of_m in Q1. specialize (KL (getv (vars t) y)). cbn [mrest length] in Q1.
      assert (mw (mkW (heap w ++ [mkO (Some 1%Z) Alive acc]) (ths w) (log w)) = mw w + 3 + ksome acc) as X
        by (unfold mw; cbn [heap ths]; rewrite sum_app, sum_cons, sum_nil; unfold mo, mlife; cbn [lf cnt cells]; lia). lia.
    + destruct (getv (vars t) m) as [p|].
      * destruct (inc w p) as [w1| | |] eqn:E; try discriminate. apply mw_inc in E. destruct E as [E1 E2]. cbn [bind] in H. injection H as <-.
        specialize (Q1 w1 (vars t) [] (RBuild y ms (acc ++ [Some p])) E2). rewrite sum_nil in Q1. cbn [mrest length] in Q1. rewrite ksome_app in Q1. change (ksome [Some p]) with 1 in Q1. lia.
      * injection H as <-. specialize (Q1 w (vars t) [] (RBuild y ms (acc ++ [None])) eq_refl). rewrite sum_nil in Q1. cbn [mrest length] in Q1. rewrite ksome_app in Q1. change (ksome [None]) with 0 in Q1. lia.
Qed.
Lemma done_step w i t : nth_error (ths w) i = Some t -> done_t t = true -> tstep w i = Ok w.
Proof.
  unfold tstep, done_t. intros ->. destruct (work t); [|discriminate]. destruct (fin t); try discriminate. destruct (prog t); [reflexivity|discriminate].
Qed.
Lemma busy_bound sched : forall w, busy w sched <= mw w + 1.
Proof.
  induction sched as [|i sched IH]; intros w; cbn [busy]; [lia|].
  destruct (nth_error (ths w) i) as [t|] eqn:Et; [|rewrite step_none by auto; specialize (IH w); lia].
  destruct (done_t t) eqn:D; [rewrite (done_step _ _ _ Et D); specialize (IH w); lia|].
  destruct (tstep w i) as [w'| | |] eqn:E; try lia. pose proof (busy_step w i t w' Et D E). specialize (IH w'). lia.
Qed.
Lemma pgr_bounded g l : exists B, forall sched, busy (start g l) sched <= B.
Proof. exists (mw (start g l) + 1). intros. apply busy_bound. Qed.
(* a state in which no thread can go on has nothing left to do *)
Lemma all_done w : (forall t, In t (ths w) -> done_t t = true) -> quiet w /\ finished w.
Proof.
  intros H. unfold quiet, finished. rewrite !Forall_forall. split; intros t Ht; specialize (H t Ht); unfold done_t in H;
    (destruct (work t); [|discriminate]; destruct (fin t); try discriminate; destruct (prog t); [|discriminate]); auto.
Qed.
Lemma not_all_done l : forallb done_t l = false -> exists i t, nth_error l i = Some t /\ done_t t = false.
Proof.
  induction l as [|t l IH]; cbn [forallb]; [discriminate|]. destruct (done_t t) eqn:D; [|intros _; exists 0, t; auto].
  cbn [andb]. intros H. destruct (IH H) as (i & u & A & B). exists (S i), u. auto.
Qed.
Lemma complete n : forall w, inv w -> frz w -> mw w <= n -> exists more w', prun w more = Ok w' /\ quiet w' /\ finished w'.
Proof.
  induction n as [|n IH]; intros w I F Hn;
    (destruct (forallb done_t (ths w)) eqn:E; [exists [], w; split; [reflexivity|]; apply all_done; now apply forallb_forall|]);
    destruct (not_all_done _ E) as (i & t & Et & D);
    (destruct (step_ok w i I) as [(w1 & E1 & I1)|(_ & R)]; [|destruct (frz_race w i F R)]);
    pose proof (busy_step w i t w1 Et D E1) as L; [lia|].
  destruct (IH w1 I1 (frz_step _ _ _ F E1)) as (more & w' & H1 & H2); [lia|].
  exists (i :: more), w'. split; [|exact H2]. cbn [prun]. rewrite E1. exact H1.
Qed.
Lemma pgr_complete g l sched w : wf g l -> Forall (fun t => no_self (snd t)) l -> Forall (fun t => frozen (snd t)) l ->
  prun (start g l) sched = Ok w -> exists more w', prun w more = Ok w' /\ quiet w' /\ finished w'.
Proof.
  intros W N F E. eapply complete; [eapply run_inv; eauto| |reflexivity]. eapply frz_run; [|exact E]. now apply frz_start.
Qed.

(* ---- examples ---- *)
Lemma self_load_ub : wf [[]; [Some 0]] self_load /\ prun (start [[]; [Some 0]] self_load) [0; 0; 0; 0] = UB.
Proof.
  split; [|reflexivity]. split; [|split].
  - intros c o [<-|[<-|[]]] H; cbn in H; [tauto|]. destruct H as [H|[]]. injection H as <-. cbn. lia.
  - intros t o [<-|[]] [H|[]]. injection H as <-. cbn. lia.
  - intros [|[|o]] H; cbn in H; try lia.
    + left. exists [Some 0]. cbn. tauto.
    + right. eexists. split; [now left|]. cbn. tauto.
Qed.
Lemma ring_kept : wf ring drop_ring /\ exists w, prun (start ring drop_ring) [0; 1; 0; 1] = Ok w /\ quiet w /\ finished w /\
  (forall o, ~ reach w o) /\ exists_now w 0 /\ exists_now w 1.
Proof.
  split.
  - split; [|split].
    + intros c o [<-|[<-|[]]] [H|[]]; injection H as <-; cbn; lia.
    + intros t o [<-|[<-|[]]] [H|[]]; injection H as <-; cbn; lia.
    + intros [|[|o]] H; cbn in H; try lia; left.
      * exists [Some 0]. cbn. tauto.
      * exists [Some 1]. cbn. tauto.
  - eexists. split; [reflexivity|]. split; [repeat constructor|]. split; [repeat constructor|]. split; [|split; eexists; split; reflexivity].
    intros o H. induction H as [t o Ht Ho|o b p _ IH _ _]; [|exact IH]. cbn in Ht. destruct Ht as [<-|[<-|[]]]; cbn in Ho; destruct Ho as [Ho|[]]; discriminate.
Qed.
Lemma walkers_wf : wf two walkers /\ descending two /\ Forall (fun t => no_self (snd t)) walkers /\ Forall (fun t => frozen (snd t)) walkers.
Proof.
  split; [|split; [|split]].
  - split; [|split].
    + intros c o [<-|[<-|[]]] H; cbn in H; [tauto|]. destruct H as [H|[H|[]]]; injection H as <-; cbn; lia.
    + intros t o [<-|[<-|[]]] [H|[H|[]]]; try discriminate; injection H as <-; cbn; lia.
    + intros [|[|o]] H; cbn in H; try lia.
      * left. exists [Some 0; Some 0]. cbn. tauto.
      * right. eexists. split; [now left|]. cbn. tauto.
  - intros [|[|i]] c o E H; cbn in E.
    + injection E as <-. destruct H.
    + injection E as <-. destruct H as [H|[H|[]]]; injection H as <-; lia.
    + destruct i; discriminate.
  - apply Forall_forall. intros t [<-|[<-|[]]] x f; split; intros K; cbn in K; repeat (destruct K as [K|K]; [(discriminate K || (injection K; intros; congruence))|]); exact K.
  - apply Forall_forall. intros t [<-|[<-|[]]] s K; cbn in K; repeat (destruct K as [<-|K]; [exact Logic.I|]); destruct K.
Qed.
