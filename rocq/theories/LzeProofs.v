From Verif Require Import Base BaseFacts SrtSpec LzyModel LzySpec LzyProofs LzeModel LzeSpec.
Open Scope Z_scope.

(* ---- running a process to its next value ---------------------------------------------- *)
Inductive shown (V St : Type) : Type := Ended | Value (v : V) (p : proc V St) | Thrown.
Arguments Ended {V St}. Arguments Value {V St}. Arguments Thrown {V St}.

Section Pull.
Context {V St : Type}.
Notation process := (proc V St).
Notation Shown := (shown V St).
Fixpoint pull (p : process) (s : St) : Shown * St :=
  match p with
  | Stop => (Ended, s)
  | Emit v p => (Value v p, s)
  | Do c k => match c s with (s, Some x) => pull (k x) s | (s, None) => (Thrown, s) end
  end.
Definition later (p' p : process) : Prop := exists s v s', pull p s = (Value v p', s').
Lemma later_wf : well_founded later.
Proof.
  intros p. induction p as [|v p IH|X c k IH]; constructor; intros p' (s & w & s' & E); cbn [pull] in E; try discriminate.
  - injection E as <- <- <-. exact IH.
  - destruct (c s) as [s1 [x|]]; [|discriminate]. destruct (IH x) as [H]. apply H. now exists s1, w, s'.
Qed.

Lemma pull_select f p : forall s, pull (selecting f p) s =
  match pull p s with
  | (Value v p', s1) => match f v s1 with (s2, Some y) => (Value y (selecting f p'), s2) | (s2, None) => (Thrown, s2) end
  | (Ended, s1) => (Ended, s1) | (Thrown, s1) => (Thrown, s1) end.
Proof.
  induction p as [|v p IH|X c k IH]; intros s; cbn [selecting pull]; auto.
  destruct (c s) as [s1 [x|]]; auto.
Qed.
Lemma pull_those q p : forall s, pull (those q p) s =
  match pull p s with
  | (Value v p', s1) => match q v s1 with (s2, Some true) => (Value v (those q p'), s2) | (s2, Some false) => pull (those q p') s2 | (s2, None) => (Thrown, s2) end
  | (Ended, s1) => (Ended, s1) | (Thrown, s1) => (Thrown, s1) end.
Proof.
  induction p as [|v p IH|X c k IH]; intros s; cbn [those pull]; auto.
  - destruct (q v s) as [s1 [[|]|]]; auto.
  - destruct (c s) as [s1 [x|]]; auto.
Qed.
Lemma pull_filter g p : forall s, pull (filtering g p) s =
  match pull p s with
  | (Value v p', s1) => if g v then (Value v (filtering g p'), s1) else pull (filtering g p') s1
  | (Ended, s1) => (Ended, s1) | (Thrown, s1) => (Thrown, s1) end.
Proof.
  induction p as [|v p IH|X c k IH]; intros s; cbn [filtering pull]; auto.
  - destruct (g v); auto.
  - destruct (c s) as [s1 [x|]]; auto.
Qed.
Lemma pull_fresh c p : forall seen s, pull (fresh c seen p) s =
  match pull p s with
  | (Value v p', s1) => if contains c seen v then pull (fresh c seen p') s1 else (Value v (fresh c (v :: seen) p'), s1)
  | (Ended, s1) => (Ended, s1) | (Thrown, s1) => (Thrown, s1) end.
Proof.
  induction p as [|v p IH|X a k IH]; intros seen s; cbn [fresh pull]; auto.
  - destruct (contains c seen v); auto.
  - destruct (a s) as [s1 [x|]]; auto.
Qed.
Lemma pull_and p r : forall s, pull (and_then p r) s =
  match pull p s with (Value v p', s1) => (Value v (and_then p' r), s1) | (Ended, s1) => pull r s1 | (Thrown, s1) => (Thrown, s1) end.
Proof. induction p as [|v p IH|X c k IH]; intros s; cbn [and_then pull]; auto. destruct (c s) as [s1 [x|]]; auto. Qed.
Lemma pull_take m p : forall s, pull (taking (S m) p) s =
  match pull p s with (Value v p', s1) => (Value v (taking m p'), s1) | (Ended, s1) => (Ended, s1) | (Thrown, s1) => (Thrown, s1) end.
Proof. induction p as [|v p IH|X c k IH]; intros s; cbn [taking pull]; auto. destruct (c s) as [s1 [x|]]; auto. Qed.
Lemma take_0 (p : process) : taking 0 p = Stop.
Proof. now destruct p. Qed.
Lemma skip_0 (p : process) : skipping 0 p = p.
Proof. now destruct p. Qed.
Lemma pull_skip m p : forall s, pull (skipping (S m) p) s =
  match pull p s with (Value v p', s1) => pull (skipping m p') s1 | (Ended, s1) => (Ended, s1) | (Thrown, s1) => (Thrown, s1) end.
Proof. induction p as [|v p IH|X c k IH]; intros s; cbn [skipping pull]; auto. destruct (c s) as [s1 [x|]]; auto. Qed.
Lemma pull_pair j p : forall r s, pull (pairing j p r) s =
  match pull p s with
  | (Value v p', s1) =>
      match pull r s1 with (Value w r', s2) => (Value (j v w) (pairing j p' r'), s2) | (Ended, s2) => (Ended, s2) | (Thrown, s2) => (Thrown, s2) end
  | (Ended, s1) => (Ended, s1) | (Thrown, s1) => (Thrown, s1) end.
Proof.
  induction p as [|v p IH|X c k IH]; intros r s; cbn [pairing pull]; auto.
  - revert s. induction r as [|w r _|X c k IHr]; intros s; cbn [pull]; auto. destruct (c s) as [s1 [x|]]; auto.
  - destruct (c s) as [s1 [x|]]; auto.
Qed.
Lemma pull_run body p : forall s, run body p s =
  match pull p s with
  | (Value v p', s1) => match body v s1 with (s2, Some true) => run body p' s2 | (s2, Some false) => (Broke, s2) | (s2, None) => (Escaped, s2) end
  | (Ended, s1) => (Finished, s1) | (Thrown, s1) => (Escaped, s1) end.
Proof. induction p as [|v p IH|X c k IH]; intros s; cbn [run pull]; auto. destruct (c s) as [s1 [x|]]; auto. Qed.
Lemma pull_collect p : forall s, collect p s =
  match pull p s with
  | (Value v p', s1) => match collect p' s1 with (s2, Some l) => (s2, Some (v :: l)) | (s2, None) => (s2, None) end
  | (Ended, s1) => (s1, Some []) | (Thrown, s1) => (s1, None) end.
Proof. induction p as [|v p IH|X c k IH]; intros s; cbn [collect pull]; auto. destruct (c s) as [s1 [x|]]; auto. Qed.
Lemma pull_head p : forall s, head p s =
  match pull p s with (Value v p', s1) => (s1, Some (Some v)) | (Ended, s1) => (s1, Some None) | (Thrown, s1) => (s1, None) end.
Proof. induction p as [|v p IH|X c k IH]; intros s; cbn [head pull]; auto. destruct (c s) as [s1 [x|]]; auto. Qed.
Lemma pull_answers q p : forall s, answers q p s =
  match pull p s with
  | (Value v p', s1) => bindm (q v s1) (fun b s => bindm (answers q p' s) (fun l => ret (b :: l)))
  | (Ended, s1) => (s1, Some []) | (Thrown, s1) => (s1, None) end.
Proof. induction p as [|v p IH|X c k IH]; intros s; cbn [answers pull]; auto. destruct (c s) as [s1 [x|]]; auto. Qed.

(* ---- what it is for an enumerator to behave like a process ----------------------------- *)
Notation enum := (LzeModel.enum V St).
(* P (Some (k, p)) e: k values were handed out and p is left *)
Record sim (p0 : process) (i0 : Z) (rs : bool) (P : option (nat * process) -> enum -> Prop) : Prop := {
  s_start : i0 <= -1;
  s_next : forall k p e s, P (Some (k, p)) e ->
    match pull p s with
    | (Value v p', s') => exists e', yields (fun f => next f e s) (Yes, e', s') /\ current e' = Ok v /\ P (Some (S k, p')) e'
    | (Ended, s') => exists e', yields (fun f => next f e s) (No, e', s') /\ P None e'
    | (Thrown, s') => exists e', yields (fun f => next f e s) (Threw, e', s')
    end;
  s_idx : forall k p e, P (Some (k, p)) e -> index e = if (k =? 0)%nat then i0 else Z.of_nat k - 1;
  s_reset : rs = true -> forall o e, P o e -> exists e', reset e = Ok e' /\ P (Some (0%nat, p0)) e' }.
Definition tracks (p0 : process) (i0 : Z) (rs : bool) (e : enum) : Prop := exists P, sim p0 i0 rs P /\ P (Some (0%nat, p0)) e.

Lemma y_on (F : nat -> outcome V St) (Y N T : nat -> enum -> St -> outcome V St) b e s r :
  yields F (b, e, s) -> yields (fun f => match b with Yes => Y f e s | No => N f e s | Threw => T f e s end) r ->
  yields (fun f => on_next (F f) (Y f) (N f) (T f)) r.
Proof. intros HF HK. unfold on_next. eapply y_bind; [exact HF|]. cbv beta iota. destruct b; exact HK. Qed.

(* ---- the sources ----------------------------------------------------------------------- *)
Lemma znth_of (l : list V) k x : nth_error l k = Some x -> cget l (Z.of_nat k) = Ok x.
Proof.
  intros H. unfold cget. assert (k < length l)%nat by (apply nth_error_Some; congruence). unfold znth.
  replace (Z.of_nat k <? 0) with false by lia. rewrite Nat2Z.id, H. reflexivity.
Qed.
Lemma t_empty : tracks Stop (-1) true EEmpty.
Proof.
  exists (fun o e => e = EEmpty /\ match o with Some (k, p) => k = 0%nat /\ p = Stop | None => True end). split; [constructor|]; auto.
  - lia.
  - intros k p e s (-> & -> & ->). cbn [pull]. exists EEmpty. split; [|auto]. eapply y_step; [reflexivity|apply y_ret].
  - intros k p e (-> & -> & ->). reflexivity.
  - intros _ o e (-> & _). exists EEmpty. auto.
Qed.
Lemma of_list_skip (l : list V) k : match nth_error l k with Some x => of_list (St:=St) (skipn k l) = Emit x (of_list (skipn (S k) l)) | None => of_list (St:=St) (skipn k l) = Stop end.
Proof.
  revert k. induction l as [|a l IH]; intros [|k]; cbn [nth_error skipn of_list]; auto. apply IH.
Qed.
Lemma t_list l once : tracks (of_list (l : list V)) (-1) (negb once) (if once then EOnce l (-1) else ECont l (-1)).
Proof.
  pose (E := fun i => if once then EOnce l i else ECont (St:=St) l i).
  exists (fun o e => match o with Some (k, p) => e = E (Z.of_nat k - 1) /\ p = of_list (skipn k l) | None => exists i, e = E i end). split; [constructor|].
  - lia.
  - intros k p e s (-> & ->). pose proof (of_list_skip l k) as H.
    assert (Y : yields (fun f => next f (E (Z.of_nat k - 1)) s) (if (k <? length l)%nat then Yes else No, E (Z.of_nat k), s)).
    { exists 1%nat. intros [|f] Hf; [lia|]. unfold E. replace (k <? length l)%nat with ((Z.of_nat k - 1 + 1 >=? 0) && (Z.of_nat k - 1 + 1 <? zlen l)) by (unfold zlen; lia).
      destruct once; cbn [next]; replace (Z.of_nat k - 1 + 1) with (Z.of_nat k) by lia; reflexivity. }
    destruct (nth_error l k) as [x|] eqn:N; rewrite H; cbn [pull].
    + assert (k < length l)%nat by (apply nth_error_Some; congruence). replace (k <? length l)%nat with true in Y by lia.
      exists (E (Z.of_nat k)). split; [exact Y|]. split; [unfold E; destruct once; cbn [current]; now apply znth_of|]. split; [f_equal; lia|reflexivity].
    + apply nth_error_None in N. replace (k <? length l)%nat with false in Y by lia. exists (E (Z.of_nat k)). split; [exact Y|]. eauto.
  - intros k p e (-> & _). unfold E. destruct once; cbn [index]; destruct k; cbn [Nat.eqb]; lia.
  - intros R o e HP. destruct once; [discriminate|]. assert (X : exists i, e = ECont l i).
    { destruct o as [[k p]|]; [destruct HP as [-> _]|destruct HP as [i ->]]; unfold E; eauto. }
    destruct X as [i ->]. exists (ECont l (-1)). auto.
  - split; [|reflexivity]. unfold E. destruct once; reflexivity.
Qed.
Lemma t_reverse l : tracks (of_list (rev l)) (-1) true (EReverse l (-1)).
Proof.
  exists (fun o e => match o with Some (k, p) => e = EReverse l (Z.of_nat k - 1) /\ p = of_list (skipn k (rev l)) | None => exists i, e = EReverse l i end). split; [constructor|].
  - lia.
  - intros k p e s (-> & ->). pose proof (of_list_skip (rev l) k) as H.
    assert (Y : yields (fun f => next f (EReverse l (Z.of_nat k - 1)) s) (if (k <? length l)%nat then Yes else No, EReverse l (Z.of_nat k), s)).
    { exists 1%nat. intros [|f] Hf; [lia|]. cbn [next]. replace (Z.of_nat k - 1 + 1) with (Z.of_nat k) by lia.
      destruct (k <? length l)%nat eqn:L; [replace (Z.of_nat k <? zlen l) with true by (unfold zlen; lia)|replace (Z.of_nat k <? zlen l) with false by (unfold zlen; lia)]; reflexivity. }
    destruct (nth_error (rev l) k) as [x|] eqn:N; rewrite H; cbn [pull].
    + assert (L : (k < length (rev l))%nat) by (apply nth_error_Some; congruence). rewrite rev_length in L. replace (k <? length l)%nat with true in Y by lia.
      exists (EReverse l (Z.of_nat k)). split; [exact Y|]. split; [|split; [f_equal; lia|reflexivity]].
      cbn [current]. replace (zlen l - 1 - Z.of_nat k) with (Z.of_nat (length l - S k)) by (unfold zlen; lia). apply znth_of.
      rewrite <- (rev_involutive l) at 1. rewrite (nth_error_nth' _ x) in N by (rewrite rev_length; lia). injection N as N.
      rewrite (nth_error_nth' _ x) by (rewrite !rev_length; lia). rewrite rev_nth by (rewrite rev_length; lia). rewrite rev_length. f_equal. rewrite <- N at 2. f_equal. lia.
    + apply nth_error_None in N. rewrite rev_length in N. replace (k <? length l)%nat with false in Y by lia. exists (EReverse l (Z.of_nat k)). split; [exact Y|]. eauto.
  - intros k p e (-> & _). cbn [index]. destruct k; cbn [Nat.eqb]; lia.
  - intros _ o e HP. assert (X : exists i, e = EReverse l i) by (destruct o as [[k p]|]; [destruct HP as [-> _]|destruct HP as [i ->]]; eauto).
    destruct X as [i ->]. exists (EReverse l (-1)). auto.
  - auto.
Qed.

(* ---- the stages ------------------------------------------------------------------------- *)
Lemma t_weaken p0 i0 rs rs' e : (rs' = true -> rs = true) -> tracks p0 i0 rs e -> tracks p0 i0 rs' e.
Proof. intros W (P & [A B C D] & H). exists P. split; [|exact H]. constructor; auto. intros R. apply D. auto. Qed.

Lemma t_select f p0 i0 rs e oo : tracks p0 i0 rs e -> tracks (selecting f p0) i0 rs (ESelect e f oo).
Proof.
  intros (P & HS & H). exists (fun o e => match o with
    | Some (k, p) => exists e0 p1 oo, e = ESelect e0 f oo /\ P (Some (k, p1)) e0 /\ p = selecting f p1
    | None => exists e0 o oo, e = ESelect e0 f oo /\ P o e0 end). split; [constructor|].
  - exact (s_start _ _ _ _ HS).
  - intros k p e' s (e0 & p1 & o1 & -> & HP & ->). rewrite pull_select. pose proof (s_next _ _ _ _ HS k p1 e0 s HP) as N. destruct (pull p1 s) as [[|v p'|] s1].
    + destruct N as (e1 & Y & HP1). exists (ESelect e1 f o1). split; [|eauto]. eapply y_step; [intros z; cbn [next drain loop count_loop ask]; reflexivity|]. eapply y_on; [exact Y|]. apply y_ret.
    + destruct N as (e1 & Y & C & HP1). destruct (f v s1) as [s2 [y|]] eqn:F.
      * exists (ESelect e1 f (Some y)). split; [|split; [reflexivity|eauto 8]]. eapply y_step; [intros z; cbn [next drain loop count_loop ask]; reflexivity|]. eapply y_on; [exact Y|]. cbv beta iota. rewrite C. cbn [bind]. rewrite F. apply y_ret.
      * exists (ESelect e1 f o1). eapply y_step; [intros z; cbn [next drain loop count_loop ask]; reflexivity|]. eapply y_on; [exact Y|]. cbv beta iota. rewrite C. cbn [bind]. rewrite F. apply y_ret.
    + destruct N as (e1 & Y). exists (ESelect e1 f o1). eapply y_step; [intros z; cbn [next drain loop count_loop ask]; reflexivity|]. eapply y_on; [exact Y|]. apply y_ret.
  - intros k p e' (e0 & p1 & o1 & -> & HP & ->). cbn [index]. exact (s_idx _ _ _ _ HS _ _ _ HP).
  - intros R o e' HP. assert (X : exists e0 o oo, e' = ESelect e0 f oo /\ P o e0) by (destruct o as [[k p]|]; auto; destruct HP as (e0 & p1 & o1 & -> & HP & _); eauto).
    destruct X as (e0 & o' & o1 & -> & HP'). destruct (s_reset _ _ _ _ HS R _ _ HP') as (e1 & E & HP1). exists (ESelect e1 f o1). cbn [reset]. rewrite E. cbn [bind]. eauto 8.
  - eauto 8.
Qed.

Lemma t_where q p0 i0 rs e : tracks p0 i0 rs e -> tracks (those q p0) (-1) rs (EWhere e q (-1)).
Proof.
  intros (P & HS & H). exists (fun o e => match o with
    | Some (k, p) => exists e0 p1 k0, e = EWhere e0 q (Z.of_nat k - 1) /\ P (Some (k0, p1)) e0 /\ p = those q p1
    | None => exists e0 o i, e = EWhere e0 q i /\ P o e0 end). split; [constructor|].
  - lia.
  - intros k p e' s (e0 & p1 & k0 & -> & HP & ->). revert e0 k0 s HP.
    induction p1 as [p1 IH] using (well_founded_induction later_wf). intros e0 k0 s HP.
    rewrite pull_those. pose proof (s_next _ _ _ _ HS k0 p1 e0 s HP) as N. destruct (pull p1 s) as [[|v p'|] s1] eqn:EP.
    + destruct N as (e1 & Y & HP1). exists (EWhere e1 q (Z.of_nat k - 1)). split; [|eauto]. eapply y_step; [intros z; cbn [next drain loop count_loop ask]; reflexivity|]. eapply y_on; [exact Y|]. apply y_ret.
    + destruct N as (e1 & Y & C & HP1). destruct (q v s1) as [s2 [[|]|]] eqn:F.
      * exists (EWhere e1 q (Z.of_nat k - 1 + 1)). split; [|split; [exact C|]].
        -- eapply y_step; [intros z; cbn [next drain loop count_loop ask]; reflexivity|]. eapply y_on; [exact Y|]. cbv beta iota. rewrite C. cbn [bind]. rewrite F. apply y_ret.
        -- exists e1, p', (S k0). split; [f_equal; lia|auto].
      * specialize (IH p' (ex_intro _ s (ex_intro _ v (ex_intro _ s1 EP))) e1 (S k0) s2 HP1).
        assert (ST : forall r, yields (fun f => next f (EWhere e1 q (Z.of_nat k - 1)) s2) r -> yields (fun f => next f (EWhere e0 q (Z.of_nat k - 1)) s) r).
        { intros r Yr. eapply y_step; [intros z; cbn [next drain loop count_loop ask]; reflexivity|]. eapply y_on; [exact Y|]. cbv beta iota. rewrite C. cbn [bind]. rewrite F. exact Yr. }
        destruct (pull (those q p') s2) as [[|w p2|] s3]; [destruct IH as (e2 & Y2 & R)|destruct IH as (e2 & Y2 & R)|destruct IH as (e2 & Y2)]; eauto.
      * exists (EWhere e1 q (Z.of_nat k - 1)). eapply y_step; [intros z; cbn [next drain loop count_loop ask]; reflexivity|]. eapply y_on; [exact Y|]. cbv beta iota. rewrite C. cbn [bind]. rewrite F. apply y_ret.
    + destruct N as (e1 & Y). exists (EWhere e1 q (Z.of_nat k - 1)). eapply y_step; [intros z; cbn [next drain loop count_loop ask]; reflexivity|]. eapply y_on; [exact Y|]. apply y_ret.
  - intros k p e' (e0 & p1 & k0 & -> & HP & ->). cbn [index]. destruct k; cbn [Nat.eqb]; lia.
  - intros R o e' HP. assert (X : exists e0 o i, e' = EWhere e0 q i /\ P o e0) by (destruct o as [[k p]|]; auto; destruct HP as (e0 & p1 & k0 & -> & HP & _); eauto).
    destruct X as (e0 & o' & i & -> & HP'). destruct (s_reset _ _ _ _ HS R _ _ HP') as (e1 & E & HP1). exists (EWhere e1 q (-1)). cbn [reset]. rewrite E. cbn [bind]. split; auto.
    exists e1, p0, 0%nat. auto.
  - exists e, p0, 0%nat. auto.
Qed.

Lemma t_intexc c r x p0 i0 rs e : tracks p0 i0 rs e -> tracks (filtering (fun v => Bool.eqb (contains c r v) x) p0) (-1) rs (EIntExc e c r x (-1)).
Proof.
  intros (P & HS & H). set (g := fun v => Bool.eqb (contains c r v) x). exists (fun o e => match o with
    | Some (k, p) => exists e0 p1 k0, e = EIntExc e0 c r x (Z.of_nat k - 1) /\ P (Some (k0, p1)) e0 /\ p = filtering g p1
    | None => exists e0 o i, e = EIntExc e0 c r x i /\ P o e0 end). split; [constructor|].
  - lia.
  - intros k p e' s (e0 & p1 & k0 & -> & HP & ->). revert e0 k0 s HP.
    induction p1 as [p1 IH] using (well_founded_induction later_wf). intros e0 k0 s HP.
    rewrite pull_filter. pose proof (s_next _ _ _ _ HS k0 p1 e0 s HP) as N. destruct (pull p1 s) as [[|v p'|] s1] eqn:EP.
    + destruct N as (e1 & Y & HP1). exists (EIntExc e1 c r x (Z.of_nat k - 1)). split; [|eauto]. eapply y_step; [intros z; cbn [next drain loop count_loop ask]; reflexivity|]. eapply y_on; [exact Y|]. apply y_ret.
    + destruct N as (e1 & Y & C & HP1). destruct (g v) eqn:F; unfold g in F.
      * exists (EIntExc e1 c r x (Z.of_nat k - 1 + 1)). split; [|split; [exact C|]].
        -- eapply y_step; [intros z; cbn [next drain loop count_loop ask]; reflexivity|]. eapply y_on; [exact Y|]. cbv beta iota. rewrite C. cbn [bind]. rewrite F. apply y_ret.
        -- exists e1, p', (S k0). split; [f_equal; lia|auto].
      * specialize (IH p' (ex_intro _ s (ex_intro _ v (ex_intro _ s1 EP))) e1 (S k0) s1 HP1).
        assert (ST : forall r1, yields (fun f => next f (EIntExc e1 c r x (Z.of_nat k - 1)) s1) r1 -> yields (fun f => next f (EIntExc e0 c r x (Z.of_nat k - 1)) s) r1).
        { intros r1 Yr. eapply y_step; [intros z; cbn [next drain loop count_loop ask]; reflexivity|]. eapply y_on; [exact Y|]. cbv beta iota. rewrite C. cbn [bind]. rewrite F. exact Yr. }
        destruct (pull (filtering g p') s1) as [[|w p2|] s3]; [destruct IH as (e2 & Y2 & R)|destruct IH as (e2 & Y2 & R)|destruct IH as (e2 & Y2)]; eauto.
    + destruct N as (e1 & Y). exists (EIntExc e1 c r x (Z.of_nat k - 1)). eapply y_step; [intros z; cbn [next drain loop count_loop ask]; reflexivity|]. eapply y_on; [exact Y|]. apply y_ret.
  - intros k p e' (e0 & p1 & k0 & -> & HP & ->). cbn [index]. destruct k; cbn [Nat.eqb]; lia.
  - intros R o e' HP. assert (X : exists e0 o i, e' = EIntExc e0 c r x i /\ P o e0) by (destruct o as [[k p]|]; auto; destruct HP as (e0 & p1 & k0 & -> & HP & _); eauto).
    destruct X as (e0 & o' & i & -> & HP'). destruct (s_reset _ _ _ _ HS R _ _ HP') as (e1 & E & HP1). exists (EIntExc e1 c r x (-1)). cbn [reset]. rewrite E. cbn [bind]. split; auto.
    exists e1, p0, 0%nat. auto.
  - exists e, p0, 0%nat. auto.
Qed.

Lemma t_distinct c p0 i0 rs e oo : tracks p0 i0 rs e -> tracks (fresh c [] p0) (-1) rs (EDistinct e c [] oo).
Proof.
  intros (P & HS & H). exists (fun o e => match o with
    | Some (k, p) => exists e0 p1 k0 d oo, e = EDistinct e0 c d oo /\ P (Some (k0, p1)) e0 /\ length d = k /\ p = fresh c d p1
    | None => exists e0 o d oo, e = EDistinct e0 c d oo /\ P o e0 end). split; [constructor|].
  - lia.
  - intros k p e' s (e0 & p1 & k0 & d & o1 & -> & HP & L & ->). revert e0 k0 s HP.
    induction p1 as [p1 IH] using (well_founded_induction later_wf). intros e0 k0 s HP.
    rewrite pull_fresh. pose proof (s_next _ _ _ _ HS k0 p1 e0 s HP) as N. destruct (pull p1 s) as [[|v p'|] s1] eqn:EP.
    + destruct N as (e1 & Y & HP1). exists (EDistinct e1 c d o1). split; [|eauto 6]. eapply y_step; [intros z; cbn [next drain loop count_loop ask]; reflexivity|]. eapply y_on; [exact Y|]. apply y_ret.
    + destruct N as (e1 & Y & C & HP1). destruct (contains c d v) eqn:F.
      * specialize (IH p' (ex_intro _ s (ex_intro _ v (ex_intro _ s1 EP))) e1 (S k0) s1 HP1).
        assert (ST : forall r1, yields (fun f => next f (EDistinct e1 c d o1) s1) r1 -> yields (fun f => next f (EDistinct e0 c d o1) s) r1).
        { intros r1 Yr. eapply y_step; [intros z; cbn [next drain loop count_loop ask]; reflexivity|]. eapply y_on; [exact Y|]. cbv beta iota. rewrite C. cbn [bind]. rewrite F. exact Yr. }
        destruct (pull (fresh c d p') s1) as [[|w p2|] s3]; [destruct IH as (e2 & Y2 & R)|destruct IH as (e2 & Y2 & R)|destruct IH as (e2 & Y2)]; eauto.
      * exists (EDistinct e1 c (v :: d) (Some v)). split; [|split; [reflexivity|]].
        -- eapply y_step; [intros z; cbn [next drain loop count_loop ask]; reflexivity|]. eapply y_on; [exact Y|]. cbv beta iota. rewrite C. cbn [bind]. rewrite F. apply y_ret.
        -- exists e1, p', (S k0), (v :: d), (Some v). cbn [length]. auto.
    + destruct N as (e1 & Y). exists (EDistinct e1 c d o1). eapply y_step; [intros z; cbn [next drain loop count_loop ask]; reflexivity|]. eapply y_on; [exact Y|]. apply y_ret.
  - intros k p e' (e0 & p1 & k0 & d & o1 & -> & HP & L & ->). cbn [index]. unfold zlen. destruct k; cbn [Nat.eqb]; lia.
  - intros R o e' HP. assert (X : exists e0 o d oo, e' = EDistinct e0 c d oo /\ P o e0) by (destruct o as [[k p]|]; auto; destruct HP as (e0 & p1 & k0 & d & o1 & -> & HP & _); eauto 6).
    destruct X as (e0 & o' & d & o1 & -> & HP'). destruct (s_reset _ _ _ _ HS R _ _ HP') as (e1 & E & HP1). exists (EDistinct e1 c [] o1). cbn [reset]. rewrite E. cbn [bind]. split; auto.
    exists e1, p0, 0%nat, [], o1. auto.
  - exists e, p0, 0%nat, [], oo. auto.
Qed.

Lemma t_concat p1 p2 i1 i2 r1 r2 e1 e2 : tracks p1 i1 r1 e1 -> tracks p2 i2 r2 e2 -> tracks (and_then p1 p2) (-1) (r1 && r2) (EConcat e1 e2 (-1) false).
Proof.
  intros (P & HS & H1) (Q & HT & H2). exists (fun o e => match o with
    | Some (k, p) => exists a b, (exists k1 q, e = EConcat a b (Z.of_nat k - 1) false /\ P (Some (k1, q)) a /\ Q (Some (0%nat, p2)) b /\ p = and_then q p2)
        \/ (exists k2 o, e = EConcat a b (Z.of_nat k - 1) true /\ P o a /\ Q (Some (k2, p)) b)
    | None => exists a b i t o o', e = EConcat a b i t /\ P o a /\ Q o' b end). split; [constructor|].
  - lia.
  - intros k p e s (a & b & [(k1 & q & -> & HP & HQ & ->)|(k2 & o & -> & HP & HQ)]).
    + rewrite pull_and. pose proof (s_next _ _ _ _ HS k1 q a s HP) as N. destruct (pull q s) as [[|v p'|] s1] eqn:EP.
      * destruct N as (a1 & Y & HP1). pose proof (s_next _ _ _ _ HT 0%nat p2 b s1 HQ) as M. destruct (pull p2 s1) as [[|v p'|] s2].
        -- destruct M as (b1 & Y1 & HQ1). exists (EConcat a1 b1 (Z.of_nat k - 1 + 1) true). split; [|exists a1, b1; eauto 8].
           eapply y_step; [intros z; cbn [next drain loop count_loop ask]; reflexivity|]. eapply y_on; [exact Y|]. eapply y_on; [exact Y1|]. apply y_ret.
        -- destruct M as (b1 & Y1 & C & HQ1). exists (EConcat a1 b1 (Z.of_nat k - 1 + 1) true). split; [|split; [exact C|]].
           ++ eapply y_step; [intros z; cbn [next drain loop count_loop ask]; reflexivity|]. eapply y_on; [exact Y|]. eapply y_on; [exact Y1|]. apply y_ret.
           ++ exists a1, b1. right. exists 1%nat, None. split; [f_equal; lia|auto].
        -- destruct M as (b1 & Y1). exists (EConcat a1 b1 (Z.of_nat k - 1 + 1) true). eapply y_step; [intros z; cbn [next drain loop count_loop ask]; reflexivity|]. eapply y_on; [exact Y|]. eapply y_on; [exact Y1|]. apply y_ret.
      * destruct N as (a1 & Y & C & HP1). exists (EConcat a1 b (Z.of_nat k - 1 + 1) false). split; [|split; [exact C|]].
        -- eapply y_step; [intros z; cbn [next drain loop count_loop ask]; reflexivity|]. eapply y_on; [exact Y|]. apply y_ret.
        -- exists a1, b. left. exists (S k1), p'. split; [f_equal; lia|auto].
      * destruct N as (a1 & Y). exists (EConcat a1 b (Z.of_nat k - 1 + 1) false). eapply y_step; [intros z; cbn [next drain loop count_loop ask]; reflexivity|]. eapply y_on; [exact Y|]. apply y_ret.
    + pose proof (s_next _ _ _ _ HT k2 p b s HQ) as M. destruct (pull p s) as [[|v p'|] s2].
      * destruct M as (b1 & Y1 & HQ1). exists (EConcat a b1 (Z.of_nat k - 1 + 1) true). split; [|exists a, b1; eauto 8].
        eapply y_step; [intros z; cbn [next drain loop count_loop ask]; reflexivity|]. eapply y_on; [exact Y1|]. apply y_ret.
      * destruct M as (b1 & Y1 & C & HQ1). exists (EConcat a b1 (Z.of_nat k - 1 + 1) true). split; [|split; [exact C|]].
        -- eapply y_step; [intros z; cbn [next drain loop count_loop ask]; reflexivity|]. eapply y_on; [exact Y1|]. apply y_ret.
        -- exists a, b1. right. exists (S k2), o. split; [f_equal; lia|auto].
      * destruct M as (b1 & Y1). exists (EConcat a b1 (Z.of_nat k - 1 + 1) true). eapply y_step; [intros z; cbn [next drain loop count_loop ask]; reflexivity|]. eapply y_on; [exact Y1|]. apply y_ret.
  - intros k p e (a & b & [(k1 & q & -> & _)|(k2 & o & -> & _)]); cbn [index]; destruct k; cbn [Nat.eqb]; lia.
  - intros R o e HP. apply andb_prop in R. destruct R as [R1 R2].
    assert (X : exists a b i t o o', e = EConcat a b i t /\ P o a /\ Q o' b).
    { destruct o as [[k p]|]; auto. destruct HP as (a & b & [(k1 & q & -> & HP & HQ & _)|(k2 & o & -> & HP & HQ)]); eauto 10. }
    destruct X as (a & b & i & t & o1 & o2 & -> & HP1 & HQ1). destruct (s_reset _ _ _ _ HS R1 _ _ HP1) as (a1 & E1 & HP2). destruct (s_reset _ _ _ _ HT R2 _ _ HQ1) as (b1 & E2 & HQ2).
    exists (EConcat a1 b1 (-1) false). cbn [reset]. rewrite E1. cbn [bind]. rewrite E2. cbn [bind]. split; auto. exists a1, b1. left. exists 0%nat, p1. auto.
  - exists e1, e2. left. exists 0%nat, p1. auto.
Qed.

Lemma t_take n p0 i0 rs e : (1 <= n \/ i0 = -1) -> tracks p0 i0 rs e -> tracks (taking (Z.to_nat n) p0) i0 rs (ETake e n).
Proof.
  intros HN (P & HS & H). exists (fun o e => match o with
    | Some (k, p) => exists e0 p1, e = ETake e0 n /\ P (Some (k, p1)) e0 /\ p = taking (Z.to_nat n - k) p1
    | None => exists e0 o, e = ETake e0 n /\ P o e0 end). pose proof (s_start _ _ _ _ HS) as I0. split; [constructor|].
  - exact I0.
  - intros k p e' s (e0 & p1 & -> & HP & ->). pose proof (s_idx _ _ _ _ HS _ _ _ HP) as IX. destruct (Z.to_nat n - k)%nat as [|m] eqn:M.
    + rewrite take_0. cbn [pull]. exists (ETake e0 n). split; [|eauto]. eapply y_step; [intros z; cbn [next drain loop count_loop ask]; reflexivity|].
      replace (index e0 >=? n - 1) with true by (rewrite IX; destruct k; cbn [Nat.eqb]; lia). apply y_ret.
    + assert (IF : (index e0 >=? n - 1) = false) by (rewrite IX; destruct k; cbn [Nat.eqb]; lia).
      rewrite pull_take. pose proof (s_next _ _ _ _ HS k p1 e0 s HP) as N. destruct (pull p1 s) as [[|v p'|] s1].
      * destruct N as (e1 & Y & HP1). exists (ETake e1 n). split; [|eauto]. eapply y_step; [intros z; cbn [next drain loop count_loop ask]; reflexivity|]. rewrite IF. eapply y_on; [exact Y|]. apply y_ret.
      * destruct N as (e1 & Y & C & HP1). exists (ETake e1 n). split; [|split; [exact C|]].
        -- eapply y_step; [intros z; cbn [next drain loop count_loop ask]; reflexivity|]. rewrite IF. eapply y_on; [exact Y|]. apply y_ret.
        -- exists e1, p'. split; auto. split; auto. f_equal. lia.
      * destruct N as (e1 & Y). exists (ETake e1 n). eapply y_step; [intros z; cbn [next drain loop count_loop ask]; reflexivity|]. rewrite IF. eapply y_on; [exact Y|]. apply y_ret.
  - intros k p e' (e0 & p1 & -> & HP & ->). cbn [index]. exact (s_idx _ _ _ _ HS _ _ _ HP).
  - intros R o e' HP. assert (X : exists e0 o, e' = ETake e0 n /\ P o e0) by (destruct o as [[k p]|]; auto; destruct HP as (e0 & p1 & -> & HP & _); eauto).
    destruct X as (e0 & o' & -> & HP'). destruct (s_reset _ _ _ _ HS R _ _ HP') as (e1 & E & HP1). exists (ETake e1 n). cbn [reset]. rewrite E. cbn [bind]. split; auto.
    exists e1, p0. rewrite Nat.sub_0_r. auto.
  - exists e, p0. rewrite Nat.sub_0_r. auto.
Qed.

Lemma skip_ok p0 i0 rs P (HS : sim p0 i0 rs P) m : forall k p e s, P (Some (k, p)) e ->
  (exists e' s' p', yields (fun f => skip_loop (next f) m e s) (Yes, e', s') /\ P (Some ((k + m)%nat, p')) e' /\ pull (skipping m p) s = pull p' s')
  \/ (exists e' s', yields (fun f => skip_loop (next f) m e s) (No, e', s') /\ P None e' /\ pull (skipping m p) s = (Ended, s'))
  \/ (exists e' s', yields (fun f => skip_loop (next f) m e s) (Threw, e', s') /\ pull (skipping m p) s = (Thrown, s')).
Proof.
  induction m as [|m IH]; intros k p e s HP.
  - left. exists e, s, p. rewrite Nat.add_0_r, skip_0. split; auto. apply y_ret.
  - rewrite pull_skip. pose proof (s_next _ _ _ _ HS k p e s HP) as N. destruct (pull p s) as [[|v p'|] s1].
    + destruct N as (e1 & Y & HP1). right. left. exists e1, s1. split; auto. cbn [skip_loop]. eapply y_on; [exact Y|]. apply y_ret.
    + destruct N as (e1 & Y & C & HP1).
      assert (ST : forall r1, yields (fun f => skip_loop (next f) m e1 s1) r1 -> yields (fun f => skip_loop (next f) (S m) e s) r1).
      { intros r1 Yr. cbn [skip_loop]. eapply y_on; [exact Y|]. exact Yr. }
      replace (k + S m)%nat with (S k + m)%nat by lia. destruct (IH (S k) p' e1 s1 HP1) as [(e' & s' & q & Y2 & R)|[(e' & s' & Y2 & R)|(e' & s' & Y2 & R)]]; [left|right; left|right; right]; eauto 6.
    + destruct N as (e1 & Y). right. right. exists e1, s1. split; auto. cbn [skip_loop]. eapply y_on; [exact Y|]. apply y_ret.
Qed.
Lemma t_skip n p0 i0 rs e : 0 <= n -> tracks p0 i0 rs e -> tracks (skipping (Z.to_nat n) p0) (i0 - n) rs (ESkip e n false).
Proof.
  intros HN (P & HS & H). pose proof (s_start _ _ _ _ HS) as I0. exists (fun o e => match o with
    | Some (k, p) => exists e0, (k = 0%nat /\ e = ESkip e0 n false /\ P (Some (0%nat, p0)) e0 /\ p = skipping (Z.to_nat n) p0)
         \/ ((0 < k)%nat /\ e = ESkip e0 n true /\ P (Some ((k + Z.to_nat n)%nat, p)) e0)
    | None => exists e0 o b, e = ESkip e0 n b /\ P o e0 end). split; [constructor|].
  - lia.
  - intros k p e' s (e0 & [(-> & -> & HP & ->)|(K & -> & HP)]).
    + destruct (skip_ok _ _ _ _ HS (Z.to_nat n) 0%nat p0 e0 s HP) as [(e1 & s1 & p1 & Y & HP1 & ->)|[(e1 & s1 & Y & HP1 & ->)|(e1 & s1 & Y & ->)]].
      * pose proof (s_next _ _ _ _ HS _ p1 e1 s1 HP1) as N. destruct (pull p1 s1) as [[|v p'|] s2].
        -- destruct N as (e2 & Y2 & HP2). exists (ESkip e2 n true). split; [|eauto]. eapply y_step; [intros z; cbn [next drain loop count_loop ask]; reflexivity|]. eapply y_on; [exact Y|]. eapply y_on; [exact Y2|]. apply y_ret.
        -- destruct N as (e2 & Y2 & C & HP2). exists (ESkip e2 n true). split; [|split; [exact C|]].
           ++ eapply y_step; [intros z; cbn [next drain loop count_loop ask]; reflexivity|]. eapply y_on; [exact Y|]. eapply y_on; [exact Y2|]. apply y_ret.
           ++ exists e2. right. split; [lia|]. auto.
        -- destruct N as (e2 & Y2). exists (ESkip e2 n true). eapply y_step; [intros z; cbn [next drain loop count_loop ask]; reflexivity|]. eapply y_on; [exact Y|]. eapply y_on; [exact Y2|]. apply y_ret.
      * exists (ESkip e1 n true). split; [|eauto]. eapply y_step; [intros z; cbn [next drain loop count_loop ask]; reflexivity|]. eapply y_on; [exact Y|]. apply y_ret.
      * exists (ESkip e1 n true). eapply y_step; [intros z; cbn [next drain loop count_loop ask]; reflexivity|]. eapply y_on; [exact Y|]. apply y_ret.
    + pose proof (s_next _ _ _ _ HS _ p e0 s HP) as N. destruct (pull p s) as [[|v p'|] s2].
      * destruct N as (e2 & Y2 & HP2). exists (ESkip e2 n true). split; [|eauto]. eapply y_step; [intros z; cbn [next drain loop count_loop ask]; reflexivity|]. eapply y_on; [exact Y2|]. apply y_ret.
      * destruct N as (e2 & Y2 & C & HP2). exists (ESkip e2 n true). split; [|split; [exact C|]].
        -- eapply y_step; [intros z; cbn [next drain loop count_loop ask]; reflexivity|]. eapply y_on; [exact Y2|]. apply y_ret.
        -- exists e2. right. split; [lia|]. auto.
      * destruct N as (e2 & Y2). exists (ESkip e2 n true). eapply y_step; [intros z; cbn [next drain loop count_loop ask]; reflexivity|]. eapply y_on; [exact Y2|]. apply y_ret.
  - intros k p e' (e0 & [(-> & -> & HP & ->)|(K & -> & HP)]); cbn [index]; rewrite (s_idx _ _ _ _ HS _ _ _ HP); cbn [Nat.eqb]; auto.
    replace (k + Z.to_nat n =? 0)%nat with false by lia. replace (k =? 0)%nat with false by lia. lia.
  - intros R o e' HP. assert (X : exists e0 o b, e' = ESkip e0 n b /\ P o e0).
    { destruct o as [[k p]|]; auto. destruct HP as (e0 & [(-> & -> & HP & ->)|(K & -> & HP)]); eauto. }
    destruct X as (e0 & o' & b & -> & HP'). destruct (s_reset _ _ _ _ HS R _ _ HP') as (e1 & E & HP1). exists (ESkip e1 n false). cbn [reset]. rewrite E. cbn [bind]. split; auto.
    exists e1. left. auto.
  - exists e. left. auto.
Qed.

Lemma t_repeat n p0 i0 rs e : (n <= 0 \/ rs = true) -> tracks p0 i0 rs e -> tracks (again (Z.to_nat n) p0) (-1) rs (ERepeat e n (-1) 0).
Proof.
  intros HN (P & HS & H). exists (fun o e => match o with
    | Some (k, p) => exists e0 r, e = ERepeat e0 n (Z.of_nat k - 1) r /\
        ((exists k0 p1, 0 <= r < n /\ P (Some (k0, p1)) e0 /\ p = and_then p1 (again (Z.to_nat (n - r - 1)) p0)) \/ (n <= r /\ (exists o, P o e0) /\ p = Stop))
    | None => exists e0 i r o, e = ERepeat e0 n i r /\ P o e0 end).
  assert (INIT : forall e k, P (Some (0%nat, p0)) e -> exists e0 r, ERepeat e n (Z.of_nat k - 1) 0 = ERepeat e0 n (Z.of_nat k - 1) r /\
        ((exists k0 p1, 0 <= r < n /\ P (Some (k0, p1)) e0 /\ again (Z.to_nat n) p0 = and_then p1 (again (Z.to_nat (n - r - 1)) p0)) \/ (n <= r /\ (exists o, P o e0) /\ again (Z.to_nat n) p0 = Stop))).
  { intros e1 k HP. exists e1, 0. split; auto. destruct (Z.to_nat n) as [|m] eqn:M.
    - right. split; [lia|]. eauto.
    - left. exists 0%nat, p0. split; [lia|]. split; auto. cbn [again]. do 2 f_equal. lia. }
  split; [constructor|].
  - lia.
  - intros k p e' s (e0 & r & -> & [(k0 & p1 & L & HP & ->)|(L & HP & ->)]).
    2: { cbn [pull]. exists (ERepeat e0 n (Z.of_nat k - 1) r). split; [|destruct HP; eauto 6]. eapply y_step; [intros z; cbn [next drain loop count_loop ask]; reflexivity|]. replace (r <? n) with false by lia. apply y_ret. }
    remember (Z.to_nat (n - r - 1)) as m eqn:M. revert r k0 p1 e0 s L HP M. induction m as [|m IH]; intros r k0 p1 e0 s L HP M;
      rewrite pull_and; pose proof (s_next _ _ _ _ HS k0 p1 e0 s HP) as N; destruct (pull p1 s) as [[|v p'|] s1].
    all: try (destruct N as (e1 & Y); exists (ERepeat e1 n (Z.of_nat k - 1) r); eapply y_step; [intros z; cbn [next drain loop count_loop ask]; reflexivity|]; replace (r <? n) with true by lia; eapply y_on; [exact Y|]; apply y_ret).
    all: try (destruct N as (e1 & Y & C & HP1); exists (ERepeat e1 n (Z.of_nat k - 1 + 1) r); split; [|split; [exact C|]];
      [eapply y_step; [intros z; cbn [next drain loop count_loop ask]; reflexivity|]; replace (r <? n) with true by lia; eapply y_on; [exact Y|]; apply y_ret
      |exists e1, r; split; [f_equal; lia|]; left; exists (S k0), p'; rewrite <- M; auto]).
    + destruct N as (e1 & Y & HP1). destruct (s_reset _ _ _ _ HS ltac:(destruct HN; [lia|auto]) _ _ HP1) as (e2 & E & HP2). cbn [again pull].
      exists (ERepeat e2 n (Z.of_nat k - 1) (r + 1)). split; [|eauto 6]. eapply y_step; [intros z; cbn [next drain loop count_loop ask]; reflexivity|]. replace (r <? n) with true by lia. eapply y_on; [exact Y|]. cbv beta iota. rewrite E. cbn [bind].
      eapply y_step; [intros z; cbn [next drain loop count_loop ask]; reflexivity|]. replace (r + 1 <? n) with false by lia. apply y_ret.
    + destruct N as (e1 & Y & HP1). destruct (s_reset _ _ _ _ HS ltac:(destruct HN; [lia|auto]) _ _ HP1) as (e2 & E & HP2).
      specialize (IH (r + 1) 0%nat p0 e2 s1 ltac:(lia) HP2 ltac:(lia)). cbn [again].
      assert (ST : forall r1, yields (fun f => next f (ERepeat e2 n (Z.of_nat k - 1) (r + 1)) s1) r1 -> yields (fun f => next f (ERepeat e0 n (Z.of_nat k - 1) r) s) r1).
      { intros r1 Yr. eapply y_step; [intros z; cbn [next drain loop count_loop ask]; reflexivity|]. replace (r <? n) with true by lia. eapply y_on; [exact Y|]. cbv beta iota. rewrite E. exact Yr. }
      destruct (pull (and_then p0 (again m p0)) s1) as [[|w p2|] s3]; [destruct IH as (e3 & Y2 & R)|destruct IH as (e3 & Y2 & R)|destruct IH as (e3 & Y2)]; eauto.
  - intros k p e' (e0 & r & -> & _). cbn [index]. destruct k; cbn [Nat.eqb]; lia.
  - intros R o e' HP. assert (X : exists e0 i r o, e' = ERepeat e0 n i r /\ P o e0).
    { destruct o as [[k p]|]; auto. destruct HP as (e0 & r & -> & [(k0 & p1 & _ & HP & _)|(_ & (o & HP) & _)]); eauto 6. }
    destruct X as (e0 & i & r & o' & -> & HP'). destruct (s_reset _ _ _ _ HS R _ _ HP') as (e1 & E & HP1). exists (ERepeat e1 n (-1) 0). cbn [reset]. rewrite E. cbn [bind]. split; auto.
    exact (INIT e1 0%nat HP1).
  - exact (INIT e 0%nat H).
Qed.

Lemma t_pair j p1 p2 i1 i2 r1 r2 e1 e2 oo : tracks p1 i1 r1 e1 -> tracks p2 i2 r2 e2 -> tracks (pairing j p1 p2) i1 (r1 && r2) (EPair e1 e2 j oo).
Proof.
  intros (P & HS & H1) (Q & HT & H2). exists (fun o e => match o with
    | Some (k, p) => exists a b q1 q2 k2 oo, e = EPair a b j oo /\ P (Some (k, q1)) a /\ Q (Some (k2, q2)) b /\ p = pairing j q1 q2
    | None => exists a b o o' oo, e = EPair a b j oo /\ P o a /\ Q o' b end). split; [constructor|].
  - exact (s_start _ _ _ _ HS).
  - intros k p e s (a & b & q1 & q2 & k2 & o1 & -> & HP & HQ & ->). rewrite pull_pair.
    pose proof (s_next _ _ _ _ HS k q1 a s HP) as N. destruct (pull q1 s) as [[|v p'|] s1].
    + destruct N as (a1 & Y & HP1). exists (EPair a1 b j o1). split; [|eauto 10]. eapply y_step; [intros z; cbn [next drain loop count_loop ask]; reflexivity|]. eapply y_on; [exact Y|]. apply y_ret.
    + destruct N as (a1 & Y & C & HP1). pose proof (s_next _ _ _ _ HT k2 q2 b s1 HQ) as M. destruct (pull q2 s1) as [[|w r'|] s2].
      * destruct M as (b1 & Y1 & HQ1). exists (EPair a1 b1 j o1). split; [|eauto 10]. eapply y_step; [intros z; cbn [next drain loop count_loop ask]; reflexivity|]. eapply y_on; [exact Y|]. eapply y_on; [exact Y1|]. apply y_ret.
      * destruct M as (b1 & Y1 & C1 & HQ1). exists (EPair a1 b1 j (Some (j v w))). split; [|split; [reflexivity|eauto 12]].
        eapply y_step; [intros z; cbn [next drain loop count_loop ask]; reflexivity|]. eapply y_on; [exact Y|]. eapply y_on; [exact Y1|]. cbv beta iota. rewrite C, C1. apply y_ret.
      * destruct M as (b1 & Y1). exists (EPair a1 b1 j o1). eapply y_step; [intros z; cbn [next drain loop count_loop ask]; reflexivity|]. eapply y_on; [exact Y|]. eapply y_on; [exact Y1|]. apply y_ret.
    + destruct N as (a1 & Y). exists (EPair a1 b j o1). eapply y_step; [intros z; cbn [next drain loop count_loop ask]; reflexivity|]. eapply y_on; [exact Y|]. apply y_ret.
  - intros k p e (a & b & q1 & q2 & k2 & o1 & -> & HP & _). cbn [index]. exact (s_idx _ _ _ _ HS _ _ _ HP).
  - intros R o e HP. apply andb_prop in R. destruct R as [R1 R2].
    assert (X : exists a b o o' oo, e = EPair a b j oo /\ P o a /\ Q o' b).
    { destruct o as [[k p]|]; auto. destruct HP as (a & b & q1 & q2 & k2 & o1 & -> & HP & HQ & _); eauto 10. }
    destruct X as (a & b & o1 & o2 & o3 & -> & HP1 & HQ1). destruct (s_reset _ _ _ _ HS R1 _ _ HP1) as (a1 & E1 & HP2). destruct (s_reset _ _ _ _ HT R2 _ _ HQ1) as (b1 & E2 & HQ2).
    exists (EPair a1 b1 j o3). cbn [reset]. rewrite E1. cbn [bind]. rewrite E2. cbn [bind]. eauto 12.
  - eauto 12.
Qed.

(* ---- loops ------------------------------------------------------------------------------ *)
Section Loops.
Variables (p0 : process) (i0 : Z) (rs : bool) (P : option (nat * process) -> enum -> Prop).
Hypothesis HS : sim p0 i0 rs P.
Lemma drain_sim p : forall k e s, P (Some (k, p)) e -> yields (fun f => drain f e s) (snd (collect p s), fst (collect p s)).
Proof.
  induction p as [p IH] using (well_founded_induction later_wf). intros k e s HP. rewrite pull_collect.
  pose proof (s_next _ _ _ _ HS k p e s HP) as N. destruct (pull p s) as [[|v p'|] s1] eqn:EP.
  - destruct N as (e1 & Y & _). eapply y_step; [intros z; cbn [next drain loop count_loop ask]; reflexivity|]. eapply y_bind; [exact Y|]. apply y_ret.
  - destruct N as (e1 & Y & C & HP1). specialize (IH p' (ex_intro _ s (ex_intro _ v (ex_intro _ s1 EP))) (S k) e1 s1 HP1).
    eapply y_step; [intros z; cbn [next drain loop count_loop ask]; reflexivity|]. eapply y_bind; [exact Y|]. cbv beta iota. rewrite C. cbn [bind]. eapply y_bind; [exact IH|].
    destruct (collect p' s1) as [s2 [l|]]; apply y_ret.
  - destruct N as (e1 & Y). eapply y_step; [intros z; cbn [next drain loop count_loop ask]; reflexivity|]. eapply y_bind; [exact Y|]. apply y_ret.
Qed.
Lemma loop_sim body p : forall k e s, P (Some (k, p)) e -> yields (fun f => loop f body e s) (run body p s).
Proof.
  induction p as [p IH] using (well_founded_induction later_wf). intros k e s HP. rewrite pull_run.
  pose proof (s_next _ _ _ _ HS k p e s HP) as N. destruct (pull p s) as [[|v p'|] s1] eqn:EP.
  - destruct N as (e1 & Y & _). eapply y_step; [intros z; cbn [next drain loop count_loop ask]; reflexivity|]. eapply y_bind; [exact Y|]. apply y_ret.
  - destruct N as (e1 & Y & C & HP1). specialize (IH p' (ex_intro _ s (ex_intro _ v (ex_intro _ s1 EP))) (S k) e1).
    eapply y_step; [intros z; cbn [next drain loop count_loop ask]; reflexivity|]. eapply y_bind; [exact Y|]. cbv beta iota. rewrite C. cbn [bind].
    destruct (body v s1) as [s2 [[|]|]]; [apply IH; auto|apply y_ret|apply y_ret].
  - destruct N as (e1 & Y). eapply y_step; [intros z; cbn [next drain loop count_loop ask]; reflexivity|]. eapply y_bind; [exact Y|]. apply y_ret.
Qed.
Lemma count_sim p : forall k e s n, P (Some (k, p)) e ->
  yields (fun f => count_loop f n e s) (match snd (collect p s) with Some l => Some (n + zlen l) | None => None end, fst (collect p s)).
Proof.
  induction p as [p IH] using (well_founded_induction later_wf). intros k e s n HP. rewrite pull_collect.
  pose proof (s_next _ _ _ _ HS k p e s HP) as N. destruct (pull p s) as [[|v p'|] s1] eqn:EP.
  - destruct N as (e1 & Y & _). eapply y_step; [intros z; cbn [next drain loop count_loop ask]; reflexivity|]. eapply y_bind; [exact Y|]. cbn [fst snd]. rewrite Z.add_0_r. apply y_ret.
  - destruct N as (e1 & Y & C & HP1). specialize (IH p' (ex_intro _ s (ex_intro _ v (ex_intro _ s1 EP))) (S k) e1 s1 (n + 1) HP1).
    eapply y_step; [intros z; cbn [next drain loop count_loop ask]; reflexivity|]. eapply y_bind; [exact Y|]. cbv beta iota.
    destruct (collect p' s1) as [s2 [l|]]; cbn [fst snd] in *; auto. replace (n + zlen (v :: l)) with (n + 1 + zlen l) by (rewrite zlen_cons; lia). exact IH.
  - destruct N as (e1 & Y). eapply y_step; [intros z; cbn [next drain loop count_loop ask]; reflexivity|]. eapply y_bind; [exact Y|]. apply y_ret.
Qed.
Lemma ask_sim op q p : forall k e s acc, P (Some (k, p)) e ->
  yields (fun f => ask f op q acc e s) (match snd (answers q p s) with Some l => Some (fold_left op l acc) | None => None end, fst (answers q p s)).
Proof.
  induction p as [p IH] using (well_founded_induction later_wf). intros k e s acc HP. rewrite pull_answers.
  pose proof (s_next _ _ _ _ HS k p e s HP) as N. destruct (pull p s) as [[|v p'|] s1] eqn:EP.
  - destruct N as (e1 & Y & _). eapply y_step; [intros z; cbn [next drain loop count_loop ask]; reflexivity|]. eapply y_bind; [exact Y|]. apply y_ret.
  - destruct N as (e1 & Y & C & HP1). eapply y_step; [intros z; cbn [next drain loop count_loop ask]; reflexivity|]. eapply y_bind; [exact Y|]. cbv beta iota. rewrite C. cbn [bind].
    destruct (q v s1) as [s2 [b|]]; cbn [bindm]; [|apply y_ret].
    specialize (IH p' (ex_intro _ s (ex_intro _ v (ex_intro _ s1 EP))) (S k) e1 s2 (op acc b) HP1).
    destruct (answers q p' s2) as [s3 [l|]]; exact IH.
  - destruct N as (e1 & Y). eapply y_step; [intros z; cbn [next drain loop count_loop ask]; reflexivity|]. eapply y_bind; [exact Y|]. apply y_ret.
Qed.
End Loops.
End Pull.
