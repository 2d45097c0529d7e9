From Coq Require Import Sorted.
From Verif Require Import Base BaseFacts SrtSpec SrtProofs DctSpec DctProofs GphModel GphSpec.
Open Scope nat_scope.

(* ---- reachability that avoids a set --------------------------------------------- *)
Section Reach.
  Variable E : nat -> nat -> Prop.
  Inductive R (W : nat -> Prop) : nat -> nat -> Prop :=
  | R_refl : forall u, ~ W u -> R W u u
  | R_step : forall u x w, ~ W u -> E u x -> R W x w -> R W u w.
  Lemma R_src (W : nat -> Prop) u w : R W u w -> ~ W u. Proof. now destruct 1. Qed.
  Lemma R_dst (W : nat -> Prop) u w : R W u w -> ~ W w. Proof. induction 1; auto. Qed.
  Lemma R_trans (W : nat -> Prop) u x w : R W u x -> R W x w -> R W u w.
  Proof. induction 1; auto. intros H2. econstructor; eauto. Qed.
  Lemma R_mono (W W' : nat -> Prop) u w : (forall x, W' x -> W x) -> R W u w -> R W' u w.
  Proof. intros H. induction 1; [constructor; auto|econstructor; eauto]. Qed.
  (* a path either avoids D or meets it *)
  Lemma R_split (W : nat -> Prop) (D : nat -> Prop) (Ddec : forall x, D x \/ ~ D x) u w : R W u w -> R (fun x => W x \/ D x) u w \/ exists d, D d /\ R W u d /\ R W d w.
  Proof.
    induction 1 as [u Hu|u x w Hu He Hr IH].
    - destruct (Ddec u) as [Hd|Hd]; [right; exists u; repeat split; auto; now constructor|left; constructor; tauto].
    - destruct IH as [IH|(d & Hd & H1 & H2)].
      + destruct (Ddec u) as [Hd|Hd]; [right; exists u; repeat split; auto; [now constructor|econstructor; eauto]|].
        left. econstructor; eauto. tauto.
      + right. exists d. repeat split; auto. econstructor; eauto.
  Qed.

  (* w is at or before u' in O *)
  Definition upto (O : list nat) (w u' : nat) : Prop := exists a b, O = a ++ w :: b /\ (u' = w \/ In u' b).
  Lemma upto_r O1 O w u : upto O w u -> upto (O1 ++ O) w u.
  Proof. intros (a & b & -> & H). exists (O1 ++ a), b. split; [now rewrite <- app_assoc|auto]. Qed.
  Lemma upto_l O O2 w u : upto O w u -> upto (O ++ O2) w u.
  Proof. intros (a & b & -> & H). exists a, (b ++ O2). split; [now rewrite <- app_assoc|]. rewrite in_app_iff. tauto. Qed.
  Lemma upto_lr O1 O2 w u : In w O1 -> In u O2 -> upto (O1 ++ O2) w u.
  Proof. intros H1 H2. apply in_split in H1. destruct H1 as (a & b & ->). exists a, (b ++ O2). split; [now rewrite <- app_assoc|]. right. apply in_or_app. now right. Qed.

  (* O lists exactly what is reachable from cs outside W, in a good finish order *)
  Record dfs (W : nat -> Prop) (cs O : list nat) : Prop := {
    dfs_in : forall x, In x O <-> exists c, In c cs /\ R W c x;
    dfs_nodup : NoDup O;
    dfs_order : forall u w, In u O -> R W u w -> exists u', R W u u' /\ R W u' u /\ upto O w u' }.
  Record covers (W : nat -> Prop) (cs O : list nat) : Prop := {
    cov_in : forall x, In x O <-> exists c, In c cs /\ R W c x;
    cov_nodup : NoDup O }.
  Lemma cov_nil (W : nat -> Prop) : covers W [] [].
  Proof. split; [intros x; split; [intros []|intros (c & [] & _)]|constructor]. Qed.
  Lemma cov_closed (W : nat -> Prop) cs O u w : covers W cs O -> In u O -> R W u w -> In w O.
  Proof. intros H Hu Hr. apply (cov_in _ _ _ H) in Hu. destruct Hu as (c & Hc & Hr'). apply (cov_in _ _ _ H). exists c. split; auto. eapply R_trans; eauto. Qed.
  Lemma cov_skip (W : nat -> Prop) c cs O : W c -> covers W cs O -> covers W (c :: cs) O.
  Proof.
    intros Hc H. split; [|apply H]. intros x. rewrite (cov_in _ _ _ H). split.
    - intros (d & Hd & Hr). exists d. split; [now right|auto].
    - intros (d & [<-|Hd] & Hr); [now apply R_src in Hr|eauto].
  Qed.
  Lemma cov_cons (W W' : nat -> Prop) c cs O1 O2 : covers W [c] O1 -> (forall x, W' x <-> W x \/ In x O1) -> covers W' cs O2 -> covers W (c :: cs) (O1 ++ O2).
  Proof.
    intros H1 HW H2. 
    assert (Dec : forall x, In x O1 \/ ~ In x O1) by (intros x; destruct (in_dec Nat.eq_dec x O1); auto).
    assert (Up : forall u w, R W' u w -> R W u w) by (intros u w; apply R_mono; intros x Hx; apply HW; auto).
    assert (Dn : forall u w, R (fun x => W x \/ In x O1) u w -> R W' u w) by (intros u w; apply R_mono; intros x Hx; now apply HW).
    split.
    - intros x. rewrite in_app_iff, (cov_in _ _ _ H1 x), (cov_in _ _ _ H2 x). split.
      + intros [(d & [<-|[]] & Hr)|(d & Hd & Hr)]; [exists c; split; [now left|auto]|exists d; split; [now right|auto]].
      + intros (d & [<-|Hd] & Hr); [left; exists c; split; [now left|auto]|].
        destruct (R_split W (fun x => In x O1) Dec d x Hr) as [Hr'|(e & He & _ & Hr')].
        * right. exists d. split; auto.
        * left. apply (cov_in _ _ _ H1). eapply cov_closed; eauto.
    - assert (Dj : forall x, In x O1 -> ~ In x O2).
      { intros x Hx Hx2. apply (cov_in _ _ _ H2) in Hx2. destruct Hx2 as (d & _ & Hr). apply R_dst in Hr. apply Hr. apply HW. now right. }
      pose proof (cov_nodup _ _ _ H1) as N1. pose proof (cov_nodup _ _ _ H2) as N2. clear - Dj N1 N2.
      induction O1 as [|a O1 IH]; auto. cbn [app]. inversion N1; subst. constructor.
      + rewrite in_app_iff. intros [?|?]; auto. eapply Dj; eauto. now left.
      + apply IH; auto. intros x Hx. apply Dj. now right.
  Qed.
  Lemma cov_node (W W' : nat -> Prop) v cs O : ~ W v -> (forall x, In x cs <-> E v x) -> (forall x, W' x <-> W x \/ x = v) -> covers W' cs O -> covers W [v] (v :: O).
  Proof.
    intros Hv Hcs HW H.
    assert (Up : forall u w, R W' u w -> R W u w) by (intros u w; apply R_mono; intros x Hx; apply HW; auto).
    split.
    - intros x. cbn [In]. split.
      + intros [<-|Hx]; exists v; (split; [now left|]); [now constructor|].
        apply (cov_in _ _ _ H) in Hx. destruct Hx as (d & Hd & Hr). apply Hcs in Hd. econstructor; eauto.
      + intros (d & [<-|[]] & Hr). destruct (Nat.eq_dec v x) as [->|Nx]; [now left|]. right.
        enough (G : forall u, R W u x -> R W' u x \/ exists y, E v y /\ R W' y x).
        { destruct (G v Hr) as [Hr'|(y & Hy & Hr')]; [exfalso; apply R_src in Hr'; apply Hr'; apply HW; now right|].
          apply (cov_in _ _ _ H). exists y. split; auto. now apply Hcs. }
        intros u Hu. clear Hr. induction Hu as [u Hu|u y w Hu He Hr IH].
        * left. constructor. rewrite HW. intuition congruence.
        * destruct (IH Nx) as [IH'|IH']; [|now right]. destruct (Nat.eq_dec u v) as [->|Nu]; [right; eauto|].
          left. econstructor; eauto. rewrite HW. tauto.
    - constructor; [|apply H]. intros Hi. apply (cov_in _ _ _ H) in Hi.
      destruct Hi as (d & _ & Hr). apply R_dst in Hr. apply Hr. apply HW. now right.
  Qed.
  Lemma dfs_nil (W : nat -> Prop) : dfs W [] [].
  Proof. split; [intros x; split; [intros []|intros (c & [] & _)]|constructor|intros u w []]. Qed.
  Lemma dfs_closed (W : nat -> Prop) cs O u w : dfs W cs O -> In u O -> R W u w -> In w O.
  Proof. intros H Hu Hr. apply (dfs_in _ _ _ H) in Hu. destruct Hu as (c & Hc & Hr'). apply (dfs_in _ _ _ H). exists c. split; auto. eapply R_trans; eauto. Qed.
  (* a start that is already in W adds nothing *)
  Lemma dfs_skip (W : nat -> Prop) c cs O : W c -> dfs W cs O -> dfs W (c :: cs) O.
  Proof.
    intros Hc H. split; [|apply H|apply H]. intros x. rewrite (dfs_in _ _ _ H). split.
    - intros (d & Hd & Hr). exists d. split; [now right|auto].
    - intros (d & [<-|Hd] & Hr); [now apply R_src in Hr|eauto].
  Qed.
  (* one start, then the rest with the first result added to W *)
  Lemma dfs_cons (W W' : nat -> Prop) c cs O1 O2 : dfs W [c] O1 -> (forall x, W' x <-> W x \/ In x O1) -> dfs W' cs O2 -> dfs W (c :: cs) (O1 ++ O2).
  Proof.
    intros H1 HW H2. 
    assert (Dec : forall x, In x O1 \/ ~ In x O1) by (intros x; destruct (in_dec Nat.eq_dec x O1); auto).
    assert (Up : forall u w, R W' u w -> R W u w) by (intros u w; apply R_mono; intros x Hx; apply HW; auto).
    assert (Dn : forall u w, R (fun x => W x \/ In x O1) u w -> R W' u w) by (intros u w; apply R_mono; intros x Hx; now apply HW).
    split.
    - intros x. rewrite in_app_iff, (dfs_in _ _ _ H1 x), (dfs_in _ _ _ H2 x). split.
      + intros [(d & [<-|[]] & Hr)|(d & Hd & Hr)]; [exists c; split; [now left|auto]|exists d; split; [now right|auto]].
      + intros (d & [<-|Hd] & Hr); [left; exists c; split; [now left|auto]|].
        destruct (R_split W (fun x => In x O1) Dec d x Hr) as [Hr'|(e & He & _ & Hr')].
        * right. exists d. split; auto.
        * left. apply (dfs_in _ _ _ H1). eapply dfs_closed; eauto.
    - assert (Dj : forall x, In x O1 -> ~ In x O2).
      { intros x Hx Hx2. apply (dfs_in _ _ _ H2) in Hx2. destruct Hx2 as (d & _ & Hr). apply R_dst in Hr. apply Hr. apply HW. now right. }
      pose proof (dfs_nodup _ _ _ H1) as N1. pose proof (dfs_nodup _ _ _ H2) as N2. clear - Dj N1 N2.
      induction O1 as [|a O1 IH]; auto. cbn [app]. inversion N1; subst. constructor.
      + rewrite in_app_iff. intros [?|?]; auto. eapply Dj; eauto. now left.
      + apply IH; auto. intros x Hx. apply Dj. now right.
    - intros u w Hu Hr. apply in_app_or in Hu. destruct Hu as [Hu|Hu].
      + destruct (dfs_order _ _ _ H1 u w Hu Hr) as (u' & A1 & A2 & A3). exists u'. repeat split; auto. now apply upto_l.
      + destruct (R_split W (fun x => In x O1) Dec u w Hr) as [Hr'|(e & He & _ & Hr')].
        * destruct (dfs_order _ _ _ H2 u w Hu (Dn _ _ Hr')) as (u' & A1 & A2 & A3). exists u'. repeat split; auto. now apply upto_r.
        * exists u. assert (~ W u) by now apply R_src in Hr. split; [now constructor|]. split; [now constructor|].
          apply upto_lr; auto. eapply dfs_closed; eauto.
  Qed.
  (* a node and its successors *)
  Lemma dfs_node (W W' : nat -> Prop) v cs O : ~ W v -> (forall x, In x cs <-> E v x) -> (forall x, W' x <-> W x \/ x = v) -> dfs W' cs O -> dfs W [v] (O ++ [v]).
  Proof.
    intros Hv Hcs HW H.
    assert (Dec : forall x : nat, x = v \/ x <> v) by (intros x; destruct (Nat.eq_dec x v); auto).
    assert (Up : forall u w, R W' u w -> R W u w) by (intros u w; apply R_mono; intros x Hx; apply HW; auto).
    assert (Dn : forall u w, R (fun x => W x \/ x = v) u w -> R W' u w) by (intros u w; apply R_mono; intros x Hx; now apply HW).
    assert (Vin : forall x, In x O -> R W v x).
    { intros x Hx. apply (dfs_in _ _ _ H) in Hx. destruct Hx as (d & Hd & Hr). apply Hcs in Hd. econstructor; eauto. }
    assert (Iff : forall x, In x (O ++ [v]) <-> exists c, In c [v] /\ R W c x).
    { intros x. rewrite in_app_iff. split.
      - intros [Hx|[<-|[]]]; exists v; (split; [now left|]); [now apply Vin|now constructor].
      - intros (d & [<-|[]] & Hr). destruct (Nat.eq_dec x v) as [->|Nx]; [right; now left|]. left.
        (* the last visit of v on the path *)
        enough (G : forall u, R W u x -> R W' u x \/ exists y, E v y /\ R W' y x).
        { destruct (G v Hr) as [Hr'|(y & Hy & Hr')]; [exfalso; apply R_src in Hr'; apply Hr'; apply HW; now right|].
          apply (dfs_in _ _ _ H). exists y. split; auto. now apply Hcs. }
        intros u Hu. clear Hr. induction Hu as [u Hu|u y w Hu He Hr IH].
        + left. constructor. rewrite HW. tauto.
        + destruct (IH Nx) as [IH'|IH']; [|now right]. destruct (Nat.eq_dec u v) as [->|Nu]; [right; eauto|].
          left. econstructor; eauto. rewrite HW. tauto. }
    split; [exact Iff| |].
    - pose proof (dfs_nodup _ _ _ H) as N. apply NoDup_rev in N. rewrite <- (rev_involutive (O ++ [v])). apply NoDup_rev.
      rewrite rev_app_distr. cbn [rev app]. constructor; auto. rewrite <- in_rev. intros Hi. apply (dfs_in _ _ _ H) in Hi.
      destruct Hi as (d & _ & Hr). apply R_dst in Hr. apply Hr. apply HW. now right.
    - intros u w Hu Hr.
      assert (Hw : In w (O ++ [v])).
      { apply Iff in Hu. destruct Hu as (d & Hd & Hr'). apply Iff. exists d. split; auto. eapply R_trans; eauto. }
      assert (Vu : R W v u) by (apply Iff in Hu; destruct Hu as (d & [<-|[]] & Hr'); auto).
      destruct (R_split W (fun x => x = v) Dec u w Hr) as [Hr'|(e & -> & Hu' & _)].
      + apply Dn in Hr'. apply in_app_or in Hu. destruct Hu as [Hu|[<-|[]]]; [|exfalso; apply R_src in Hr'; apply Hr'; apply HW; now right].
        destruct (dfs_order _ _ _ H u w Hu Hr') as (u' & A1 & A2 & A3). exists u'. repeat split; auto. now apply upto_l.
      + exists v. split; [exact Hu'|]. split; [exact Vu|]. apply in_app_or in Hw. destruct Hw as [Hw|[<-|[]]]; [apply upto_lr; auto; now left|].
        exists O, []. split; auto.
  Qed.
End Reach.

(* ---- phase 1 ---------------------------------------------------------------------- *)
Definition seen (vis : list bool) (x : nat) : Prop := nth_error vis x = Some true.
Definition whites (vis : list bool) : nat := length (filter negb vis).
Lemma whites_upd vis v : nth_error vis v = Some false -> whites (upd vis v true) + 1 = whites vis.
Proof.
  unfold whites. revert v. induction vis as [|b vis IH]; intros [|v] H; cbn [nth_error upd] in *; try discriminate.
  - injection H as ->. cbn [filter negb length]. lia.
  - cbn [filter]. specialize (IH v H). destruct (negb b); cbn [length]; lia.
Qed.
Lemma seen_upd vis v x : v < length vis -> (seen (upd vis v true) x <-> seen vis x \/ x = v).
Proof.
  intros H. unfold seen. destruct (Nat.eq_dec x v) as [->|N]; [rewrite upd_same by auto; tauto|].
  rewrite upd_other by auto. tauto.
Qed.

Section Phase1.
  Variable g : graph.
  Variable WF : well_formed g.
  Notation n := (gn g).
  Definition Eo (u w : nat) : Prop := In w (outs_of g u).
  Notation dfso := (dfs Eo).

  Lemma outs_get v : v < n -> nget (gouts g) v = Ok (outs_of g v).
  Proof.
    intros H. unfold nget, outs_of. destruct WF as (_ & L & _). destruct (nth_error (gouts g) v) eqn:E.
    - now rewrite (nth_error_nth _ _ _ E).
    - apply nth_error_None in E. lia.
  Qed.
  Lemma outs_lt u w : In w (outs_of g u) -> u < n /\ w < n.
  Proof. intros H. destruct WF as (_ & _ & I & B). apply I in H. now apply B. Qed.

  (* what a call with enough fuel does *)
  Definition good (f : nat -> vstate -> res vstate) (k : nat) : Prop :=
    forall v s, v < n -> length (visited s) = n -> nth_error (visited s) v = Some false ->
      whites (visited s) <= k -> length (order s) + whites (visited s) <= n ->
      exists s' O, f v s = Ok s' /\ dfso (seen (visited s)) [v] O /\ order s' = order s ++ O /\
        length (visited s') = n /\ (forall x, seen (visited s') x <-> seen (visited s) x \/ In x O) /\
        whites (visited s') + length O = whites (visited s).
  Lemma each_good f k : good f k -> forall ws s, (forall w, In w ws -> w < n) -> length (visited s) = n ->
      whites (visited s) <= k -> length (order s) + whites (visited s) <= n ->
      exists s' O, each f ws s = Ok s' /\ dfso (seen (visited s)) ws O /\ order s' = order s ++ O /\
        length (visited s') = n /\ (forall x, seen (visited s') x <-> seen (visited s) x \/ In x O) /\
        whites (visited s') + length O = whites (visited s).
  Proof.
    intros G. induction ws as [|w ws IH]; intros s Hb Hl Hk Hw; cbn [each].
    - exists s, []. split; [reflexivity|]. split; [apply dfs_nil|]. split; [now rewrite app_nil_r|]. cbn [length In]. repeat split; auto; try tauto; try lia.
    - assert (Hwn : w < n) by (apply Hb; now left). assert (Hb' : forall x, In x ws -> x < n) by (intros x Hx; apply Hb; now right).
      unfold nget. destruct (nth_error (visited s) w) as [b|] eqn:Eb; [|apply nth_error_None in Eb; lia]. cbn [bind]. destruct b.
      + cbn [bind]. destruct (IH s Hb' Hl Hk Hw) as (s' & O & E & D & rest). exists s', O. split; [exact E|]. split; [|exact rest].
        apply dfs_skip; auto.
      + destruct (G w s Hwn Hl Eb Hk Hw) as (s1 & O1 & E1 & D1 & Q1 & L1 & S1 & W1). rewrite E1. cbn [bind].
        destruct (IH s1) as (s2 & O2 & E2 & D2 & Q2 & L2 & S2 & W2); auto; [lia|rewrite Q1, app_length; lia|].
        exists s2, (O1 ++ O2). split; [exact E2|]. split; [eapply dfs_cons; eauto|].
        split; [rewrite Q2, Q1; now rewrite <- app_assoc|]. split; [exact L2|]. rewrite app_length. split; [|lia].
        intros x. rewrite S2, S1, in_app_iff. tauto.
  Qed.
  Lemma visit_S k v s : visit g (S k) v s =
      do vis <- nset (visited s) v true;
      do os <- nget (gouts g) v;
      do s <- each (visit g k) (rev os) (mkV vis (order s));
      do o <- push (gn g) (order s) v;
      Ok (mkV (visited s) o).
  Proof. reflexivity. Qed.
  Lemma visit_good k : good (visit g k) k.
  Proof.
    induction k as [|k IH]; intros v s Hv Hl Hf Hk Hw.
    - exfalso. pose proof (whites_upd _ _ Hf). lia.
    - rewrite visit_S. unfold nset. replace (v <? length (visited s)) with true by lia. cbn [bind]. rewrite (outs_get v Hv). cbn [bind].
      pose proof (whites_upd _ _ Hf) as Hu.
      destruct (each_good _ _ IH (rev (outs_of g v)) (mkV (upd (visited s) v true) (order s)))
        as (s' & O & E & D & Q & L & S' & W'); cbn [visited order] in *; rewrite ?upd_length; auto; try lia.
      { intros w Hi. apply in_rev in Hi. now apply outs_lt in Hi. }
      rewrite E. cbn [bind]. unfold push. rewrite Q, app_length. replace (length (order s) + length O <? n) with true by lia. cbn [bind].
      exists (mkV (visited s') ((order s ++ O) ++ [v])), (O ++ [v]). split; [reflexivity|]. cbn [visited order]. split.
      { apply (dfs_node Eo (seen (visited s)) (seen (upd (visited s) v true)) v (rev (outs_of g v)) O); [unfold seen; congruence|intros x; symmetry; apply in_rev|intros x; apply seen_upd; lia|exact D]. }
      split; [now rewrite <- app_assoc|]. split; [exact L|]. split; [|rewrite app_length; cbn [length]; lia].
      intros x. rewrite S', seen_upd, in_app_iff by lia. cbn [In]. intuition congruence.
  Qed.
  Lemma whites_repeat k : whites (repeat false k) = k.
  Proof. unfold whites. induction k; cbn; auto. Qed.
  Lemma phase1_result : exists s, each (visit g (n + 1)) (rev (seq 0 n)) (mkV (repeat false n) []) = Ok s /\
    dfso (fun _ => False) (rev (seq 0 n)) (order s).
  Proof.
    rewrite Nat.add_1_r.
    destruct (each_good _ _ (visit_good (S n)) (rev (seq 0 n)) (mkV (repeat false n) [])) as (s & O & E & D & Q & _);
      cbn [visited order length]; rewrite ?repeat_length, ?whites_repeat; auto; try lia.
    { intros w Hw. apply in_rev in Hw. apply in_seq in Hw. lia. }
    exists s. split; [exact E|]. cbn [order app] in Q. rewrite Q. cbn [visited] in D.
    assert (Hs : forall x, seen (repeat false n) x -> False).
    { unfold seen. intros x Hx. apply nth_error_In, repeat_spec in Hx. discriminate. }
    assert (RR : forall u w, R Eo (seen (repeat false n)) u w <-> R Eo (fun _ => False) u w).
    { intros u w. split; apply R_mono; [intros x []|intros x Hx; destruct (Hs x Hx)]. }
    split; [|apply D|].
    - intros x. rewrite (dfs_in _ _ _ _ D x). split; intros (c & Hc & Hr); exists c; (split; [exact Hc|now apply RR]).
    - intros u w Hu Hr. apply RR in Hr. destruct (dfs_order _ _ _ _ D u w Hu Hr) as (u' & A1 & A2 & A3). exists u'. repeat split; auto; now apply RR.
  Qed.
End Phase1.

(* ---- phase 2 ---------------------------------------------------------------------- *)
Definition taken (c : list (option nat)) (x : nat) : Prop := exists i, nth_error c x = Some (Some i).
Definition blank (o : option nat) : bool := match o with None => true | Some _ => false end.
Definition blanks (c : list (option nat)) : nat := length (filter blank c).
Lemma blanks_upd c v i : nth_error c v = Some None -> blanks (upd c v (Some i)) + 1 = blanks c.
Proof.
  unfold blanks. revert v. induction c as [|b c IH]; intros [|v] H; cbn [nth_error upd] in *; try discriminate.
  - injection H as ->. cbn [filter blank length]. lia.
  - cbn [filter]. specialize (IH v H). destruct (blank b); cbn [length]; lia.
Qed.
Lemma taken_upd c v i x : v < length c -> (taken (upd c v (Some i)) x <-> taken c x \/ x = v).
Proof.
  intros H. unfold taken. destruct (Nat.eq_dec x v) as [->|N]; [rewrite upd_same by auto; split; eauto|].
  rewrite upd_other by auto. tauto.
Qed.

Section Phase2.
  Variable g : graph.
  Variable WF : well_formed g.
  Notation n := (gn g).
  Definition Ei (u w : nat) : Prop := In w (ins_of g u).
  Notation covi := (covers Ei).
  Lemma ins_get v : v < n -> nget (gins g) v = Ok (ins_of g v).
  Proof.
    intros H. unfold nget, ins_of. destruct WF as (L & _). destruct (nth_error (gins g) v) eqn:E.
    - now rewrite (nth_error_nth _ _ _ E).
    - apply nth_error_None in E. lia.
  Qed.
  Lemma ins_lt u w : In w (ins_of g u) -> u < n /\ w < n.
  Proof. intros H. destruct WF as (_ & _ & I & B). apply B in H. tauto. Qed.

  Definition result (ci : nat) (s s' : astate) (O : list nat) : Prop :=
    buffer s' = buffer s ++ O /\ length (comp s') = n /\
    (forall x, In x O -> nth_error (comp s') x = Some (Some ci)) /\
    (forall x, ~ In x O -> nth_error (comp s') x = nth_error (comp s) x) /\
    blanks (comp s') + length O = blanks (comp s).
  Lemma result_taken ci s s' O x : result ci s s' O -> (taken (comp s') x <-> taken (comp s) x \/ In x O).
  Proof.
    intros (_ & _ & H1 & H2 & _). unfold taken. destruct (in_dec Nat.eq_dec x O) as [Hi|Hi].
    - rewrite (H1 x Hi). split; eauto.
    - rewrite (H2 x Hi). tauto.
  Qed.
  Definition good2 (ci : nat) (f : nat -> astate -> res astate) (k : nat) : Prop :=
    forall v s, v < n -> length (comp s) = n -> nth_error (comp s) v = Some None ->
      blanks (comp s) <= k -> length (buffer s) + blanks (comp s) <= n ->
      exists s' O, f v s = Ok s' /\ covi (taken (comp s)) [v] O /\ result ci s s' O.
  Lemma each_in_good ci f k : good2 ci f k -> forall ws s, (forall w, In w ws -> w < n) -> length (comp s) = n ->
      blanks (comp s) <= k -> length (buffer s) + blanks (comp s) <= n ->
      exists s' O, each_in f ws s = Ok s' /\ covi (taken (comp s)) ws O /\ result ci s s' O.
  Proof.
    intros G. induction ws as [|w ws IH]; intros s Hb Hl Hk Hw; cbn [each_in].
    - exists s, []. split; [reflexivity|]. split; [apply cov_nil|]. unfold result. rewrite app_nil_r. cbn [length In]. repeat split; auto; try tauto; try lia.
    - assert (Hwn : w < n) by (apply Hb; now left). assert (Hb' : forall x, In x ws -> x < n) by (intros x Hx; apply Hb; now right).
      unfold nget. destruct (nth_error (comp s) w) as [b|] eqn:Eb; [|apply nth_error_None in Eb; lia]. cbn [bind]. destruct b as [b|].
      + cbn [bind]. destruct (IH s Hb' Hl Hk Hw) as (s' & O & E & D & rest). exists s', O. split; [exact E|]. split; [|exact rest].
        apply cov_skip; auto. exists b. exact Eb.
      + destruct (G w s Hwn Hl Eb Hk Hw) as (s1 & O1 & E1 & D1 & R1). rewrite E1. cbn [bind].
        pose proof R1 as (Q1 & L1 & T1 & U1 & B1).
        destruct (IH s1) as (s2 & O2 & E2 & D2 & R2); auto; [lia|rewrite Q1, app_length; lia|].
        pose proof R2 as (Q2 & L2 & T2 & U2 & B2).
        exists s2, (O1 ++ O2). split; [exact E2|]. split; [eapply cov_cons; eauto; intros x; eapply result_taken; eauto|].
        split; [rewrite Q2, Q1; now rewrite <- app_assoc|]. split; [exact L2|]. split.
        * intros x Hx. destruct (in_dec Nat.eq_dec x O2) as [Hi|Hi]; [auto|]. rewrite (U2 x Hi). apply T1.
          apply in_app_or in Hx. tauto.
        * split; [|rewrite app_length; lia]. intros x Hx. rewrite in_app_iff in Hx. rewrite (U2 x), (U1 x); tauto.
  Qed.
  Lemma assign_S k ci v s : assign g (S k) ci v s =
      do cs <- nset (comp s) v (Some ci);
      do b <- push (gn g) (buffer s) v;
      do is <- nget (gins g) v;
      each_in (assign g k ci) is (mkA cs b).
  Proof. reflexivity. Qed.
  Lemma assign_good ci k : good2 ci (assign g k ci) k.
  Proof.
    induction k as [|k IH]; intros v s Hv Hl Hf Hk Hw.
    - exfalso. pose proof (blanks_upd _ _ 0 Hf). lia.
    - rewrite assign_S. unfold nset. replace (v <? length (comp s)) with true by lia. cbn [bind].
      pose proof (blanks_upd _ _ ci Hf) as Hu. unfold push. replace (length (buffer s) <? n) with true by lia. cbn [bind].
      rewrite (ins_get v Hv). cbn [bind].
      destruct (each_in_good ci _ _ IH (ins_of g v) (mkA (upd (comp s) v (Some ci)) (buffer s ++ [v])))
        as (s' & O & E & D & RR); cbn [comp buffer] in *; rewrite ?upd_length, ?app_length; cbn [length]; auto; try lia.
      { intros w Hi. now apply ins_lt in Hi. }
      exists s', (v :: O). split; [exact E|]. pose proof RR as (Q & L & T & U & B). cbn [comp buffer] in *. split.
      { apply (cov_node Ei (taken (comp s)) (taken (upd (comp s) v (Some ci))) v (ins_of g v) O); [intros (i & Hi); congruence|intros x; reflexivity|intros x; apply taken_upd; lia|exact D]. }
      split; [rewrite Q, <- app_assoc; reflexivity|]. split; [exact L|].
      split; [|split; [|cbn [length]; lia]].
      + intros x Hx. destruct (in_dec Nat.eq_dec x O) as [Hi|Hi]; [auto|]. rewrite (U x Hi).
        destruct Hx as [<-|Hx]; [|tauto]. apply upd_same. lia.
      + intros x Hx. cbn [In] in Hx. rewrite (U x) by tauto. apply upd_other. intuition congruence.
  Qed.
End Phase2.

(* ---- both phases ------------------------------------------------------------------ *)
Section Both.
  Variable g : graph.
  Variable WF : well_formed g.
  Notation n := (gn g).
  Notation "w ~> u" := (depends_on g w u) (at level 70).
  Definition mutual (x y : nat) : Prop := x ~> y /\ y ~> x.
  Lemma dep_trans w x u : w ~> x -> x ~> u -> w ~> u.
  Proof. induction 1; auto. intros H2. econstructor; eauto. Qed.
  Lemma dep_one w u : depends g w u -> w ~> u.
  Proof. intros H. econstructor; [exact H|constructor]. Qed.
  Lemma mut_trans x y z : mutual x y -> mutual y z -> mutual x z.
  Proof. intros [A B] [C D]. split; eapply dep_trans; eauto. Qed.
  Lemma mut_sym x y : mutual x y -> mutual y x. Proof. intros [A B]; now split. Qed.
  Lemma mut_refl x : mutual x x. Proof. split; constructor. Qed.
  Lemma R_ins W v x : R (Ei g) W v x -> v ~> x.
  Proof. induction 1; [constructor|econstructor; eauto]. Qed.
  Lemma R_outs W u w : R (Eo g) W u w -> w ~> u.
  Proof.
    induction 1 as [u Hu|u x w Hu He Hr IH]; [constructor|]. eapply dep_trans; [exact IH|]. apply dep_one.
    destruct WF as (_ & _ & I & _). now apply I.
  Qed.
  Lemma outs_R w u : w ~> u -> R (Eo g) (fun _ => False) u w.
  Proof.
    induction 1 as [u|w x u Hd Hr IH]; [constructor; auto|]. eapply R_trans; [exact IH|].
    apply R_step with w; [auto| |constructor; auto]. destruct WF as (_ & _ & I & _). now apply I.
  Qed.
  Lemma ins_R (W : nat -> Prop) v x : mutual v x -> (forall y, mutual v y -> ~ W y) -> R (Ei g) W v x.
  Proof.
    intros [Hv Hx] HW. revert HW Hx. induction Hv as [u|v y x Hd Hr IH]; intros HW Hx; [constructor; apply HW; apply mut_refl|].
    assert (M : mutual v y) by (split; [now apply dep_one|eapply dep_trans; eauto]).
    econstructor; [apply HW; apply mut_refl|exact Hd|]. apply IH; [|eapply dep_trans; [exact Hx|now apply dep_one]].
    intros z Hz. apply HW. eapply mut_trans; eauto.
  Qed.

  Variable ord : list nat.
  Variable D : dfs (Eo g) (fun _ => False) (rev (seq 0 n)) ord.
  Lemma ord_in x : In x ord <-> x < n.
  Proof.
    rewrite (dfs_in _ _ _ _ D). split.
    - intros (c & Hc & Hr). apply in_rev in Hc. apply in_seq in Hc.
      assert (Hcn : c < n) by lia. clear Hc. induction Hr as [u Hu|u y w Hu He Hr IH]; auto. apply IH. now apply (outs_lt g WF) in He.
    - intros H. exists x. split; [rewrite <- in_rev; apply in_seq; lia|constructor; auto].
  Qed.
  Lemma ord_key done v vs : rev ord = done ++ v :: vs -> forall x, x < n -> v ~> x -> mutual x v \/ exists u, mutual x u /\ In u done.
  Proof.
    intros E x Hx Hd. apply outs_R in Hd. apply ord_in in Hx.
    destruct (dfs_order _ _ _ _ D x v Hx Hd) as (u & A1 & A2 & (a & b & Eb & A3)).
    assert (M : mutual x u) by (split; [eapply R_outs; exact A2|eapply R_outs; exact A1]).
    destruct A3 as [->|Hb]; [now left|]. right. exists u. split; [exact M|].
    assert (E2 : rev ord = rev b ++ v :: rev a) by (rewrite Eb, rev_app_distr; cbn [rev]; now rewrite <- app_assoc).
    assert (N : NoDup (rev ord)) by (apply NoDup_rev; apply (dfs_nodup _ _ _ _ D)).
    enough (done = rev b) as -> by now apply in_rev in Hb.
    rewrite E in E2. rewrite E in N. clear - E2 N. revert E2 N. generalize (rev b), (rev a). intros b' a'. revert b'.
    induction done as [|d done IH]; intros [|e b'] E2 N; cbn [app] in *; auto.
    - injection E2 as <- ->. inversion N; subst. exfalso. apply H1. apply in_or_app. right. now left.
    - injection E2 as -> E2. inversion N; subst. exfalso. apply H1. apply in_or_app. right. now left.
    - injection E2 as -> E2. inversion N; subst. f_equal. now apply IH.
  Qed.

  Notation has s x i := (nth_error (comp s) x = Some (Some i)).
  Record inv (s : astate) (cs : list (nat * nat)) : Prop := {
    i_len : length (comp s) = n;
    i_cap : length (buffer s) + blanks (comp s) <= n;
    i_nodup : NoDup (buffer s);
    i_buf : forall x, In x (buffer s) <-> taken (comp s) x;
    i_cat : concat (map (slice (buffer s)) cs) = buffer s;
    i_slice : forall i c, nth_error cs i = Some c -> fst c + snd c <= length (buffer s) /\ 0 < snd c /\
                forall x, In x (slice (buffer s) c) <-> has s x i;
    i_lt : forall x i, has s x i -> i < length cs;
    i_scc : forall x y i, has s x i -> mutual x y -> has s y i;
    i_mut : forall x y i, has s x i -> has s y i -> mutual x y;
    i_ord : forall y x i, has s y i -> y ~> x -> exists j, j <= i /\ has s x j }.

  Lemma nget_some A (l : list A) i : i < length l -> exists x, nth_error l i = Some x /\ nget l i = Ok x.
  Proof. intros H. unfold nget. destruct (nth_error l i) as [x|] eqn:E; [eauto|apply nth_error_None in E; lia]. Qed.
  Lemma dep_lt v x : v < n -> v ~> x -> x < n.
  Proof. intros Hv. induction 1; auto. apply IHdepends_on. destruct WF as (_ & _ & _ & B). now apply B in H. Qed.

  Lemma components_ok : forall vs done s cs, rev ord = done ++ vs -> inv s cs -> (forall x, In x done -> taken (comp s) x) ->
    exists s' cs', components g (S n) vs s cs = Ok (s', cs') /\ inv s' cs' /\ forall x, x < n -> taken (comp s') x.
  Proof.
    induction vs as [|v vs IH]; intros done s cs E I T.
    - exists s, cs. split; [reflexivity|]. split; [exact I|]. intros x Hx. apply T. rewrite app_nil_r in E. rewrite <- E, <- in_rev. now apply ord_in.
    - assert (Hv : v < n). { apply ord_in. rewrite in_rev, E. apply in_or_app. right. now left. }
      assert (E' : rev ord = (done ++ [v]) ++ vs) by (rewrite <- app_assoc; exact E).
      cbn [components]. destruct (nget_some _ (comp s) v) as (c & Ec & ->); [now rewrite (i_len _ _ I)|]. cbn [bind]. destruct c as [c|].
      { apply (IH (done ++ [v])); auto. intros x Hx. apply in_app_or in Hx. destruct Hx as [Hx|[<-|[]]]; auto. exists c. exact Ec. }
      pose proof (i_cap _ _ I) as Cap.
      destruct (assign_good g WF (length cs) (S n) v s Hv (i_len _ _ I) Ec) as (s' & O & Ea & C & RR); [lia|exact Cap|].
      rewrite Ea. cbn [bind]. pose proof RR as (Q & L & T1 & U1 & B1).
      assert (Nt : ~ taken (comp s) v) by (intros (i & Hi); congruence).
      assert (OM : forall x, In x O <-> mutual v x).
      { intros x. rewrite (cov_in _ _ _ _ C x). split.
        - intros (d & [<-|[]] & Hr). pose proof (R_dst _ _ _ _ Hr) as Nx. apply R_ins in Hr.
          destruct (ord_key done v vs E x (dep_lt _ _ Hv Hr) Hr) as [M|(u & M & Hu)]; [now apply mut_sym|].
          exfalso. apply Nx. destruct (T u Hu) as (i & Hi). exists i. eapply i_scc; eauto. now apply mut_sym.
        - intros M. exists v. split; [now left|]. apply ins_R; auto. intros y My (i & Hi). apply Nt. exists i. eapply i_scc; eauto. now apply mut_sym. }
      assert (Ov : In v O) by (apply OM; apply mut_refl).
      assert (Old : forall x i, has s x i -> ~ In x O).
      { intros x i Hx Hi. apply OM in Hi. apply Nt. exists i. eapply i_scc; eauto. now apply mut_sym. }
      assert (Keep : forall x i, has s x i -> has s' x i) by (intros x i Hx; rewrite (U1 x); eauto).
      assert (Inv : forall x i, has s' x i -> (has s x i /\ ~ In x O /\ i < length cs) \/ (In x O /\ i = length cs)).
      { intros x i Hx. destruct (in_dec Nat.eq_dec x O) as [Hi|Hi]; [right; split; auto; rewrite (T1 x Hi) in Hx; congruence|].
        left. rewrite (U1 x Hi) in Hx. split; auto. split; auto. eapply i_lt; eauto. }
      destruct O as [|o0 O0] eqn:EO; [destruct Ov|]. rewrite <- EO in *. assert (Lo : 0 < length O) by (rewrite EO; cbn; lia). clear EO o0 O0.
      assert (Lb : length (buffer s') = length (buffer s) + length O) by (rewrite Q, app_length; reflexivity).
      destruct (nget_some _ (buffer s') (length (buffer s))) as (b0 & _ & ->); [lia|]. cbn [bind].
      apply (IH (done ++ [v]) s' (cs ++ [(length (buffer s), length (buffer s') - length (buffer s))])); auto.
      2:{ intros x Hx. apply (result_taken g _ _ _ _ _ RR). apply in_app_or in Hx. destruct Hx as [Hx|[<-|[]]]; auto. }
      assert (SO : forall c, fst c + snd c <= length (buffer s) -> slice (buffer s') c = slice (buffer s) c).
      { intros [p q] Hc. unfold slice in *. cbn [fst snd] in *. rewrite Q, skipn_app. rewrite firstn_app, skipn_length.
        replace (q - (length (buffer s) - p)) with 0 by lia. cbn [firstn]. now rewrite app_nil_r. }
      assert (SN : slice (buffer s') (length (buffer s), length (buffer s') - length (buffer s)) = O).
      { unfold slice. cbn [fst snd]. rewrite Q, skipn_app, skipn_all, Nat.sub_diag. cbn [skipn app]. rewrite app_length.
        apply firstn_all2. lia. }
      split.
      + exact L.
      + rewrite Lb. lia.
      + rewrite Q. pose proof (i_nodup _ _ I) as N1. pose proof (cov_nodup _ _ _ _ C) as N2.
        assert (Dj : forall x, In x (buffer s) -> ~ In x O) by (intros x Hx; apply (i_buf _ _ I) in Hx; destruct Hx as (i & Hi); eauto).
        clear - N1 N2 Dj. induction (buffer s) as [|a l IHl]; auto. cbn [app]. inversion N1; subst. constructor.
        * rewrite in_app_iff. intros [?|?]; auto. eapply Dj; eauto. now left.
        * apply IHl; auto. intros x Hx. apply Dj. now right.
      + intros x. rewrite Q, in_app_iff, (i_buf _ _ I), (result_taken g _ _ _ _ x RR). tauto.
      + rewrite map_app, concat_app. cbn [map concat]. rewrite SN, app_nil_r, Q. f_equal.
        rewrite <- (i_cat _ _ I) at 2. f_equal. apply map_ext_in. intros c Hc. apply In_nth_error in Hc. destruct Hc as (i & Hi).
        rewrite <- Q. apply SO. now apply (i_slice _ _ I i c Hi).
      + intros i c Hc. destruct (Nat.lt_ge_cases i (length cs)) as [Li|Li].
        * rewrite nth_error_app1 in Hc by auto. destruct (i_slice _ _ I i c Hc) as (A1 & A2 & A3). split; [lia|]. split; [exact A2|].
          intros x. rewrite (SO c A1), A3. split; [apply Keep|]. intros Hx. destruct (Inv x i Hx) as [(H & _)|(_ & H)]; [exact H|lia].
        * rewrite nth_error_app2 in Hc by auto. destruct (i - length cs) as [|k] eqn:Ek; [|destruct k; discriminate].
          assert (Ei' : i = length cs) by lia. cbn [nth_error] in Hc. injection Hc as <-. cbn [fst snd]. split; [lia|]. split; [lia|].
          intros x. rewrite SN, Ei'. split; [apply T1|]. intros Hx. destruct (Inv x _ Hx) as [(_ & _ & H)|(H & _)]; [lia|exact H].
      + intros x i Hx. rewrite app_length. cbn [length]. destruct (Inv x i Hx) as [(_ & _ & H)|(_ & H)]; lia.
      + intros x y i Hx M. destruct (Inv x i Hx) as [(H & _)|(H & ->)]; [apply Keep; eapply i_scc; eauto|].
        apply T1. apply OM in H. apply OM. eapply mut_trans; eauto.
      + intros x y i Hx Hy. destruct (Inv x i Hx) as [(H & _ & Hl)|(H & ->)]; destruct (Inv y _ Hy) as [(H' & _ & Hl')|(H' & H'')]; try lia.
        * eapply i_mut; eauto.
        * apply OM in H. apply OM in H'. eapply mut_trans; [apply mut_sym|]; eauto.
      + intros y x i Hy Hd. destruct (Inv y i Hy) as [(H & _ & Hl)|(H & ->)].
        * destruct (i_ord _ _ I y x i H Hd) as (j & A & B). exists j. split; auto.
        * apply OM in H. assert (Hvx : v ~> x) by (eapply dep_trans; [apply H|exact Hd]).
          destruct (ord_key done v vs E x (dep_lt _ _ Hv Hvx) Hvx) as [M|(u & M & Hu)].
          -- exists (length cs). split; [lia|]. apply T1. apply OM. now apply mut_sym.
          -- destruct (T u Hu) as (j & Hj). assert (Hxj : has s x j) by (eapply i_scc; [exact I|exact Hj|now apply mut_sym]).
             exists j. split; [apply (i_lt _ _ I) in Hxj; lia|now apply Keep].
  Qed.
End Both.

Lemma blanks_repeat k : blanks (repeat None k) = k.
Proof. unfold blanks. induction k; cbn; auto. Qed.
Lemma sort_graph_ok g : well_formed g -> exists s cs, sort_graph g = Ok (s, cs) /\ inv g s cs /\ forall x, x < gn g -> taken (comp s) x.
Proof.
  intros WF. unfold sort_graph. destruct (phase1_result g WF) as (s & -> & D). cbn [bind]. rewrite Nat.add_1_r.
  assert (No : forall x i, nth_error (repeat (@None nat) (gn g)) x <> Some (Some i)).
  { intros x i H. apply nth_error_In, repeat_spec in H. discriminate. }
  apply (components_ok g WF (order s) D _ []); [reflexivity| |intros x []].
  split; cbn [comp buffer].
  - apply repeat_length.
  - rewrite blanks_repeat. cbn [length]. lia.
  - constructor.
  - intros x. split; [intros []|]. intros (i & Hi). destruct (No _ _ Hi).
  - reflexivity.
  - intros [|i] c H; discriminate.
  - intros x i H. destruct (No _ _ H).
  - intros x y i H. destruct (No _ _ H).
  - intros x y i H. destruct (No _ _ H).
  - intros y x i H. destruct (No _ _ H).
Qed.
Lemma sort_partition g : well_formed g -> exists s cs, sort_graph g = Ok (s, cs) /\
  Permutation (concat (map (slice (buffer s)) cs)) (seq 0 (gn g)) /\
  (forall i c, nth_error cs i = Some c -> slice (buffer s) c <> [] /\
     forall x, In x (slice (buffer s) c) <-> nth_error (comp s) x = Some (Some i)) /\
  (forall x, x < gn g -> exists i, i < length cs /\ nth_error (comp s) x = Some (Some i)) /\
  (forall x y i j, nth_error (comp s) x = Some (Some i) -> nth_error (comp s) y = Some (Some j) ->
     (i = j <-> depends_on g x y /\ depends_on g y x)) /\
  (forall w u i j, nth_error (comp s) w = Some (Some i) -> nth_error (comp s) u = Some (Some j) ->
     depends_on g w u -> j <= i).
Proof.
  intros WF. destruct (sort_graph_ok g WF) as (s & cs & E & I & T). exists s, cs. split; [exact E|]. split.
  - rewrite (i_cat _ _ _ I). apply NoDup_Permutation; [apply I|apply seq_NoDup|]. intros x. rewrite (i_buf _ _ _ I), in_seq. split.
    + intros (i & Hi). assert (x < length (comp s)) by (apply nth_error_Some; congruence). rewrite (i_len _ _ _ I) in H. lia.
    + intros H. apply T. lia.
  - split; [|split; [|split]].
    + intros i c Hc. destruct (i_slice _ _ _ I i c Hc) as (A & B & C). split; [|exact C]. intros H.
      assert (L : length (slice (buffer s) c) = 0) by now rewrite H. unfold slice in L. rewrite firstn_length, skipn_length in L. lia.
    + intros x Hx. destruct (T x Hx) as (i & Hi). exists i. split; [eapply i_lt; eauto|auto].
    + intros x y i j Hx Hy. split.
      * intros ->. eapply i_mut; eauto.
      * intros M. pose proof (i_scc _ _ _ I x y i Hx M) as H. congruence.
    + intros w u i j Hw Hu Hd. destruct (i_ord _ _ _ I w u i Hw Hd) as (k & Hk & H). assert (k = j) by congruence. lia.
Qed.

(* ---- building the graph ------------------------------------------------------------ *)
Lemma nat_total : total_order Nat.compare.
Proof.
  split; [intros a b; apply Nat.compare_antisym|]. intros a b d. rewrite !Nat.compare_le_iff. lia.
Qed.
Lemma nat_linear : linear Nat.compare.
Proof. split; [apply nat_total|]. intros a b. apply Nat.compare_eq_iff. Qed.

Section GAdd.
  Variable K V : Type.
  Variable c : K -> K -> comparison.
  Variable L : linear c.
  Definition values (m : fmap K (list V)) (k : K) : list V := match lookup K (list V) c k m with Some l => l | None => [] end.
  Lemma lin_eq a b : c a b = Eq <-> a = b. Proof. apply L. Qed.
  Lemma lin_refl a : c a a = Eq. Proof. now apply lin_eq. Qed.
  Lemma lin_dec (a b : K) : {a = b} + {a <> b}.
  Proof. destruct (c a b) eqn:E; [left; now apply lin_eq|right; intros H; apply lin_eq in H; congruence|right; intros H; apply lin_eq in H; congruence]. Qed.
  Lemma is_eq_true a b : is_eq (c a b) = true <-> a = b.
  Proof. rewrite <- lin_eq. destruct (c a b); cbn [is_eq]; split; congruence. Qed.
  Lemma values_gadd m k v x : values (gadd c k v m) x = values m x ++ (if is_eq (c k x) then [v] else []).
  Proof.
    unfold values, gadd. rewrite lookup_put by apply L. destruct (c k x) eqn:E; cbn [is_eq]; rewrite ?app_nil_r; auto.
    apply lin_eq in E. subst x. destruct (lookup _ _ _ _ _); reflexivity.
  Qed.
  Lemma gadd_asc m k v : ascending_keys K (list V) c m -> ascending_keys K (list V) c (gadd c k v m).
  Proof. intros H. apply put_asc; auto. apply L. Qed.
  Lemma asc_nodup W (m : fmap K W) : ascending_keys K W c m -> NoDup (map fst m).
  Proof.
    unfold ascending_keys. induction (map fst m) as [|k ks IH]; intros H; constructor; inversion H; subst; auto.
    intros Hi. rewrite Forall_forall in H3. apply H3 in Hi. rewrite lin_refl in Hi. discriminate.
  Qed.
  Lemma lookup_In W (m : fmap K W) k w : ascending_keys K W c m -> (lookup K W c k m = Some w <-> In (k, w) m).
  Proof.
    intros H. apply asc_nodup in H. induction m as [|[k0 w0] m IH]; cbn [lookup In]; [split; [discriminate|tauto]|].
    cbn [map fst] in H. inversion H; subst. specialize (IH H3). destruct (c k0 k) eqn:E.
    - apply lin_eq in E. subst k0. split; [intros [= ->]; now left|]. intros [[= ->]|Hi]; auto. exfalso. apply H2. apply in_map_iff. now exists (k, w).
    - rewrite IH. split; [tauto|]. intros [[= -> ->]|Hi]; auto. rewrite lin_refl in E. discriminate.
    - rewrite IH. split; [tauto|]. intros [[= -> ->]|Hi]; auto. rewrite lin_refl in E. discriminate.
  Qed.
  Lemma pairs_In (m : fmap K (list V)) k v : ascending_keys K (list V) c m -> (In (k, v) (pairs_of K V m) <-> In v (values m k)).
  Proof.
    intros H. unfold pairs_of. rewrite in_flat_map. split.
    - intros ([k0 vs] & Hi & Hv). cbn [fst snd] in Hv. apply in_map_iff in Hv. destruct Hv as (v' & [= -> ->] & Hv).
      apply lookup_In in Hi; auto. unfold values. now rewrite Hi.
    - unfold values. destruct (lookup K (list V) c k m) as [l|] eqn:E; [|intros []]. intros Hv. apply lookup_In in E; auto.
      exists (k, l). split; auto. cbn [fst snd]. apply in_map_iff. eauto.
  Qed.
End GAdd.

Lemma nvalues_nadd k v m x : nvalues (nadd k v m) x = nvalues m x ++ (if k =? x then [v] else []).
Proof.
  change (nvalues (nadd k v m) x) with (values nat nat Nat.compare (gadd Nat.compare k v m) x).
  rewrite values_gadd by apply nat_linear. change (values nat nat Nat.compare m x) with (nvalues m x). f_equal.
  destruct (k =? x) eqn:E; [replace k with x by lia; now rewrite Nat.compare_refl|].
  destruct (k ?= x) eqn:E2; cbn [is_eq]; auto. apply Nat.compare_eq_iff in E2. lia.
Qed.

Section Group.
  Variable T : Type.
  Variable eqb : T -> T -> bool.
  Notation place := (place eqb). Notation present := (present eqb).
  Lemma index_ok items x : present items x -> index T eqb items x = Ok (place items x) /\ place items x < length items.
  Proof.
    intros (y & Hi & He). unfold index. enough (find_pos (fun y => eqb y x) items = Some (place items x) /\ place items x < length items) as [-> ?] by now split.
    induction items as [|z items IH]; [destruct Hi|]. cbn [find_pos GphSpec.place length]. destruct (eqb z x) eqn:Ez; [split; auto; lia|].
    destruct Hi as [->|Hi]; [congruence|]. destruct (IH Hi) as [-> ?]. split; auto. lia.
  Qed.
  Lemma index_none items x : ~ present items x -> index T eqb items x = Err.
  Proof.
    intros N. unfold index. enough (find_pos (fun y => eqb y x) items = None) as -> by auto.
    induction items as [|z items IH]; auto. cbn [find_pos]. destruct (eqb z x) eqn:Ez.
    - exfalso. apply N. exists z. split; [now left|auto].
    - rewrite IH; auto. intros (y & Hy & Ey). apply N. exists y. split; [now right|auto].
  Qed.
  Definition step2 (io : nmap * nmap) (e : nat * nat) : nmap * nmap := (nadd (fst e) (snd e) (fst io), nadd (snd e) (fst e) (snd io)).
  Lemma add_edges_ok items from tos io : (forall t, In t tos -> present items t) ->
    add_edges T eqb items from tos (fst io) (snd io) = Ok (fold_left step2 (map (fun t => (from, place items t)) tos) io).
  Proof.
    revert io. induction tos as [|t tos IH]; intros io H; cbn [add_edges map fold_left]; [now destruct io|].
    destruct (index_ok items t (H t (or_introl eq_refl))) as [-> _]. cbn [bind]. 
    exact (IH (step2 io (from, place items t)) (fun x Hx => H x (or_intror Hx))).
  Qed.
  Lemma add_groups_ok items dep io : (forall k vs, In (k, vs) dep -> present items k /\ forall v, In v vs -> present items v) ->
    add_groups T eqb items dep (fst io) (snd io) = Ok (fold_left step2 (edges_of eqb items dep) io).
  Proof.
    revert io. induction dep as [|[k vs] dep IH]; intros io H; cbn [add_groups]; [now destruct io|].
    destruct (H k vs (or_introl eq_refl)) as [Hk Hv]. destruct (index_ok items k Hk) as [-> _]. cbn [bind].
    rewrite add_edges_ok by auto. cbn [bind]. unfold edges_of, pairs_of. cbn [flat_map fst snd]. rewrite map_app, map_map, fold_left_app. cbn [fst snd].
    rewrite <- IH by (intros; apply H; now right). match goal with |- context [fold_left step2 ?a ?b] => now destruct (fold_left step2 a b) end.
  Qed.
  Lemma fold_edges es io : forall x,
    nvalues (fst (fold_left step2 es io)) x = nvalues (fst io) x ++ map snd (filter (fun e => fst e =? x) es) /\
    nvalues (snd (fold_left step2 es io)) x = nvalues (snd io) x ++ map fst (filter (fun e => snd e =? x) es).
  Proof.
    intros x. revert io. induction es as [|e es IH]; intros io; cbn [fold_left filter map]; [rewrite !app_nil_r; auto|].
    destruct (IH (step2 io e)) as [-> ->]. unfold step2. cbn [fst snd]. rewrite !nvalues_nadd, <- !app_assoc.
    split; f_equal; [destruct (fst e =? x)|destruct (snd e =? x)]; reflexivity.
  Qed.
  Lemma nth_map_seq A (f : nat -> list A) n i : nth i (map f (seq 0 n)) [] = if i <? n then f i else [].
  Proof.
    destruct (i <? n) eqn:E.
    - rewrite (nth_indep _ [] (f 0)) by (rewrite map_length, seq_length; lia). rewrite map_nth, seq_nth by lia. reflexivity.
    - apply nth_overflow. rewrite map_length, seq_length. lia.
  Qed.
  Lemma init_nodes_wf n ins outs : (forall i j, In j (nvalues ins i) <-> In i (nvalues outs j)) -> (forall i j, In j (nvalues ins i) -> i < n /\ j < n) ->
    well_formed (init_nodes n ins outs) /\ (forall i, ins_of (init_nodes n ins outs) i = nvalues ins i) /\ (forall i, outs_of (init_nodes n ins outs) i = nvalues outs i).
  Proof.
    intros I B.
    assert (A1 : forall i, ins_of (init_nodes n ins outs) i = nvalues ins i).
    { intros i. unfold ins_of. cbn [init_nodes gins]. rewrite nth_map_seq. destruct (i <? n) eqn:E; auto.
      destruct (nvalues ins i) as [|x l] eqn:El; auto. assert (i < n /\ x < n) by (apply B; rewrite El; now left). lia. }
    assert (A2 : forall i, outs_of (init_nodes n ins outs) i = nvalues outs i).
    { intros i. unfold outs_of. cbn [init_nodes gouts]. rewrite nth_map_seq. destruct (i <? n) eqn:E; auto.
      destruct (nvalues outs i) as [|x l] eqn:El; auto. assert (x < n /\ i < n) by (apply B, I; rewrite El; now left). lia. }
    split; [|now split]. split; [cbn; now rewrite map_length, seq_length|]. split; [cbn; now rewrite map_length, seq_length|].
    split; intros u w; rewrite A1; [rewrite A2; apply I|]. intros H. apply B in H. cbn [init_nodes gn]. tauto.
  Qed.
  Lemma in_ends (es : list (nat * nat)) i j : In j (map snd (filter (fun e => fst e =? i) es)) <-> In (i, j) es.
  Proof.
    rewrite in_map_iff. split.
    - intros ([a b] & <- & H). apply filter_In in H. cbn [fst snd] in *. destruct H. now replace i with a by lia.
    - intros H. exists (i, j). split; auto. apply filter_In. cbn [fst]. split; auto. lia.
  Qed.
  Lemma in_starts (es : list (nat * nat)) i j : In i (map fst (filter (fun e => snd e =? j) es)) <-> In (i, j) es.
  Proof.
    rewrite in_map_iff. split.
    - intros ([a b] & <- & H). apply filter_In in H. cbn [fst snd] in *. destruct H. now replace j with b by lia.
    - intros H. exists (i, j). split; auto. apply filter_In. cbn [snd]. split; auto. lia.
  Qed.
  Lemma init_with_group_ok items dep : (forall k vs, In (k, vs) dep -> present items k /\ forall v, In v vs -> present items v) ->
    exists g, init_with_group T eqb items dep = Ok g /\ gn g = length items /\ well_formed g /\
      (forall i, ins_of g i = map snd (filter (fun e => fst e =? i) (edges_of eqb items dep))) /\
      (forall j, outs_of g j = map fst (filter (fun e => snd e =? j) (edges_of eqb items dep))).
  Proof.
    intros H. unfold init_with_group. pose proof (add_groups_ok items dep ([], []) H) as E. cbn [fst snd] in E. rewrite E. clear E.
    pose proof (fold_edges (edges_of eqb items dep) ([], [])) as F. destruct (fold_left step2 (edges_of eqb items dep) ([], [])) as [ins outs]. cbn [bind].
    cbn [fst snd nvalues lookup app] in F. eexists. split; [reflexivity|]. split; [reflexivity|].
    destruct (init_nodes_wf (length items) ins outs) as (W & A1 & A2).
    - intros i j. destruct (F i) as [-> _]. destruct (F j) as [_ ->]. now rewrite in_ends, in_starts.
    - intros i j. destruct (F i) as [-> _]. rewrite in_ends. unfold edges_of. rewrite in_map_iff. intros ([k v] & [= <- <-] & Hi).
      unfold pairs_of in Hi. apply in_flat_map in Hi. destruct Hi as ([k0 vs] & Hi & Hv). cbn [fst snd] in Hv. apply in_map_iff in Hv.
      destruct Hv as (v0 & [= -> ->] & Hv). destruct (H _ _ Hi) as [Pk Pv]. split; [now apply index_ok|now apply index_ok, Pv].
    - split; [exact W|]. split; intros i; [rewrite A1; apply F|rewrite A2; apply F].
  Qed.
  Lemma add_edges_err items from tos : forall ins outs, (exists t, In t tos /\ ~ present items t) -> (forall x, present items x \/ ~ present items x) -> add_edges T eqb items from tos ins outs = Err.
  Proof.
    induction tos as [|t tos IH]; intros ins outs (x & Hx & N) Dec; [destruct Hx|]. cbn [add_edges].
    destruct (Dec t) as [Pt|Pt]; [|now rewrite index_none]. destruct (index_ok items t Pt) as [-> _]. cbn [bind].
    apply IH; auto. destruct Hx as [->|Hx]; [tauto|eauto].
  Qed.
  Lemma present_dec items x : present items x \/ ~ present items x.
  Proof.
    induction items as [|y items IH]; [right; intros (y & [] & _)|]. destruct (eqb y x) eqn:E; [left; exists y; split; [now left|auto]|].
    destruct IH as [(z & Hz & Ez)|N]; [left; exists z; split; [now right|auto]|]. right. intros (z & [->|Hz] & Ez); [congruence|]. apply N. now exists z.
  Qed.
  Lemma init_with_group_err items dep : (exists k vs, In (k, vs) dep /\ (~ present items k \/ exists v, In v vs /\ ~ present items v)) ->
    init_with_group T eqb items dep = Err.
  Proof.
    intros (k & vs & Hi & N). unfold init_with_group. enough (forall ins outs, add_groups T eqb items dep ins outs = Err) as -> by auto.
    induction dep as [|[k0 vs0] dep IH]; [destruct Hi|]. intros ins outs. cbn [add_groups].
    destruct (present_dec items k0) as [Pk|Pk]; [|now rewrite index_none]. destruct (index_ok items k0 Pk) as [-> _]. cbn [bind].
    destruct Hi as [[= -> ->]|Hi].
    - destruct N as [N|N]; [tauto|]. now rewrite add_edges_err by (auto using present_dec).
    - assert (Dec : (exists t, In t vs0 /\ ~ present items t) \/ forall t, In t vs0 -> present items t).
      { clear. induction vs0 as [|t l IH]; [right; intros t []|]. destruct (present_dec items t) as [Pt|Pt]; [|left; exists t; split; [now left|auto]].
        destruct IH as [(u & Hu & Nu)|IH]; [left; exists u; split; [now right|auto]|right; intros u [<-|Hu]; auto]. }
      destruct Dec as [Dec|Dec]; [now rewrite add_edges_err by (auto using present_dec)|].
      pose proof (add_edges_ok items (place items k0) vs0 (ins, outs) Dec) as E. cbn [fst snd] in E. rewrite E. cbn [bind].
      destruct (fold_left step2 _ _). now apply IH.
  Qed.
End Group.

Section Func.
  Variable T : Type.
  Variable c : T -> T -> comparison.
  Variable L : linear c.
  Notation place := (place (ceqb T c)). Notation present := (present (ceqb T c)).
  Notation values := (values T T c).
  Lemma ceqb_true a b : ceqb T c a b = true <-> a = b.
  Proof. apply is_eq_true. exact L. Qed.
  Lemma ceqb_refl a : ceqb T c a a = true. Proof. now apply ceqb_true. Qed.
  Lemma present_In items x : present items x <-> In x items.
  Proof. split; [intros (y & Hy & E); apply ceqb_true in E; now subst|]. intros H. exists x. split; auto. apply ceqb_refl. Qed.
  Lemma place_nth items i a : NoDup items -> nth_error items i = Some a -> place items a = i.
  Proof.
    revert i. induction items as [|y items IH]; intros [|i] N E; try discriminate; cbn [nth_error GphSpec.place] in *.
    - injection E as ->. now rewrite ceqb_refl.
    - inversion N; subst. destruct (ceqb T c y a) eqn:Ey; [|now rewrite (IH i)]. apply ceqb_true in Ey. subst. apply nth_error_In in E. tauto.
  Qed.
  Lemma nth_place items a : In a items -> nth_error items (place items a) = Some a.
  Proof.
    induction items as [|y items IH]; [intros []|]. intros H. cbn [GphSpec.place]. destruct (ceqb T c y a) eqn:Ey.
    - apply ceqb_true in Ey. now subst.
    - destruct H as [->|H]; [rewrite ceqb_refl in Ey; discriminate|]. cbn [nth_error]. auto.
  Qed.
  Lemma inner_ok (dep : T -> T -> bool) a l m : ascending_keys T (list T) c m ->
    let m' := fold_left (fun m b => if dep a b then gadd c a b m else m) l m in
    ascending_keys T (list T) c m' /\ forall x, values m' x = values m x ++ (if ceqb T c a x then filter (dep a) l else []).
  Proof.
    revert m. induction l as [|b l IH]; intros m H; cbn [fold_left filter].
    - split; auto. intros x. destruct (ceqb T c a x); now rewrite app_nil_r.
    - destruct (dep a b) eqn:E.
      + destruct (IH _ (gadd_asc T T c L m a b H)) as [A1 A2]. split; auto. intros x. rewrite A2, values_gadd by exact L. unfold ceqb.
        destruct (is_eq (c a x)); rewrite <- app_assoc; auto.
      + now apply IH.
  Qed.
  Lemma dep_group_ok items (dep : T -> T -> bool) : NoDup items -> ascending_keys T (list T) c (dep_group T c items dep) /\
    forall x, values (dep_group T c items dep) x = if existsb (fun y => ceqb T c y x) items then filter (dep x) items else [].
  Proof.
    intros N. unfold dep_group.
    enough (G : forall l m, NoDup l -> ascending_keys T (list T) c m ->
      let m' := fold_left (fun m a => fold_left (fun m b => if dep a b then gadd c a b m else m) items m) l m in
      ascending_keys T (list T) c m' /\ forall x, values m' x = values m x ++ (if existsb (fun y => ceqb T c y x) l then filter (dep x) items else [])).
    { apply (G items []); auto. constructor. }
    induction l as [|a l IH]; intros m Nl H; cbn [fold_left existsb]; [split; auto; intros x; now rewrite app_nil_r|].
    inversion Nl; subst. destruct (inner_ok dep a items m H) as [A1 A2]. destruct (IH _ H3 A1) as [B1 B2]. split; auto.
    intros x. rewrite B2, A2. destruct (ceqb T c a x) eqn:E; cbn [orb].
    - apply ceqb_true in E. subst x. assert (existsb (fun y => ceqb T c y a) l = false) as ->.
      { destruct (existsb _ l) eqn:E2; auto. apply existsb_exists in E2. destruct E2 as (y & Hy & Ey). apply ceqb_true in Ey. subst. tauto. }
      rewrite app_nil_r. reflexivity.
    - now rewrite app_nil_r.
  Qed.
  Lemma NoDup_map_inj A B (f : A -> B) l : (forall x y, In x l -> In y l -> f x = f y -> x = y) -> NoDup l -> NoDup (map f l).
  Proof.
    intros I N. induction l as [|a l IH]; cbn [map]; constructor; inversion N; subst.
    - intros H. apply in_map_iff in H. destruct H as (x & Ex & Hx). apply I in Ex; [subst; tauto|now right|now left].
    - apply IH; auto. intros x y Hx Hy. apply I; now right.
  Qed.
  Lemma pairs_filter items (m : fmap T (list T)) a : ascending_keys T (list T) c m -> NoDup items -> In a items ->
    (forall k vs, In (k, vs) m -> In k items) ->
    map snd (filter (fun p => place items (fst p) =? place items a) (pairs_of T T m)) = values m a.
  Proof.
    intros Asc N Ha. apply asc_nodup in Asc; auto. unfold GphProofs.values. induction m as [|[k vs] m IH]; intros Hk; [reflexivity|].
    cbn [map fst] in Asc. inversion Asc; subst. unfold pairs_of. cbn [flat_map fst snd lookup]. rewrite filter_app, map_app.
    assert (Hkk : In k items) by (eapply Hk; left; reflexivity). specialize (IH H2 ltac:(intros; eapply Hk; right; eassumption)).
    unfold pairs_of in IH. rewrite IH. destruct (c k a) eqn:E.
    - apply L in E. subst k. assert (lookup T (list T) c a m = None) as ->.
      { destruct (lookup T (list T) c a m) eqn:E2; auto. exfalso. apply H1. clear - E2 L. induction m as [|[k v] m IH]; [discriminate|].
        cbn [lookup] in E2. cbn [map In fst]. destruct (c k a) eqn:E; [left; now apply L in E|right; auto|right; auto]. }
      rewrite app_nil_r. clear - H1. induction vs as [|v vs IH]; [reflexivity|]. cbn [map filter fst]. rewrite Nat.eqb_refl. cbn [map snd]. now rewrite IH.
    - assert (filter (fun p : T * T => place items (fst p) =? place items a) (map (pair k) vs) = []) as ->; [|reflexivity].
      assert (Q : place items k =? place items a = false).
      { destruct (place items k =? place items a) eqn:Q; auto. apply Nat.eqb_eq in Q. pose proof (nth_place items k Hkk) as E1. rewrite Q, (nth_place items a Ha) in E1.
        injection E1 as ->. rewrite (lin_refl T c L) in E. discriminate. }
      clear - Q. induction vs as [|v vs IH]; [reflexivity|]. cbn [map filter fst]. now rewrite Q.
    - assert (filter (fun p : T * T => place items (fst p) =? place items a) (map (pair k) vs) = []) as ->; [|reflexivity].
      assert (Q : place items k =? place items a = false).
      { destruct (place items k =? place items a) eqn:Q; auto. apply Nat.eqb_eq in Q. pose proof (nth_place items k Hkk) as E1. rewrite Q, (nth_place items a Ha) in E1.
        injection E1 as ->. rewrite (lin_refl T c L) in E. discriminate. }
      clear - Q. induction vs as [|v vs IH]; [reflexivity|]. cbn [map filter fst]. now rewrite Q.
  Qed.
  Lemma init_with_func_ok items dep : NoDup items -> exists g, init_with_func T c items dep = Ok g /\ gn g = length items /\ well_formed g /\
    forall i a, nth_error items i = Some a -> ins_of g i = map (place items) (filter (dep a) items).
  Proof.
    intros N. unfold init_with_func. destruct (dep_group_ok items dep N) as [Asc V].
    assert (Keys : forall k vs, In (k, vs) (dep_group T c items dep) -> In k items /\ forall v, In v vs -> In v items).
    { (* every key was added from items *)
      unfold dep_group. enough (G : forall l m, incl l items -> (forall k vs, In (k, vs) m -> In k items /\ incl vs items) ->
        forall k vs, In (k, vs) (fold_left (fun m a => fold_left (fun m b => if dep a b then gadd c a b m else m) items m) l m) -> In k items /\ incl vs items).
      { intros k vs. apply G; [apply incl_refl|intros ? ? []]. }
      assert (P : forall (k : T) (v : list T) m k0 v0, In (k0, v0) (put T (list T) c k v m) -> In (k0, v0) m \/ ((k0 = k \/ exists w, In (k0, w) m) /\ v0 = v)).
      { intros k v m k0 v0. induction m as [|[k1 v1] m IH]; cbn [put In].
        - intros [[= <- <-]|[]]. right. split; auto.
        - destruct (c k1 k); cbn [In].
          + intros [[= <- <-]|H]; [right; split; auto; right; exists v1; now left|left; now right].
          + intros [[= <- <-]|H]; [left; now left|]. destruct (IH H) as [H1|[[->|(w & H1)] ->]]; [left; now right|right; auto|right; split; auto; right; exists w; now right].
          + intros [[= <- <-]|H]; [right; auto|now left]. }
      assert (Pa : forall a b m, In a items -> In b items -> (forall k vs, In (k, vs) m -> In k items /\ incl vs items) ->
        forall k vs, In (k, vs) (gadd c a b m) -> In k items /\ incl vs items).
      { intros a b m Ha Hb Hm k vs H. unfold gadd in H. apply P in H. destruct H as [H|[H ->]]; [now apply Hm in H|]. split.
        - destruct H as [->|(w & H)]; auto. now apply Hm in H.
        - destruct (lookup T (list T) c a m) as [l|] eqn:E; [|intros x [<-|[]]; auto].
          assert (El : exists k', In (k', l) m).
          { clear - E. induction m as [|[k1 v1] m IH]; [discriminate|]. cbn [lookup] in E. destruct (c k1 a); [injection E as ->; exists k1; now left| |];
            destruct (IH E) as (k' & Hk'); exists k'; now right. }
          destruct El as (k' & El). apply Hm in El. intros x Hx. apply in_app_or in Hx. destruct Hx as [Hx|[<-|[]]]; auto. now apply El. }
      induction l as [|a l IH]; intros m Hl Hm k vs H; cbn [fold_left] in H; [now apply Hm|].
      eapply IH; [intros x Hx; apply Hl; now right| |exact H].
      assert (Hai : In a items) by (apply Hl; now left). clear IH H k vs Hl. 
      assert (Q : forall bs m, incl bs items -> (forall k vs, In (k, vs) m -> In k items /\ incl vs items) -> forall k vs,
        In (k, vs) (fold_left (fun m b => if dep a b then gadd c a b m else m) bs m) -> In k items /\ incl vs items).
      { induction bs as [|b bs IHb]; intros m0 Hq Hm0; cbn [fold_left]; auto.
        apply IHb; [intros x Hx; apply Hq; now right|]. destruct (dep a b); auto. apply Pa; auto. apply Hq. now left. }
      apply Q; auto. apply incl_refl. }
    destruct (init_with_group_ok T (ceqb T c) items (dep_group T c items dep)) as (g & E & G & W & I & _).
    { intros k vs H. destruct (Keys k vs H) as [A B]. split; [now apply present_In|]. intros v Hv. now apply present_In, B. }
    exists g. split; [exact E|]. split; [exact G|]. split; [exact W|]. intros i a Ha. rewrite I. unfold edges_of.
    assert (Hin : In a items) by (eapply nth_error_In; eauto).
    transitivity (map (place items) (values (dep_group T c items dep) a)).
    - rewrite <- (pairs_filter items _ a Asc N Hin); [|intros k vs H; now apply Keys in H].
      rewrite (place_nth items i a N Ha). generalize (pairs_of T T (dep_group T c items dep)). intros l. clear.
      induction l as [|[k v] l IH]; [reflexivity|]. cbn [map filter fst snd]. destruct (place items k =? i); cbn [map snd]; now rewrite IH.
    - f_equal. rewrite V. replace (existsb (fun y => ceqb T c y a) items) with true; auto. symmetry. apply existsb_exists. exists a. split; auto. apply ceqb_refl.
  Qed.
  Lemma init_with_func_edges items dep : NoDup items -> exists g, init_with_func T c items dep = Ok g /\ gn g = length items /\ well_formed g /\
    (forall i j a b, nth_error items i = Some a -> nth_error items j = Some b -> (depends g i j <-> dep a b = true)) /\
    (forall i, NoDup (ins_of g i)).
  Proof.
    intros N. destruct (init_with_func_ok items dep N) as (g & E & G & W & I). exists g. split; [exact E|]. split; [exact G|]. split; [exact W|]. split.
    - intros i j a b Ha Hb. unfold depends. rewrite (I i a Ha), in_map_iff. split.
      + intros (x & Ex & Hx). apply filter_In in Hx. destruct Hx as [Hx Hd]. pose proof (nth_place items x Hx) as E1. rewrite Ex in E1. congruence.
      + intros Hd. exists b. split; [now apply place_nth|]. apply filter_In. split; auto. eapply nth_error_In; eauto.
    - intros i. destruct (nth_error items i) as [a|] eqn:Ha.
      + rewrite (I i a Ha). apply NoDup_map_inj; [|now apply NoDup_filter].
        intros x y Hx Hy Exy. apply filter_In in Hx, Hy. pose proof (nth_place items x (proj1 Hx)) as E1. rewrite Exy, (nth_place items y (proj1 Hy)) in E1. congruence.
      + apply nth_error_None in Ha. unfold ins_of. rewrite nth_overflow; [constructor|]. destruct W as (W & _). lia.
  Qed.
End Func.

Section Lists.
  Lemma find_pos_at A (p : A -> bool) l i x : nth_error l i = Some x -> p x = true ->
    (forall j y, nth_error l j = Some y -> p y = true -> j = i) -> find_pos p l = Some i.
  Proof.
    revert i. induction l as [|a l IH]; intros [|i] E P U; try discriminate; cbn [nth_error find_pos] in *.
    - injection E as ->. now rewrite P.
    - destruct (p a) eqn:Pa; [specialize (U 0 a eq_refl Pa); discriminate|]. rewrite (IH i); auto. intros j y Hj Py. specialize (U (S j) y Hj Py). congruence.
  Qed.
  Lemma nodup_app A (l1 l2 : list A) : NoDup l1 -> NoDup l2 -> (forall x, In x l1 -> ~ In x l2) -> NoDup (l1 ++ l2).
  Proof.
    intros N1 N2 Dj. induction l1 as [|a l IHl]; auto. cbn [app]. inversion N1; subst. constructor.
    * rewrite in_app_iff. intros [?|?]; auto. eapply Dj; eauto. now left.
    * apply IHl; auto. intros x Hx. apply Dj. now right.
  Qed.
  Lemma nodup_concat A (ls : list (list A)) : (forall i l, nth_error ls i = Some l -> NoDup l) ->
    (forall i j l m x, nth_error ls i = Some l -> nth_error ls j = Some m -> In x l -> In x m -> i = j) -> NoDup (concat ls).
  Proof.
    induction ls as [|l ls IH]; intros H1 H2; cbn [concat]; [constructor|]. apply nodup_app.
    - now apply (H1 0).
    - apply IH; [intros i m Hi; now apply (H1 (S i))|]. intros i j l1 m x Hi Hj Hx Hy. specialize (H2 (S i) (S j) l1 m x Hi Hj Hx Hy). congruence.
    - intros x Hx Hc. apply in_concat in Hc. destruct Hc as (m & Hm & Hxm). apply In_nth_error in Hm. destruct Hm as (j & Hj).
      specialize (H2 0 (S j) l m x eq_refl Hj Hx Hxm). discriminate.
  Qed.
  Lemma nodup_unique A (l : list A) i j x : NoDup l -> nth_error l i = Some x -> nth_error l j = Some x -> i = j.
  Proof. intros N H1 H2. apply (proj1 (NoDup_nth_error l) N); [apply nth_error_Some; congruence|congruence]. Qed.
End Lists.

Section Lift.
  Variable T : Type.
  Variable node : T -> res nat.
  Notation asc := (ascending_keys nat (list nat) Nat.compare).
  Record lifted (ins ins' : nmap) (ps : list (T * T)) : Prop := {
    l_asc : asc ins -> asc ins';
    l_nodup : (forall i, NoDup (nvalues ins i)) -> forall i, NoDup (nvalues ins' i);
    l_in : forall i j, In j (nvalues ins' i) <-> In j (nvalues ins i) \/ exists a b, In (a, b) ps /\ node a = Ok i /\ node b = Ok j }.
  Lemma nadd_new_ok i j ins : (asc ins -> asc (nadd_new i j ins)) /\ ((forall i, NoDup (nvalues ins i)) -> forall i', NoDup (nvalues (nadd_new i j ins) i')) /\
    forall i' j', In j' (nvalues (nadd_new i j ins) i') <-> In j' (nvalues ins i') \/ (i' = i /\ j' = j).
  Proof.
    unfold nadd_new. destruct (existsb (Nat.eqb j) (nvalues ins i)) eqn:E.
    - split; auto. split; auto. intros i' j'. split; auto. intros [H|[-> ->]]; auto.
      apply existsb_exists in E. destruct E as (x & Hx & Ex). apply Nat.eqb_eq in Ex. now subst.
    - split; [intros A; apply (gadd_asc nat nat Nat.compare nat_linear); exact A|]. split.
      + intros N i'. rewrite nvalues_nadd. destruct (i =? i') eqn:Ei; [|rewrite app_nil_r; auto]. apply Nat.eqb_eq in Ei. subst i'. apply nodup_app; auto.
        * constructor; [intros []|constructor].
        * intros x Hx [<-|[]]. assert (existsb (Nat.eqb j) (nvalues ins i) = true) by (apply existsb_exists; exists j; split; auto; apply Nat.eqb_refl). congruence.
      + intros i' j'. rewrite nvalues_nadd, in_app_iff. destruct (i =? i') eqn:Ei; cbn [In].
        * apply Nat.eqb_eq in Ei. intuition congruence.
        * apply Nat.eqb_neq in Ei. intuition congruence.
  Qed.
  Lemma lift_values_ok k i vs : node k = Ok i -> forall ins, (forall v, In v vs -> exists j, node v = Ok j) ->
    exists ins', lift_values T node i vs ins = Ok ins' /\ lifted ins ins' (map (pair k) vs).
  Proof.
    intros Hk. induction vs as [|v vs IH]; intros ins H; cbn [lift_values map].
    - exists ins. split; auto. split; auto. intros i' j'. split; auto. intros [?|(a & b & [] & _)]; auto.
    - destruct (H v (or_introl eq_refl)) as (j & Hj). rewrite Hj. cbn [bind].
      destruct (IH (nadd_new i j ins)) as (ins' & E & [A1 A2 A3]); [intros; apply H; now right|].
      destruct (nadd_new_ok i j ins) as (B1 & B2 & B3). exists ins'. split; [exact E|]. split; auto.
      intros i' j'. rewrite A3, B3. split.
      + intros [[?|[-> ->]]|(a & b & Hi & Ha & Hb)]; auto; right; [exists k, v|exists a, b]; repeat split; auto; [now left|now right].
      + intros [?|(a & b & [[= <- <-]|Hi] & Ha & Hb)]; auto; [left; right; split; congruence|right; exists a, b; auto].
  Qed.
  Lemma lift_groups_ok dep : forall ins, (forall k vs, In (k, vs) dep -> (exists i, node k = Ok i) /\ forall v, In v vs -> exists j, node v = Ok j) ->
    exists ins', lift_groups T node dep ins = Ok ins' /\ lifted ins ins' (pairs_of T T dep).
  Proof.
    induction dep as [|[k vs] dep IH]; intros ins H; cbn [lift_groups].
    - exists ins. split; auto. split; auto. intros i' j'. split; auto. intros [?|(a & b & [] & _)]; auto.
    - destruct (H k vs (or_introl eq_refl)) as ((i & Hi) & Hv). rewrite Hi. cbn [bind].
      destruct (lift_values_ok k i vs Hi ins Hv) as (ins1 & E1 & [A1 A2 A3]). rewrite E1. cbn [bind].
      destruct (IH ins1) as (ins2 & E2 & [B1 B2 B3]); [intros; apply H; now right|]. exists ins2. split; [exact E2|]. split; auto.
      intros i' j'. rewrite B3, A3. unfold pairs_of. cbn [flat_map fst snd]. split.
      + intros [[?|(a & b & Hab & Ha & Hb)]|(a & b & Hab & Ha & Hb)]; auto; right; exists a, b; (split; [apply in_or_app; auto|auto]).
      + intros [?|(a & b & Hab & Ha & Hb)]; auto. apply in_app_or in Hab. destruct Hab as [Hab|Hab]; [left; right|right]; exists a, b; auto.
  Qed.
  Lemma reverse_edges_ok ins j : nvalues (reverse_edges ins) j = map fst (filter (fun e => snd e =? j) (pairs_of nat nat ins)).
  Proof.
    unfold reverse_edges. enough (G : forall l m, nvalues (fold_left (fun outs (kv : nat * list nat) => fold_left (fun outs v => nadd v (fst kv) outs) (snd kv) outs) l m) j =
      nvalues m j ++ map fst (filter (fun e => snd e =? j) (pairs_of nat nat l))) by (rewrite G; reflexivity).
    induction l as [|[k vs] l IH]; intros m; [cbn; now rewrite app_nil_r|]. cbn [fold_left fst snd]. rewrite IH. unfold pairs_of. cbn [flat_map fst snd].
    rewrite filter_app, map_app, app_assoc. f_equal. clear. revert m. induction vs as [|v vs IH]; intros m; cbn [fold_left map filter fst snd]; [now rewrite app_nil_r|].
    rewrite IH, nvalues_nadd. destruct (v =? j); cbn [map fst]; rewrite <- app_assoc; reflexivity.
  Qed.
  Lemma nodup_pairs (m : nmap) : asc m -> (forall i, NoDup (nvalues m i)) -> NoDup (pairs_of nat nat m).
  Proof.
    intros A N. assert (V : forall k vs, In (k, vs) m -> NoDup vs).
    { intros k vs H. apply (lookup_In nat Nat.compare nat_linear) in H; auto. specialize (N k). unfold nvalues in N. now rewrite H in N. }
    apply (asc_nodup nat Nat.compare nat_linear) in A. clear N. unfold pairs_of. induction m as [|[k vs] m IH]; cbn [flat_map]; [constructor|].
    cbn [map fst] in A. inversion A; subst. apply nodup_app.
    - apply NoDup_map_inj; [congruence|]. apply (V k vs). now left.
    - apply IH; auto. intros k' vs' H. apply (V k' vs'). now right.
    - intros x Hx Hy. apply in_map_iff in Hx. destruct Hx as (v & <- & _). cbn [fst] in Hy. apply in_flat_map in Hy. destruct Hy as ([k' vs'] & Hi & Hy).
      apply in_map_iff in Hy. destruct Hy as (v' & [= -> _] & _). apply H1. apply in_map_iff. now exists (k, vs').
  Qed.
End Lift.

Section Sub.
  Variable T S : Type.
  Variable c : T -> T -> comparison.
  Variable cs : S -> S -> comparison.
  Variable L : linear c.
  Variable LS : linear cs.
  Notation place := (place (ceqb T c)).
  Lemma sc_ok sub : ascending_keys S (list T) cs (sc_items T S cs sub) /\
    (forall s, values S T cs (sc_items T S cs sub) s = map fst (filter (fun kv => is_eq (cs (snd kv) s)) sub)) /\
    (forall s xs, lookup S (list T) cs s (sc_items T S cs sub) = Some xs -> xs <> []).
  Proof.
    unfold sc_items. enough (G : forall l m, ascending_keys S (list T) cs m -> (forall s xs, lookup S (list T) cs s m = Some xs -> xs <> []) ->
      let m' := fold_left (fun m (kv : T * S) => gadd cs (snd kv) (fst kv) m) l m in
      ascending_keys S (list T) cs m' /\ (forall s, values S T cs m' s = values S T cs m s ++ map fst (filter (fun kv => is_eq (cs (snd kv) s)) l)) /\
      (forall s xs, lookup S (list T) cs s m' = Some xs -> xs <> [])).
    { destruct (G sub []) as (A & B & C); [constructor|discriminate|]. auto. }
    induction l as [|[x s0] l IH]; intros m A N; cbn [fold_left filter fst snd].
    - split; auto. split; auto. intros s. now rewrite app_nil_r.
    - destruct (IH (gadd cs s0 x m)) as (A1 & A2 & A3).
      + now apply gadd_asc.
      + intros s xs. unfold gadd. rewrite lookup_put by apply LS. destruct (cs s0 s); [|apply N|apply N]. intros [= <-].
        destruct (lookup _ _ _ _ _); [|discriminate]. intros H. now apply app_eq_nil in H.
      + split; auto. split; auto. intros s. rewrite A2, values_gadd by exact LS. destruct (is_eq (cs s0 s)); cbn [map fst]; rewrite <- app_assoc; auto.
  Qed.
  Lemma sinsert_perm x l : Permutation (sinsert T c x l) (x :: l).
  Proof. induction l as [|y l IH]; cbn [sinsert]; auto. destruct (c y x); auto. rewrite IH. apply perm_swap. Qed.
  Lemma single_ok items sub : Permutation (single_items T c S items sub) (filter (fun x => match lookup T S c x sub with Some _ => false | None => true end) items).
  Proof.
    unfold single_items. enough (G : forall l m, Permutation (fold_left (fun l x => match lookup T S c x sub with Some _ => l | None => sinsert T c x l end) l m)
      (m ++ filter (fun x => match lookup T S c x sub with Some _ => false | None => true end) l)) by (apply (G items [])).
    induction l as [|x l IH]; intros m; cbn [fold_left filter]; [now rewrite app_nil_r|]. rewrite IH. destruct (lookup T S c x sub); auto.
    rewrite sinsert_perm. cbn [app]. apply Permutation_middle.
  Qed.

  Variable items : list T.
  Variable dep : fmap T (list T).
  Variable sub : fmap T S.
  Hypothesis N : NoDup items.
  Hypothesis Asub : ascending_keys T S c sub.
  Hypothesis Isub : forall x s, In (x, s) sub -> In x items.
  Hypothesis Idep : forall k vs, In (k, vs) dep -> In k items /\ forall v, In v vs -> In v items.
  Let sc := sc_items T S cs sub.
  Let single := single_items T c S items sub.
  Let nodes := map snd sc ++ map (fun x => [x]) single.
  Let node := sub_class T c S cs sub sc single.

  Lemma single_in x : In x single <-> In x items /\ lookup T S c x sub = None.
  Proof.
    unfold single. rewrite (Permutation_in' eq_refl (single_ok items sub)), filter_In. destruct (lookup T S c x sub); intuition congruence.
  Qed.
  Lemma single_nodup : NoDup single.
  Proof. unfold single. rewrite single_ok. now apply NoDup_filter. Qed.
  Lemma sc_in i s xs : nth_error sc i = Some (s, xs) -> xs <> [] /\ xs = map fst (filter (fun kv => is_eq (cs (snd kv) s)) sub).
  Proof.
    intros H. apply nth_error_In in H. destruct (sc_ok sub) as (A & B & C). apply (lookup_In S cs LS) in H; auto.
    split; [eapply C; eauto|]. rewrite <- B. unfold values. fold sc. unfold sc in H |- *. now rewrite H.
  Qed.
  Lemma class_in s x : In x (map fst (filter (fun kv => is_eq (cs (snd kv) s)) sub)) <-> In (x, s) sub.
  Proof.
    rewrite in_map_iff. split.
    - intros ([y s'] & <- & H). apply filter_In in H. cbn [fst snd] in *. destruct H as [H E]. apply (is_eq_true S cs LS) in E. now subst.
    - intros H. exists (x, s). split; auto. apply filter_In. split; auto. cbn [snd]. now apply (is_eq_true S cs LS).
  Qed.
  Lemma sub_lookup x s : lookup T S c x sub = Some s <-> In (x, s) sub.
  Proof. now apply lookup_In. Qed.
  Lemma node_of_member i xs x : nth_error nodes i = Some xs -> In x xs -> node x = Ok i /\ In x items.
  Proof.
    unfold nodes. intros E Hx. destruct (Nat.lt_ge_cases i (length sc)) as [Hi|Hi].
    - rewrite nth_error_app1 in E by (now rewrite map_length). rewrite nth_error_map in E. destruct (nth_error sc i) as [[s ys]|] eqn:Es; [|discriminate].
      cbn [option_map snd] in E. injection E as ->. destruct (sc_in i s xs Es) as [_ ->]. apply class_in in Hx. split; [|eauto].
      unfold node, sub_class. apply sub_lookup in Hx. rewrite Hx. rewrite (find_pos_at _ _ sc i _ Es); [reflexivity|now apply (is_eq_true S cs LS)|].
      intros j [s' ys'] Hj Ej. apply (is_eq_true S cs LS) in Ej. cbn [fst] in Ej. subst s'.
      destruct (sc_ok sub) as (A & _). apply (asc_nodup S cs LS) in A. eapply nodup_unique; [exact A| |]; rewrite nth_error_map; fold sc; [now rewrite Hj|now rewrite Es].
    - rewrite nth_error_app2 in E by (now rewrite map_length). rewrite map_length, nth_error_map in E. destruct (nth_error single (i - length sc)) as [y|] eqn:Es; [|discriminate].
      cbn [option_map] in E. injection E as <-. destruct Hx as [<-|[]]. pose proof (nth_error_In _ _ Es) as Hy. apply single_in in Hy. destruct Hy as [Hy Hn]. split; auto.
      unfold node, sub_class. rewrite Hn. rewrite (find_pos_at _ _ single (i - length sc) _ Es); [cbn [must bind]; f_equal; lia|now apply ceqb_true|].
      intros j z Hj Ej. apply ceqb_true in Ej; auto. subst z. eapply nodup_unique; [apply single_nodup|exact Hj|exact Es].
  Qed.
  Lemma member_of_item x : In x items -> exists i xs, nth_error nodes i = Some xs /\ In x xs.
  Proof.
    intros Hx. unfold nodes. destruct (lookup T S c x sub) as [s|] eqn:E.
    - apply sub_lookup in E. destruct (sc_ok sub) as (A & B & C). fold sc in A, B, C.
      pose proof (proj2 (class_in s x) E) as Hc. rewrite <- B in Hc. unfold values in Hc. destruct (lookup S (list T) cs s sc) as [xs|] eqn:El; [|destruct Hc].
      apply (lookup_In S cs LS) in El; auto. apply In_nth_error in El. destruct El as (i & Hi). exists i, xs. split; auto.
      rewrite nth_error_app1, nth_error_map, Hi; auto. rewrite map_length. apply nth_error_Some. congruence.
    - assert (Hs : In x single) by now apply single_in. apply In_nth_error in Hs. destruct Hs as (k & Hk). exists (length sc + k), [x]. split; [|now left].
      rewrite nth_error_app2, map_length by (rewrite map_length; lia). replace (length sc + k - length sc) with k by lia. now rewrite nth_error_map, Hk.
  Qed.
  Lemma node_total x : In x items -> exists i, node x = Ok i.
  Proof. intros H. destruct (member_of_item x H) as (i & xs & E & Hx). exists i. eapply node_of_member; eauto. Qed.
  Lemma node_member x i : In x items -> node x = Ok i -> exists xs, nth_error nodes i = Some xs /\ In x xs.
  Proof.
    intros H E. destruct (member_of_item x H) as (k & xs & Ek & Hx). destruct (node_of_member k xs x Ek Hx) as [E' _]. assert (k = i) by congruence. subst. eauto.
  Qed.
  Lemma nodes_perm : Permutation (concat nodes) items.
  Proof.
    apply NoDup_Permutation; auto.
    - apply nodup_concat.
      + intros i l E. unfold nodes in E. destruct (Nat.lt_ge_cases i (length sc)) as [Hi|Hi].
        * rewrite nth_error_app1 in E by (now rewrite map_length). rewrite nth_error_map in E. destruct (nth_error sc i) as [[s ys]|] eqn:Es; [|discriminate].
          cbn [option_map snd] in E. injection E as ->. destruct (sc_in i s l Es) as [_ ->].
          assert (Nm : NoDup (map fst sub)) by (apply (asc_nodup T c L S); exact Asub). clear - Nm. induction sub as [|[x s'] m IH]; cbn [map filter fst snd] in *; [constructor|].
          inversion Nm; subst. destruct (is_eq (cs s' s)); auto. cbn [map fst]. constructor; auto. intros Hi. apply H1. apply in_map_iff in Hi. destruct Hi as (y & Ey & Hi).
          apply filter_In in Hi. apply in_map_iff. exists y. tauto.
        * rewrite nth_error_app2 in E by (now rewrite map_length). rewrite map_length, nth_error_map in E. destruct (nth_error single (i - length sc)); [|discriminate].
          cbn [option_map] in E. injection E as <-. constructor; [intros []|constructor].
      + intros i j l m x Hi Hj Hx Hy. destruct (node_of_member _ _ _ Hi Hx) as [E1 _]. destruct (node_of_member _ _ _ Hj Hy) as [E2 _]. congruence.
    - intros x. rewrite in_concat. split.
      + intros (xs & Hxs & Hx). apply In_nth_error in Hxs. destruct Hxs as (i & Hi). eapply node_of_member; eauto.
      + intros Hx. destruct (member_of_item x Hx) as (i & xs & Hi & Hxs). exists xs. split; auto. eapply nth_error_In; eauto.
  Qed.
  Definition vals (xs : list T) : list (option nat) := map (fun x => Some (place items x)) xs.
  Lemma write_items_ok : forall xs front rest, (forall x, In x xs -> In x items) -> length xs <= length rest ->
    write_items T c items xs (front ++ rest) (length front) = Ok (front ++ vals xs ++ skipn (length xs) rest, length front + length xs).
  Proof.
    induction xs as [|x xs IH]; intros front rest H B; cbn [write_items vals map length].
    - rewrite Nat.add_0_r. reflexivity.
    - destruct rest as [|y rest]; cbn [length] in B; [lia|]. unfold nset. rewrite app_length. cbn [length].
      replace (length front <? length front + Datatypes.S (length rest)) with true by lia. cbn [bind]. rewrite upd_app2.
      destruct (index_ok T (ceqb T c) items x) as [E _]; [apply present_In; auto; apply H; now left|]. unfold index in E. destruct (find_pos _ items) as [p|]; [|discriminate]. cbn [must] in E.
      replace (front ++ Some p :: rest) with ((front ++ [Some p]) ++ rest) by (now rewrite <- app_assoc).
      replace (length front + 1) with (length (front ++ [Some p])) by (rewrite app_length; reflexivity).
      rewrite IH; [|intros z Hz; apply H; now right|lia]. rewrite app_length. cbn [length skipn]. rewrite <- !app_assoc. cbn [app].
      f_equal. f_equal; [|lia]. do 2 f_equal. congruence.
  Qed.
  Lemma vals_length xs : length (vals xs) = length xs.
  Proof. apply map_length. Qed.
  Lemma fill_ok : forall ns front rest, (forall xs, In xs ns -> xs <> [] /\ forall x, In x xs -> In x items) -> length (concat ns) <= length rest ->
    exists spans, fill T c items ns (front ++ rest) (length front) = Ok (front ++ concat (map vals ns) ++ skipn (length (concat ns)) rest, spans) /\
      map (items_at (front ++ concat (map vals ns) ++ skipn (length (concat ns)) rest)) spans = map vals ns.
  Proof.
    induction ns as [|xs ns IH]; intros front rest H B; cbn [fill map concat] in *.
    - exists []. split; reflexivity.
    - rewrite app_length in B. destruct (H xs (or_introl eq_refl)) as [Hne Hin].
      assert (nget (front ++ rest) (length front) = Ok (nth 0 rest None)) as ->.
      { unfold nget. rewrite nth_error_app2, Nat.sub_diag by lia. destruct xs; [congruence|]. destruct rest; cbn [length] in B; [lia|]. reflexivity. }
      cbn [bind]. rewrite write_items_ok by (auto; lia). cbn [bind].
      rewrite app_assoc. replace (length front + length xs) with (length (front ++ vals xs)) by (rewrite app_length, vals_length; reflexivity).
      destruct (IH (front ++ vals xs) (skipn (length xs) rest)) as (spans & E & M); [intros ys Hys; apply H; now right|rewrite skipn_length; lia|].
      rewrite E. cbn [bind]. exists ((length front, length xs) :: spans).
      assert (skipn (length (concat ns)) (skipn (length xs) rest) = skipn (length (xs ++ concat ns)) rest) as Sk.
      { rewrite app_length. generalize (length (concat ns)) (length xs). clear. intros m n. revert rest. induction n as [|n IH]; intros rest; [reflexivity|]. destruct rest; [now rewrite !skipn_nil|]. apply IH. }
      rewrite Sk in *. rewrite <- !app_assoc in *. split; [reflexivity|]. cbn [map]. f_equal; [|exact M].
      unfold items_at. cbn [fst snd]. rewrite skipn_app, skipn_all, Nat.sub_diag. cbn [app skipn]. rewrite firstn_app, firstn_all2, vals_length, Nat.sub_diag by (rewrite vals_length; lia). cbn [firstn]. now rewrite app_nil_r.
  Qed.
  Lemma nodes_nonempty xs : In xs nodes -> xs <> [] /\ forall x, In x xs -> In x items.
  Proof.
    intros H. split.
    - unfold nodes in H. apply in_app_or in H. destruct H as [H|H]; apply in_map_iff in H; destruct H as (y & Ey & Hy).
      + destruct y as [s ys]. cbn [snd] in Ey. subst. apply In_nth_error in Hy. destruct Hy as (i & Hi). now apply sc_in in Hi.
      + subst. discriminate.
    - intros x Hx. apply In_nth_error in H. destruct H as (i & Hi). eapply node_of_member; eauto.
  Qed.
  Lemma belongs_iff i p : belongs (map (map (fun x => Some (place items x))) nodes) i p <-> exists x, nth_error items p = Some x /\ node x = Ok i.
  Proof.
    unfold belongs. split.
    - destruct (nth_error nodes i) as [xs|] eqn:E.
      + assert (E2 : nth_error (map (map (fun x => Some (place items x))) nodes) i = Some (map (fun x => Some (place items x)) xs)) by (now rewrite nth_error_map, E).
        rewrite (nth_error_nth _ _ _ E2), in_map_iff. intros (x & [= <-] & Hx). destruct (node_of_member _ _ _ E Hx) as [E1 Hi]. exists x. split; auto. now apply nth_place.
      + rewrite nth_overflow; [intros []|]. rewrite map_length. now apply nth_error_None.
    - intros (x & Hp & Hn). destruct (node_member x i) as (xs & E & Hx); auto; [eapply nth_error_In; eauto|].
      assert (E2 : nth_error (map (map (fun x => Some (place items x))) nodes) i = Some (map (fun x => Some (place items x)) xs)) by (now rewrite nth_error_map, E).
      rewrite (nth_error_nth _ _ _ E2), in_map_iff. exists x. split; auto. f_equal. now apply place_nth.
  Qed.
  Lemma node_same a b i j : In a items -> In b items -> node a = Ok i -> node b = Ok j -> (i = j <-> same_class sub a b).
  Proof.
    intros Ha Hb Hi Hj. destruct (node_member a i Ha Hi) as (xs & Ex & Hxa). destruct (node_member b j Hb Hj) as (ys & Ey & Hyb). split.
    - intros <-. rewrite Ex in Ey. injection Ey as <-. unfold nodes in Ex. destruct (Nat.lt_ge_cases i (length sc)) as [Hl|Hl].
      + rewrite nth_error_app1 in Ex by (now rewrite map_length). rewrite nth_error_map in Ex. destruct (nth_error sc i) as [[s zs]|] eqn:Es; [|discriminate].
        cbn [option_map snd] in Ex. injection Ex as ->. destruct (sc_in i s xs Es) as [_ ->]. right. exists s. split; now apply class_in.
      + rewrite nth_error_app2 in Ex by (now rewrite map_length). rewrite map_length, nth_error_map in Ex. destruct (nth_error single (i - length sc)); [|discriminate].
        cbn [option_map] in Ex. injection Ex as <-. destruct Hxa as [<-|[]], Hyb as [<-|[]]. now left.
    - intros [->|(s & Sa & Sb)]; [congruence|]. unfold node, sub_class in *. apply sub_lookup in Sa, Sb. rewrite Sa in Hi. rewrite Sb in Hj. congruence.
  Qed.
  Lemma sub_class_graph : exists g its, init_with_sub_class T c S cs items dep sub = Ok (g, its) /\
    well_formed g /\ gn g = length its /\
    Permutation (concat its) (map Some (seq 0 (length items))) /\
    (forall i, i < gn g -> exists p, belongs its i p) /\
    (forall p q i j a b, nth_error items p = Some a -> nth_error items q = Some b -> belongs its i p -> belongs its j q -> (i = j <-> same_class sub a b)) /\
    (forall i j, depends g i j <-> exists p q a b, belongs its i p /\ belongs its j q /\ nth_error items p = Some a /\ nth_error items q = Some b /\
                                     In (a, b) (pairs_of T T dep)) /\
    (forall i, NoDup (ins_of g i) /\ NoDup (outs_of g i)).
  Proof.
    unfold init_with_sub_class. fold sc single. cbv zeta. fold node.
    destruct (lift_groups_ok T node dep []) as (ins & -> & [LA LN LI]).
    { intros k vs H. destruct (Idep k vs H) as [A B]. split; [now apply node_total|]. intros v Hv. apply node_total. auto. }
    cbn [bind]. fold nodes. destruct (fill_ok nodes [] (repeat None (length items))) as (spans & E & M); [apply nodes_nonempty|rewrite repeat_length, (Permutation_length nodes_perm); lia|].
    cbn [app length] in E, M. rewrite E. cbn [bind]. rewrite M. clear E M.
    change (map vals nodes) with (map (map (fun x => Some (place items x))) nodes).
    set (its := map (map (fun x => Some (place items x))) nodes).
    assert (Len : length sc + length single = length its) by (unfold its, nodes; now rewrite map_length, app_length, !map_length).
    specialize (LA (SSorted_nil _)). specialize (LN (fun i => NoDup_nil _)).
    assert (Pi : forall i j, In (i, j) (pairs_of nat nat ins) <-> In j (nvalues ins i)) by (intros i j; apply (pairs_In nat nat Nat.compare nat_linear ins i j LA)).
    assert (Pr : forall a b, In (a, b) (pairs_of T T dep) -> In a items /\ In b items).
    { intros a b H. unfold pairs_of in H. apply in_flat_map in H. destruct H as ([k vs] & Hi & Hv). cbn [fst snd] in Hv. apply in_map_iff in Hv.
      destruct Hv as (v & [= <- <-] & Hv). destruct (Idep _ _ Hi). auto. }
    destruct (init_nodes_wf (length sc + length single) ins (reverse_edges ins)) as (W & A1 & A2).
    - intros i j. now rewrite reverse_edges_ok, in_starts, Pi.
    - intros i j H. apply LI in H. destruct H as [[]|(a & b & Hab & Ha & Hb)]. destruct (Pr a b Hab) as [Pa Pb]. rewrite Len. unfold its. rewrite map_length.
      destruct (node_member a i Pa Ha) as (xs & Ex & _). destruct (node_member b j Pb Hb) as (ys & Ey & _). split; apply nth_error_Some; congruence.
    - exists (init_nodes (length sc + length single) ins (reverse_edges ins)), its. split; [reflexivity|]. split; [exact W|]. split; [exact Len|]. split; [|split; [|split; [|split]]].
      + unfold its. rewrite <- concat_map, nodes_perm. rewrite <- (map_map (place items) Some).
        apply Permutation_map. replace (map (place items) items) with (seq 0 (length items)); auto.
        apply nth_error_ext. intros i. rewrite nth_error_map. destruct (nth_error items i) as [x|] eqn:E; cbn [option_map].
        * rewrite (place_nth T c L items i x N E). assert (i < length items) by (apply nth_error_Some; congruence).
          rewrite (nth_error_nth' _ 0) by (now rewrite seq_length). now rewrite seq_nth.
        * apply nth_error_None. rewrite seq_length. now apply nth_error_None.
      + intros i Hi. cbn [init_nodes gn] in Hi. rewrite Len in Hi. unfold its in Hi. rewrite map_length in Hi. destruct (nth_error nodes i) as [xs|] eqn:E; [|apply nth_error_None in E; lia].
        destruct (nodes_nonempty xs) as [Hne Hin]; [eapply nth_error_In; eauto|]. destruct xs as [|x xs]; [tauto|]. exists (place items x). apply belongs_iff. exists x. split.
        * apply (nth_place T c L). apply Hin. now left.
        * eapply node_of_member; eauto. now left.
      + intros p q i j a b Hp Hq Bi Bj. apply belongs_iff in Bi, Bj. destruct Bi as (a' & Ha & Ni). destruct Bj as (b' & Hb & Nj).
        assert (a' = a) by congruence. assert (b' = b) by congruence. subst. apply node_same; auto; eapply nth_error_In; eauto.
      + intros i j. unfold depends. rewrite A1, LI. split.
        * intros [[]|(a & b & Hab & Ha & Hb)]. destruct (Pr a b Hab) as [Pa Pb]. exists (place items a), (place items b), a, b.
          rewrite !(nth_place T c L) by auto. repeat split; auto; apply belongs_iff; [exists a|exists b]; split; auto; now apply nth_place.
        * intros (p & q & a & b & Bi & Bj & Hp & Hq & Hab). right. exists a, b. apply belongs_iff in Bi, Bj. destruct Bi as (a' & Ha & Ni). destruct Bj as (b' & Hb & Nj).
          assert (a' = a) by congruence. assert (b' = b) by congruence. subst. auto.
      + intros i. rewrite A1, A2. split; [apply LN|]. rewrite reverse_edges_ok. apply NoDup_map_inj; [|apply NoDup_filter, nodup_pairs; auto].
        intros [a b] [a' b'] H H' E. apply filter_In in H, H'. cbn [fst snd] in *. f_equal; [auto|]. destruct H as [_ H], H' as [_ H']. lia.
  Qed.
End Sub.
