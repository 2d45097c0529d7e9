From Coq Require Import ZifyBool ZifyNat.
From Verif Require Import Base BaseFacts CrefModel CrefSpec.

Definition show (x : coll) : option (option ref) := match x with Alive r => Some r | Destroyed => None end.
Definition look (s : list coll) (c : nat) : option (option ref) := match nth_error s c with Some x => show x | None => None end.
Lemma run_snoc os o : forall s, run s (os ++ [o]) = let '(s1, r1, e1) := run s os in let '(s2, r2, e2) := step s1 o in (s2, r1 ++ [r2], e1 ++ e2).
Proof.
  induction os as [|a os IH]; intros s; cbn [run app].
  - destruct (step s o) as [[? ?] ?]. now rewrite app_nil_r.
  - destruct (step s a) as [[s1 r1] e1]. rewrite IH. destruct (run s1 os) as [[s2 r2] e2]. destruct (step s2 o) as [[s3 r3] e3]. now rewrite app_assoc.
Qed.
Lemma made_snoc os o : made (os ++ [o]) = (made os + match o with New => 1 | _ => 0 end)%nat.
Proof. unfold made. rewrite filter_app, app_length. now destruct o. Qed.
Lemma after_new_none c os : (made os <= c)%nat -> after_new c os = None.
Proof.
  revert c. induction os as [|o os IH]; intros c; [reflexivity|]. unfold made. destruct o; cbn [filter length after_new]; try (apply IH).
  fold (made os). destruct c; [lia|]. intros. apply IH. lia.
Qed.
Lemma after_new_snoc c os o : (c < made os)%nat -> exists l, after_new c os = Some l /\ after_new c (os ++ [o]) = Some (l ++ [o]).
Proof.
  revert c. induction os as [|a os IH]; intros c; [cbn; lia|]. unfold made. destruct a; cbn [filter length after_new app]; fold (made os); try apply IH.
  destruct c; intros H; [eauto|]. apply IH. lia.
Qed.
Lemma after_new_last os : after_new (made os) (os ++ [New]) = Some [].
Proof. induction os as [|a os IH]; [reflexivity|]. unfold made. destruct a; cbn [filter length after_new app]; fold (made os); exact IH. Qed.
Lemma destroyed_snoc c l o : destroyed c (l ++ [o]) = destroyed c l || match o with Destroy d => (d =? c)%nat | _ => false end.
Proof. unfold destroyed. rewrite existsb_app. cbn [existsb]. now rewrite orb_false_r. Qed.
Lemma associated_snoc c l o : associated c (l ++ [o]) =
  match associated c l with Some r => Some r | None => if destroyed c l then None else match o with Set_ d (Some r) => if (d =? c)%nat then Some r else None | _ => None end end.
Proof.
  induction l as [|a l IH].
  - cbn. destruct o as [| |d [r|]| | |d]; try reflexivity; now destruct (d =? c)%nat.
  - destruct a as [| |d [r|]| | |d]; cbn [associated app]; unfold destroyed; cbn [existsb orb]; fold (destroyed c l); try exact IH.
    + destruct (d =? c)%nat; [reflexivity|exact IH].
    + destruct (d =? c)%nat; [reflexivity|exact IH].
Qed.
Lemma current_made c os : (made os <= c)%nat -> current c os = None /\ notified c os = [].
Proof. intros H. unfold current, notified. now rewrite after_new_none. Qed.
(* how one operation changes the specification *)
Lemma current_snoc c os o : current c (os ++ [o]) =
  match o with
  | New => if (c =? made os)%nat then Some None else current c os
  | Set_ d r => if (d =? c)%nat then match current c os with Some None => Some r | x => x end else current c os
  | Destroy d => if (d =? c)%nat then None else current c os
  | _ => current c os
  end /\
  notified c (os ++ [o]) = notified c os ++ match o with Destroy d => if (d =? c)%nat then match current c os with Some (Some r) => [r] | _ => [] end else [] | _ => [] end.
Proof.
  destruct (Nat.lt_ge_cases c (made os)) as [L|L].
  - destruct (after_new_snoc c os o L) as (l & A & B). unfold current, notified. rewrite A, B, destroyed_snoc, associated_snoc.
    destruct o as [|c' d'|d r|d|d k|d]; rewrite ?orb_false_r.
    + replace (c =? made os)%nat with false by lia. destruct (destroyed c l); [destruct (associated c l); rewrite app_nil_r; auto|]. destruct (associated c l); rewrite ?app_nil_r; auto.
    + destruct (destroyed c l), (associated c l); rewrite ?app_nil_r; auto.
    + destruct (destroyed c l), (associated c l), r, (d =? c)%nat; rewrite ?app_nil_r; auto.
    + destruct (destroyed c l), (associated c l); rewrite ?app_nil_r; auto.
    + destruct (destroyed c l), (associated c l); rewrite ?app_nil_r; auto.
    + destruct (destroyed c l), (associated c l), (d =? c)%nat; rewrite ?app_nil_r; cbn [orb app]; auto.
  - destruct (current_made c os L) as [C N]. rewrite C, N. destruct o as [|c' d'|d r|d|d k|d].
    + destruct (c =? made os)%nat eqn:E.
      * apply Nat.eqb_eq in E. subst c. unfold current, notified. rewrite after_new_last. cbn. auto.
      * apply Nat.eqb_neq in E. destruct (current_made c (os ++ [New])) as [X Y]; [rewrite made_snoc; lia|]. rewrite X, Y. auto.
    + destruct (current_made c (os ++ [AssignFrom c' d'])) as [X Y]; [rewrite made_snoc; lia|]. rewrite X, Y. auto.
    + destruct (current_made c (os ++ [Set_ d r])) as [X Y]; [rewrite made_snoc; lia|]. rewrite X, Y. destruct (d =? c)%nat; auto.
    + destruct (current_made c (os ++ [Get d])) as [X Y]; [rewrite made_snoc; lia|]. rewrite X, Y. auto.
    + destruct (current_made c (os ++ [TryGet d k])) as [X Y]; [rewrite made_snoc; lia|]. rewrite X, Y. auto.
    + destruct (current_made c (os ++ [Destroy d])) as [X Y]; [rewrite made_snoc; lia|]. rewrite X, Y. destruct (d =? c)%nat; auto.
Qed.
Lemma look_upd s d x c : (d < length s)%nat -> look (upd s d x) c = if (d =? c)%nat then show x else look s c.
Proof.
  intros L. unfold look. destruct (Nat.eqb_spec d c) as [->|N]; [rewrite upd_same by auto; reflexivity|rewrite upd_other by auto; reflexivity].
Qed.
Lemma look_some s c r : look s c = Some r -> nth_error s c = Some (Alive r) /\ (c < length s)%nat.
Proof. unfold look. destruct (nth_error s c) as [[q|]|] eqn:E; cbn [show]; try discriminate. intros H. injection H as ->. split; [reflexivity|]. eapply nth_error_lt; eauto. Qed.
Lemma look_none s c : look s c = None -> nth_error s c = None \/ nth_error s c = Some Destroyed.
Proof. unfold look. destruct (nth_error s c) as [[q|]|] eqn:E; cbn [show]; auto. discriminate. Qed.
Lemma notices_app c a b : notices c (a ++ b) = notices c a ++ notices c b.
Proof. unfold notices. now rewrite filter_app, map_app. Qed.
Lemma history os : let '(s, r, e) := run [] os in
  length s = made os /\ (forall c, look s c = current c os) /\ (forall c, notices c e = notified c os) /\
  forall k o, nth_error os k = Some o -> nth_error r k = Some (answer (firstn k os) o).
Proof.
  induction os as [|o os IH] using rev_ind.
  - cbn. split; [reflexivity|]. split; [intros [|c]; reflexivity|]. split; [reflexivity|]. intros [|k] o H; discriminate H.
  - rewrite run_snoc. destruct (run [] os) as [[s r] e] eqn:ER. destruct IH as (L & V & N & A).
    assert (LR : length r = length os). { clear -ER. revert r e s ER. assert (forall s0 r e s, run s0 os = (s, r, e) -> length r = length os) as H; [|intros; eapply H; eauto]. induction os as [|a os IH]; intros s0 r e s; cbn [run]; [intros H; injection H as <- <- <-; reflexivity|]. destruct (step s0 a) as [[s1 r1] e1]. destruct (run s1 os) as [[s2 r2] e2] eqn:E. intros H. injection H as <- <- <-. cbn [length]. f_equal. eapply IH. exact E. }
    assert (G : forall x, exists y, look s x = y /\ current x os = y) by (intros x; exists (look s x); split; [reflexivity|symmetry; apply V]).
    assert (ST : length (fst (fst (step s o))) = made (os ++ [o]) /\ (forall c, look (fst (fst (step s o))) c = current c (os ++ [o])) /\ (forall c, notices c (snd (step s o)) = match o with Destroy d => if (d =? c)%nat then match current c os with Some (Some r) => [r] | _ => [] end else [] | _ => [] end) /\ snd (fst (step s o)) = answer os o).
    { rewrite made_snoc, <- L. destruct o as [|c' d'|d q|d|d k|d]; cbn [step answer].
      - cbn [fst snd]. split; [rewrite app_length; reflexivity|]. split; [|split; reflexivity]. intros c. rewrite (proj1 (current_snoc c os New)), <- L, <- V. unfold look.
        destruct (Nat.eqb_spec c (length s)) as [->|D]; [rewrite nth_error_app2, Nat.sub_diag by lia; reflexivity|]. destruct (Nat.lt_ge_cases c (length s)); [now rewrite nth_error_app1|].
        rewrite nth_error_app2 by lia. rewrite (proj2 (nth_error_None s c)) by lia. destruct (c - length s)%nat as [|[|z]] eqn:Z; [lia|reflexivity|reflexivity].
      - assert (T : fst (fst (step s (AssignFrom c' d'))) = s /\ snd (step s (AssignFrom c' d')) = []) by (cbn [step]; destruct (nth_error s c') as [[]|], (nth_error s d') as [[]|]; auto).
        cbn [step] in T. destruct T as [-> ->]. split; [lia|]. split; [intros c; rewrite (proj1 (current_snoc c os _)); apply V|]. split; [reflexivity|].
        rewrite <- !V. unfold look. destruct (nth_error s c') as [[]|], (nth_error s d') as [[]|]; reflexivity.
      - destruct (G d) as ([[x|]|] & G1 & G2); rewrite G2.
        + destruct (look_some _ _ _ G1) as [-> _]. cbn [fst snd]. split; [lia|]. split; [|split; reflexivity]. intros c. rewrite (proj1 (current_snoc c os _)), V. destruct (Nat.eqb_spec d c) as [->|]; [now rewrite G2|reflexivity].
        + destruct (look_some _ _ _ G1) as [-> LL]. cbn [fst snd]. split; [rewrite upd_length; lia|]. split; [|split; reflexivity]. intros c. rewrite (proj1 (current_snoc c os _)), look_upd by auto. destruct (Nat.eqb_spec d c) as [->|]; [now rewrite G2|apply V].
        + assert (T : (match nth_error s d with Some (Alive None) => (upd s d (Alive q), Unit, []) | Some (Alive (Some _)) => (s, Raised, []) | _ => (s, Bad, []) end) = (s, Bad, @nil event)) by (destruct (look_none _ _ G1) as [-> | ->]; reflexivity).
          rewrite T. cbn [fst snd]. split; [lia|]. split; [|split; reflexivity]. intros c. rewrite (proj1 (current_snoc c os _)), V. destruct (Nat.eqb_spec d c) as [->|]; [now rewrite G2|reflexivity].
      - destruct (G d) as ([x|] & G1 & G2); rewrite G2.
        + destruct (look_some _ _ _ G1) as [-> _]. cbn [fst snd]. split; [lia|]. split; [|split; reflexivity]. intros c. rewrite (proj1 (current_snoc c os _)). apply V.
        + assert (T : (match nth_error s d with Some (Alive r0) => (s, Got r0, []) | _ => (s, Bad, []) end) = (s, Bad, @nil event)) by (destruct (look_none _ _ G1) as [-> | ->]; reflexivity).
          rewrite T. cbn [fst snd]. split; [lia|]. split; [|split; reflexivity]. intros c. rewrite (proj1 (current_snoc c os _)). apply V.
      - destruct (G d) as ([[x|]|] & G1 & G2); rewrite G2.
        + destruct (look_some _ _ _ G1) as [-> _]. cbn [fst snd]. split; [lia|]. split; [|split; reflexivity]. intros c. rewrite (proj1 (current_snoc c os _)). apply V.
        + destruct (look_some _ _ _ G1) as [-> _]. cbn [fst snd]. split; [lia|]. split; [|split; reflexivity]. intros c. rewrite (proj1 (current_snoc c os _)). apply V.
        + assert (T : (match nth_error s d with Some (Alive None) => (s, Got None, []) | Some (Alive (Some r0)) => (s, if (kind r0 =? k)%nat then Got (Some r0) else Raised, []) | _ => (s, Bad, []) end) = (s, Bad, @nil event)) by (destruct (look_none _ _ G1) as [-> | ->]; reflexivity).
          rewrite T. cbn [fst snd]. split; [lia|]. split; [|split; reflexivity]. intros c. rewrite (proj1 (current_snoc c os _)). apply V.
      - destruct (G d) as ([[x|]|] & G1 & G2); rewrite ?G2.
        + destruct (look_some _ _ _ G1) as [-> LL]. cbn [fst snd]. split; [rewrite upd_length; lia|]. split; [intros c; rewrite (proj1 (current_snoc c os _)), look_upd by auto; destruct (Nat.eqb_spec d c); [reflexivity|apply V]|]. split; [|reflexivity].
          intros c. unfold notices. cbn [filter fst]. destruct (Nat.eqb_spec d c) as [->|]; [now rewrite G2|reflexivity].
        + destruct (look_some _ _ _ G1) as [-> LL]. cbn [fst snd]. split; [rewrite upd_length; lia|]. split; [intros c; rewrite (proj1 (current_snoc c os _)), look_upd by auto; destruct (Nat.eqb_spec d c); [reflexivity|apply V]|]. split; [|reflexivity].
          intros c. unfold notices. cbn [filter map]. destruct (Nat.eqb_spec d c) as [->|]; [now rewrite G2|reflexivity].
        + destruct (look_none _ _ G1) as [T | T]; rewrite T; cbn [fst snd]; (split; [lia|]); (split; [intros c; rewrite (proj1 (current_snoc c os _)), V; destruct (Nat.eqb_spec d c) as [->|]; [exact G2|reflexivity]|]); (split; [|reflexivity]);
          intros c; unfold notices; cbn [filter map]; (destruct (Nat.eqb_spec d c) as [->|]; [now rewrite G2|reflexivity]). }
    destruct (step s o) as [[s2 r2] e2]. cbn [fst snd] in ST. destruct ST as (S1 & S2 & S3 & S4). split; [exact S1|]. split; [exact S2|]. split.
    + intros c. rewrite notices_app, N, (proj2 (current_snoc c os o)), S3. reflexivity.
    + intros k p H. destruct (Nat.lt_ge_cases k (length os)) as [LK|LK].
      * rewrite nth_error_app1 in H by auto. rewrite nth_error_app1 by lia. rewrite firstn_app. replace (k - length os)%nat with O by lia. rewrite app_nil_r. apply A, H.
      * assert (k = length os) by (apply nth_error_lt in H; rewrite app_length in H; cbn [length] in H; lia). subst k. rewrite nth_error_app2, Nat.sub_diag in H by lia. injection H as <-.
        rewrite nth_error_app2 by lia. replace (length os - length r)%nat with O by lia. rewrite firstn_app, Nat.sub_diag, firstn_all, app_nil_r. cbn [nth_error]. now rewrite S4.
Qed.
Lemma cref_history os : let '(s, answers, disposals) := run [] os in
  (forall k o, nth_error os k = Some o -> nth_error answers k = Some (answer (firstn k os) o)) /\
  (forall c, notices c disposals = notified c os).
Proof. pose proof (history os) as H. destruct (run [] os) as [[s r] e]. destruct H as (_ & _ & N & A). auto. Qed.
Lemma cref_second os c r q : current c os = Some (Some r) -> step (state_of os) (Set_ c q) = (state_of os, Raised, []).
Proof.
  intros C. pose proof (history os) as H. unfold state_of. destruct (run [] os) as [[s a] e]. destruct H as (_ & V & _). cbn [fst]. rewrite <- V in C. destruct (look_some _ _ _ C) as [E _]. cbn [step]. now rewrite E.
Qed.
Lemma cref_once os c : let '(_, _, disposals) := run [] os in (length (notices c disposals) <= 1)%nat.
Proof.
  pose proof (history os) as H. destruct (run [] os) as [[s a] e]. destruct H as (_ & _ & N & _). rewrite N. unfold notified. destruct (after_new c os) as [l|]; [|cbn; lia].
  destruct (destroyed c l); [|cbn; lia]. destruct (associated c l); cbn; lia.
Qed.
