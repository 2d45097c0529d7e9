(* Lists of Ptr whose objects add to the list when they are destroyed: single operations *)
From Coq Require Import Permutation.
From Coq Require Import ZifyBool ZifyNat.
From Verif Require Import Base BaseFacts ReaModel ReaSpec ReaProofs ReaProofs2.
Open Scope nat_scope.

Section Proofs.
Variables (V : Type) (adds : V -> list (option V)).
Notation brings := (brings V adds). Notation shows := (shows V).

Lemma at_mid (l1 : list (option V)) o l2 : nth_error (l1 ++ o :: l2) (length l1) = Some o /\ firstn (length l1) (l1 ++ o :: l2) = l1 /\ skipn (length l1 + 1) (l1 ++ o :: l2) = l2.
Proof.
  assert (N : nth_error (l1 ++ o :: l2) (length l1) = Some o) by (apply nth_mid; reflexivity). split; [exact N|]. split.
  - rewrite firstn_app, Nat.sub_diag, firstn_all. cbn [firstn]. apply app_nil_r.
  - change (l1 ++ o :: l2) with (l1 ++ [o] ++ l2). rewrite app_assoc. replace (length l1 + 1) with (length (l1 ++ [o])) by (rewrite app_length; reflexivity).
    rewrite skipn_app, skipn_all, Nat.sub_diag. reflexivity.
Qed.
Theorem set_adds x l1 v l2 room gone o : shows x (l1 ++ Some v :: l2) room gone ->
  (length (l1 ++ Some v :: l2) + length (adds v) <= room ->
     exists y, step V adds x (SetAt (length l1) o) = Ok (y, Nothing) /\ shows y (l1 ++ o :: l2 ++ adds v) room gone) /\
  (room < length (l1 ++ Some v :: l2) + length (adds v) -> step V adds x (SetAt (length l1) o) = UB).
Proof.
  intros H. pose proof (step_sim V adds _ _ _ _ (SetAt (length l1) o) H) as S. cbn [sstep] in S. unfold sset in S.
  destruct (at_mid l1 (Some v) l2) as (N & F & K). rewrite N, F, K in S. cbn [ReaSpec.brings] in S. split; intros R.
  - replace (length (l1 ++ Some v :: l2) + length (adds v) <=? room) with true in S by lia. exact S.
  - replace (length (l1 ++ Some v :: l2) + length (adds v) <=? room) with false in S by lia. exact S.
Qed.
Theorem remove_adds x l1 v u l2 room gone os b : shows x (l1 ++ Some v :: u :: l2) room gone -> adds v = os ++ [b] ->
  (length (l1 ++ Some v :: u :: l2) + length (os ++ [b]) <= room ->
     exists y room', step V adds x (RemoveAt (length l1)) = Ok (y, Nothing) /\ shows y (l1 ++ u :: l2 ++ None :: os) room' (b :: gone)) /\
  (room < length (l1 ++ Some v :: u :: l2) + length (os ++ [b]) -> step V adds x (RemoveAt (length l1)) = UB).
Proof.
  intros H A. pose proof (step_sim V adds _ _ _ _ (RemoveAt (length l1)) H) as S. cbn [sstep] in S. unfold sremove in S.
  destruct (at_mid l1 (Some v) (u :: l2)) as (N & F & K). rewrite N, F, K in S. cbn [ReaSpec.brings] in S. rewrite <- A.
  assert (RL : removelast (adds v) = os) by (rewrite A; apply removelast_last).
  assert (LL : last (adds v) None = b) by (rewrite A; apply last_last).
  destruct (adds v) as [|c r]; [destruct os; discriminate|]. rewrite RL, LL in S. split; intros R.
  - replace (length (l1 ++ Some v :: u :: l2) + length (c :: r) <=? room) with true in S by lia. destruct S as (y & Q & Y). eauto.
  - replace (length (l1 ++ Some v :: u :: l2) + length (c :: r) <=? room) with false in S by lia. exact S.
Qed.
Theorem remove_last_adds x l v room gone b os : shows x (l ++ [Some v]) room gone -> adds v = b :: os ->
  (length l + length (b :: os) <= room -> too_roomy room (length l) = false ->
     exists y, step V adds x (RemoveAt (length l)) = Ok (y, Nothing) /\ shows y (l ++ None :: os) room (b :: gone)) /\
  (length l + length (b :: os) <= room -> too_roomy room (length l) = true ->
     exists y, step V adds x (RemoveAt (length l)) = Ok (y, Nothing) /\ length l < count y /\ get V y (length l) = UB) /\
  (room < length l + length (b :: os) -> step V adds x (RemoveAt (length l)) = UB).
Proof.
  intros H A. pose proof (step_sim V adds _ _ _ _ (RemoveAt (length l)) H) as S. cbn [sstep] in S. unfold sremove in S.
  destruct (at_mid l (Some v) []) as (N & F & K). rewrite N, F, K in S. cbn [ReaSpec.brings] in S. rewrite A in *. rewrite app_length in *. cbn [length] in *.
  replace (length l + 1 - 1) with (length l) in S by lia. split; [|split]; intros R.
  - intros T. replace (length l + 1 + length os <=? room) with true in S by lia. rewrite T in S. exact S.
  - intros T. replace (length l + 1 + length os <=? room) with true in S by lia. rewrite T in S. cbn [sim] in S.
    destruct S as (y & Q & C & G). rewrite app_length in *. cbn [length] in *. replace (length l + 1 - 1) with (length l) in * by lia. eauto.
  - replace (length l + 1 + length os <=? room) with false in S by lia. exact S.
Qed.
Theorem clear_adds x l room gone : shows x l room gone ->
  (exists v, In (Some v) l /\ adds v <> []) -> step V adds x Clear = UB.
Proof.
  intros H (v & I & A). pose proof (step_sim V adds _ _ _ _ Clear H) as S. cbn [sstep] in S. unfold sclear in S.
  destruct (flat_map brings l) as [|c r] eqn:B; [|exact S].
  assert (X : forall w, In w (brings (Some v)) -> In w (flat_map brings l)) by (intros w W; apply in_flat_map; eauto).
  rewrite B in X. destruct (adds v) as [|w ws] eqn:E; [congruence|]. destruct (X w). cbn [ReaSpec.brings]. rewrite E. now left.
Qed.
Lemma quiet_brings o : (forall v, adds v = []) -> brings o = [].
Proof. intros H. destruct o; [apply H|reflexivity]. Qed.
Lemma quiet_run (Q : forall v, adds v = []) os : forall l room, length l <= room -> exists room', srun V adds l room [] os =
  let (l', rs) := prun V l os in Done l' room' [] rs.
Proof.
  induction os as [|o os IH]; intros l room R; cbn [srun prun]; [eauto|].
  assert (S : exists room1, length (fst (pstep V l o)) <= room1 /\ sstep V adds l room [] o = Fine (fst (pstep V l o)) room1 [] (snd (pstep V l o))).
  { destruct o as [a|i a|i| |i|]; cbn [sstep pstep].
    - unfold sadd. eexists. split; [|reflexivity]. cbn [fst]. rewrite app_length. cbn [length]. pose proof (grown (length l)).
      destruct (length l <? room) eqn:E; lia.
    - unfold sset. destruct (nth_error l i) as [old|] eqn:N.
      + rewrite (inside _ _ _ _ N). rewrite (quiet_brings _ Q). cbn [length app fst snd]. rewrite Nat.add_0_r. replace (length l <=? room) with true by lia.
        rewrite app_nil_r. exists room. split; [|reflexivity]. apply nth_error_lt in N. rewrite app_length, firstn_length. cbn [length]. rewrite skipn_length. lia.
      + rewrite (out_of _ _ _ N). eauto.
    - unfold sremove. destruct (nth_error l i) as [old|] eqn:N.
      + rewrite (inside _ _ _ _ N). rewrite (quiet_brings _ Q). cbn [fst snd]. eexists. split; [|reflexivity]. apply nth_error_lt in N.
        rewrite app_length, firstn_length, skipn_length. unfold too_roomy. destruct ((length l - 1 <=? room / 2) && (length l - 1 <=? 8) && (length l - 1 <? room * 5 / 8)) eqn:T; lia.
      + rewrite (out_of _ _ _ N). eauto.
    - unfold sclear. assert (B : flat_map brings l = []) by (clear -Q; induction l; cbn [flat_map]; [reflexivity|]; rewrite quiet_brings by assumption; assumption).
      rewrite B. exists 0. split; [cbn; lia|reflexivity].
    - eauto.
    - eauto. }
  destruct S as (room1 & R1 & ->). destruct (pstep V l o) as [l1 a]. cbn [fst snd] in *. destruct (IH l1 room1 R1) as (room' & ->).
  destruct (prun V l1 os) as [l2 rs]. eauto.
Qed.
Theorem quiet os : (forall v, adds v = []) -> exists x room, run V adds (start V) os = Ok (x, snd (prun V [] os)) /\ shows x (fst (prun V [] os)) room [].
Proof.
  intros Q. destruct (quiet_run Q os [] 0 (le_n 0)) as (room & R). pose proof (programs V adds os) as P. rewrite R in P.
  destruct (prun V [] os) as [l rs]. destruct P as (x & X & Y). eauto.
Qed.
End Proofs.
