From Coq Require Import ZifyBool ZifyNat.
From Verif Require Import Base BaseFacts UtModel UtSpec.

Definition mark (f : bool) (c : list (kind * bool)) : list (kind * bool) := map (fun p => (fst p, snd p || f)) c.
Definition after (s : us) (l : list uev) (f : bool) : us :=
  mkUS (mark f (ctx s)) false (totalCases s + count_if is_case l) (passedCases s + count_if is_passed_case l) (ulog s ++ l).
Lemma exn_eqb_same a b : exn_eqb a b = same a b.
Proof.
  unfold same. destruct (exn_dec a b) as [->|N].
  - destruct b; try reflexivity. apply Nat.eqb_refl.
  - destruct a as [| | |n], b as [| | |m]; try reflexivity; try congruence. cbn. apply Nat.eqb_neq. congruence.
Qed.
Lemma mark_false c : mark false c = c.
Proof. unfold mark. rewrite map_ext with (g := fun x => x); [apply map_id|]. intros [k b]. cbn. now rewrite Bool.orb_false_r. Qed.
Lemma mark_mark a b c : mark a (mark b c) = mark (b || a) c.
Proof. unfold mark. rewrite map_map. apply map_ext. intros [k x]. cbn. now rewrite Bool.orb_assoc. Qed.
Lemma mark_head f c k x r : c = (k, x) :: r -> mark f c = (k, x || f) :: mark f r.
Proof. intros ->. reflexivity. Qed.
Lemma count_app {A} (f : A -> bool) a b : count_if f (a ++ b) = (count_if f a + count_if f b)%nat.
Proof. unfold count_if. now rewrite filter_app, app_length. Qed.
Lemma after_after s l f l2 f2 : after (after s l f) l2 f2 = after s (l ++ l2) (f || f2).
Proof. unfold after. cbn [ctx totalCases passedCases ulog]. rewrite mark_mark, !count_app, <- app_assoc. f_equal; lia. Qed.
Lemma after_nil s : dangling s = false -> after s [] false = s.
Proof. intros D. unfold after. rewrite mark_false, app_nil_r. cbn. rewrite !Nat.add_0_r, <- D. now destruct s. Qed.
Lemma record_mark s : record s = set_ctx s (mark true (ctx s)).
Proof. unfold record, mark. f_equal. apply map_ext. intros [k b]. cbn. now rewrite Bool.orb_true_r. Qed.
Lemma after_record s l f : record (after s l f) = after s l true.
Proof. rewrite record_mark. unfold after, set_ctx. cbn [ctx dangling totalCases passedCases ulog]. rewrite mark_mark. now rewrite Bool.orb_true_r. Qed.

Lemma exec_sem b : forall s k x0 r, dangling s = false -> ctx s = (k, x0) :: r ->
  exec true b s = Ok (let '(l, x, f) := sem k b in (after s l f, x)).
Proof.
  induction b as [|x|cat d b IHb k' IHk|c k' IHk|b IHb k' IHk|b IHb e h IHh k' IHk|b IHb k' IHk]; intros s k x0 r D C; cbn [exec sem]; change inside with in_case.
  - now rewrite after_nil.
  - now rewrite after_nil.
  - rewrite D, C. destruct (in_case k) eqn:Ek.
    + now rewrite after_nil.
    + set (s1 := set_ctx (say s (Begin cat d)) ((if cat then Category else Case, false) :: (k, x0) :: r)).
      rewrite (IHb s1 (if cat then Category else Case) false ((k, x0) :: r)) by auto.
      destruct (sem (if cat then Category else Case) b) as [[l1 x] f]. cbn [bind].
      set (failed := f || match x with Some _ => true | None => false end).
      assert (suppressed true (after s1 l1 f) x = (after s1 l1 failed, None)) as ->.
      { unfold suppressed, failed. destruct x; [rewrite after_record, Bool.orb_true_r|rewrite Bool.orb_false_r]; reflexivity. }
      cbn [after ctx s1 set_ctx]. rewrite (mark_head _ _ (if cat then Category else Case) false ((k, x0) :: r) eq_refl). cbn [orb].
      destruct (sem k k') as [[l2 x2] f2] eqn:Ek'.
      match goal with |- exec true k' ?S = _ => set (s2 := S) end.
      assert (s2 = after s (Begin cat d :: l1 ++ (if cat then [] else [CaseDone d failed])) failed) as E2.
      { unfold s2, after, s1, set_ctx, say. destruct cat; cbn [ctx dangling totalCases passedCases ulog].
        - rewrite app_nil_r, C, <- app_assoc. unfold count_if. cbn [filter is_case is_passed_case app]. reflexivity.
        - rewrite C. f_equal.
          + change (Begin false d :: l1 ++ [CaseDone d failed]) with ([Begin false d] ++ l1 ++ [CaseDone d failed]). rewrite !count_app. change (count_if is_case [Begin false d]) with 0%nat. change (count_if is_case [CaseDone d failed]) with 1%nat. lia.
          + change (Begin false d :: l1 ++ [CaseDone d failed]) with ([Begin false d] ++ l1 ++ [CaseDone d failed]). rewrite !count_app. change (count_if is_passed_case [Begin false d]) with 0%nat. replace (count_if is_passed_case [CaseDone d failed]) with (if failed then 0 else 1)%nat by now destruct failed. destruct failed; lia.
          + now rewrite <- !app_assoc. }
      rewrite E2. clearbody s2. clear E2.
      rewrite (IHk _ k (x0 || failed) (mark failed r)); [|reflexivity|cbn [after ctx]; rewrite C; reflexivity].
      rewrite Ek', after_after. rewrite <- app_comm_cons, <- app_assoc. reflexivity.
  - rewrite D, C. destruct (in_case k); [|now rewrite after_nil]. destruct c; [|now rewrite after_nil]. eapply IHk; eauto.
  - rewrite D, C. destruct (in_case k); cbn [negb]; [|now rewrite after_nil]. rewrite (IHb _ _ _ _ D C). destruct (sem k b) as [[l1 x] f]. cbn [bind].
    destruct x as [[| | |n]|]; try reflexivity.
    rewrite (IHk _ k (x0 || f) (mark f r)); [|reflexivity|cbn [after ctx]; rewrite C; reflexivity].
    destruct (sem k k') as [[l2 x2] f2]. now rewrite after_after.
  - rewrite (IHb _ _ _ _ D C). destruct (sem k b) as [[l1 x] f]. cbn [bind]. rewrite exn_eqb_same. destruct (same _ e); [|reflexivity].
    rewrite (IHh _ k (x0 || f) (mark f r)); [|reflexivity|cbn [after ctx]; rewrite C; reflexivity].
    destruct (sem k h) as [[l2 y] f2]. cbn [bind]. rewrite after_after. destruct y; [reflexivity|].
    rewrite (IHk _ k (x0 || (f || f2)) (mark (f || f2) r)); [|reflexivity|cbn [after ctx]; rewrite C; reflexivity].
    destruct (sem k k') as [[l3 z] f3]. now rewrite after_after, <- app_assoc.
  - rewrite (IHb _ _ _ _ D C). destruct (sem k b) as [[l1 x] f]. cbn [bind].
    rewrite (IHk _ k (x0 || f) (mark f r)); [|reflexivity|cbn [after ctx]; rewrite C; reflexivity].
    destruct (sem k k') as [[l2 x2] f2]. now rewrite after_after.
Qed.
Lemma sem_counts_files filters : forall fs i s p t, dangling s = false ->
  exists c, run_files true filters i fs s p t =
    Ok (mkUS c false (totalCases s + count_if is_case (files_log filters i fs)) (passedCases s + count_if is_passed_case (files_log filters i fs)) (ulog s ++ files_log filters i fs),
        None, (p + count_if (fun q => negb (file_failed (snd q))) (chosen filters fs))%nat, (t + length (chosen filters fs))%nat).
Proof.
  induction fs as [|[name b] fs IH]; intros i s p t D; cbn [run_files files_log chosen filter fst].
  - exists (ctx s). rewrite app_nil_r. cbn. rewrite !Nat.add_0_r, <- D. now destruct s.
  - destruct (selected filters name) eqn:E.
    + rewrite (exec_sem b (set_ctx s [(File, false)]) File false []) by auto. destruct (sem File b) as [[l x] f] eqn:Eb. cbn [bind].
      set (failed := f || match x with Some _ => true | None => false end).
      assert (suppressed true (after (set_ctx s [(File, false)]) l f) x = (after (set_ctx s [(File, false)]) l failed, None)) as ->.
      { unfold suppressed, failed. destruct x; [rewrite after_record, Bool.orb_true_r|rewrite Bool.orb_false_r]; reflexivity. }
      cbn [after ctx set_ctx mark map fst snd orb].
      match goal with |- context [run_files true filters ?I fs ?S0 ?P ?T] => destruct (IH I S0 P T eq_refl) as [c Ec] end.
      exists c. rewrite Ec. cbn [say totalCases passedCases ulog fst]. f_equal.
      assert (file_failed b = failed) as Ef by (unfold file_failed; now rewrite Eb).
      assert (count_if is_case [FileDone i failed] = 0%nat /\ count_if is_passed_case [FileDone i failed] = 0%nat) as [Z1 Z2] by (split; reflexivity).
      unfold chosen. cbn [filter fst]. fold (chosen filters fs). rewrite ?Ef, !count_app, Z1, Z2. cbn [after totalCases passedCases ulog set_ctx]. f_equal; [f_equal; [f_equal|]|].
      * f_equal; [lia|lia|]. now rewrite <- !app_assoc.
      * unfold count_if. cbn [filter snd]. rewrite Ef. destruct failed; cbn [negb length]; lia.
      * cbn [length]. lia.
    + destruct (IH (S i) (say s (Skipped i)) p t D) as [c Ec]. exists c. rewrite Ec. cbn [say totalCases passedCases ulog].
      cbn [app]. rewrite <- app_assoc. unfold count_if at 3 4. cbn [filter is_case is_passed_case app]. reflexivity.
Qed.

(* ---- the filter ---- *)
Lemma eqt_spec a b : eqt a b = true <-> a = b.
Proof. unfold eqt. destruct (list_eq_dec Nat.eq_dec a b); split; auto; discriminate. Qed.
Lemma matches_spec file f : matches file f = true <-> names file f.
Proof.
  unfold matches, names. destruct (eqt file f) eqn:E; [apply eqt_spec in E; split; auto|].
  assert (file <> f) as N by (intros H; apply eqt_spec in H; congruence). clear E.
  destruct (Nat.ltb_spec (length f) (length file)) as [L|L].
  - set (n := (length file - length f - 1)%nat). assert (length file - length f = S n)%nat as En by lia.
    destruct (nth_error file n) as [c|] eqn:Ec; [|apply nth_error_None in Ec; lia].
    assert (file = firstn n file ++ c :: skipn (S n) file) as Sp.
    { rewrite <- (firstn_skipn n file) at 1. f_equal. clear - Ec. revert Ec. generalize n. clear n. intros n. revert file. induction n as [|n IH]; intros [|y file] Ec; cbn in *; try discriminate; [congruence|]. now apply IH. }
    rewrite En. split.
    + intros H. apply andb_prop in H. destruct H as [H1 H2]. apply eqt_spec in H2. right. exists (firstn n file), c. split.
      * apply Bool.orb_prop in H1. destruct H1 as [H1|H1]; apply Nat.eqb_eq in H1; auto.
      * congruence.
    + intros [H|(p & c' & Hc & Hf)]; [contradiction|].
      assert (length p = n) as Lp by (apply (f_equal (@length nat)) in Hf; rewrite app_length in Hf; cbn in Hf; unfold text in *; lia).
      assert (nth_error file n = Some c') as Ec' by (rewrite Hf, <- Lp, nth_error_app2, Nat.sub_diag by lia; reflexivity).
      assert (c' = c) by congruence. subst c'.
      assert (skipn (S n) file = f) as Es.
      { rewrite Hf, <- Lp. change (p ++ c :: f) with (p ++ [c] ++ f). rewrite app_assoc. replace (S (length p)) with (length (p ++ [c])) by (rewrite app_length; cbn; lia).
        rewrite skipn_app, skipn_all, Nat.sub_diag. reflexivity. }
      apply andb_true_intro. split; [|now apply eqt_spec]. apply Bool.orb_true_iff. destruct Hc as [->| ->]; [left|right]; apply Nat.eqb_refl.
  - split; [discriminate|]. intros [H|(p & c & _ & Hf)]; [contradiction|]. apply (f_equal (@length nat)) in Hf. rewrite app_length in Hf. cbn in Hf. unfold text in *. lia.
Qed.
Lemma selected_spec filters file : selected filters file = true <-> filters = [] \/ exists f, In f filters /\ names file f.
Proof.
  unfold selected. destruct filters as [|f fs]; [split; auto|]. rewrite existsb_exists. split.
  - intros (x & I & M). right. exists x. split; [auto|]. now apply matches_spec.
  - intros [H|(x & I & M)]; [discriminate|]. exists x. split; [auto|]. now apply matches_spec.
Qed.
(* ---- the whole run ---- *)
Lemma count_le {A} (f : A -> bool) l : (count_if f l <= length l)%nat.
Proof. unfold count_if. induction l; cbn [filter length]; [lia|]. destruct (f a); cbn [length]; lia. Qed.
Lemma count_all {A} (f : A -> bool) l : count_if f l = length l <-> forall x, In x l -> f x = true.
Proof.
  induction l as [|a l IH]; [split; [intros _ x []|reflexivity]|]. unfold count_if in *. cbn [filter length In]. pose proof (count_le f l) as B. unfold count_if in B.
  destruct (f a) eqn:E; cbn [length]; split.
  - intros H x [->|I]; [auto|]. apply IH; [lia|auto].
  - intros H. f_equal. apply IH. intros x I. apply H. now right.
  - intros H. lia.
  - intros H. rewrite (H a) in E by now left. discriminate.
Qed.
Lemma run_ok debugger options fs d r filters : parse options false false [] = Some (d, r, filters) -> d = false -> (r = true \/ debugger = false) ->
  exists s code passed, run_tests debugger options fs = Ok (Returned code s passed (length (chosen filters fs))) /\
    ulog s = files_log filters 0 fs /\ totalCases s = count_if is_case (ulog s) /\ passedCases s = count_if is_passed_case (ulog s) /\
    passed = count_if (fun q => negb (file_failed (snd q))) (chosen filters fs) /\
    (code = 0%nat <-> forall q, In q (chosen filters fs) -> file_failed (snd q) = false).
Proof.
  intros P -> R. unfold run_tests. rewrite P.
  assert ((if r then true else negb debugger) = true) as -> by (destruct R as [-> | ->]; [reflexivity|now destruct r]).
  destruct (sem_counts_files filters fs 0 (mkUS [(File, false)] false 0 0 []) 0 0 eq_refl) as [c E]. rewrite E. cbn [bind].
  do 3 eexists. split; [reflexivity|]. cbn [ulog totalCases passedCases Nat.add app]. split; [reflexivity|]. split; [reflexivity|]. split; [reflexivity|]. split; [reflexivity|].
  destruct (Nat.eqb_spec (length (chosen filters fs)) (count_if (fun q => negb (file_failed (snd q))) (chosen filters fs))) as [Q|Q].
  - split; [|reflexivity]. intros _ q I. symmetry in Q. rewrite count_all in Q. specialize (Q q I). now destruct (file_failed (snd q)).
  - split; [discriminate|]. intros H. exfalso. apply Q. symmetry. apply count_all. intros q I. now rewrite (H q I).
Qed.
(* ---- without suppression ---- *)
Lemma exec_debug b : forall s k x0 r l x, dangling s = false -> ctx s = (k, x0) :: r -> sem k b = (l, x, false) ->
  exec false b s = exec true b s.
Proof.
  induction b as [|x1|cat d b IHb k' IHk|c k' IHk|b IHb k' IHk|b IHb e h IHh k' IHk|b IHb k' IHk]; intros s k x0 r l x D C S; cbn [exec sem] in *; change inside with in_case in *; try reflexivity.
  - rewrite D, C. destruct (in_case k) eqn:Ek; [reflexivity|].
    set (s1 := set_ctx (say s (Begin cat d)) ((if cat then Category else Case, false) :: (k, x0) :: r)).
    destruct (sem (if cat then Category else Case) b) as [[l1 x1] f] eqn:Eb. destruct (sem k k') as [[l2 x2] f2] eqn:Ek'.
    injection S as E1 E2 H2. apply Bool.orb_false_elim in H2. destruct H2 as [H2 ->]. apply Bool.orb_false_elim in H2. destruct H2 as [-> Hx]. destruct x1; [discriminate|].
    rewrite (IHb s1 (if cat then Category else Case) false ((k, x0) :: r) _ _ eq_refl eq_refl Eb) || rewrite (IHb s1 (if cat then Category else Case) false ((k, x0) :: r) l1 None); auto.
    rewrite (exec_sem b s1 (if cat then Category else Case) false ((k, x0) :: r)) by auto. rewrite Eb. cbn [bind suppressed].
    cbn [after ctx s1 set_ctx mark map fst snd orb]. eapply (IHk _ k (x0 || false)); [destruct cat; reflexivity|destruct cat; reflexivity|exact Ek'].
  - rewrite D, C. destruct (in_case k) eqn:Ek; [|reflexivity]. destruct c; [|reflexivity]. eapply IHk; eauto.
  - rewrite D, C. destruct (in_case k) eqn:Ek; cbn [negb] in *; [|reflexivity]. destruct (sem k b) as [[l1 x1] f] eqn:Eb.
    assert (f = false) as ->.
    { destruct x1 as [[| | |n]|]; try (injection S as E1 E2 H2; exact H2). destruct (sem k k') as [[l2 x2] f2]. injection S as E1 E2 H2. now apply Bool.orb_false_elim in H2. }
    rewrite (IHb _ _ _ _ _ _ D C Eb). rewrite (exec_sem b _ _ _ _ D C), Eb. cbn [bind]. destruct x1 as [[| | |n]|]; try reflexivity.
    destruct (sem k k') as [[l2 x2] f2] eqn:Ek'. injection S as E1 E2 H2. cbn [orb] in H2. subst f2. eapply (IHk _ k (x0 || false) (mark false r)); [reflexivity|cbn [after ctx]; rewrite C; reflexivity|exact Ek'].
  - destruct (sem k b) as [[l1 x1] f] eqn:Eb. destruct (sem k h) as [[l2 y] f2] eqn:Eh. destruct (sem k k') as [[l3 z] f3] eqn:Ek'.
    assert (f = false) as ->.
    { destruct (same _ e); [|injection S as E1 E2 H2; exact H2]. destruct y; injection S as E1 E2 H2; apply Bool.orb_false_elim in H2; destruct H2 as [H2 _]; [auto|]. now apply Bool.orb_false_elim in H2. }
    rewrite (IHb _ _ _ _ _ _ D C Eb). rewrite (exec_sem b _ _ _ _ D C), Eb. cbn [bind]. rewrite !exn_eqb_same. destruct (same _ e) eqn:Ex; [|reflexivity].
    assert (f2 = false) as -> by (destruct y; injection S as E1 E2 H2; [exact H2|]; cbn [orb] in H2; now apply Bool.orb_false_elim in H2).
    assert (ctx (after s l1 false) = (k, x0 || false) :: mark false r) as C1 by (cbn [after ctx]; now rewrite C).
    assert (dangling (after s l1 false) = false) as D1 by reflexivity.
    rewrite (IHh _ _ _ _ _ _ D1 C1 Eh), (exec_sem h _ _ _ _ D1 C1), Eh. cbn [bind]. rewrite after_after. destruct y; [reflexivity|].
    injection S as E1 E2 H2. cbn [orb] in *. subst. eapply (IHk _ k (x0 || false) (mark false r)); [reflexivity|cbn [after ctx]; rewrite C; reflexivity|exact Ek'].
  - destruct (sem k b) as [[l1 x1] f] eqn:Eb. destruct (sem k k') as [[l2 x2] f2] eqn:Ek'. injection S as E1 E2 H2. apply Bool.orb_false_elim in H2. destruct H2 as [-> ->].
    rewrite (IHb _ _ _ _ _ _ D C Eb), (exec_sem b _ _ _ _ D C), Eb. cbn [bind]. eapply (IHk _ k (x0 || false) (mark false r)); [reflexivity|cbn [after ctx]; rewrite C; reflexivity|exact Ek'].
Qed.
Lemma files_debug filters : forall fs i s p t, dangling s = false -> (forall q, In q (chosen filters fs) -> file_failed (snd q) = false) ->
  run_files false filters i fs s p t = run_files true filters i fs s p t.
Proof.
  induction fs as [|[name b] fs IH]; intros i s p t D H; cbn [run_files]; [reflexivity|]. unfold chosen in H. cbn [filter fst] in H. fold (chosen filters fs) in H.
  destruct (selected filters name); [|apply IH; auto].
  assert (file_failed b = false) as F by (apply (H (name, b)); now left). unfold file_failed in F. destruct (sem File b) as [[l x] f] eqn:Eb.
  apply Bool.orb_false_elim in F. destruct F as [-> F]. destruct x; [discriminate|].
  rewrite (exec_debug b (set_ctx s [(File, false)]) File false [] l None) by auto. rewrite (exec_sem b (set_ctx s [(File, false)]) File false []) by auto. rewrite Eb. cbn [bind suppressed].
  apply IH; [reflexivity|]. intros q I. apply H. now right.
Qed.
Lemma debug_ok debugger options fs r filters : parse options false false [] = Some (true, r, filters) ->
  (forall q, In q (chosen filters fs) -> file_failed (snd q) = false) ->
  exists s n, run_tests debugger options fs = Ok (Returned 0 s n n) /\ ulog s = files_log filters 0 fs /\ n = length (chosen filters fs).
Proof.
  intros P H. unfold run_tests. rewrite P, files_debug by auto.
  destruct (sem_counts_files filters fs 0 (mkUS [(File, false)] false 0 0 []) 0 0 eq_refl) as [c E]. rewrite E. cbn [bind].
  assert (count_if (fun q => negb (file_failed (snd q))) (chosen filters fs) = length (chosen filters fs)) as ->.
  { apply count_all. intros q I. now rewrite (H q I). }
  do 2 eexists. split; [cbn [Nat.add]; rewrite Nat.eqb_refl; reflexivity|]. split; reflexivity.
Qed.
(* a case that fails between two cases that pass, in a category, and a second file *)
Definition demo_file : body :=
  Nest true 1 (Nest false 2 (Assert true Done) (Nest false 3 (Assert false Done) (Nest false 4 (ExpectError (Raise XError) Done) Done)))
    (Nest false 5 (Nest false 6 Done Done) Done).
Definition demo_files : list (text * body) := [([97; 47; 98], demo_file); ([98], Nest false 7 Done (Raise XError)); ([99], Nest false 8 Done Done)].
