(* Proofs about the report of the unit test runner *)
From Verif Require Import Base BaseFacts RpModel RpSpec.
From Coq Require Import ZifyBool ZifyNat.

(* lines with indentation n or more, the first of them exactly n *)
Definition deep (n : nat) (ls : list line) : Prop := Forall (fun l => n <= indent l)%nat ls.
Definition low (n : nat) (ls : list line) : Prop := match ls with [] => True | l :: _ => (indent l <= n)%nat end.

Lemma below_cut m ls r : low m r -> below m (ls ++ r) = below m ls.
Proof.
  intros L. induction ls as [|l ls IH]; cbn [app below].
  - destruct r as [|l r]; [reflexivity|]. cbn [below low] in *. now replace (m <? indent l)%nat with false by lia.
  - destruct (m <? indent l)%nat; [now rewrite IH|reflexivity].
Qed.
Lemma below_all m ls : deep (S m) ls -> below m ls = ls.
Proof. induction 1 as [|l ls H _ IH]; cbn [below]; [reflexivity|]. replace (m <? indent l)%nat with true by lia. now rewrite IH. Qed.
Lemma low_le n m r : (n <= m)%nat -> low n r -> low m r.
Proof. destruct r; cbn; [auto|lia]. Qed.
Lemma count_app f a b : count f (a ++ b) = (count f a + count f b)%nat.
Proof. induction a as [|l a IH]; cbn [app count]; lia. Qed.
Lemma clean_app f n a b : deep n a -> low n b -> clean f (a ++ b) = (clean f a + clean f b)%nat.
Proof.
  intros D L. induction D as [|l a H _ IH]; cbn [app clean]; [reflexivity|]. rewrite IH, below_cut; [lia|]. now apply (low_le n).
Qed.
Lemma deep_app n a b : deep n a -> deep n b -> deep n (a ++ b).
Proof. intros. now apply Forall_app. Qed.
Lemma deep_le n m ls : (n <= m)%nat -> deep m ls -> deep n ls.
Proof. intros H. apply Forall_impl. intros; lia. Qed.
Lemma low_app n a b : low n a -> low n b -> low n (a ++ b).
Proof. destruct a; cbn [app]; auto. Qed.
Lemma oops_low n x : low n (oops n x).
Proof. destruct x; cbn; auto. Qed.
Lemma oops_deep n x : deep n (oops n x).
Proof. destruct x; repeat constructor. Qed.

Lemma shown_shape b : forall n k, deep n (fst (shown n k b)) /\ low n (fst (shown n k b)).
Proof.
  induction b as [|x|m r IHr|cat d b IHb r IHr|c m r IHr|b IHb m r IHr|b IHb p m m' h IHh r IHr|b IHb r IHr]; intros n k; cbn [shown]; change inside with is_case.
  - split; [constructor|exact I].
  - split; [constructor|exact I].
  - specialize (IHr n k). destruct (shown n k r) as [l x]. cbn [fst] in *. split; [constructor; [cbn; lia|tauto]|cbn; lia].
  - destruct (is_case k); [split; [constructor|exact I]|]. destruct (IHb (n + 4)%nat (if cat then Category else Case)) as [B _]. destruct (IHr n k) as [R _].
    destruct (shown (n + 4) _ b) as [l1 x]. destruct (shown n k r) as [l2 y]. cbn [fst] in *. split; [|cbn; lia].
    constructor; [cbn; lia|]. repeat apply deep_app; auto; apply (deep_le n (n + 4)); auto; try lia. apply oops_deep.
  - destruct (is_case k); [|split; [constructor|exact I]]. destruct c; [apply IHr|split; [constructor|exact I]].
  - destruct (is_case k); [|split; [constructor|exact I]]. destruct (IHb n k) as [B1 B2]. destruct (IHr n k) as [R1 R2].
    destruct (shown n k b) as [l1 x]. destruct (shown n k r) as [l2 y]. cbn [fst] in *.
    destruct x as [[]|]; cbn [fst]; split; auto using deep_app, low_app.
  - destruct (IHb n k) as [B1 B2]. destruct (IHh n k) as [H1 H2]. destruct (IHr n k) as [R1 R2].
    destruct (shown n k b) as [l1 x]. destruct (shown n k h) as [l2 y]. destruct (shown n k r) as [l3 z]. cbn [fst] in *.
    destruct (p _); cbn [fst]; [|auto]. destruct y; cbn [fst]; split; auto using deep_app, low_app.
  - destruct (IHb n k) as [B1 B2]. destruct (IHr n k) as [R1 R2]. destruct (shown n k b) as [l1 x]. destruct (shown n k r) as [l2 y]. cbn [fst] in *.
    split; auto using deep_app, low_app.
Qed.

(* ---- the runner prints the tree ------------------------------------------------------- *)
Definition mark (f : bool) (c : list context) : list context := map (fun c => mkX (cind c) (ckind c) (failed c || f)) c.
Lemma mark_false c : mark false c = c.
Proof. unfold mark. rewrite <- (map_id c) at 2. apply map_ext. intros [i k f]. cbn. now rewrite orb_false_r. Qed.
Lemma mark_mark a b c : mark a (mark b c) = mark (b || a) c.
Proof. unfold mark. rewrite map_map. apply map_ext. intros [i k f]. cbn. now rewrite orb_assoc. Qed.
Lemma mark_true c : map (fun c => mkX (cind c) (ckind c) true) c = mark true c.
Proof. unfold mark. apply map_ext. intros. now rewrite orb_true_r. Qed.
(* s after printing l *)
Definition after (s : rs) (l : list line) : rs :=
  mkR (mark (existsb is_error l) (ctx s)) (totalCases s + count is_case_line l) (passedCases s + clean is_case_line l) (out s ++ l).
Lemma after_after n s a b : deep n a -> low n b -> after (after s a) b = after s (a ++ b).
Proof.
  intros D L. unfold after. cbn [ctx totalCases passedCases out]. rewrite mark_mark, existsb_app, count_app, (clean_app _ n), app_assoc by auto.
  f_equal; lia.
Qed.
Lemma after_nil s : after s [] = s.
Proof. destruct s as [c t p o]. unfold after. cbn [existsb count clean ctx totalCases passedCases out]. rewrite mark_false, app_nil_r, !Nat.add_0_r. reflexivity. Qed.
Lemma suppressed_ok s c r x : ctx s = c :: r -> suppressed s x = after s (oops (cind c) x).
Proof.
  intros C. destruct x as [e|]; cbn [suppressed oops].
  - unfold record, print. rewrite C. unfold set_ctx, after. cbn [fst ctx totalCases passedCases out existsb is_error lkind orb count clean is_case_line].
    rewrite mark_true, C, !Nat.add_0_r. reflexivity.
  - symmetry. apply after_nil.
Qed.
Lemma after_ctx s l c r : ctx s = c :: r -> ctx (after s l) = mkX (cind c) (ckind c) (failed c || existsb is_error l) :: mark (existsb is_error l) r.
Proof. intros C. unfold after. cbn [ctx]. now rewrite C. Qed.

Lemma exec_ok b : forall s c r, ctx s = c :: r ->
  exec b s = Ok (after s (fst (shown (cind c) (ckind c) b)), snd (shown (cind c) (ckind c) b)).
Proof.
  induction b as [|x|m q IHq|cat d b IHb q IHq|t m q IHq|b IHb m q IHq|b IHb p m m' h IHh q IHq|b IHb q IHq]; intros s c r C; cbn [exec shown]; change inside with is_case.
  - cbn [fst snd]. now rewrite after_nil.
  - cbn [fst snd]. now rewrite after_nil.
  - unfold print. rewrite C. set (s1 := mkR _ _ _ _).
    assert (S1 : s1 = after s [mkL Info (cind c) (TNote m)]).
    { unfold s1, after. cbn [existsb is_error lkind orb count clean is_case_line andb]. rewrite mark_false, !Nat.add_0_r, C. reflexivity. }
    rewrite S1. rewrite (IHq _ _ _ (after_ctx _ _ _ _ C)). cbn [cind ckind].
    pose proof (shown_shape q (cind c) (ckind c)) as [D L]. destruct (shown (cind c) (ckind c) q) as [l y]. cbn [fst snd] in *.
    rewrite (after_after (cind c)); auto. repeat constructor.
  - rewrite C. destruct (is_case (ckind c)); [cbn [fst snd]; now rewrite after_nil|].
    set (k' := if cat then Category else Case). unfold print. rewrite C. cbn [fst]. unfold set_ctx at 1. cbn [ctx totalCases passedCases out].
    set (s1 := mkR (mkX _ _ _ :: _) _ _ _).
    assert (C1 : ctx s1 = mkX (cind c + 4) k' false :: c :: r) by reflexivity.
    rewrite (IHb _ _ _ C1). cbn [bind cind ckind]. pose proof (shown_shape b (cind c + 4) k') as [D1 L1].
    pose proof (shown_shape q (cind c) (ckind c)) as [D2 L2].
    destruct (shown (cind c + 4) k' b) as [l1 x]. cbn [fst snd] in *.
    rewrite (suppressed_ok _ _ _ x (after_ctx s1 l1 _ _ C1)). cbn [cind].
    rewrite (after_after (cind c + 4)) by (auto; apply oops_low). set (lb := l1 ++ oops (cind c + 4) x).
    rewrite (after_ctx s1 lb _ _ C1). cbn [cind ckind failed orb].
    assert (DB : deep (cind c + 4) lb) by (apply deep_app; auto; apply oops_deep).
    set (s2 := set_ctx _ (mark _ (c :: r))).
    assert (S2 : s2 = after s (mkL k' (cind c) (TDesc d) :: lb)).
    { unfold s2, after, set_ctx. cbn [existsb count clean indent]. change (is_error (mkL k' (cind c) (TDesc d))) with (match k' with Error => true | _ => false end).
      rewrite below_all by (apply (deep_le _ (cind c + 4)); [lia|exact DB]).
      unfold s1. destruct cat; cbn [k' ctx totalCases passedCases out is_case_line andb orb]; rewrite C, <- app_assoc; cbn [app]; f_equal; try lia;
        destruct (existsb is_error lb); cbn [negb]; lia. }
    rewrite S2. rewrite (IHq _ _ _ (after_ctx _ _ _ _ C)). cbn [cind ckind].
    destruct (shown (cind c) (ckind c) q) as [l2 y]. cbn [fst snd] in *.
    rewrite (after_after (cind c)); auto.
    + cbn [app]. unfold lb. rewrite <- app_assoc. reflexivity.
    + constructor; [cbn; lia|]. apply (deep_le _ (cind c + 4)); [lia|exact DB].
  - rewrite C. destruct (is_case (ckind c)); [|cbn [fst snd]; now rewrite after_nil]. destruct t; [now apply (IHq _ _ r)|cbn [fst snd]; now rewrite after_nil].
  - rewrite C. destruct (is_case (ckind c)); cbn [negb]; [|cbn [fst snd]; now rewrite after_nil].
    rewrite (IHb _ _ _ C). cbn [bind]. pose proof (shown_shape b (cind c) (ckind c)) as [D1 L1]. pose proof (shown_shape q (cind c) (ckind c)) as [D2 L2].
    destruct (shown (cind c) (ckind c) b) as [l1 x]. cbn [fst snd] in *.
    destruct x as [[]|]; cbn [fst snd]; try reflexivity. rewrite (IHq _ _ _ (after_ctx _ _ _ _ C)). cbn [cind ckind].
    destruct (shown (cind c) (ckind c) q) as [l2 y]. cbn [fst snd] in *. rewrite (after_after (cind c)); auto.
  - rewrite (IHb _ _ _ C). cbn [bind]. pose proof (shown_shape b (cind c) (ckind c)) as [D1 L1]. pose proof (shown_shape q (cind c) (ckind c)) as [D2 L2].
    pose proof (shown_shape h (cind c) (ckind c)) as [D3 L3]. destruct (shown (cind c) (ckind c) b) as [l1 x]. cbn [fst snd] in *.
    destruct (p _); [|reflexivity]. rewrite (IHh _ _ _ (after_ctx _ _ _ _ C)). cbn [bind cind ckind].
    destruct (shown (cind c) (ckind c) h) as [l2 y]. cbn [fst snd] in *. rewrite (after_after (cind c)) by auto. destruct y; [reflexivity|].
    rewrite (IHq _ _ _ (after_ctx _ _ _ _ C)). cbn [cind ckind]. destruct (shown (cind c) (ckind c) q) as [l3 z]. cbn [fst snd] in *.
    rewrite (after_after (cind c)); auto using deep_app. now rewrite app_assoc.
  - rewrite (IHb _ _ _ C). cbn [bind]. pose proof (shown_shape b (cind c) (ckind c)) as [D1 L1]. pose proof (shown_shape q (cind c) (ckind c)) as [D2 L2].
    destruct (shown (cind c) (ckind c) b) as [l1 x]. cbn [fst snd] in *. rewrite (IHq _ _ _ (after_ctx _ _ _ _ C)). cbn [cind ckind].
    destruct (shown (cind c) (ckind c) q) as [l2 y]. cbn [fst snd] in *. rewrite (after_after (cind c)); auto.
Qed.

(* ---- files ---------------------------------------------------------------------------- *)
Lemma shown_no_file b : forall n k, count is_file_line (fst (shown n k b)) = 0%nat.
Proof.
  induction b as [|x|m r IHr|cat d b IHb r IHr|c m r IHr|b IHb m r IHr|b IHb p m m' h IHh r IHr|b IHb r IHr]; intros n k; cbn [shown]; change inside with is_case; auto.
  - specialize (IHr n k). destruct (shown n k r) as [l x]. exact IHr.
  - destruct (is_case k); [reflexivity|]. specialize (IHb (n + 4)%nat (if cat then Category else Case)). specialize (IHr n k).
    destruct (shown (n + 4) _ b) as [l1 x]. destruct (shown n k r) as [l2 y]. cbn [fst count] in *. rewrite !count_app, IHb, IHr.
    destruct cat, x; reflexivity.
  - destruct (is_case k); [|reflexivity]. destruct c; [apply IHr|reflexivity].
  - destruct (is_case k); [|reflexivity]. specialize (IHb n k). specialize (IHr n k).
    destruct (shown n k b) as [l1 x]. destruct (shown n k r) as [l2 y]. cbn [fst] in *.
    destruct x as [[]|]; cbn [fst]; rewrite ?count_app; lia.
  - specialize (IHb n k). specialize (IHh n k). specialize (IHr n k).
    destruct (shown n k b) as [l1 x]. destruct (shown n k h) as [l2 y]. destruct (shown n k r) as [l3 z]. cbn [fst] in *.
    destruct (p _); cbn [fst]; [|auto]. destruct y; cbn [fst]; rewrite ?count_app; lia.
  - specialize (IHb n k). specialize (IHr n k). destruct (shown n k b) as [l1 x]. destruct (shown n k r) as [l2 y]. cbn [fst] in *. rewrite count_app. lia.
Qed.
Lemma clean_le f ls : (clean f ls <= count f ls)%nat.
Proof. induction ls as [|l ls IH]; cbn [clean count]; [lia|]. destruct (f l); cbn [andb]; [|lia]. destruct (negb _); lia. Qed.
Lemma file_low f fs : low 0 (flat_map file_lines fs) /\ low 0 (file_lines f).
Proof.
  assert (A : forall g, low 0 (file_lines g)) by (intros [[g []] b]; cbn; [destruct (shown 4 File b)|]; cbn; lia).
  split; [|apply A]. destruct fs as [|g fs]; [exact I|]. cbn [flat_map]. specialize (A g).
  destruct g as [[g []] b]; cbn [file_lines] in *; [destruct (shown 4 File b)|]; cbn; lia.
Qed.
Lemma deep_0 ls : deep 0 ls.
Proof. induction ls; constructor; auto; lia. Qed.
Lemma file_counts f b : let l := file_lines (f, true, b) in
  count is_file_line l = 1%nat /\ clean is_file_line l = (if existsb is_error l then 0 else 1)%nat.
Proof.
  cbn [file_lines]. pose proof (shown_no_file b 4 File) as N. pose proof (shown_shape b 4 File) as [D _].
  destruct (shown 4 File b) as [l x]. cbn [fst] in *. cbv zeta. cbn [count clean existsb is_file_line is_error lkind indent orb andb].
  assert (N2 : count is_file_line (l ++ oops 4 x) = 0%nat) by (rewrite count_app, N; destruct x; reflexivity).
  pose proof (clean_le is_file_line (l ++ oops 4 x)) as Le.
  rewrite below_all by (apply (deep_le _ 4); [lia|]; apply deep_app; auto; apply oops_deep).
  destruct (existsb is_error (l ++ oops 4 x)); cbn [negb]; lia.
Qed.
Lemma run_files_ok fs : forall s p t,
  exists c, run_files fs s p t =
    Ok (mkR c (totalCases s + count is_case_line (files_lines fs)) (passedCases s + clean is_case_line (files_lines fs)) (out s ++ files_lines fs),
        p + clean is_file_line (files_lines fs), t + count is_file_line (files_lines fs))%nat.
Proof.
  induction fs as [|[[f chosen] b] fs IH]; intros s p t; cbn [run_files].
  - exists (ctx s). cbn. rewrite app_nil_r, !Nat.add_0_r. now destruct s.
  - unfold files_lines. cbn [flat_map]. fold (files_lines fs).
    destruct (file_low (f, chosen, b) fs) as [L1 L2].
    rewrite !count_app, !(clean_app _ 0) by (try apply deep_0; exact L1). destruct chosen.
    + unfold print, set_ctx. cbn [ctx fst cind totalCases passedCases out]. set (s1 := mkR [mkX 4 File false] _ _ _).
      assert (C1 : ctx s1 = mkX 4 File false :: []) by reflexivity. rewrite (exec_ok b s1 _ _ C1). cbn [bind cind ckind].
      destruct (file_counts f b) as [F1 F2]. cbv zeta in F1, F2. rewrite F1, F2. clear F1 F2.
      pose proof (shown_shape b 4 File) as [D _]. cbn [file_lines]. destruct (shown 4 File b) as [l x]. cbn [fst snd] in *.
      rewrite (suppressed_ok _ _ _ x (after_ctx s1 l _ _ C1)). cbn [cind]. rewrite (after_after 4) by (auto; apply oops_low).
      set (lb := l ++ oops 4 x). rewrite (after_ctx s1 lb _ _ C1). cbn [failed orb].
      destruct (IH (after s1 lb) (if existsb is_error lb then p else S p) (S t)) as [c Q]. rewrite Q. exists c.
      unfold after, s1. cbn [totalCases passedCases out count clean is_case_line andb existsb is_error lkind orb].
      rewrite <- !app_assoc. cbn [app]. f_equal. f_equal; [f_equal; [f_equal; lia|]|lia]. destruct (existsb is_error lb); lia.
    + unfold print, set_ctx. cbn [ctx fst cind totalCases passedCases out]. set (s1 := mkR _ _ _ _).
      destruct (IH s1 p t) as [c Q]. rewrite Q. exists c. unfold s1. cbn [totalCases passedCases out file_lines count clean is_case_line is_file_line andb].
      rewrite <- app_assoc. cbn [app]. f_equal. 
Qed.

Lemma run_ok fs : run_tests fs =
  Ok (if Nat.eqb (count is_file_line (files_lines fs)) (clean is_file_line (files_lines fs)) then 0 else 1, mkL Info 0 TStart :: files_lines fs ++ summary fs)%nat.
Proof.
  unfold run_tests. cbn [print ctx fst cind]. set (s0 := mkR _ _ _ _). destruct (run_files_ok fs s0 0 0) as [c Q]. rewrite Q. cbn [bind Nat.add].
  unfold summary. unfold print, set_ctx. cbn [ctx fst cind totalCases passedCases out s0 app Nat.add].
  rewrite <- !app_assoc. reflexivity.
Qed.
(* every error is below the line of a file *)
Lemma files_clean fs : count is_file_line (files_lines fs) = clean is_file_line (files_lines fs) <-> existsb is_error (files_lines fs) = false.
Proof.
  induction fs as [|[[f chosen] b] fs IH]; [split; reflexivity|]. unfold files_lines in *. cbn [flat_map]. fold (files_lines fs) in *.
  destruct (file_low (f, chosen, b) fs) as [L1 _]. rewrite count_app, (clean_app _ 0), existsb_app by (try apply deep_0; exact L1).
  pose proof (clean_le is_file_line (files_lines fs)) as Le. destruct chosen.
  - destruct (file_counts f b) as [F1 F2]. cbv zeta in F1, F2. rewrite F1, F2. destruct (existsb is_error (file_lines (f, true, b))); cbn [orb].
    + split; [lia|discriminate].
    + rewrite <- IH. lia.
  - cbn [file_lines count clean is_file_line andb existsb is_error lkind orb Nat.add]. exact IH.
Qed.
Lemma code_ok fs code ls : run_tests fs = Ok (code, ls) -> (code = 0%nat <-> existsb is_error ls = false).
Proof.
  rewrite run_ok. intros Q. assert (E1 : code = if Nat.eqb (count is_file_line (files_lines fs)) (clean is_file_line (files_lines fs)) then 0%nat else 1%nat) by congruence.
  assert (E2 : ls = mkL Info 0 TStart :: files_lines fs ++ summary fs) by congruence. subst. cbn [existsb is_error lkind orb]. rewrite existsb_app.
  unfold summary. pose proof (files_clean fs) as F. destruct (Nat.eqb_spec (count is_file_line (files_lines fs)) (clean is_file_line (files_lines fs))) as [Eq|Ne].
  - rewrite (proj1 F Eq). split; reflexivity.
  - split; [discriminate|]. intros H. exfalso. apply Ne, F. now apply orb_false_iff in H.
Qed.

Lemma report_counts fs f : (forall k t, f (mkL k 0 t) = true -> match t with TName _ | TDesc _ => True | _ => False end) ->
  let ls := mkL Info 0 TStart :: files_lines fs ++ summary fs in
  count f ls = count f (files_lines fs) /\ clean f ls = clean f (files_lines fs).
Proof.
  intros H. cbv zeta. cbn [count clean].
  assert (F : forall k t, match t with TName _ | TDesc _ => False | _ => True end -> f (mkL k 0 t) = false).
  { intros k t N. destruct (f (mkL k 0 t)) eqn:Q; auto. apply H in Q. now destruct t. }
  rewrite count_app, (clean_app _ 0) by (try apply deep_0; cbn; lia). unfold summary. cbn [count clean].
  rewrite !F by exact I. cbn [andb]. lia.
Qed.
Lemma totals_ok fs : exists code ls front, run_tests fs = Ok (code, ls) /\
  ls = front ++ [mkL (if Nat.eqb code 0 then Case else Error) 0 (TFiles (clean is_file_line ls) (count is_file_line ls));
                 mkL (if Nat.eqb code 0 then Case else Error) 0 (TCases (clean is_case_line ls) (count is_case_line ls))] /\
  (code = 0%nat <-> existsb is_error ls = false) /\ (code = 0%nat <-> clean is_file_line ls = count is_file_line ls).
Proof.
  pose proof (run_ok fs) as R. eexists _, _, (mkL Info 0 TStart :: files_lines fs). split; [exact R|].
  destruct (report_counts fs is_file_line) as [A1 A2]; [intros [] []; cbn; auto; discriminate|].
  destruct (report_counts fs is_case_line) as [B1 B2]; [intros [] []; cbn; auto; discriminate|].
  cbv zeta in *. rewrite A1, A2, B1, B2. split; [|split; [exact (code_ok fs _ _ R)|]].
  - unfold summary. cbn [app]. destruct (Nat.eqb (count is_file_line (files_lines fs)) (clean is_file_line (files_lines fs))); reflexivity.
  - destruct (Nat.eqb_spec (count is_file_line (files_lines fs)) (clean is_file_line (files_lines fs))); split; intros; try congruence; lia.
Qed.
