From Coq Require Import ZifyBool ZifyNat.
From Verif Require Import Base BaseFacts UtModel UtSpec UtDbgSpec UtProofs.

(* ---- options ---- *)
Lemma eqt_refl a : eqt a a = true.
Proof. now apply eqt_spec. Qed.
Lemma eqt_false a b : eqt a b = false <-> a <> b.
Proof. rewrite <- (eqt_spec a b). destruct (eqt a b); split; congruence. Qed.
Lemma opt_f_spec o : Nat.ltb 3 (length o) && eqt (firstn 3 o) opt_F = true <-> exists f, f <> [] /\ o = opt_F ++ f.
Proof.
  rewrite Bool.andb_true_iff, eqt_spec. split.
  - intros [L E]. exists (skipn 3 o). split.
    + intros H. apply (f_equal (@length nat)) in H. rewrite skipn_length in H. apply Nat.ltb_lt in L. cbn [length] in H. unfold text in *. lia.
    + rewrite <- E. symmetry. apply firstn_skipn.
  - intros (f & N & ->). split; [|reflexivity]. destruct f; [congruence|]. reflexivity.
Qed.
Lemma filters_cons o os : filters_of (o :: os) = filters_of [o] ++ filters_of os.
Proof. unfold filters_of. cbn [flat_map]. now rewrite app_nil_r. Qed.
Lemma parse_gen os : forall d r fs,
  (parse os d r fs = None <-> (exists o, In o os /\ ~ recognized o) \/ ((d = true \/ In slash_D os) /\ (r = true \/ In slash_R os))) /\
  (forall d' r' fs', parse os d r fs = Some (d', r', fs') ->
     (d' = true <-> d = true \/ In slash_D os) /\ (r' = true <-> r = true \/ In slash_R os) /\ fs' = fs ++ filters_of os).
Proof.
  induction os as [|o os IH]; intros d r fs; cbn [parse].
  - split.
    + destruct d, r; cbn [andb]; split; try congruence; auto.
      * intros [(o & [] & _)|[[H|[]] [H2|[]]]]; congruence.
      * intros [(o & [] & _)|[[H|[]] [H2|[]]]]; congruence.
      * intros [(o & [] & _)|[[H|[]] [H2|[]]]]; congruence.
    + intros d' r' fs' H. destruct (d && r); [discriminate|]. injection H as <- <- <-. rewrite app_nil_r. cbn [In]. split; [tauto|]. split; [tauto|reflexivity].
  - destruct (eqt o opt_D) eqn:ED.
    + apply eqt_spec in ED. subst o. specialize (IH true r fs). destruct IH as [IH1 IH2]. split.
      * rewrite IH1. split.
        -- intros [(o & I & N)|[_ H]]; [left; exists o; split; [now right|auto]|]. right. split; [right; now left|]. destruct H; [now left|right; now right].
        -- intros [(o & [<-|I] & N)|[_ H]]; [exfalso; apply N; now left|left; exists o; auto|]. right. split; [now left|]. destruct H as [H|[H|H]]; [now left|discriminate|now right].
      * intros d' r' fs' P. destruct (IH2 _ _ _ P) as (A & B & C). split; [|split].
        -- rewrite A. split; [intros _; right; now left|auto].
        -- rewrite B. cbn [In]. split; [tauto|]. intros [H|[H|H]]; [auto|discriminate|auto].
        -- rewrite filters_cons. exact C.
    + apply eqt_false in ED. destruct (eqt o opt_R) eqn:ER.
      * apply eqt_spec in ER. subst o. specialize (IH d true fs). destruct IH as [IH1 IH2]. split.
        -- rewrite IH1. split.
           ++ intros [(o & I & N)|[H _]]; [left; exists o; split; [now right|auto]|]. right. split; [|right; now left]. destruct H; [now left|right; now right].
           ++ intros [(o & [<-|I] & N)|[H _]]; [exfalso; apply N; right; now left|left; exists o; auto|]. right. split; [|now left]. destruct H as [H|[H|H]]; [now left|discriminate|now right].
        -- intros d' r' fs' P. destruct (IH2 _ _ _ P) as (A & B & C). split; [|split].
           ++ rewrite A. cbn [In]. split; [tauto|]. intros [H|[H|H]]; [auto|discriminate|auto].
           ++ rewrite B. split; [intros _; right; now left|auto].
           ++ rewrite filters_cons. exact C.
      * apply eqt_false in ER. destruct (Nat.ltb 3 (length o) && eqt (firstn 3 o) opt_F) eqn:EF.
        -- apply opt_f_spec in EF. destruct EF as (f & N & ->). change (skipn 3 (opt_F ++ f)) with f. specialize (IH d r (fs ++ [f])). destruct IH as [IH1 IH2]. split.
           ++ rewrite IH1. split.
              ** intros [(o & I & N2)|[H1 H2]]; [left; exists o; split; [now right|auto]|]. right. cbn [In]. tauto.
              ** intros [(o & [<-|I] & N2)|[H1 H2]]; [exfalso; apply N2; right; right; now exists f|left; exists o; auto|]. right. cbn [In] in *. split; [destruct H1 as [H|[H|H]]|destruct H2 as [H|[H|H]]]; auto; congruence.
           ++ intros d' r' fs' P. destruct (IH2 _ _ _ P) as (A & B & C). cbn [In]. split; [|split].
              ** rewrite A. split; [tauto|]. intros [H|[H|H]]; auto; congruence.
              ** rewrite B. split; [tauto|]. intros [H|[H|H]]; auto; congruence.
              ** rewrite filters_cons, app_assoc, C. destruct f; [congruence|reflexivity].
        -- split; [|discriminate]. split; [|reflexivity]. intros _. left. exists o. split; [now left|]. intros [H|[H|H]]; [auto|auto|]. apply opt_f_spec in H. congruence.
Qed.
Lemma options_ok os :
  (parse os false false [] = None <-> (exists o, In o os /\ ~ recognized o) \/ (In slash_D os /\ In slash_R os)) /\
  (forall d r fs, parse os false false [] = Some (d, r, fs) -> (d = true <-> In slash_D os) /\ (r = true <-> In slash_R os) /\ fs = filters_of os).
Proof.
  destruct (parse_gen os false false []) as [A B]. split.
  - rewrite A. split; (intros [H|[H1 H2]]; [auto|right]).
    + split; [destruct H1; [discriminate|auto]|destruct H2; [discriminate|auto]].
    + auto.
  - intros d r fs P. destruct (B _ _ _ P) as (C & D & E). split; [|split; [|exact E]].
    + rewrite C. split; [intros [H|H]; [discriminate|auto]|auto].
    + rewrite D. split; [intros [H|H]; [discriminate|auto]|auto].
Qed.

(* ---- without suppression ---- *)
Definition tail (s s' : us) (l : list uev) : Prop :=
  ulog s' = ulog s ++ l /\ totalCases s' = (totalCases s + count_if is_case l)%nat /\ passedCases s' = (passedCases s + count_if is_passed_case l)%nat.
Lemma tail_nil s : tail s s [].
Proof. split; [now rewrite app_nil_r|]. split; unfold count_if; cbn; lia. Qed.
Lemma tail_app a b c l1 l2 : tail a b l1 -> tail b c l2 -> tail a c (l1 ++ l2).
Proof. intros (A1 & A2 & A3) (B1 & B2 & B3). split; [rewrite B1, A1; now rewrite app_assoc|]. rewrite !count_app. split; lia. Qed.

(* how b ends: in the context it started in, unless an exception left a category or case *)
Lemma exec_first b : forall s k x0 r, dangling s = false -> ctx s = (k, x0) :: r -> tidy k b ->
  exists s', exec false b s = Ok (s', snd (first k b)) /\ tail s s' (fst (first k b)) /\
    (snd (first k b) = None \/ nests b = false \/ in_case k = true -> dangling s' = false /\ ctx s' = ctx s).
Proof.
  induction b as [|x|cat d b IHb k' IHk|c k' IHk|b IHb k' IHk|b IHb e h IHh k' IHk|b IHb k' IHk]; intros s k x0 r D C T; cbn [exec first tidy nests] in *; change inside with in_case in *.
  - exists s. split; [reflexivity|]. split; [apply tail_nil|auto].
  - exists s. split; [reflexivity|]. split; [apply tail_nil|auto].
  - rewrite D, C. destruct (in_case k) eqn:Ek.
    + exists s. split; [reflexivity|]. split; [apply tail_nil|auto].
    + destruct T as [T1 T2].
      set (s1 := set_ctx (say s (Begin cat d)) ((if cat then Category else Case, false) :: (k, x0) :: r)).
      destruct (IHb s1 (if cat then Category else Case) false ((k, x0) :: r) D eq_refl T1) as (s2 & E & L & K). rewrite E.
      destruct (first (if cat then Category else Case) b) as [l1 [x|]]; cbn [fst snd bind suppressed] in *.
      * eexists. split; [reflexivity|]. split; [|intros [H|[H|H]]; congruence].
        change (Begin cat d :: l1) with ([Begin cat d] ++ l1). destruct L as (L1 & L2 & L3). split; [|split]; cbn [ulog totalCases passedCases].
        -- rewrite L1. unfold s1. cbn [say set_ctx ulog]. now rewrite <- app_assoc.
        -- rewrite L2. rewrite count_app. reflexivity.
        -- rewrite L3. rewrite count_app. reflexivity.
      * destruct (K (or_introl eq_refl)) as [K1 K2]. rewrite K2. unfold s1 at 1. cbn [set_ctx ctx].
        match goal with |- exists s', exec false k' ?S = _ /\ _ => set (s3 := S) end.
        assert (dangling s3 = false /\ ctx s3 = (k, x0) :: r) as [D3 C3] by (unfold s3; destruct cat; cbn; auto).
        assert (tail s s3 (Begin cat d :: l1 ++ (if cat then [] else [CaseDone d false]))) as T3.
        { destruct L as (L1 & L2 & L3). change (Begin cat d :: l1 ++ (if cat then [] else [CaseDone d false])) with ([Begin cat d] ++ l1 ++ (if cat then [] else [CaseDone d false])).
          unfold tail. rewrite !count_app. unfold s3. destruct cat; cbn [set_ctx say ulog totalCases passedCases]; rewrite L1, L2, L3; unfold s1; cbn [say set_ctx ulog totalCases passedCases]; rewrite <- ?app_assoc; cbn [app]; (split; [rewrite ?app_nil_r; reflexivity|]); unfold count_if; cbn [filter is_case is_passed_case negb length]; split; lia. }
        destruct (IHk s3 k x0 r D3 C3 T2) as (s4 & E4 & L4 & K4). exists s4. rewrite E4.
        destruct (first k k') as [l2 x2]. cbn [fst snd] in *. split; [reflexivity|]. split.
        -- change (Begin cat d :: l1 ++ (if cat then [] else [CaseDone d false]) ++ l2) with ([Begin cat d] ++ l1 ++ (if cat then [] else [CaseDone d false]) ++ l2).
           rewrite (app_assoc l1), app_assoc. eapply tail_app; [exact T3|exact L4].
        -- intros H. rewrite <- C3. apply K4. destruct H as [H|[H|H]]; [auto|discriminate|discriminate].
  - rewrite D, C. destruct (in_case k) eqn:Ek; [|exists s; split; [reflexivity|]; split; [apply tail_nil|auto]].
    destruct c; [|exists s; split; [reflexivity|]; split; [apply tail_nil|auto]].
    destruct (IHk s k x0 r D C T) as (s4 & E4 & L4 & K4). exists s4. split; [auto|]. split; [auto|]. rewrite <- C. intros H. apply K4; auto.
  - rewrite D, C. destruct (in_case k) eqn:Ek; cbn [negb]; [|exists s; split; [reflexivity|]; split; [apply tail_nil|auto]].
    destruct T as [T1 T2]. destruct (IHb s k x0 r D C T1) as (s2 & E & L & K). rewrite E.
    assert (dangling s2 = false /\ ctx s2 = ctx s) as [K1 K2] by auto. rewrite C in K2.
    destruct (first k b) as [l1 x]. cbn [fst snd bind] in *.
    destruct x as [[| | |n]|]; try (exists s2; split; [reflexivity|]; split; [exact L|]; intros; split; congruence).
    destruct (IHk s2 k x0 r K1 K2 T2) as (s4 & E4 & L4 & K4). exists s4. rewrite E4. destruct (first k k') as [l2 x2]. cbn [fst snd] in *.
    split; [reflexivity|]. split; [eapply tail_app; eauto|]. intros _. rewrite <- K2. auto.
  - destruct T as (T0 & T1 & T2 & T3). destruct (IHb s k x0 r D C T1) as (s2 & E & L & K). rewrite E.
    assert (dangling s2 = false /\ ctx s2 = ctx s) as [K1 K2] by (apply K; tauto). rewrite C in K2.
    destruct (first k b) as [l1 x]. cbn [fst snd bind] in *. rewrite exn_eqb_same. destruct (same _ e).
    + destruct (IHh s2 k x0 r K1 K2 T2) as (s3 & E3 & L3 & K3). rewrite E3. destruct (first k h) as [l2 [y|]]; cbn [fst snd bind] in *.
      * exists s3. split; [reflexivity|]. split; [eapply tail_app; eauto|]. rewrite C, <- K2. intros H. apply K3. destruct H as [H|[H|H]]; [auto| |auto]. right. left. destruct (nests b), (nests h); auto; discriminate.
      * destruct (K3 (or_introl eq_refl)) as [D3 C3]. rewrite K2 in C3.
        destruct (IHk s3 k x0 r D3 C3 T3) as (s4 & E4 & L4 & K4). exists s4. rewrite E4. destruct (first k k') as [l3 z]. cbn [fst snd] in *.
        split; [reflexivity|]. split; [eapply tail_app; [eauto|eapply tail_app; eauto]|]. rewrite C, <- C3. intros H. apply K4. destruct H as [H|[H|H]]; [auto| |auto]. right. left. destruct (nests b), (nests h); auto; discriminate.
    + exists s2. split; [reflexivity|]. split; [exact L|]. intros; split; congruence.
  - destruct T as (T0 & T1 & T2). destruct (IHb s k x0 r D C T1) as (s2 & E & L & K). rewrite E.
    assert (dangling s2 = false /\ ctx s2 = ctx s) as [K1 K2] by (apply K; tauto). rewrite C in K2.
    destruct (first k b) as [l1 x]. cbn [fst snd bind] in *.
    destruct (IHk s2 k x0 r K1 K2 T2) as (s4 & E4 & L4 & K4). exists s4. rewrite E4. destruct (first k k') as [l3 z]. cbn [fst snd] in *.
    split; [reflexivity|]. split; [eapply tail_app; eauto|]. rewrite C, <- K2. intros H. apply K4. destruct H as [H|[H|H]]; [auto| |auto]. right. left. destruct (nests b); auto; discriminate.
Qed.
Lemma files_first_ok filters : forall fs i s p t, dangling s = false -> (forall q, In q fs -> tidy File (snd q)) ->
  exists s' p' t', run_files false filters i fs s p t = Ok (s', snd (files_first filters i fs), p', t') /\ tail s s' (fst (files_first filters i fs)) /\
    (snd (files_first filters i fs) = None -> p' = (p + length (chosen filters fs))%nat /\ t' = (t + length (chosen filters fs))%nat).
Proof.
  induction fs as [|[name b] fs IH]; intros i s p t D T; cbn [run_files files_first].
  - exists s, p, t. split; [reflexivity|]. split; [apply tail_nil|]. cbn. lia.
  - unfold chosen. cbn [filter fst]. fold (chosen filters fs). destruct (selected filters name).
    + destruct (exec_first b (set_ctx s [(File, false)]) File false [] D eq_refl (T (name, b) (or_introl eq_refl))) as (s2 & E & L & K). rewrite E.
      destruct (first File b) as [l1 [x|]]; cbn [fst snd bind suppressed] in *.
      * do 3 eexists. split; [reflexivity|]. split; [exact L|discriminate].
      * destruct (K (or_introl eq_refl)) as [K1 K2]. rewrite K2. cbn [ctx set_ctx].
        destruct (IH (S i) (say s2 (FileDone i false)) (S p) (S t) K1) as (s4 & p4 & t4 & E4 & L4 & N4); [intros q I; apply T; now right|].
        exists s4, p4, t4. rewrite E4. destruct (files_first filters (S i) fs) as [l2 x]. cbn [fst snd] in *. split; [reflexivity|]. split.
        -- change (l1 ++ FileDone i false :: l2) with (l1 ++ [FileDone i false] ++ l2). eapply tail_app; [exact L|]. eapply tail_app; [|exact L4].
           split; [reflexivity|]. split; unfold count_if; cbn; lia.
        -- intros H. destruct (N4 H). cbn [length]. lia.
    + destruct (IH (S i) (say s (Skipped i)) p t D) as (s4 & p4 & t4 & E4 & L4 & N4); [intros q I; apply T; now right|].
      exists s4, p4, t4. rewrite E4. destruct (files_first filters (S i) fs) as [l2 x]. cbn [fst snd] in *. split; [reflexivity|]. split; [|exact N4].
      change (Skipped i :: l2) with ([Skipped i] ++ l2). eapply tail_app; [|exact L4]. split; [reflexivity|]. split; unfold count_if; cbn; lia.
Qed.
Lemma unsuppressed_ok debugger options fs d r filters : parse options false false [] = Some (d, r, filters) ->
  d = true \/ r = false /\ debugger = true -> (forall q, In q fs -> tidy File (snd q)) ->
  exists s, ulog s = fst (files_first filters 0 fs) /\ totalCases s = count_if is_case (ulog s) /\ passedCases s = totalCases s /\
    match snd (files_first filters 0 fs) with
    | Some e => run_tests debugger options fs = Ok (Threw e s)
    | None => run_tests debugger options fs = Ok (Returned 0 s (length (chosen filters fs)) (length (chosen filters fs)))
    end.
Proof.
  intros P M T. unfold run_tests. rewrite P.
  assert ((if d then false else if r then true else negb debugger) = false) as -> by (destruct M as [->|[-> ->]]; [|destruct d]; reflexivity).
  destruct (files_first_ok filters fs 0 (mkUS [(File, false)] false 0 0 []) 0 0 eq_refl T) as (s & p & t & E & (L1 & L2 & L3) & N).
  cbn [ulog totalCases passedCases app Nat.add] in *. exists s. split; [auto|]. split; [now rewrite L1|]. split.
  - rewrite L2, L3. clear. set (Q := forall e, In e (fst (files_first filters 0 fs)) -> is_passed_case e = is_case e).
    assert (Q) as H; [|unfold count_if; f_equal; apply filter_ext_in; exact H].
    assert (forall b k e, In e (fst (first k b)) -> is_passed_case e = is_case e) as F.
    { induction b as [|x|cat d b IHb k' IHk|c k' IHk|b IHb k' IHk|b IHb e h IHh k' IHk|b IHb k' IHk]; intros k e0 I; cbn [first] in I; change inside with in_case in *.
      - destruct I.
      - destruct I.
      - destruct (in_case k); [destruct I|]. specialize (IHb (if cat then Category else Case)). specialize (IHk k). destruct (first (if cat then Category else Case) b) as [l1 [x|]]; cbn [fst] in *.
        + destruct I as [<-|I]; [reflexivity|auto].
        + destruct (first k k') as [l2 x]. cbn [fst] in *. destruct I as [<-|I]; [reflexivity|]. rewrite !in_app_iff in I. destruct I as [I|[I|I]]; auto. destruct cat; [destruct I|]. destruct I as [<-|[]]. reflexivity.
      - destruct (in_case k); [|destruct I]. destruct c; [|destruct I]. eauto.
      - destruct (in_case k); [|destruct I]. specialize (IHb k). specialize (IHk k). destruct (first k b) as [l1 [[| | |n]|]], (first k k') as [l2 x]; cbn [fst] in *; auto. rewrite in_app_iff in I. destruct I; auto.
      - specialize (IHb k). specialize (IHk k). specialize (IHh k). destruct (first k b) as [l1 x1], (first k h) as [l2 [y|]], (first k k') as [l3 x3]. cbn [fst] in *. destruct (same _ e); cbn [fst] in *; auto; rewrite !in_app_iff in I; intuition auto.
        destruct (same _ e); cbn [fst] in *; auto; rewrite !in_app_iff in I; intuition auto.
      - specialize (IHb k). specialize (IHk k). destruct (first k b) as [l1 x1], (first k k') as [l2 x2]; cbn [fst] in *. rewrite in_app_iff in I. destruct I; auto. }
    unfold Q. clear Q. generalize 0%nat. induction fs as [|[name b] fs IH]; intros i e I; cbn [files_first] in I; [destruct I|].
    specialize (IH (S i)). specialize (F b File). destruct (first File b) as [l1 [x|]], (files_first filters (S i) fs) as [l2 y], (selected filters name); cbn [fst] in *; auto.
    + destruct I as [<-|I]; auto.
    + rewrite in_app_iff in I. destruct I as [I|[<-|I]]; auto.
    + destruct I as [<-|I]; auto.
  - rewrite E. cbn [bind]. destruct (snd (files_first filters 0 fs)) eqn:X; [reflexivity|]. destruct (N eq_refl) as [-> ->]. cbn [Nat.add]. now rewrite Nat.eqb_refl.
Qed.
