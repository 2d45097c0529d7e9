From Coq Require Import ZifyBool ZifyNat Permutation.
From Verif Require Import Base BaseFacts LstModel LstSpec LstProofs SrtModel SrtSpec SrtProofs AnyModel AnySpec AnyProofs AngProofs3 AnsModel AnsSpec AnsProofs DxnModel DxnSpec.
Open Scope Z_scope.

Section Dxn.
  Context (A St : Type) (cmp : St -> A -> A -> St * option comparison) (less : St -> A -> A -> St * option bool).
  Notation shows := (lst_shows A). Notation eqi := (equal_in A St cmp). Notation fli := (fail_in A St cmp less).
  Notation walk := (walk A St cmp less). Notation xstep := (xstep A St cmp less). Notation xrun := (xrun A St cmp less).

  Lemma asks op ref a st : ref_of A op ref ->
    exists st' r, wanted A St cmp ref a st = Ok (st', r) /\ match r with None => fli (second A op) a | Some true => may_take A St cmp op a | Some false => may_skip A St cmp op a end.
  Proof.
    intros H. assert (R : ref_shows A ref (second A op)) by (destruct op, ref as [[[|] x]|]; cbn in *; easy).
    destruct (wanted_ok A St cmp less ref (second A op) a st R) as (st' & r & E & W). exists st', r. split; [exact E|].
    destruct op, ref as [[[|] x]|]; try (now destruct H); destruct r as [[|]|]; cbn in *; auto.
  Qed.
  Lemma fail_left (l m : list A) a : fli l a -> fli (l ++ m) a.
  Proof. intros (b & Hb & Q). exists b. split; [apply in_or_app; now left|exact Q]. Qed.
  Lemma fail_right (l m : list A) a : fli m a -> fli (l ++ m) a.
  Proof. intros (b & Hb & Q). exists b. split; [apply in_or_app; now right|exact Q]. Qed.

  Context (op : setop A) (ref : option (bool * lst A)) (HR : ref_of A op ref).
  Notation passed := (passed A St cmp op). Notation dxs := (dx_step A St cmp less op).
  Lemma walk_ok s l o src : shows s l -> forall xs st,
    exists st' d e l', walk ref s o xs st = Ok (st', d, e) /\ shows (seen d) l' /\ dxs src xs l o XNext (rest d) l' (last d) (XEnd e).
  Proof.
    intros H xs. enough (G : forall dups st, Forall (passed l) dups -> exists st' d e l', walk ref s o xs st = Ok (st', d, e) /\ shows (seen d) l' /\
      dxs src (dups ++ xs) l o XNext (rest d) l' (last d) (XEnd e)) by (intros st; apply (G [] st); constructor).
    induction xs as [|a xs IH]; intros dups st F; cbn [DxnModel.walk].
    - do 4 eexists. split; [reflexivity|]. cbn [rest seen last]. split; [exact H|]. rewrite app_nil_r. now constructor.
    - assert (P : passed l a -> forall st, exists st' d e l', walk ref s o xs st = Ok (st', d, e) /\ shows (seen d) l' /\
        dxs src (dups ++ a :: xs) l o XNext (rest d) l' (last d) (XEnd e)).
      { intros Pa st0. replace (dups ++ a :: xs) with ((dups ++ [a]) ++ xs) by (now rewrite <- app_assoc). apply IH. apply Forall_app. split; [exact F|]. constructor; [exact Pa|constructor]. }
      destruct (asks op ref a st HR) as (st0 & w & E0 & W). rewrite E0. cbn [bind]. destruct w as [[|]|].
      + destruct (has_ok A St cmp less s l a st0 H) as (st1 & h & E & Hh). rewrite E. cbn [bind]. destruct h as [[|]|].
        * apply P. now right.
        * cbv zeta. destruct (aadd_ok A St cmp less s l a st1 H) as (st2 & [(b & Hb & Fb & E2)|(y & l1 & l2 & E2 & -> & S')]); rewrite E2; cbn [bind].
          -- do 4 eexists. split; [reflexivity|]. cbn [rest seen last]. split; [exact H|]. apply dx_threw; [exact F|apply fail_left; now exists b|now right].
          -- do 4 eexists. split; [reflexivity|]. cbn [rest seen last]. split; [exact S'|]. now apply dx_yes.
        * do 4 eexists. split; [reflexivity|]. cbn [rest seen last]. split; [exact H|]. apply dx_threw; [exact F|now apply fail_left|now left].
      + apply P. now left.
      + do 4 eexists. split; [reflexivity|]. cbn [rest seen last]. split; [exact H|]. apply dx_threw; [exact F|now apply fail_right|now left].
  Qed.
  Lemma xstep_ok src d l st o : shows (seen d) l ->
    exists d' st' r l', xstep ref (reads A op src) d st o = Ok (d', st', r) /\ shows (seen d') l' /\ dxs src (rest d) l (last d) o (rest d') l' (last d') r.
  Proof.
    intros H. destruct o; cbn [DxnModel.xstep].
    - unfold next. destruct (walk_ok (seen d) l (last d) src H (rest d) st) as (st' & d' & e & l' & E & S' & R). rewrite E. cbn [bind]. exists d', st', (XEnd e), l'. auto.
    - exists d, st. destruct (last d) eqn:E; do 2 eexists; (split; [reflexivity|]); (split; [exact H|]); constructor.
    - destruct (H) as (C & _). rewrite C. do 4 eexists. split; [reflexivity|]. split; [exact H|]. constructor.
    - destruct (clear_ok A _ _ H) as (y & E & S'). rewrite E. cbn [bind]. do 4 eexists. split; [reflexivity|]. cbn [seen rest last]. split; [exact S'|].
      replace (reads A op src) with (all_of A op src) by (now destruct op). constructor.
  Qed.
  Lemma xrun_ok src os : forall d l st, shows (seen d) l ->
    exists d' st' rs l', xrun ref (reads A op src) d st os = Ok (d', st', rs) /\ shows (seen d') l' /\ dx_run A St cmp less op src (rest d) l (last d) os (rest d') l' (last d') rs.
  Proof.
    induction os as [|o os IH]; intros d l st H; cbn [DxnModel.xrun].
    - do 4 eexists. split; [reflexivity|]. split; [exact H|]. constructor.
    - destruct (xstep_ok src d l st o H) as (d1 & st1 & r & l1 & E1 & S1 & R1). rewrite E1. cbn [bind].
      destruct (IH d1 l1 st1 S1) as (d2 & st2 & rs & l2 & E2 & S2 & R2). rewrite E2. cbn [bind]. do 4 eexists. split; [reflexivity|]. split; [exact S2|]. econstructor; eauto.
  Qed.
  Lemma set_history xs st os :
    exists d st' rs l, xrun ref (reads A op xs) (fresh (reads A op xs)) st os = Ok (d, st', rs) /\ shows (seen d) l /\
      dx_run A St cmp less op xs (all_of A op xs) [] None os (rest d) l (last d) rs.
  Proof.
    destruct (xrun_ok xs os (fresh (reads A op xs)) [] st) as (d & st' & rs & l & E & S' & R); [apply empty_shows|]. exists d, st', rs, l. split; [exact E|]. split; [exact S'|].
    replace (all_of A op xs) with (reads A op xs) by (now destruct op). exact R.
  Qed.
End Dxn.

Section More.
  Context (A St : Type) (cmp : St -> A -> A -> St * option comparison) (less : St -> A -> A -> St * option bool).
  Notation walk := (walk A St cmp less). Notation xstep := (xstep A St cmp less). Notation xrun := (xrun A St cmp less).
  Lemma opened_ok op st : exists st' r, opened A St cmp less op st = Ok (st', r) /\
    match r with Some ref => ref_of A op ref | None => exists a b, In a (second A op) /\ In b (second A op) /\ can_fail A St cmp less b a end.
  Proof.
    destruct op as [|ys|ys|ys]; cbn [opened]; try (do 2 eexists; split; [reflexivity|exact I]);
      (destruct (gather_ok A St cmp less ys empty_lst [] [] st (empty_shows A)) as (st1 & [(a & b & Ha & Hb & F & E)|(y & l & E & S' & L)]); [easy| |]; rewrite E; cbn [bind];
       do 2 eexists; (split; [reflexivity|]); [exists a, b; auto|exists l; auto]).
  Qed.
  Lemma refill_ok m : forall pre y l' x st, lst_shows A x (pre ++ m) -> lst_shows A y l' -> Permutation l' pre ->
    exists st' r, refill A St cmp less (length m) (zlen pre) x y st = Ok (st', r) /\
      match r with None => exists a b, In a (pre ++ m) /\ In b (pre ++ m) /\ can_fail A St cmp less b a | Some z => exists k, lst_shows A z k /\ Permutation (pre ++ m) k end.
  Proof.
    induction m as [|a m IH]; intros pre y l' x st Hx Hy P; cbn [length refill].
    - do 2 eexists. split; [reflexivity|]. exists l'. rewrite app_nil_r. split; [exact Hy|now apply Permutation_sym].
    - rewrite (get_ok A x (pre ++ a :: m) (zlen pre) Hx). replace (znth (pre ++ a :: m) (zlen pre)) with (Some a) by (unfold znth, zlen; replace (Z.of_nat (length pre) <? 0) with false by lia; rewrite Nat2Z.id, nth_error_app2, Nat.sub_diag by lia; reflexivity). cbn [bind].
      destruct (aadd_ok A St cmp less y l' a st Hy) as (st2 & [(b & Hb & Fb & E2)|(z & l1 & l2 & E2 & -> & S')]); rewrite E2; cbn [bind].
      + do 2 eexists. split; [reflexivity|]. exists a, b. split; [apply in_elt|]. split; [apply in_or_app; left; now apply (Permutation_in _ P)|exact Fb].
      + replace (pre ++ a :: m) with ((pre ++ [a]) ++ m) in * by (now rewrite <- app_assoc).
        replace (zlen pre + 1) with (zlen (pre ++ [a])) by (rewrite zlen_app; reflexivity).
        apply (IH (pre ++ [a]) z (l1 ++ a :: l2) x st2 Hx S'). rewrite <- Permutation_middle. rewrite <- Permutation_cons_append. now constructor.
  Qed.
  Lemma copy_ok x l st : lst_shows A x l ->
    exists st' r, copy A St cmp less x st = Ok (st', r) /\ match r with None => exists a b, In a l /\ In b l /\ can_fail A St cmp less b a | Some z => exists k, lst_shows A z k /\ Permutation l k end.
  Proof.
    intros H. unfold copy. destruct (H) as (C & _). rewrite C. replace (Z.to_nat (zlen l)) with (length l) by (unfold zlen; lia).
    apply (refill_ok l [] empty_lst [] x st H (empty_shows A)). constructor.
  Qed.
  Lemma clone_ok op ref d l st : ref_of A op ref -> lst_shows A (seen d) l -> exists st' r, clone A St cmp less ref d st = Ok (st', r) /\
    match r with
    | None => exists a b, (In a l /\ In b l \/ In a (second A op) /\ In b (second A op)) /\ can_fail A St cmp less b a
    | Some (ref', d') => ref_of A op ref' /\ rest d' = rest d /\ last d' = last d /\ exists l', lst_shows A (seen d') l' /\ Permutation l l'
    end.
  Proof.
    intros HR H. unfold clone.
    assert (G : exists st1 r, (match ref with None => Ok (st, Some None)
                    | Some (keep, x) => do (st, r) <- copy A St cmp less x st; Ok (st, match r with Some x => Some (Some (keep, x)) | None => None end) end) = Ok (st1, r) /\
      match r with None => exists a b, In a (second A op) /\ In b (second A op) /\ can_fail A St cmp less b a | Some ref' => ref_of A op ref' end).
    { destruct ref as [[keep x]|]; [|do 2 eexists; split; [reflexivity|exact HR]].
      assert (Q : exists k, lst_shows A x k /\ same_elements A k (second A op)) by (destruct op, keep; cbn in HR; easy).
      destruct Q as (k & Sk & L). destruct (copy_ok x k st Sk) as (st1 & r & E & R). rewrite E. cbn [bind]. do 2 eexists. split; [reflexivity|]. destruct r as [z|].
      - destruct R as (k2 & S2 & P). assert (same_elements A k2 (second A op)) by (intros b; rewrite <- (L b); split; apply Permutation_in; [now apply Permutation_sym|exact P]).
        destruct op, keep; cbn in HR |- *; try easy; exists k2; auto.
      - destruct R as (a & b & Ha & Hb & F). exists a, b. split; [now apply L|]. split; [now apply L|exact F]. }
    destruct G as (st1 & r1 & E1 & R1). rewrite E1. cbn [bind]. destruct r1 as [ref'|].
    - destruct (copy_ok (seen d) l st1 H) as (st2 & r & E & R). rewrite E. cbn [bind]. do 2 eexists. split; [reflexivity|]. destruct r as [z|]; [cbn [rest last seen]; auto|].
      destruct R as (a & b & Ha & Hb & F). exists a, b. auto.
    - do 2 eexists. split; [reflexivity|]. destruct R1 as (a & b & Ha & Hb & F). exists a, b. auto.
  Qed.
  (* the loop of C95 *)
  Lemma loop_drive ref xs : forall s o st fuel, (length xs < fuel)%nat -> loop A St cmp less ref fuel (mkDen xs s o) st = drive A St cmp less ref s xs st.
  Proof.
    induction xs as [|a xs IH]; intros s o st fuel Hf; (destruct fuel as [|fuel]; [lia|]); cbn [loop]; unfold next; cbn [seen last rest DxnModel.walk drive bind]; [reflexivity|].
    cbn [length] in Hf. destruct (wanted A St cmp ref a st) as [[st0 [[|]|]]| | |]; cbn [bind]; try reflexivity.
    - destruct (has A St cmp s a st0) as [[st1 [[|]|]]| | |]; cbn [bind]; try reflexivity.
      + rewrite <- (IH s o st1 (S fuel)) by lia. reflexivity.
      + cbv zeta. destruct (aadd A St cmp less s a st1) as [[st2 [[y i]|]]| | |]; cbn [bind]; try reflexivity. cbn [last]. rewrite IH by lia. reflexivity.
    - rewrite <- (IH s o st0 (S fuel)) by lia. reflexivity.
  Qed.
  Lemma loop_is_set_op op xs st :
    (do (st, r) <- opened A St cmp less op st;
     match r with Some ref => loop A St cmp less ref (S (length (reads A op xs))) (fresh (reads A op xs)) st | None => Ok (st, [], false) end)
    = set_op A St cmp less op xs st.
  Proof.
    destruct op as [|ys|ys|ys]; cbn [opened set_op bind]; try (apply loop_drive; cbn [reads]; lia);
      (destruct (gather A St cmp less empty_lst ys st) as [[st1 [y|]]| | |]; cbn [bind]; try reflexivity; apply loop_drive; cbn [reads]; lia).
  Qed.

  Context (calm : St -> Prop) (K : keeps_calm cmp less calm).
  Lemma opened_calm op st st' ref : calm st -> opened A St cmp less op st = Ok (st', Some ref) -> calm st'.
  Proof.
    intros H. destruct op as [|ys|ys|ys]; cbn [opened]; try (intros Q; now injection Q as <- <-);
      (destruct (gather A St cmp less empty_lst ys st) as [[st1 [y|]]| | |] eqn:E; cbn [bind]; intros Q; try discriminate; injection Q as <- <-; eapply gather_calm; eauto).
  Qed.
  Lemma refill_calm x : forall n i y st st' z, calm st -> refill A St cmp less n i x y st = Ok (st', Some z) -> calm st'.
  Proof.
    induction n as [|n IH]; intros i y st st' z H; cbn [refill]; [intros Q; now injection Q as <- <-|].
    destruct (get A x i) as [a| | |]; cbn [bind]; try discriminate.
    destruct (aadd A St cmp less y a st) as [[st1 [[w j]|]]| | |] eqn:E; cbn [bind]; try discriminate. eapply aadd_calm in E; eauto.
  Qed.
  Lemma clone_calm ref d st st' r : calm st -> clone A St cmp less ref d st = Ok (st', Some r) -> calm st'.
  Proof.
    intros H. unfold clone, copy. destruct ref as [[keep x]|].
    - destruct (refill A St cmp less (Z.to_nat (count x)) 0 x empty_lst st) as [[st1 [y|]]| | |] eqn:E; cbn [bind]; try discriminate. apply refill_calm in E; auto.
      destruct (refill A St cmp less (Z.to_nat (count (seen d))) 0 (seen d) empty_lst st1) as [[st2 [z|]]| | |] eqn:E2; cbn [bind]; intros Q; try discriminate. injection Q as <- <-. eapply refill_calm; eauto.
    - cbn [bind]. destruct (refill A St cmp less (Z.to_nat (count (seen d))) 0 (seen d) empty_lst st) as [[st2 [z|]]| | |] eqn:E2; cbn [bind]; intros Q; try discriminate. injection Q as <- <-. eapply refill_calm; eauto.
  Qed.
  Lemma walk_calm ref s o : forall xs st st' d e, calm st -> walk ref s o xs st = Ok (st', d, e) -> e <> Threw -> calm st'.
  Proof.
    induction xs as [|a xs IH]; intros st st' d e H; cbn [DxnModel.walk]; [intros Q _; now injection Q as <- _ _|].
    destruct (wanted A St cmp ref a st) as [[st0 [[|]|]]| | |] eqn:E0; cbn [bind]; try discriminate.
    - assert (H0 : calm st0) by (eapply wanted_calm; eauto).
      destruct (has A St cmp s a st0) as [[st1 [[|]|]]| | |] eqn:E; cbn [bind]; try discriminate.
      + apply IH. eapply has_calm; eauto.
      + cbv zeta. assert (H1 : calm st1) by (eapply has_calm; eauto).
        destruct (aadd A St cmp less s a st1) as [[st2 [[y i]|]]| | |] eqn:E2; cbn [bind]; intros Q N; try discriminate; injection Q as <- <- <-; [|congruence].
        eapply aadd_calm; eauto.
      + intros Q N. injection Q as <- <- <-. congruence.
    - apply IH. eapply wanted_calm; eauto.
    - intros Q N. injection Q as <- <- <-. congruence.
  Qed.
  Lemma xrun_calm ref src os : forall d st d' st' rs, calm st -> xrun ref src d st os = Ok (d', st', rs) -> ~ In (XEnd Threw) rs -> calm st'.
  Proof.
    induction os as [|o os IH]; intros d st d' st' rs H; cbn [DxnModel.xrun]; [intros Q _; now injection Q as <- <- <-|].
    destruct (xstep ref src d st o) as [[[d1 st1] r]| | |] eqn:E; cbn [bind]; try discriminate.
    destruct (xrun ref src d1 st1 os) as [[[d2 st2] rs2]| | |] eqn:E2; cbn [bind]; intros Q N; try discriminate. injection Q as <- <- <-.
    apply (IH _ _ _ _ _) in E2; [exact E2| |intros Hi; apply N; now right]. clear E2 IH.
    destruct o; cbn [DxnModel.xstep] in E; [|now injection E as <- <- <-|now injection E as <- <- <-|].
    - destruct (next A St cmp less ref d st) as [[[st3 d3] e]| | |] eqn:En; cbn [bind] in E; try discriminate. injection E as <- <- <-.
      eapply walk_calm; [exact H|exact En|]. intros ->. apply N. now left.
    - destruct (clear A (seen d)); cbn [bind] in E; try discriminate. now injection E as <- <- <-.
  Qed.
End More.
Lemma current_changes : exists xs d st, xrun Z nat count_cmp count_less None xs (fresh xs) 0%nat [XNext; XIndex; XCurrent; XNext; XIndex; XCurrent; XNext]
  = Ok (d, st, [XEnd Yes; XInt 0; XVal 5; XEnd Threw; XInt 0; XVal 3; XEnd No]).
Proof. exists [5; 3]. do 2 eexists. reflexivity. Qed.
