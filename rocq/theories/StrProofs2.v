From Coq Require Import ZifyBool ZifyNat.
From Verif Require Import Base BaseFacts StrModel StrSpec StrProofs.
Open Scope Z_scope.

(* Blocks are written once: later they are the same, or freed *)
Definition older (h h' : heap) : Prop := forall b, match nth_error h b with
  | Some (Static cs) => nth_error h' b = Some (Static cs)
  | Some (Counted cs _) => nth_error h' b = Some Freed \/ exists n, nth_error h' b = Some (Counted cs n)
  | Some Freed => nth_error h' b = Some Freed
  | None => True
  end.
Lemma older_refl h : older h h.
Proof. intros b. destruct (nth_error h b) as [[]|]; eauto. Qed.
Lemma older_trans a b c : older a b -> older b c -> older a c.
Proof.
  intros H1 H2 i. specialize (H1 i). specialize (H2 i). destruct (nth_error a i) as [[cs|cs n|]|]; auto.
  - now rewrite H1 in H2.
  - destruct H1 as [H1|[m H1]]; rewrite H1 in H2; auto.
  - now rewrite H1 in H2.
Qed.
Lemma older_app h x : older h (h ++ [x]).
Proof.
  intros b. destruct (nth_error h b) as [q|] eqn:E; auto. rewrite nth_error_app1, E by (eapply nth_error_lt; eauto). destruct q; eauto.
Qed.
Lemma older_upd h b cs n q : nth_error h b = Some (Counted cs n) -> q = Freed \/ (exists m, q = Counted cs m) -> older h (upd h b q).
Proof.
  intros E Q i. destruct (Nat.eq_dec i b) as [->|N].
  - rewrite E, upd_same by (eapply nth_error_lt; eauto). destruct Q as [->|[m ->]]; eauto.
  - rewrite upd_other by auto. destruct (nth_error h i) as [[]|]; eauto.
Qed.
Lemma older_inc h s h' : inc h s = Ok h' -> older h h'.
Proof.
  unfold inc. destruct (managed s); [|intros Q; assert (h' = h) as -> by congruence; apply older_refl].
  destruct (nth_error h (buf s)) as [[|cs n|]|] eqn:E; try discriminate. intros Q.
  assert (h' = upd h (buf s) (Counted cs (n + 1))) as -> by congruence. eapply older_upd; eauto.
Qed.
Lemma older_dec h s h' : dec h s = Ok h' -> older h h'.
Proof.
  unfold dec. destruct (managed s); [|intros Q; assert (h' = h) as -> by congruence; apply older_refl].
  destruct (nth_error h (buf s)) as [[|cs n|]|] eqn:E; try discriminate. intros Q.
  assert (h' = upd h (buf s) (if n - 1 =? 0 then Freed else Counted cs (n - 1))) as -> by congruence.
  eapply older_upd; eauto. destruct (_ =? _); eauto.
Qed.
Ltac crush H :=
  repeat match type of H with
  | (do _ <- ?m; _) = _ => let E := fresh "Q" in destruct m eqn:E; cbn [bind] in H; try discriminate
  | (if ?b then _ else _) = _ => destruct b; try discriminate
  | match ?p with None => _ | Some _ => _ end = _ => destruct p; try discriminate
  | match ?p with (_, _) => _ end = _ => destruct p
  end.
Ltac fin H := match type of H with Ok (?a, _) = Ok (?b, _) => first [assert (b = a) as -> by congruence | assert (a = b) as -> by congruence]; auto using older_refl, older_app end.
Lemma older_lit h p h' x : of_literal h p = Ok (h', x) -> older h h'.
Proof. unfold of_literal, own. intros H. crush H. fin H. Qed.
Lemma older_take h m n h' x : take_over h m n = Ok (h', x) -> older h h'.
Proof. unfold take_over, own. intros H. crush H. fin H. Qed.
Lemma older_from h m n h' x : copy_from h m n = Ok (h', x) -> older h h'.
Proof. unfold copy_from, own. intros H. crush H; fin H. Qed.
Lemma older_unm h p h' x : unmanaged h p = Ok (h', x) -> older h h'.
Proof. unfold unmanaged. intros H. crush H; fin H. Qed.
Lemma older_copy h s h' x : copy h s = Ok (h', x) -> older h h'.
Proof. unfold copy. intros H. crush H. fin H. eapply older_inc; eauto. Qed.
Lemma older_sub h s i n h' x : sub_unsafe h s i n = Ok (h', x) -> older h h'.
Proof. unfold sub_unsafe. intros H. crush H; fin H. eapply older_inc; eauto. Qed.
Lemma older_rep h s t i n h' x : replace_unsafe h s t i n = Ok (h', x) -> older h h'.
Proof.
  unfold replace_unsafe, own. intros H. destruct (_ && _) in H; [eapply older_copy; eauto|].
  destruct (_ && _) in H; [eapply older_copy; eauto|]. cbv zeta in H. crush H. fin H.
Qed.
Lemma older_replit h s p i n h' x : replace_unsafe_lit h s p i n = Ok (h', x) -> older h h'.
Proof.
  unfold replace_unsafe_lit. intros H. match type of H with (do _ <- ?m; _) = _ => destruct m end; cbn [bind] in H; try discriminate.
  destruct (_ && _) in H; [eapply older_copy; eauto|]. destruct (_ && _) in H; [eapply older_lit; eauto|].
  crush H. fin H. eapply older_trans; [eapply older_unm; eauto|]. eapply older_trans; [eapply older_rep; eauto|]. eapply older_dec; eauto.
Qed.
Lemma older_litcat h p s h' x : lit_concat h p s = Ok (h', x) -> older h h'.
Proof.
  unfold lit_concat, concat. intros H. destruct (_ =? _) in H; [eapply older_lit; eauto|].
  crush H. fin H. eapply older_trans; [eapply older_unm; eauto|]. eapply older_trans; [eapply older_rep; eauto|]. eapply older_dec; eauto.
Qed.
Lemma older_buffer h s h' x m : buffer h s = Ok (h', x, m) -> older h h'.
Proof.
  unfold buffer, own. intros H. destruct (negb _) in H; crush H.
  - match type of Q with _ = Ok (?a, _) => idtac end.
    repeat match type of Q with (do _ <- ?m; _) = _ => let E := fresh "P" in destruct m eqn:E; cbn [bind] in Q; try discriminate end.
    assert (h' = h0) as -> by congruence.
    match type of Q with Ok (?a ++ ?b, _) = _ => assert (h0 = a ++ b) as -> by congruence end.
    eapply older_trans; [eapply older_dec; eauto|apply older_app].
  - assert (h' = h) as -> by congruence. apply older_refl.
Qed.
Lemma older_eval s e s' x : eval s e = Ok (s', x) -> older (hp s) (hp s') /\
  forall v, (forall w, e = EMove w -> v <> w) -> nth_error (vars s') v = nth_error (vars s) v.
Proof.
  assert (forall r, (do (h', x) <- r; Ok (mkState h' (vars s), x)) = Ok (s', x) -> (forall h' y, r = Ok (h', y) -> older (hp s) h') ->
    older (hp s) (hp s') /\ forall v, (forall w, e = EMove w -> v <> w) -> nth_error (vars s') v = nth_error (vars s) v) as K.
  { intros r H G. destruct r as [[h' y]| | |]; cbn [bind] in H; try discriminate.
    assert (s' = mkState h' (vars s)) as -> by congruence. cbn [hp vars]. split; eauto. }
  destruct e; cbn [eval]; intros H;
    repeat match type of H with (do _ <- var _ _; _) = _ => let E := fresh "V" in destruct (var _ _) eqn:E in H; cbn [bind] in H; try discriminate end;
    try (eapply K; [exact H|]; intros h' y G; first
      [ eapply older_lit; eassumption | eapply older_take; eassumption | eapply older_from; eassumption | eapply older_unm; eassumption
      | eapply older_copy; eassumption | eapply older_replit; eassumption | eapply older_litcat; eassumption | eapply older_rep; eassumption
      | assert (h' = hp s) as -> by congruence; apply older_refl | idtac ]; fail).
  - eapply K; [exact H|]. unfold from_char. intros h' y G. eapply older_lit; eauto.
  - assert (s' = setvar s (hp s) w (Some empty)) as -> by congruence. cbn [setvar hp vars]. split; [apply older_refl|].
    intros v Hv. apply upd_other. intros E. apply (Hv w); auto.
  - eapply K; [exact H|]. unfold left. intros h' y G. crush G. eapply older_sub; eauto.
  - eapply K; [exact H|]. unfold right. intros h' y G. crush G. eapply older_sub; eauto.
  - eapply K; [exact H|]. unfold sub. intros h' y G. crush G. eapply older_sub; eauto.
  - eapply K; [exact H|]. unfold remove. intros h' y G. crush G. eapply older_rep; eauto.
  - eapply K; [exact H|]. unfold insert. intros h' y G. crush G. eapply older_rep; eauto.
Qed.

Definition settled (x : str) : Prop := start x + len x = real x.
Lemma buffer_settles h s h' x m : buffer h s = Ok (h', x, m) -> settled x /\ memory h' x = Ok m.
Proof.
  unfold buffer, own, memory, settled. intros H.
  match type of H with (do (_, _) <- ?r; _) = _ => destruct r as [[h1 x1]| | |] eqn:R end; cbn [bind] in H; try discriminate.
  destruct (cells_of h1 (buf x1)) as [cs| | |] eqn:C; cbn [bind] in H; try discriminate.
  assert (h' = h1 /\ x = x1 /\ m = skipn (Z.to_nat (start x1)) cs) as (-> & -> & ->) by (repeat split; congruence).
  rewrite C. cbn [bind]. split; [|reflexivity].
  destruct (Z.eqb_spec (start s + len s) (real s)) as [E|E]; cbn [negb] in R.
  - assert (x1 = s) as -> by congruence. exact E.
  - crush R. match type of R with Ok (_, ?y) = _ => assert (x1 = y) as -> by congruence end. reflexivity.
Qed.
Lemma buffer_again h x m : settled x -> memory h x = Ok m -> buffer h x = Ok (h, x, m).
Proof.
  unfold settled, memory, buffer. intros E M. replace (start x + len x =? real x) with true by lia. cbn [negb bind].
  destruct (cells_of h (buf x)); cbn [bind] in *; congruence.
Qed.

Lemma step_older s o s' r v x : step s o = Ok (s', r) -> older (hp s) (hp s') /\
  (nth_error (vars s) v = Some (Some x) -> settled x -> ~ In v (targets o) -> nth_error (vars s') v = Some (Some x)).
Proof.
  unfold step. destruct (step_raw s o) as [[s1 r1]| | |] eqn:E; try discriminate; intros H.
  2:{ assert (s' = s) as -> by congruence. split; auto using older_refl. }
  assert (s' = s1) as -> by congruence. clear H r.
  assert (forall u y, var s u = Ok y -> nth_error (vars s) u = Some (Some y)) as VE.
  { intros u y. unfold var. destruct (nth_error (vars s) u) as [[]|]; congruence. }
  destruct o as [u e|u e|u w|u w|u|u|u i|u|u c|u w]; cbn [step_raw] in E.
  - destruct (nth_error (vars s) u) as [[|]|] eqn:Nu; try discriminate.
    destruct (eval s e) as [[s2 y]| | |] eqn:Ev; cbn [bind] in E; try discriminate.
    assert (s1 = setvar s2 (hp s2) u (Some y)) as -> by congruence. apply older_eval in Ev. destruct Ev as [E1 E2]. cbn [setvar hp vars].
    split; auto. intros X _ N. rewrite upd_other; [rewrite E2; auto; intros w Ew ->; apply N; subst e; cbn; auto|intros ->; apply N; destruct e; cbn; auto].
  - destruct (var s u) eqn:Nu; cbn [bind] in E; try discriminate.
    destruct (eval s e) as [[s2 y]| | |] eqn:Ev; cbn [bind] in E; try discriminate.
    unfold move_into in E. destruct (var s2 u) eqn:Vu; cbn [bind] in E; try discriminate.
    destruct (dec (hp s2) a0) eqn:D; cbn [bind] in E; try discriminate. cbn [setvar hp vars dec managed empty bind] in E.
    assert (s1 = mkState a1 (upd (vars s2) u (Some y))) as -> by congruence. apply older_eval in Ev. destruct Ev as [E1 E2]. cbn [hp vars].
    split; [eapply older_trans; eauto using older_dec|]. intros X _ N. rewrite upd_other; [rewrite E2; auto; intros w Ew ->; apply N; subst e; cbn; auto|intros ->; apply N; destruct e; cbn; auto].
  - destruct (var s u) eqn:Nu; cbn [bind] in E; try discriminate. destruct (var s w) eqn:Nw; cbn [bind] in E; try discriminate.
    destruct (Nat.eqb u w); [assert (s1 = s) as -> by congruence; split; auto using older_refl|].
    destruct (dec (hp s) a) eqn:D; cbn [bind] in E; try discriminate. destruct (inc a1 a0) eqn:Q; cbn [bind] in E; try discriminate.
    assert (s1 = setvar s a2 u (Some a0)) as -> by congruence. cbn [setvar hp vars].
    split; [eapply older_trans; eauto using older_dec, older_inc|]. intros X _ N. rewrite upd_other; auto. intros ->. apply N. cbn. auto.
  - destruct (var s u) eqn:Nu; cbn [bind] in E; try discriminate. destruct (var s w) eqn:Nw; cbn [bind] in E; try discriminate.
    destruct (Nat.eqb u w); [assert (s1 = s) as -> by congruence; split; auto using older_refl|].
    unfold move_into in E. rewrite Nu in E. cbn [bind] in E. destruct (dec (hp s) a) eqn:D; cbn [bind] in E; try discriminate.
    unfold setvar in E; cbn [hp vars] in E. injection E as E _. subst s1. cbn [hp vars].
    split; [eauto using older_dec|]. intros X _ N. rewrite !upd_other; auto; intros ->; apply N; cbn; auto.
  - destruct (var s u) eqn:Nu; cbn [bind] in E; try discriminate. destruct (dec (hp s) a) eqn:D; cbn [bind] in E; try discriminate.
    assert (s1 = setvar s a0 u None) as -> by congruence. cbn [setvar hp vars]. split; [eauto using older_dec|].
    intros X _ N. rewrite upd_other; auto. intros ->. apply N. cbn. auto.
  - destruct (var s u) eqn:Nu; cbn [bind] in E; try discriminate. destruct (buffer (hp s) a) as [[[h' x'] m]| | |] eqn:B; cbn [bind] in E; try discriminate.
    assert (s1 = setvar s h' u (Some x')) as -> by congruence. cbn [setvar hp vars]. split; [eapply older_buffer; eauto|].
    intros X Sx _. destruct (Nat.eq_dec u v) as [->|N]; [|rewrite upd_other; auto].
    assert (a = x) as -> by (apply VE in Nu; congruence). rewrite upd_same by (eapply nth_error_lt; eauto).
    unfold buffer in B. unfold settled in Sx. replace (start x + len x =? real x) with true in B by lia. cbn [negb bind] in B.
    destruct (cells_of (hp s) (buf x)); cbn [bind] in B; congruence.
  - destruct (var s u) eqn:Nu; cbn [bind] in E; try discriminate. destruct (at_ (hp s) a i); cbn [bind] in E; try discriminate.
    assert (s1 = s) as -> by congruence; split; auto using older_refl.
  - destruct (var s u) eqn:Nu; cbn [bind] in E; try discriminate. assert (s1 = s) as -> by congruence; split; auto using older_refl.
  - destruct (var s u) eqn:Nu; cbn [bind] in E; try discriminate. destruct (index_of (hp s) a c); cbn [bind] in E; try discriminate.
    assert (s1 = s) as -> by congruence; split; auto using older_refl.
  - destruct (var s u) eqn:Nu; cbn [bind] in E; try discriminate. destruct (var s w) eqn:Nw; cbn [bind] in E; try discriminate.
    destruct (compare (hp s) a a0); cbn [bind] in E; try discriminate. assert (s1 = s) as -> by congruence; split; auto using older_refl.
Qed.
Lemma run_older os : forall s s' rs v x, run s os = Ok (s', rs) -> older (hp s) (hp s') /\
  (nth_error (vars s) v = Some (Some x) -> settled x -> (forall o, In o os -> ~ In v (targets o)) -> nth_error (vars s') v = Some (Some x)).
Proof.
  induction os as [|o os IH]; cbn [run]; intros s s' rs v x H.
  - assert (s' = s) as -> by congruence. split; auto using older_refl.
  - destruct (step s o) as [[s1 r]| | |] eqn:E; cbn [bind] in H; try discriminate.
    destruct (run s1 os) as [[s2 rs']| | |] eqn:F; cbn [bind] in H; try discriminate. assert (s' = s2) as -> by congruence.
    destruct (step_older _ _ _ _ v x E) as [O1 V1]. destruct (IH _ _ _ v x F) as [O2 V2]. split; [eapply older_trans; eauto|].
    intros X Sx N. apply V2; auto. apply V1; auto. apply N. now left. intros o' I. apply N. now right.
Qed.
Lemma memory_older h h' x m : older h h' -> memory h x = Ok m -> nth_error h' (buf x) <> Some Freed -> memory h' x = Ok m.
Proof.
  unfold memory, cells_of. intros O M N. specialize (O (buf x)). destruct (nth_error h (buf x)) as [[cs|cs n|]|]; cbn [bind] in M; try discriminate.
  - now rewrite O.
  - destruct O as [O|[k O]]; [congruence|]. now rewrite O.
Qed.

Lemma pointer_ok n ops vs ys s xs v s1 mem ops2 vs2 ys2 :
  srun (repeat None n) ops = Ok (vs, ys) -> run (init n) ops = Ok (s, xs) -> step s (OBuffer v) = Ok (s1, RMem mem) ->
  srun vs ops2 = Ok (vs2, ys2) ->
  exists x s2 xs2, nth_error (vars s1) v = Some (Some x) /\ memory (hp s1) x = Ok mem /\ run s1 ops2 = Ok (s2, xs2) /\
    (forall u y, nth_error (vars s2) u = Some (Some y) -> buf y = buf x -> memory (hp s2) x = Ok mem) /\
    ((forall o, In o ops2 -> ~ In v (targets o)) ->
       nth_error (vars s2) v = Some (Some x) /\ memory (hp s2) x = Ok mem /\ step s2 (OBuffer v) = Ok (s2, RMem mem)).
Proof.
  intros H1 H2 B H3. pose proof (reached_rel _ _ _ _ _ _ H1 H2) as R.
  unfold step in B. cbn [step_raw] in B. destruct (var s v) as [x0| | |] eqn:V; cbn [bind] in B; try discriminate.
  destruct (buffer (hp s) x0) as [[[h1 x] m]| | |] eqn:Bf; cbn [bind] in B; try discriminate.
  assert (s1 = setvar s h1 v (Some x) /\ mem = m) as [-> ->] by (split; congruence).
  assert (nth_error (vars s) v = Some (Some x0)) as Nv.
  { unfold var in V. destruct (nth_error (vars s) v) as [[]|]; congruence. }
  destruct (buffer_settles _ _ _ _ _ Bf) as [Sx Mx].
  assert (Rel (setvar s h1 v (Some x)) vs) as R1.
  { pose proof (rel_shows _ _ R) as Sh. destruct (shows_nth _ _ _ _ Sh Nv) as (l & Hl & _).
    assert (E : sstep vs (OBuffer v) = Ok (vs, SChars l)).
    { unfold sstep. cbn [sstep_raw]. unfold sread. now rewrite Hl. }
    destruct (step_refines _ _ _ _ _ R E) as (s2 & r2 & E2 & R2 & _).
    unfold step in E2. cbn [step_raw] in E2. rewrite V in E2. cbn [bind] in E2. rewrite Bf in E2. cbn [bind] in E2. congruence. }
  destruct (run_refines _ _ _ _ _ R1 H3) as (s2 & xs2 & E2 & R2 & _).
  exists x, s2, xs2. cbn [setvar vars hp].
  assert (nth_error (upd (vars s) v (Some x)) v = Some (Some x)) as Nx by (apply upd_same; eapply nth_error_lt; eauto).
  destruct (run_older _ _ _ _ v x E2) as [O K]. cbn [setvar vars hp] in O, K.
  assert (forall u y, nth_error (vars s2) u = Some (Some y) -> buf y = buf x -> memory (hp s2) x = Ok m) as G.
  { intros u y Hu Eb. eapply memory_older; eauto. intros F. destruct (rel_live _ _ _ _ R2 Hu) as (cs & Hb & _). rewrite Eb in Hb.
    destruct (managed y); [destruct Hb as [k Hb]|]; congruence. }
  split; [exact Nx|]. split; [exact Mx|]. split; [exact E2|]. split; [exact G|].
  intros N. specialize (K Nx Sx N). split; [exact K|]. assert (memory (hp s2) x = Ok m) as M by (eapply G; eauto). split; [exact M|].
  unfold step. cbn [step_raw]. unfold var. rewrite K. cbn [bind]. rewrite (buffer_again _ _ _ Sx M). cbn [bind].
  unfold setvar. rewrite upd_id by exact K. destruct s2. reflexivity.
Qed.
Lemma inc_not_err h x : inc h x <> Err.
Proof. unfold inc. destruct (managed x); [destruct (nth_error h (buf x)) as [[]|]|]; discriminate. Qed.
(* copies and moves have the same pointer *)
Lemma pointer_shared n ops vs ys s xs v s1 mem w e :
  srun (repeat None n) ops = Ok (vs, ys) -> run (init n) ops = Ok (s, xs) -> step s (OBuffer v) = Ok (s1, RMem mem) ->
  v <> w -> e = ECopy v \/ e = EMove v -> (exists l, nth_error vs w = Some l) ->
  let o := match nth_error vs w with Some None => OInit w e | _ => OSet w e end in
  exists x s2, nth_error (vars s1) v = Some (Some x) /\ step s1 o = Ok (s2, RNone) /\ nth_error (vars s2) w = Some (Some x) /\
    step s2 (OBuffer w) = Ok (s2, RMem mem).
Proof.
  intros H1 H2 B N He [l Hw] o.
  pose proof (reached_rel _ _ _ _ _ _ H1 H2) as R.
  assert (exists lv, nth_error vs v = Some (Some lv)) as [lv Hv].
  { unfold step in B. cbn [step_raw] in B. unfold var in B. destruct (nth_error (vars s) v) as [[x0|]|] eqn:V; cbn [bind] in B; try discriminate.
    destruct (shows_nth _ _ _ _ (rel_shows _ _ R) V) as (lv & Hl & _). eauto. }
  assert (exists vs2, sstep vs o = Ok (vs2, SNone)) as [vs2 S1].
  { unfold o. rewrite Hw. unfold sstep. destruct l as [l|]; cbn [sstep_raw]; unfold sread; rewrite ?Hw; cbn [bind];
      destruct He as [-> | ->]; cbn [seval]; unfold sread; rewrite Hv; cbn [bind]; eexists; reflexivity. }
  assert (srun vs [o] = Ok (vs2, [SNone])) as S2 by (cbn [srun]; rewrite S1; reflexivity).
  destruct (pointer_ok _ _ _ _ _ _ _ _ _ _ _ _ H1 H2 B S2) as (x & s2 & xs2 & V & M & E & G & _).
  cbn [run] in E. destruct (step s1 o) as [[s3 r]| | |] eqn:St; cbn [bind] in E; try discriminate.
  assert (s3 = s2) as -> by congruence.
  assert (Rel s1 vs) as R1.
  { assert (sstep vs (OBuffer v) = Ok (vs, SChars lv)) as E0 by (unfold sstep; cbn [sstep_raw]; unfold sread; now rewrite Hv).
    destruct (step_refines _ _ _ _ _ R E0) as (s4 & r4 & E4 & R4 & _). congruence. }
  assert (r = RNone) as ->.
  { destruct (step_refines _ _ _ _ _ R1 S1) as (s4 & r4 & E4 & R4 & O4). assert (r = r4) as -> by congruence. destruct r4; try contradiction. reflexivity. }
  assert (nth_error (vars s2) w = Some (Some x)) as W.
  { assert (w < length (vars s1))%nat as Lw.
    { rewrite (shape_length _ _ (proj1 R1)). eapply nth_error_lt; eauto. }
    unfold o in St. rewrite Hw in St. unfold step in St. destruct l as [l|]; cbn [step_raw] in St.
    - destruct (var s1 w) eqn:Vw; cbn [bind] in St; try discriminate.
      assert (exists h1 vs1, eval s1 e = Ok (mkState h1 vs1, x) /\ length vs1 = length (vars s1)) as (h1 & vs1 & Ev & L1).
      { destruct He as [-> | ->]; cbn [eval] in *; unfold var in *; rewrite V in *; cbn [bind] in *.
        - unfold copy in *. destruct (inc (hp s1) x) eqn:Ic; cbn [bind] in *; try discriminate. eexists _, _; split; reflexivity.
        - unfold setvar in *. eexists _, _. split; [reflexivity|]. apply upd_length. }
      rewrite Ev in St. cbn [bind] in St. unfold move_into in St. destruct (var (mkState h1 vs1) w); cbn [bind] in St; try discriminate.
      cbn [hp vars] in St. destruct (dec h1 a0); cbn [bind] in St; try discriminate. cbn [setvar hp vars dec managed empty bind] in St.
      assert (s2 = mkState a1 (upd vs1 w (Some x)) ) as -> by congruence. cbn [vars]. apply upd_same. lia.
    - destruct (nth_error (vars s1) w) as [[|]|]; try discriminate.
      assert (exists h1 vs1, eval s1 e = Ok (mkState h1 vs1, x) /\ length vs1 = length (vars s1)) as (h1 & vs1 & Ev & L1).
      { destruct He as [-> | ->]; cbn [eval] in *; unfold var in *; rewrite V in *; cbn [bind] in *.
        - unfold copy in *. destruct (inc (hp s1) x) eqn:Ic; cbn [bind] in *; try discriminate. eexists _, _; split; reflexivity.
        - unfold setvar in *. eexists _, _. split; [reflexivity|]. apply upd_length. }
      rewrite Ev in St. cbn [bind setvar hp vars] in St.
      unfold setvar in St; cbn [hp vars] in St; injection St as St; subst s2. cbn [vars]. apply upd_same. lia. }
  exists x, s2. split; [exact V|]. split; [reflexivity|]. split; [exact W|].
  assert (memory (hp s2) x = Ok mem) as M2 by (eapply G; eauto).
  assert (settled x) as Sx.
  { unfold step in B. cbn [step_raw] in B. destruct (var s v) as [x0| | |]; cbn [bind] in B; try discriminate.
    destruct (buffer (hp s) x0) as [[[h1 x1] m]| | |] eqn:Bf; cbn [bind] in B; try discriminate. apply buffer_settles in Bf. destruct Bf as [Sx _].
    assert (s1 = setvar s h1 v (Some x1)) as -> by congruence. cbn [setvar vars] in V.
    assert (v < length (upd (vars s) v (Some x1)))%nat as L by (eapply nth_error_lt; eauto). rewrite upd_length in L. rewrite upd_same in V by auto. congruence. }
  unfold step. cbn [step_raw]. unfold var. rewrite W. cbn [bind]. rewrite (buffer_again _ _ _ Sx M2). cbn [bind].
  unfold setvar. rewrite upd_id by exact W. destruct s2. reflexivity.
Qed.

(* Sub and Remove for all integer arguments *)
Lemma slices_all n ops vs ys s xs d w l i k :
  srun (repeat None n) ops = Ok (vs, ys) -> run (init n) ops = Ok (s, xs) ->
  (exists m, nth_error vs d = Some (Some m)) -> nth_error vs w = Some (Some l) ->
  (if (i <? 0) || (zlen l <? i) then step s (OSet d (ESub w i k)) = Ok (s, RError)
   else if negb (fits (i + k)) then step s (OSet d (ESub w i k)) = UB
   else if (i + k <? 0) || (zlen l <? i + k) then step s (OSet d (ESub w i k)) = Ok (s, RError)
   else exists s', step s (OSet d (ESub w i k)) = Ok (s', RNone) /\ shows s' (upd vs d (Some (take k (drop i l))))) /\
  (if (i <? 0) || (zlen l <=? i) then step s (OSet d (ERemove w i k)) = Ok (s, RError)
   else if negb (fits (i + k)) then step s (OSet d (ERemove w i k)) = UB
   else if (i + k <? 0) || (zlen l <? i + k) then step s (OSet d (ERemove w i k)) = Ok (s, RError)
   else exists s', step s (OSet d (ERemove w i k)) = Ok (s', RNone) /\ shows s' (upd vs d (Some (take i l ++ drop (i + k) l)))).
Proof.
  intros H1 H2 (m & Hd) Hw. pose proof (reached_rel _ _ _ _ _ _ H1 H2) as R. pose proof (zlen_nonneg l) as Hl.
  assert (E : forall e, sstep vs (OSet d e) = match seval vs e with Ok (vs', l) => Ok (upd vs' d (Some l), SNone) | Err => Ok (vs, SError) | UB => UB | NoFuel => NoFuel end).
  { intros e. unfold sstep. cbn [sstep_raw]. unfold sread. rewrite Hd. cbn [bind]. now destruct (seval vs e) as [[]| | |]. }
  assert (Bad : forall e, seval vs e = Err -> step s (OSet d e) = Ok (s, RError)).
  { intros e He. specialize (E e). rewrite He in E. destruct (step_refines _ _ _ _ _ R E) as (s1 & r1 & E1 & _ & Ho).
    destruct r1; try contradiction. rewrite E1. apply step_error_keeps in E1. now subst. }
  assert (Good : forall e l', seval vs e = Ok (vs, l') -> exists s', step s (OSet d e) = Ok (s', RNone) /\ shows s' (upd vs d (Some l'))).
  { intros e l' He. specialize (E e). rewrite He in E. destruct (step_refines _ _ _ _ _ R E) as (s1 & r1 & E1 & R1 & Ho).
    destruct r1; try contradiction. exists s1. split; [exact E1|]. now apply rel_shows. }
  pose proof (rel_var _ _ w R) as Vw. pose proof (rel_var _ _ d R) as Vd. unfold sread in Vw, Vd. rewrite Hw in Vw. rewrite Hd in Vd.
  destruct Vw as (x & Vx & _ & _ & Hin). destruct Vd as (z & Vz & _).
  assert (len x = zlen l) as Lx by (eapply holds_len, Inv_in; [exact (proj2 R)|exact Hin]).
  split.
  - destruct ((i <? 0) || (zlen l <? i)) eqn:C1; [apply Bad; cbn [seval]; unfold sread; rewrite Hw; cbn [bind]; replace ((0 <=? i) && (i <=? zlen l)) with false by lia; reflexivity|].
    destruct (fits (i + k)) eqn:C2; cbn [negb].
    + destruct ((i + k <? 0) || (zlen l <? i + k)) eqn:C3; [apply Bad|apply Good]; cbn [seval]; unfold sread; rewrite Hw; cbn [bind];
        replace ((0 <=? i) && (i <=? zlen l)) with true by lia; rewrite C2; cbn [negb].
      * replace ((0 <=? i + k) && (i + k <=? zlen l)) with false by lia. reflexivity.
      * replace ((0 <=? i + k) && (i + k <=? zlen l)) with true by lia. reflexivity.
    + unfold step. cbn [step_raw]. rewrite Vz. cbn [bind eval]. rewrite Vx. cbn [bind]. unfold sub. rewrite Lx.
      replace ((i >=? 0) && (i <=? zlen l)) with true by lia. unfold vadd. unfold fits in C2. rewrite C2. reflexivity.
  - destruct ((i <? 0) || (zlen l <=? i)) eqn:C1; [apply Bad; cbn [seval]; unfold sread; rewrite Hw; cbn [bind]; replace ((0 <=? i) && (i <? zlen l)) with false by lia; reflexivity|].
    destruct (fits (i + k)) eqn:C2; cbn [negb].
    + destruct ((i + k <? 0) || (zlen l <? i + k)) eqn:C3; [apply Bad|apply Good]; cbn [seval]; unfold sread; rewrite Hw; cbn [bind];
        replace ((0 <=? i) && (i <? zlen l)) with true by lia; rewrite C2; cbn [negb].
      * replace ((0 <=? i + k) && (i + k <=? zlen l)) with false by lia. reflexivity.
      * replace ((0 <=? i + k) && (i + k <=? zlen l)) with true by lia. reflexivity.
    + unfold step. cbn [step_raw]. rewrite Vz. cbn [bind eval]. rewrite Vx. cbn [bind]. unfold remove. rewrite Lx.
      replace ((i >=? 0) && (i <? zlen l)) with true by lia. unfold vadd. unfold fits in C2. rewrite C2. reflexivity.
Qed.
