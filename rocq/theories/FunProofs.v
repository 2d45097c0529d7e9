From Coq Require Import ZifyBool ZifyNat.
From Verif Require Import Base BaseFacts FunModel FunSpec.

Lemma nth_snoc {A} (l : list A) x i : nth_error (l ++ [x]) i = if (i =? length l)%nat then Some x else nth_error l i.
Proof.
  destruct (i =? length l)%nat eqn:E; [apply Nat.eqb_eq in E; subst; rewrite nth_error_app2, Nat.sub_diag by lia; reflexivity|]. apply Nat.eqb_neq in E.
  destruct (Nat.lt_ge_cases i (length l)); [now rewrite nth_error_app1|]. rewrite nth_error_app2 by lia. rewrite (proj2 (nth_error_None l i)) by lia. apply nth_error_None. cbn [length]. lia.
Qed.
Lemma nth_upd {A} (l : list A) i j x : nth_error (upd l i x) j = if (j =? i)%nat then (if (i <? length l)%nat then Some x else None) else nth_error l j.
Proof.
  destruct (j =? i)%nat eqn:E.
  - apply Nat.eqb_eq in E. subst. destruct (i <? length l)%nat eqn:L; [apply upd_same; lia|]. apply nth_error_None. rewrite upd_length. lia.
  - apply Nat.eqb_neq in E. apply upd_other; lia.
Qed.
Definition cell_ok (pl : list place) (cs : nat -> N) (i : nat) (c : invoker) (p : place) : Prop :=
  match c with
  | Static (Some f) => p = PStatic f
  | Static None => p = PNull
  | Member a m => p = PMember a m
  | Functor n k => p = PFunctor n i /\ cs i = k
  | Wrapped (Some j) => (j < i)%nat /\ nth_error pl j = Some p
  | Wrapped None => False
  end.
Definition tag (pl : list place) (v : option nat) : option (nat * place) :=
  match v with Some i => match nth_error pl i with Some p => Some (i, p) | None => None end | None => None end.
Record sim (pl : list place) (s : state) (t : spec) : Prop := Sim {
  sim_len : length pl = length (heap s);
  sim_next : next t = length (heap s);
  sim_cells : forall i c, nth_error (heap s) i = Some c -> exists p, nth_error pl i = Some p /\ cell_ok pl (calls t) i c p;
  sim_vars : forall x i, nth_error (vars s) x = Some (Some i) -> (i < length (heap s))%nat;
  sim_funcs : funcs t = map (tag pl) (vars s) }.

Lemma call_ok pl s t : sim pl s t -> forall fuel i p, (i < fuel)%nat -> nth_error pl i = Some p ->
  match p with
  | PNull => call fuel (heap s) i = UB
  | PStatic f => call fuel (heap s) i = Ok (heap s, TStatic f, 0%N)
  | PMember a m => call fuel (heap s) i = Ok (heap s, TMember a m, 0%N)
  | PFunctor n c => nth_error (heap s) c = Some (Functor n (calls t c)) /\ call fuel (heap s) i = Ok (upd (heap s) c (Functor n (calls t c + 1)), TFunctor n, calls t c)
  end.
Proof.
  intros R. induction fuel as [|fuel IH]; intros i p F P; [lia|]. cbn [call].
  assert (L : (i < length (heap s))%nat) by (rewrite <- (sim_len _ _ _ R); apply nth_error_Some; congruence).
  destruct (nth_error (heap s) i) as [c|] eqn:E; [|apply nth_error_None in E; lia]. destruct (sim_cells _ _ _ R i c E) as (p' & P' & C). assert (p' = p) by congruence. subst p'.
  destruct c as [[f|]|a m|n k|[j|]]; cbn [cell_ok] in C; subst; try reflexivity.
  - destruct C as [-> K]. subst k. split; [exact E|reflexivity].
  - destruct C as [J C]. apply (IH j p); [lia|exact C].
  - contradiction.
Qed.
Lemma tag_snoc pl q v : (forall i, v = Some i -> (i < length pl)%nat) -> tag (pl ++ [q]) v = tag pl v.
Proof. intros H. unfold tag. destruct v as [i|]; [|reflexivity]. specialize (H i eq_refl). now rewrite nth_error_app1. Qed.
Lemma map_tag_snoc pl q vs : (forall x i, nth_error vs x = Some (Some i) -> (i < length pl)%nat) -> map (tag (pl ++ [q])) vs = map (tag pl) vs.
Proof. intros H. apply map_ext_in. intros v Hv. apply In_nth_error in Hv as [x Hx]. apply tag_snoc. intros i ->. eauto. Qed.
Lemma cell_ok_snoc pl q cs i c p : cell_ok pl cs i c p -> cell_ok (pl ++ [q]) cs i c p.
Proof.
  destruct c as [[f|]|a m|n k|[j|]]; cbn [cell_ok]; auto. intros [A B]. split; [exact A|]. rewrite nth_error_app1; [exact B|]. apply nth_error_Some. congruence.
Qed.
Lemma cell_ok_calls pl cs cs' i c p : (forall n k, c = Functor n k -> cs' i = cs i) -> cell_ok pl cs i c p -> cell_ok pl cs' i c p.
Proof. destruct c as [[f|]|a m|n k|[j|]]; cbn [cell_ok]; auto. intros H [A B]. rewrite (H _ _ eq_refl). auto. Qed.
(* a new invoker *)
Lemma sim_fresh pl s t c p vs : sim pl s t -> (forall cs, (forall n k, c = Functor n k -> cs (length (heap s)) = k) -> cell_ok pl cs (length (heap s)) c p) ->
  (forall x i, nth_error vs x = Some (Some i) -> (i < length (heap s))%nat) ->
  sim (pl ++ [p]) (State (heap s ++ [c]) (vs ++ [Some (length (heap s))]))
      (Spec (S (next t)) (match c with Functor _ k => set_calls (calls t) (next t) k | _ => calls t end) (map (tag pl) vs ++ [Some (next t, p)])).
Proof.
  intros R C V. pose proof (sim_len _ _ _ R) as L. pose proof (sim_next _ _ _ R) as N.
  set (cs := match c with Functor _ k => set_calls (calls t) (next t) k | _ => calls t end).
  split; cbn [heap vars next calls funcs].
  - rewrite !app_length, L. reflexivity.
  - rewrite app_length, N. cbn [length]. lia.
  - intros i d H. rewrite nth_snoc in H. rewrite nth_snoc, L. destruct (i =? length (heap s))%nat eqn:E.
    + injection H as <-. apply Nat.eqb_eq in E. subst i. exists p. split; [reflexivity|]. apply cell_ok_snoc, C. intros n k ->. unfold cs, set_calls. now rewrite N, Nat.eqb_refl.
    + destruct (sim_cells _ _ _ R i d H) as (q & Q & D). exists q. split; [exact Q|]. apply cell_ok_snoc. eapply cell_ok_calls; [|exact D]. intros n k _. unfold cs. destruct c; try reflexivity.
      unfold set_calls. rewrite N, E. reflexivity.
  - intros x i H. rewrite app_length. cbn [length]. rewrite nth_snoc in H. destruct (x =? length vs)%nat; [injection H as <-; lia|]. specialize (V x i H). lia.
  - rewrite map_app. cbn [map tag]. rewrite map_tag_snoc by (rewrite L; exact V). rewrite nth_snoc, L, Nat.eqb_refl, N. reflexivity.
Qed.
Lemma sim_vars_only pl s t vs : sim pl s t -> (forall x i, nth_error vs x = Some (Some i) -> (i < length (heap s))%nat) -> sim pl (State (heap s) vs) (Spec (next t) (calls t) (map (tag pl) vs)).
Proof. intros R V. destruct R as [A B C D E]. split; cbn [heap vars next calls funcs]; auto. Qed.
Lemma map_upd {A B} (f : A -> B) l i x : map f (upd l i x) = upd (map f l) i (f x).
Proof. revert i. induction l as [|a l IH]; intros [|i]; cbn [upd map]; try reflexivity. now rewrite IH. Qed.
Lemma vars_upd s y v : (forall x i, nth_error (vars s) x = Some (Some i) -> (i < length (heap s))%nat) -> (forall i, v = Some i -> (i < length (heap s))%nat) ->
  forall x i, nth_error (upd (vars s) y v) x = Some (Some i) -> (i < length (heap s))%nat.
Proof. intros H K x i E. rewrite nth_upd in E. destruct (x =? y)%nat; [destruct (y <? length (vars s))%nat; [injection E as ->; auto|discriminate]|eauto]. Qed.
Lemma vars_snoc (h : list invoker) vs v : (forall x i, nth_error vs x = Some (Some i) -> (i < length h)%nat) -> (forall i, v = Some i -> (i < length h)%nat) ->
  forall x i, nth_error (vs ++ [v]) x = Some (Some i) -> (i < length h)%nat.
Proof. intros H K x i E. rewrite nth_snoc in E. destruct (x =? length vs)%nat; [injection E as ->; auto|eauto]. Qed.
Lemma sim_get pl s t x : sim pl s t -> nth_error (funcs t) x = option_map (tag pl) (nth_error (vars s) x).
Proof. intros R. rewrite (sim_funcs _ _ _ R). apply nth_error_map. Qed.
Lemma sim_some pl s t x i : sim pl s t -> nth_error (vars s) x = Some (Some i) -> exists p, nth_error pl i = Some p /\ tag pl (Some i) = Some (i, p).
Proof.
  intros R E. pose proof (sim_vars _ _ _ R x i E) as L. rewrite <- (sim_len _ _ _ R) in L. apply nth_error_Some in L. cbn [tag]. destruct (nth_error pl i) as [p|]; [|congruence]. eauto.
Qed.
Lemma step_sim pl s t o : sim pl s t -> exists pl', sim pl' (fst (step s o)) (fst (sstep t o)) /\ snd (step s o) = snd (sstep t o).
Proof.
  intros R. pose proof (sim_funcs _ _ _ R) as FF. pose proof (sim_vars _ _ _ R) as VV.
  assert (NV : forall i, @None nat = Some i -> (i < length (heap s))%nat) by discriminate.
  destruct o as [|f|a m|n k|y|y|y|y|x y|x y|x y|x|x]; cbn [step sstep]; try (rewrite !(sim_get pl s t _ R)).
  - exists pl. split; [|reflexivity]. cbn [fst]. rewrite FF. change [@None (nat * place)] with (map (tag pl) [None]). rewrite <- map_app. apply sim_vars_only; [exact R|]. now apply vars_snoc.
  - destruct f as [f|]; (eexists; split; [|reflexivity]); cbn [fst]; unfold fresh, new; rewrite FF; [apply (sim_fresh pl s t (Static (Some f)) (PStatic f))|apply (sim_fresh pl s t (Static None) PNull)]; auto; intros; reflexivity.
  - eexists. split; [|reflexivity]. cbn [fst]. unfold fresh, new. rewrite FF. apply (sim_fresh pl s t (Member a m) (PMember a m)); auto. intros; reflexivity.
  - exists (pl ++ [PFunctor n (next t)]). split; [|reflexivity]. cbn [fst]. unfold fresh. rewrite FF. apply (sim_fresh pl s t (Functor n k) (PFunctor n (next t))); auto.
    intros cs H. split; [now rewrite (sim_next _ _ _ R)|eapply H; reflexivity].
  - destruct (nth_error (vars s) y) as [v|] eqn:E; cbn [option_map fst snd]; [|eauto]. exists pl. split; [|reflexivity]. rewrite FF. change [tag pl v] with (map (tag pl) [v]). rewrite <- map_app.
    apply sim_vars_only; [exact R|]. apply vars_snoc; [exact VV|]. intros i ->. eauto.
  - destruct (nth_error (vars s) y) as [v|] eqn:E; cbn [option_map fst snd]; [|eauto]. exists pl. split; [|reflexivity]. rewrite FF. change [tag pl v] with (map (tag pl) [v]). change (@None (nat * place)) with (tag pl None). rewrite <- map_upd, <- map_app.
    apply sim_vars_only; [exact R|]. apply vars_snoc; [now apply vars_upd|]. intros i ->. eauto.
  - destruct (nth_error (vars s) y) as [[i|]|] eqn:E; cbn [option_map fst snd]; [| |eauto].
    + destruct (sim_some _ _ _ _ _ R E) as (p & P & T). rewrite T. eexists. split; [|reflexivity]. cbn [fst]. unfold fresh, new. rewrite FF. apply (sim_fresh pl s t (Wrapped (Some i)) p); auto.
      intros cs _. split; [eapply VV; exact E|exact P].
    + exists pl. split; [|reflexivity]. cbn [fst]. rewrite FF. change [@None (nat * place)] with (map (tag pl) [None]). rewrite <- map_app. apply sim_vars_only; [exact R|]. now apply vars_snoc.
  - destruct (nth_error (vars s) y) as [[i|]|] eqn:E; cbn [option_map fst snd]; [| |eauto].
    + destruct (sim_some _ _ _ _ _ R E) as (p & P & T). rewrite T. eexists. split; [|reflexivity]. cbn [fst]. rewrite FF. change (@None (nat * place)) with (tag pl None). rewrite <- map_upd. apply (sim_fresh pl s t (Wrapped (Some i)) p); auto.
      * intros cs _. split; [eapply VV; exact E|exact P].
      * now apply vars_upd.
    + exists pl. split; [|reflexivity]. cbn [fst]. rewrite FF. change [@None (nat * place)] with (map (tag pl) [None]). rewrite <- map_app. apply sim_vars_only; [exact R|]. now apply vars_snoc.
  - destruct (nth_error (vars s) x) as [u|] eqn:Ex; cbn [option_map fst snd]; [|eauto]. destruct (nth_error (vars s) y) as [v|] eqn:E; cbn [option_map fst snd]; [|eauto]. exists pl. split; [|reflexivity]. rewrite FF, <- map_upd.
    apply sim_vars_only; [exact R|]. apply vars_upd; [exact VV|]. intros i ->. eauto.
  - destruct (nth_error (vars s) x) as [u|] eqn:Ex; cbn [option_map fst snd]; [|eauto]. destruct (nth_error (vars s) y) as [v|] eqn:E; cbn [option_map fst snd]; [|eauto]. exists pl. split; [|reflexivity]. rewrite FF, <- map_upd.
    apply sim_vars_only; [exact R|]. apply vars_upd; [exact VV|]. intros i ->. eauto.
  - destruct (nth_error (vars s) x) as [u|] eqn:Ex; cbn [option_map fst snd]; [|eauto]. destruct (nth_error (vars s) y) as [v|] eqn:E; cbn [option_map fst snd]; [|eauto]. exists pl. split; [exact R|].
    f_equal. destruct u as [i|], v as [j|]; repeat match goal with H : nth_error (vars s) _ = Some (Some _) |- _ => let T := fresh "T" in destruct (sim_some _ _ _ _ _ R H) as (? & ? & T); rewrite T; clear H end; reflexivity.
  - destruct (nth_error (vars s) x) as [[i|]|] eqn:Ex; cbn [option_map fst snd]; [|eauto|eauto]. exists pl. split; [exact R|]. destruct (sim_some _ _ _ _ _ R Ex) as (p & P & T). now rewrite T.
  - destruct (nth_error (vars s) x) as [[i|]|] eqn:Ex; cbn [option_map fst snd]; [|eauto|eauto]. destruct (sim_some _ _ _ _ _ R Ex) as (p & P & T). rewrite T. exists pl.
    pose proof (sim_vars _ _ _ R _ _ Ex) as L. pose proof (call_ok _ _ _ R (S (length (heap s))) i p ltac:(lia) P) as C.
    destruct p as [|f|a m|n c]; [rewrite C|rewrite C|rewrite C|destruct C as [C1 C2]; rewrite C2]; cbn [fst snd]; try (split; [destruct s; exact R|reflexivity]).
    split; [|reflexivity]. pose proof (sim_cells _ _ _ R) as CC. destruct R as [A B C D E]. split; cbn [heap vars next calls funcs]; rewrite ?upd_length; auto.
    intros j d H. rewrite nth_upd in H. destruct (j =? c)%nat eqn:J.
    + apply Nat.eqb_eq in J. subst j. destruct (c <? length (heap s))%nat; [|discriminate]. injection H as <-. destruct (CC c _ C1) as (p' & P' & Q). exists p'. split; [exact P'|]. cbn [cell_ok] in Q |- *. split; [apply Q|]. unfold set_calls. now rewrite Nat.eqb_refl.
    + destruct (CC j d H) as (p' & P' & Q). exists p'. split; [exact P'|]. eapply cell_ok_calls; [|exact Q]. intros _ _ _. unfold set_calls. now rewrite J.
Qed.
Lemma run_sim os : forall pl s t, sim pl s t -> exists pl', sim pl' (fst (run s os)) (fst (srun t os)) /\ snd (run s os) = snd (srun t os).
Proof.
  induction os as [|o os IH]; intros pl s t R; [exists pl; split; [exact R|reflexivity]|]. cbn [run srun]. destruct (step_sim pl s t o R) as (pl1 & R1 & O1).
  destruct (step s o) as [s1 r1]. destruct (sstep t o) as [t1 q1]. cbn [fst snd] in *. subst q1. destruct (IH pl1 s1 t1 R1) as (pl2 & R2 & O2).
  destruct (run s1 os) as [s2 r2]. destruct (srun t1 os) as [t2 q2]. cbn [fst snd] in *. subst. eauto.
Qed.
Lemma sim_init : sim [] init sinit.
Proof. split; cbn; auto; intros x i H; try (destruct i; discriminate H); destruct x; discriminate H. Qed.
Lemma fun_history os : snd (run init os) = snd (srun sinit os).
Proof. destruct (run_sim os _ _ _ sim_init) as (pl & _ & E). exact E. Qed.
Lemma run_app a : forall s b, run s (a ++ b) = let '(s1, r1) := run s a in let '(s2, r2) := run s1 b in (s2, r1 ++ r2).
Proof.
  induction a as [|o a IH]; intros s b; cbn [run app]; [now destruct (run s b)|]. destruct (step s o) as [s1 r1]. rewrite IH. destruct (run s1 a) as [s2 r2]. now destruct (run s2 b).
Qed.
Lemma ask_snoc os o q : ask (os ++ [o]) q = snd (step (fst (step (fst (run init os)) o)) q).
Proof. unfold ask. rewrite run_app. destruct (run init os) as [s r]. cbn [run fst]. now destruct (step s o) as [s1 r1]. Qed.
Definition at_end {A} (l : list A) x : nth_error (l ++ [x]) (length l) = Some x.
Proof. rewrite nth_error_app2, Nat.sub_diag by lia. reflexivity. Qed.
Lemma same_ptr_refl v : same_ptr v v = true.
Proof. destruct v; [apply Nat.eqb_refl|reflexivity]. Qed.
Lemma get_var os y : (y < count os)%nat -> exists v, nth_error (vars (fst (run init os))) y = Some v.
Proof. unfold count. intros H. destruct (nth_error _ y) eqn:E; eauto. apply nth_error_None in E. lia. Qed.
Lemma snoc_old {A} (l : list A) x y v : nth_error l y = Some v -> nth_error (l ++ [x]) y = Some v.
Proof. intros E. rewrite nth_error_app1; [exact E|]. apply nth_error_Some. congruence. Qed.
Lemma fun_copy os y : (y < count os)%nat -> let x := count os in let os' := os ++ [MkCopy y] in
  ask os' (Equal x y) = Truth true /\ ask os' (Bool x) = ask os (Bool y) /\ ask os' (Call x) = ask os (Call y).
Proof.
  intros Y x os'. unfold os'. rewrite !ask_snoc. unfold ask, x, count. destruct (get_var os y Y) as (v & E). set (s := fst (run init os)) in *.
  cbn [step]. rewrite E. cbn [fst vars heap]. rewrite at_end, (snoc_old _ _ _ _ E). cbn [snd]. rewrite same_ptr_refl. split; [reflexivity|]. split; [reflexivity|]. destruct v as [i|]; [|reflexivity].
  destruct (call _ _ _) as [[[? ?] ?]| | |]; reflexivity.
Qed.
Lemma fun_move os y : (y < count os)%nat -> let x := count os in let os' := os ++ [MkMove y] in
  ask os' (Bool y) = Truth false /\ ask os' (Bool x) = ask os (Bool y) /\ ask os' (Call x) = ask os (Call y) /\
  forall z, z <> y -> (z < count os)%nat -> ask os' (Equal x z) = ask os (Equal y z).
Proof.
  intros Y x os'. destruct (get_var os y Y) as (v & E).
  assert (A : forall q, ask os' q = snd (step (State (heap (fst (run init os))) (upd (vars (fst (run init os))) y None ++ [v])) q)).
  { intros q. unfold os'. rewrite ask_snoc. cbn [step]. rewrite E. reflexivity. }
  rewrite !A. unfold x, count in *. clear x. unfold ask at 1 2. set (s := fst (run init os)) in *. cbn [step vars heap]. rewrite E.
  rewrite <- (upd_length (vars s) y None), at_end, (snoc_old (upd (vars s) y None) v y None) by (apply upd_same; auto). cbn [snd]. split; [reflexivity|]. split; [reflexivity|]. split.
  - destruct v as [i|]; [|reflexivity]. destruct (call _ _ _) as [[[? ?] ?]| | |]; reflexivity.
  - intros z Z H. rewrite upd_length in H. destruct (nth_error (vars s) z) as [w|] eqn:Ez; [|apply nth_error_None in Ez; lia]. rewrite A. unfold ask. fold s. cbn [step vars].
    rewrite at_end, E, Ez. rewrite (snoc_old (upd (vars s) y None) v z w) by (rewrite upd_other; auto). reflexivity.
Qed.
Lemma fun_assign os x y : (x < count os)%nat -> (y < count os)%nat -> forall o, o = Assign x y \/ o = MoveAssign x y ->
  ask (os ++ [o]) (Equal x y) = Truth true /\ ask (os ++ [o]) (Bool x) = ask os (Bool y) /\ ask (os ++ [o]) (Bool y) = ask os (Bool y) /\ ask (os ++ [o]) (Call x) = ask os (Call y).
Proof.
  intros X Y o O. rewrite !ask_snoc. unfold ask. destruct (get_var os y Y) as (v & E). destruct (get_var os x X) as (u & Eu). unfold count in *. set (s := fst (run init os)) in *.
  assert (A : fst (step s o) = State (heap s) (upd (vars s) x v)) by (destruct O as [-> | ->]; cbn [step]; rewrite Eu, E; reflexivity). rewrite A. cbn [step vars heap].
  assert (Ey : nth_error (upd (vars s) x v) y = Some v). { destruct (Nat.eq_dec x y) as [->|D]; [apply upd_same; auto|rewrite upd_other; auto]. }
  rewrite upd_same by auto. rewrite Ey, E. cbn [snd]. rewrite same_ptr_refl. split; [reflexivity|]. split; [reflexivity|]. split; [reflexivity|]. destruct v as [i|]; [|reflexivity].
  destruct (call _ _ _) as [[[? ?] ?]| | |]; reflexivity.
Qed.
Lemma fun_separate os o z : (o = MkStatic z \/ exists a m, o = MkMember a m \/ exists n k, o = MkFunctor n k) -> forall y, (y < count os)%nat ->
  ask (os ++ [o]) (Equal (count os) y) = Truth false.
Proof.
  intros O y Y. rewrite ask_snoc. unfold ask. destruct (get_var os y Y) as (v & E). destruct (run_sim os _ _ _ sim_init) as (pl & R & _). unfold count in *. set (s := fst (run init os)) in *.
  assert (A : exists c, fst (step s o) = fresh s c). { destruct O as [->|(a & m & [->|(n & k & ->)])]; eexists; reflexivity. }
  destruct A as [c A]. rewrite A. unfold fresh. cbn [step vars]. rewrite at_end, (snoc_old _ _ _ _ E). cbn [snd same_ptr]. f_equal. destruct v as [i|]; [|reflexivity].
  pose proof (sim_vars _ _ _ R _ _ E). lia.
Qed.
Lemma fun_convert os y : (y < count os)%nat -> let x := count os in let os' := os ++ [MkConvert y] in
  ask os' (Bool x) = ask os (Bool y) /\ ask os' (Call x) = ask os (Call y) /\
  forall z, (z < count os)%nat -> ask os' (Equal x z) = Truth true <-> ask os (Bool y) = Truth false /\ ask os (Bool z) = Truth false.
Proof.
  intros Y x os'. unfold os'. destruct (run_sim os _ _ _ sim_init) as (pl & R & _). destruct (step_sim _ _ _ (MkConvert y) R) as (pl' & R' & _).
  destruct (get_var os y Y) as (v & E). rewrite !ask_snoc. unfold x, count in *. clear x os'.
  split; [|split].
  - unfold ask. set (s := fst (run init os)) in *. cbn [step]. rewrite E. destruct v as [i|]; unfold fresh; cbn [fst vars]; rewrite at_end; reflexivity.
  - unfold ask. set (s := fst (run init os)) in *. set (t := fst (srun sinit os)) in *. assert (Q : snd (step s (Call y)) = snd (sstep t (Call y))) by (destruct (step_sim _ _ _ (Call y) R) as (? & _ & Q); exact Q).
    rewrite Q. destruct (step_sim _ _ _ (Call (length (vars s))) R') as (? & _ & Q'). rewrite Q'. clear Q Q'.
    assert (LF : length (funcs t) = length (vars s)) by (rewrite (sim_funcs _ _ _ R); apply map_length).
    cbn [sstep]. rewrite (sim_get _ _ _ _ R), E. cbn [option_map]. destruct v as [i|].
    + destruct (sim_some _ _ _ _ _ R E) as (p & P & T). rewrite T. cbn [fst new funcs]. rewrite <- LF, at_end. destruct p; reflexivity.
    + cbn [tag fst funcs]. rewrite <- LF, at_end. reflexivity.
  - intros z Z. rewrite ask_snoc. unfold ask. destruct (get_var os z Z) as (w & Ez). set (s := fst (run init os)) in *. cbn [step]. rewrite E, Ez. cbn [snd].
    destruct v as [i|]; unfold fresh; cbn [fst vars]; rewrite at_end, (snoc_old _ _ _ _ Ez); cbn [snd].
    + split; [|intros [H _]; discriminate H]. destruct w as [j|]; cbn [same_ptr]; [|discriminate]. pose proof (sim_vars _ _ _ R _ _ Ez) as L. replace (length (heap s) =? j)%nat with false by lia. discriminate.
    + destruct w as [j|]; cbn [same_ptr]; split; try discriminate; auto. intros [_ H]; discriminate H.
Qed.
