From Coq Require Import ZifyBool ZifyNat.
From Verif Require Import Base BaseFacts VarModel VarSpec.

Lemma nth_upd {A} (l : list A) n m x : nth_error (upd l n x) m =
  if Nat.eqb n m then (if Nat.ltb m (length l) then Some x else None) else nth_error l m.
Proof.
  destruct (Nat.eqb_spec n m) as [->|N]; [|now apply upd_other].
  destruct (Nat.ltb_spec m (length l)); [now apply upd_same|]. apply nth_error_None. rewrite upd_length. auto.
Qed.
Section proofs.
  Context {V : Type} (alts : list alt) (moved : nat -> V -> V).
  Lemma any_hit (f : alt -> bool) act l : forall I idx a, nth_error l idx = Some a ->
    any (V := V) f I l (I + idx) act = if f a then do w <- act (I + idx); Ok (Some w) else Ok None.
  Proof.
    assert (forall l I idx, idx < I -> any (V := V) f I l idx act = Ok None) as Z.
    { clear l. induction l as [|b l IH]; intros I idx H; cbn [any]; [reflexivity|]. rewrite (proj2 (Nat.eqb_neq I idx)) by lia. rewrite andb_false_r. apply IH. lia. }
    induction l as [|b l IH]; intros I idx a H; [destruct idx; discriminate|]. cbn [any]. destruct idx as [|idx]; cbn [nth_error] in H.
    - inversion H; subst. rewrite Nat.add_0_r, Nat.eqb_refl, andb_true_r. destruct (f a); [reflexivity|]. apply Z. lia.
    - rewrite (proj2 (Nat.eqb_neq I (I + S idx))) by lia. rewrite andb_false_r. replace (I + S idx) with (S I + idx) by lia. now apply IH.
  Qed.
  Lemma any_ok (f : alt -> bool) act i : i < length alts -> any (V := V) f 0 alts i act = if able alts f i then do w <- act i; Ok (Some w) else Ok None.
  Proof.
    intros H. unfold able. destruct (nth_error alts i) as [a|] eqn:E; [|apply nth_error_None in E; lia].
    exact (any_hit f act alts 0 i a E).
  Qed.
  Lemma able_true i : i < length alts -> able alts (fun _ => true) i = true.
  Proof. intros H. unfold able. destruct (nth_error alts i) eqn:E; [reflexivity|]. apply nth_error_None in E. lia. Qed.
  Lemma any_apply_ok w x i : i < length alts -> any_apply (V := V) 0 alts i w x = do v <- object w x i; Ok (Some (i, v)).
  Proof.
    assert (forall l I, I <= i < I + length l -> any_apply (V := V) I l i w x = do v <- object w x i; Ok (Some (i, v))) as K.
    { induction l as [|a l IH]; intros I H; cbn [length] in H; [lia|]. cbn [any_apply]. destruct (Nat.eqb_spec I i) as [->|N]; [reflexivity|]. apply IH. lia. }
    intros H. apply K. lia.
  Qed.
  Definition enc (a : nat * V) : variant V := mkV (fst a) (Live (fst a) (snd a)).
  Record sim (w : vworld V) (s : env) : Prop := mkSim {
    s_v : forall x, nth_error (vars w) x = option_map (option_map enc) (nth_error s x);
    s_i : forall x i v, nth_error s x = Some (Some (i, v)) -> i < length alts;
    s_l : forall x, alternates x (lives w) (alternative s x) }.
  Lemma sim_len w s : sim w s -> length (vars w) = length s.
  Proof.
    intros [H _ _]. destruct (Nat.lt_trichotomy (length (vars w)) (length s)) as [L|[L|L]]; auto; exfalso.
    - assert (nth_error (vars w) (length (vars w)) = None) as N by (apply nth_error_None; lia). rewrite H in N.
      destruct (nth_error s (length (vars w))) eqn:E; [discriminate|]. apply nth_error_None in E. lia.
    - assert (nth_error s (length s) = None) as N by (apply nth_error_None; lia). pose proof (H (length s)) as E. rewrite N in E. apply nth_error_None in E. lia.
  Qed.
  Ltac known := repeat match goal with
    | H : here _ ?x |- _ => let i := fresh "i" in let v := fresh "v" in let E := fresh "E" in destruct H as [[i v] E]
    | H : gone _ _ |- _ => unfold gone in H
    | H : holds _ _ _ |- _ => let v := fresh "v" in let E := fresh "E" in destruct H as [v E]
    end.
  Ltac rw := repeat (first
    [ rewrite nth_upd | rewrite upd_length | rewrite Nat.eqb_refl
    | match goal with H : nth_error ?s ?x = _ |- context [nth_error ?s ?x] => rewrite H end
    | match goal with H : Nat.eqb ?a ?b = _ |- context [Nat.eqb ?a ?b] => rewrite H end
    | match goal with H : able ?a ?b ?c = _ |- context [able ?a ?b ?c] => rewrite H end
    | match goal with H : Nat.ltb ?a ?b = _ |- context [Nat.ltb ?a ?b] => rewrite H end ]).
  Ltac look S := repeat (first
    [ rewrite (s_v _ _ S)
    | progress rw
    | rewrite any_ok by assumption | rewrite able_true by assumption | rewrite any_apply_ok by assumption
    | progress cbn [bind vars lives put index buffer enc option_map andb negb fst snd]
    | progress unfold new_from, assign_variant, VarModel.set_value, VarModel.try_get, dtor, ctor_from, assign_from, by_copy, by_move,
        VarModel.destroy, VarModel.construct, VarModel.assign, VarModel.object, VarModel.fresh, VarModel.set_index, VarModel.var, VarModel.put ]).
  Ltac lens S := repeat match goal with
    | H : nth_error ?s ?x = Some ?a |- _ =>
        lazymatch goal with
        | _ : Nat.ltb x (length (vars _)) = true |- _ => fail
        | _ => let L := fresh "L" in
               match type of S with sim ?w ?s' => assert (Nat.ltb x (length (vars w)) = true) as L
                 by (rewrite (sim_len _ _ S); apply Nat.ltb_lt; eapply nth_error_lt; exact H) end
        end
    end.
  Ltac idx S := repeat match goal with
    | H : nth_error ?s ?x = Some (Some (?i, ?v)) |- _ =>
        lazymatch goal with _ : i < length alts |- _ => fail | _ => pose proof (s_i _ _ S _ _ _ H) end
    end.
  Ltac fin S := constructor; cbn [vars lives fst snd];
    [ intros z; rewrite ?nth_upd, ?upd_length, <- ?(sim_len _ _ S);
      repeat match goal with |- context [Nat.eqb ?a z] => destruct (Nat.eqb_spec a z); try subst z end;
      repeat match goal with H : Nat.ltb ?a ?b = _ |- context [Nat.ltb ?a ?b] => rewrite H end;
      rewrite ?(s_v _ _ S); repeat match goal with H : nth_error ?s ?x = _ |- context [nth_error ?s ?x] => rewrite H end;
      repeat match goal with |- context [Nat.eqb ?a ?b] => destruct (Nat.eqb_spec a b); subst end; try reflexivity; try congruence
    | intros z iz vz; rewrite ?nth_upd, ?upd_length, <- ?(sim_len _ _ S);
      repeat match goal with |- context [Nat.eqb ?a z] => destruct (Nat.eqb_spec a z); try subst z end;
      repeat match goal with H : Nat.ltb ?a ?b = _ |- context [Nat.ltb ?a ?b] => rewrite H end;
      rewrite ?Nat.eqb_refl; repeat match goal with |- context [Nat.eqb ?a ?b] => destruct (Nat.eqb_spec a b); subst end;
      try (let Q := fresh in intros Q; inversion Q; subst; eauto using (s_i _ _ S); fail); try discriminate; eauto using (s_i _ _ S)
    | intros z; pose proof (s_l _ _ S z) as ALT; unfold alternative in *; cbn [alternates] in *; rewrite ?nth_upd, ?upd_length, <- ?(sim_len _ _ S);
      repeat match goal with |- context [Nat.eqb z ?a] => rewrite (Nat.eqb_sym z a) end;
      repeat match goal with |- context [Nat.eqb ?a z] => destruct (Nat.eqb_spec a z); try subst z end;
      repeat match goal with H : Nat.ltb ?a ?b = _ |- context [Nat.ltb ?a ?b] => rewrite H end;
      repeat match goal with H : nth_error ?s ?x = _ |- context [nth_error ?s ?x] => rewrite H end;
      repeat match goal with H : nth_error ?s ?x = _, K : context [nth_error ?s ?x] |- _ => rewrite H in K end;
      cbn [alternates] in *; rewrite ?Nat.eqb_refl in *;
      repeat match goal with H : Nat.eqb ?a ?b = _ |- context [Nat.eqb ?a ?b] => rewrite H end; try congruence; auto; try tauto ].
  Ltac run S := eexists; split; [cbn [vstep]; look S; reflexivity|]; cbn [andb negb fst snd]; rewrite ?andb_false_l; first [exact S|fin S].
  Lemma vstep_ok w s o : sim w s -> vlegal alts s o ->
    exists w', vstep alts moved w o = Ok (w', snd (vspec alts moved s o)) /\ sim w' (fst (vspec alts moved s o)).
  Proof.
    intros S L. destruct o; cbn [vlegal vspec fst snd] in *; repeat match goal with H : _ /\ _ |- _ => destruct H end; known; lens S; idx S.
    - run S.
    - assert (x <> y) as N by (intros ->; congruence). assert (Nat.eqb y x = false) as N2 by (apply Nat.eqb_neq; congruence). apply Nat.eqb_neq in N.
      rewrite E. destruct (able alts copyable i) eqn:A; run S.
    - assert (x <> y) as N by (intros ->; congruence). assert (Nat.eqb y x = false) as N2 by (apply Nat.eqb_neq; congruence). apply Nat.eqb_neq in N.
      rewrite E. destruct (able alts movable i) eqn:A; run S.
    - run S.
    - rewrite E, E0. destruct (Nat.eqb x y) eqn:N.
      + run S.
      + assert (Nat.eqb y x = false) as N2 by (rewrite Nat.eqb_sym; exact N).
        destruct (Nat.eqb_spec i i0) as [->|Ni].
        * destruct (able alts assignable i0) eqn:A; run S.
        * assert (Nat.eqb i i0 = false) as N3 by (apply Nat.eqb_neq; congruence). assert (Nat.eqb i0 i = false) as N4 by (apply Nat.eqb_neq; congruence).
          match goal with H : forall _ _, _ |- _ => assert (able alts copyable i = true) as A by (eapply H; [eexists; eassumption|eexists; eassumption|congruence]) end.
          run S.
    - rewrite E, E0. destruct (Nat.eqb x y) eqn:N.
      + run S.
      + assert (Nat.eqb y x = false) as N2 by (rewrite Nat.eqb_sym; exact N).
        destruct (Nat.eqb_spec i i0) as [->|Ni].
        * destruct (able alts movable i0) eqn:A; run S.
        * assert (Nat.eqb i i0 = false) as N3 by (apply Nat.eqb_neq; congruence). assert (Nat.eqb i0 i = false) as N4 by (apply Nat.eqb_neq; congruence).
          match goal with H : forall _ _, _ |- _ => assert (able alts movable i = true) as A by (eapply H; [eexists; eassumption|eexists; eassumption|congruence]) end.
          run S.
    - destruct (Nat.eqb i0 i) eqn:N.
      + apply Nat.eqb_eq in N. subst. run S.
      + assert (Nat.eqb i i0 = false) as N2 by (rewrite Nat.eqb_sym; exact N). run S.
    - rewrite E. destruct (Nat.eqb i i0) eqn:N.
      + apply Nat.eqb_eq in N. subst i0. destruct (Nat.eqb x y) eqn:Nx.
        * apply Nat.eqb_eq in Nx. subst y. run S.
        * assert (Nat.eqb y x = false) as N2 by (rewrite Nat.eqb_sym; exact Nx). destruct (Nat.eqb i1 i) eqn:N3.
          -- apply Nat.eqb_eq in N3. subst i1. run S.
          -- assert (Nat.eqb i i1 = false) as N4 by (rewrite Nat.eqb_sym; exact N3). run S.
      + assert (Nat.eqb i0 i = false) as N2 by (rewrite Nat.eqb_sym; exact N). run S.
    - run S.
    - rewrite E. run S.
    - rewrite E. destruct (Nat.eqb i i0) eqn:N; assert (Nat.eqb i0 i = Nat.eqb i i0) as N2 by apply Nat.eqb_sym; rewrite N in N2; run S.
    - rewrite E. destruct (Nat.eqb i i0) eqn:N; assert (Nat.eqb i0 i = Nat.eqb i i0) as N2 by apply Nat.eqb_sym; rewrite N in N2; run S.
    - rewrite E. run S.
    - rewrite E. run S.
  Qed.
  Lemma vrun_ok ops : forall w s, sim w s -> vlegals alts moved s ops ->
    exists w', vrun alts moved w ops = Ok (w', snd (vspecs alts moved s ops)) /\ sim w' (fst (vspecs alts moved s ops)).
  Proof.
    induction ops as [|o ops IH]; intros w s S L; [exists w; auto|]. destruct L as [L1 L2].
    destruct (vstep_ok w s o S L1) as (w1 & R1 & S1). cbn [vrun vspecs]. rewrite R1. cbn [bind].
    destruct (vspec alts moved s o) as [s1 x]. cbn [fst snd] in *. destruct (IH w1 s1 S1 L2) as (w2 & R2 & S2). rewrite R2. cbn [bind].
    destruct (vspecs alts moved s1 ops) as [s2 xs]. exists w2. auto.
  Qed.
  Lemma vinit_sim n : sim (vinit n) (repeat None n).
  Proof.
    constructor; cbn [vinit vars lives].
    - intros x. destruct (Nat.lt_ge_cases x n); [rewrite !nth_error_repeat by auto; reflexivity|].
      rewrite !(proj2 (nth_error_None _ _)); [reflexivity|rewrite repeat_length..]; auto.
    - intros x i v E. apply nth_error_In, repeat_spec in E. discriminate.
    - intros x. cbn [alternates]. unfold alternative. destruct (nth_error (repeat None n) x) as [a|] eqn:E; [|reflexivity].
      apply nth_error_In, repeat_spec in E. now subst.
  Qed.
  Lemma var_history n ops : vlegals alts moved (repeat None n) ops ->
    exists w, vrun alts moved (vinit n) ops = Ok (w, snd (vspecs alts moved (repeat None n) ops)) /\
      (forall x, nth_error (vars w) x = option_map (option_map (fun a => mkV (fst a) (Live (fst a) (snd a)))) (nth_error (fst (vspecs alts moved (repeat None n) ops)) x)) /\
      forall x, alternates x (lives w) (alternative (fst (vspecs alts moved (repeat None n) ops)) x).
  Proof. intros L. destruct (vrun_ok ops _ _ (vinit_sim n) L) as (w & R & S). exists w. split; [exact R|]. split; apply S. Qed.
End proofs.
(* alternatives: one that can do everything, one that can be moved only *)
Definition two : list alt := [mkAlt true true true; mkAlt false true false].
Lemma var_noncopyable : exists w xs, vrun two (fun _ v => v) (vinit 2) [VNew 0 0 5%Z; VNew 1 1 6%Z; VAssign 0 1] = Ok (w, xs) /\
  xs = [VUnit; VUnit; VRaised] /\ nth_error (vars w) 0 = Some (Some (mkV 1 Raw)) /\
  vstep two (fun _ v => v) w (VGet 0 1) = UB /\ vstep two (fun _ v => v) w (VDrop 0) = UB.
Proof. eexists. eexists. split; [reflexivity|]. repeat split; reflexivity. Qed.
Lemma var_part {V} (moved : nat -> V -> V) u v : vrun two moved (vinit 1) [VNew 0 0 u; VSetPart 0 1 v] = UB.
Proof. reflexivity. Qed.
Definition demo : list (vop Z) := [VNew 0 0 5%Z; VNew 1 1 6%Z; VIndex 1; VCopy 2 1; VMoveAssign 0 1; VIndex 0; VGet 0 1; VGet 0 0; VTryGet 0 0;
  VApply 0; VTryApply 0 (fun i => Nat.eqb i 0); VAssign 0 1; VSet 1 0 8%Z; VAssign 1 1; VCopy 2 1; VSetFrom 2 1 0; VSetPart 2 0 9%Z; VApply 2; VDrop 0; VDrop 1; VDrop 2].
