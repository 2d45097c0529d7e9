From Coq Require Import ZifyBool ZifyNat.
From Verif Require Import Base BaseFacts TupModel TupSpec TupProofs NulModel NulSpec.

Lemma nth_upd {A} (l : list A) n m x : nth_error (upd l n x) m =
  if Nat.eqb n m then (if Nat.ltb m (length l) then Some x else None) else nth_error l m.
Proof.
  destruct (Nat.eqb_spec n m) as [->|N]; [|now apply upd_other].
  destruct (Nat.ltb_spec m (length l)); [now apply upd_same|]. apply nth_error_None. rewrite upd_length. auto.
Qed.
Section proofs.
  Context {V : Type} (ca ma : bool) (cmpv : V -> V -> ord) (eqv : V -> V -> bool).
  Definition enc (a : option V) : nullable V := match a with Some v => mkN (Live v) true | None => mkN Raw false end.
  Record sim (w : nworld V) (s : env) : Prop := mkSim {
    s_v : forall x, nth_error (vars w) x = option_map (option_map enc) (nth_error s x);
    s_l : forall x, alternates x (lives w) (alive s x) }.
  Lemma sim_len w s : sim w s -> length (vars w) = length s.
  Proof.
    intros [H _]. destruct (Nat.lt_trichotomy (length (vars w)) (length s)) as [L|[L|L]]; auto; exfalso.
    - assert (nth_error (vars w) (length (vars w)) = None) as N by (apply nth_error_None; lia). rewrite H in N.
      destruct (nth_error s (length (vars w))) eqn:E; [discriminate|]. apply nth_error_None in E. lia.
    - assert (nth_error s (length s) = None) as N by (apply nth_error_None; lia). pose proof (H (length s)) as E. rewrite N in E. apply nth_error_None in E. lia.
  Qed.
  Ltac known := repeat match goal with
    | H : here _ ?x |- _ => let a := fresh "a" in let E := fresh "E" in destruct H as [a E]
    | H : gone _ _ |- _ => unfold gone in H
    end.
  Ltac look S := repeat (first
    [ rewrite (s_v _ _ S) | rewrite nth_upd | rewrite upd_length | rewrite Nat.eqb_refl
    | match goal with H : nth_error ?s ?x = _ |- context [nth_error ?s ?x] => rewrite H end
    | match goal with H : Nat.eqb ?a ?b = _ |- context [Nat.eqb ?a ?b] => rewrite H end
    | match goal with H : Nat.ltb ?a ?b = _ |- context [Nat.ltb ?a ?b] => rewrite H end
    | progress cbn [bind vars lives var put object initialized enc option_map andb negb] 
    | progress unfold NulModel.reset, NulModel.destroy, NulModel.construct, NulModel.assign, NulModel.value, NulModel.take,
        NulModel.set_init, NulModel.is_init, NulModel.fresh, NulModel.set_value, NulModel.var, NulModel.put ]).
  Ltac lens S := repeat match goal with
    | H : nth_error ?s ?x = Some ?a |- _ =>
        lazymatch goal with
        | _ : Nat.ltb x (length (vars _)) = true |- _ => fail
        | _ => let L := fresh "L" in
               match type of S with sim ?w ?s' => assert (Nat.ltb x (length (vars w)) = true) as L
                 by (rewrite (sim_len _ _ S); apply Nat.ltb_lt; eapply nth_error_lt; exact H) end
        end
    end.
  Ltac fin S := constructor; cbn [vars lives fst snd];
    [ intros z; rewrite ?nth_upd, ?upd_length, <- ?(sim_len _ _ S);
      repeat match goal with |- context [Nat.eqb ?a z] => destruct (Nat.eqb_spec a z); try subst z end;
      repeat match goal with H : Nat.ltb ?a ?b = _ |- context [Nat.ltb ?a ?b] => rewrite H end;
      rewrite ?(s_v _ _ S); repeat match goal with H : nth_error ?s ?x = _ |- context [nth_error ?s ?x] => rewrite H end; repeat match goal with |- context [Nat.eqb ?a ?b] => destruct (Nat.eqb_spec a b); subst end; try reflexivity; try congruence
    | intros z; pose proof (s_l _ _ S z) as ALT; unfold alive in *; cbn [alternates] in *; rewrite ?nth_upd, ?upd_length, <- ?(sim_len _ _ S);
      repeat match goal with |- context [Nat.eqb z ?a] => rewrite (Nat.eqb_sym z a) end;
      repeat match goal with |- context [Nat.eqb ?a z] => destruct (Nat.eqb_spec a z); try subst z end;
      repeat match goal with H : Nat.ltb ?a ?b = _ |- context [Nat.ltb ?a ?b] => rewrite H end;
      repeat match goal with H : nth_error ?s ?x = _ |- context [nth_error ?s ?x] => rewrite H end;
      repeat match goal with H : nth_error ?s ?x = _, K : context [nth_error ?s ?x] |- _ => rewrite H in K end;
      cbn [alternates] in *; rewrite ?Nat.eqb_refl in *; repeat match goal with H : Nat.eqb ?a ?b = _ |- context [Nat.eqb ?a ?b] => rewrite H end; try congruence; auto; try tauto ].
  Lemma nstep_ok w s o : sim w s -> nlegal ca s o ->
    exists w', nstep ca ma cmpv eqv w o = Ok (w', snd (nspec cmpv eqv s o)) /\ sim w' (fst (nspec cmpv eqv s o)).
  Proof.
    intros S L. destruct o; cbn [nlegal nspec fst snd] in *; repeat match goal with H : _ /\ _ |- _ => destruct H end; known; lens S.
    - eexists; split; [cbn [nstep]; look S; reflexivity|]. fin S.
    - eexists; split; [cbn [nstep]; look S; reflexivity|]. fin S.
    - assert (x <> y) as N by (intros ->; congruence). apply Nat.eqb_neq in N.
      destruct a as [v|]; (eexists; split; [cbn [nstep]; look S; reflexivity|]; first [exact S|look S; fin S]).
    - assert (x <> y) as N by (intros ->; congruence). assert (Nat.eqb y x = false) as N2 by (apply Nat.eqb_neq; congruence). apply Nat.eqb_neq in N.
      destruct a as [v|]; (eexists; split; [cbn [nstep]; look S; reflexivity|]; first [exact S|look S; fin S]).
    - destruct a as [v|]; (eexists; split; [cbn [nstep]; look S; reflexivity|]; first [exact S|look S; fin S]).
    - destruct a as [v|]; (eexists; split; [cbn [nstep]; look S; reflexivity|]; first [exact S|look S; fin S]).
    - destruct a as [v0|]; destruct ca eqn:Eca; (eexists; split; [cbn [nstep]; look S; reflexivity|]; first [exact S|look S; fin S]).
    - destruct a as [v0|]; destruct ma eqn:Ema; (eexists; split; [cbn [nstep]; look S; reflexivity|]; first [exact S|look S; fin S]).
    - destruct (Nat.eqb_spec x y) as [->|N].
      + assert (a = a0) as <- by congruence.
        match goal with H : _ \/ _ |- _ => destruct H as [Hca|]; [|congruence] end. rewrite Hca.
        destruct a as [v|]; (eexists; split; [cbn [nstep]; look S; reflexivity|]; first [exact S|look S; fin S]).
      + assert (Nat.eqb y x = false) as N2 by (apply Nat.eqb_neq; congruence). apply Nat.eqb_neq in N.
        destruct ca eqn:Eca, a as [v|], a0 as [v0|]; (eexists; split; [cbn [nstep]; look S; reflexivity|]; first [exact S|look S; fin S]).
    - destruct (Nat.eqb_spec x y) as [->|N].
      + assert (a = a0) as <- by congruence.
        destruct a as [v|]; (eexists; split; [cbn [nstep]; look S; reflexivity|]; first [exact S|look S; fin S]).
      + assert (Nat.eqb y x = false) as N2 by (apply Nat.eqb_neq; congruence). apply Nat.eqb_neq in N.
        destruct ca eqn:Eca, a as [v|], a0 as [v0|]; (eexists; split; [cbn [nstep]; look S; reflexivity|]; first [exact S|look S; fin S]).
    - destruct (Nat.eqb_spec x y) as [->|N].
      + assert (a = a0) as <- by congruence.
        destruct a as [v|]; (eexists; split; [cbn [nstep]; look S; reflexivity|]; first [exact S|look S; fin S]).
      + assert (Nat.eqb y x = false) as N2 by (apply Nat.eqb_neq; congruence). apply Nat.eqb_neq in N.
        destruct ma eqn:Ema, a as [v|], a0 as [v0|]; (eexists; split; [cbn [nstep]; look S; reflexivity|]; first [exact S|look S; fin S]).
    - destruct a as [v|]; (eexists; split; [cbn [nstep]; look S; reflexivity|]; exact S).
    - destruct a as [v|]; (eexists; split; [cbn [nstep]; look S; reflexivity|]; exact S).
    - destruct a as [v|], a0 as [v0|]; (eexists; split; [cbn [nstep]; look S; reflexivity|]; exact S).
    - destruct a as [v|], a0 as [v0|]; (eexists; split; [cbn [nstep]; look S; reflexivity|]; exact S).
  Qed.
  Lemma nrun_ok ops : forall w s, sim w s -> nlegals ca cmpv eqv s ops ->
    exists w', nrun ca ma cmpv eqv w ops = Ok (w', snd (nspecs cmpv eqv s ops)) /\ sim w' (fst (nspecs cmpv eqv s ops)).
  Proof.
    induction ops as [|o ops IH]; intros w s S L; [exists w; auto|]. destruct L as [L1 L2].
    destruct (nstep_ok w s o S L1) as (w1 & R1 & S1). cbn [nrun nspecs]. rewrite R1. cbn [bind].
    destruct (nspec cmpv eqv s o) as [s1 x]. cbn [fst snd] in *. destruct (IH w1 s1 S1 L2) as (w2 & R2 & S2). rewrite R2. cbn [bind].
    destruct (nspecs cmpv eqv s1 ops) as [s2 xs]. exists w2. auto.
  Qed.
  Lemma ninit_sim n : sim (ninit n) (repeat None n).
  Proof.
    constructor; cbn [ninit vars lives].
    - intros x. destruct (Nat.lt_ge_cases x n); [rewrite !nth_error_repeat by auto; reflexivity|].
      rewrite !(proj2 (nth_error_None _ _)); [reflexivity|rewrite repeat_length..]; auto.
    - intros x. cbn [alternates]. unfold alive. destruct (nth_error (repeat None n) x) as [a|] eqn:E; [|reflexivity].
      apply nth_error_In, repeat_spec in E. now subst.
  Qed.
  Lemma nul_history n ops : nlegals ca cmpv eqv (repeat None n) ops ->
    exists w, nrun ca ma cmpv eqv (ninit n) ops = Ok (w, snd (nspecs cmpv eqv (repeat None n) ops)) /\
      forall x, alternates x (lives w) (alive (fst (nspecs cmpv eqv (repeat None n) ops)) x).
  Proof. intros L. destruct (nrun_ok ops _ _ (ninit_sim n) L) as (w & R & S). exists w. split; [exact R|]. apply S. Qed.
End proofs.
Lemma ocmp_total {V} (c : V -> V -> ord) : total_order c -> total_order (ocmp c).
Proof.
  intros T. constructor; [constructor|..].
  - intros [a|] [b|]; cbn; auto. apply (po_flip _ (to_partial _ T)).
  - intros [x|] [y|] [z|]; cbn; auto; try discriminate. apply (po_less _ (to_partial _ T)).
  - intros [x|] [y|] [z|]; cbn; auto; try discriminate. apply (po_equal _ (to_partial _ T)).
  - intros [a|]; cbn; auto. apply (to_refl _ T).
  - intros [a|] [b|]; cbn; try discriminate. apply (to_total _ T).
Qed.
Lemma ocmp_least {V} (c : V -> V -> ord) v : ocmp c None (Some v) = Less /\ ocmp c (Some v) None = Greater /\ ocmp c None None = Equal.
Proof. repeat split. Qed.
Lemma nul_self {V} (ma : bool) cmpv eqv (v : V) :
  nrun false ma cmpv eqv (ninit 1) [NValue 0 v; NSetFrom 0 0] = UB.
Proof. reflexivity. Qed.
Definition demo : list (nop Z) := [NValue 0 7%Z; NNew 1; NCompare 1 0; NMoveAssign 1 0; NBool 0; NGet 1; NGet 0; NCopy 2 1; NSet 2 9%Z; NCompare 1 2;
  NAssign 1 0; NEqual 0 1; NDrop 2; NMove 2 1; NSetFrom 2 2; NReset 2; NDrop 0; NDrop 1; NDrop 2].
