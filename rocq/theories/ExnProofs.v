(* Proofs about ExnModel. *)
From Verif Require Import Base BaseFacts TupModel TupSpec NulModel NulSpec NulProofs TupProofs ExnModel ExnSpec.

Section proofs.
  Context {V : Type} (ca ma : bool) (cmpv : V -> V -> ord) (eqv : V -> V -> bool).
  Lemma init_of w (s : @env V) x a : sim w s -> nth_error s x = Some (Some a) ->
    is_init w x = Ok (match a with Some _ => true | None => false end).
  Proof. intros S H. unfold is_init, var. rewrite (s_v _ _ S), H. destruct a; reflexivity. Qed.
  (* a failed assignment does what Reset or a successful assignment does *)
  Lemma set_throws_ok mv w (s : @env V) x a v : sim w s -> nth_error s x = Some (Some a) ->
    exists w', set_throws ca ma mv w x v = Ok w' /\ sim w' (upd s x (Some (failed ca ma mv a v))).
  Proof.
    intros S H. unfold set_throws. rewrite (init_of w s x a S H). cbn [bind].
    assert (R0 : exists w', reset w x = Ok w' /\ sim w' (upd s x (Some None))).
    { destruct (nstep_ok ca ma cmpv eqv w s (NReset x) S) as (w' & R & S'); [exists a; exact H|].
      cbn [nstep] in R. destruct (reset w x) as [w1| | |]; cbn [bind] in R; try discriminate. injection R as ->. eauto. }
    destruct a as [u|]; [|rewrite andb_false_r; exact R0]. rewrite andb_true_r. cbn [failed].
    set (b := if mv then ma else ca). destruct b; [|exact R0].
    destruct (nstep_ok true ma cmpv eqv w s (NSet x v) S) as (w' & R & S'); [exists (Some u); exact H|].
    cbn [nstep] in R. unfold set_value in R. rewrite (init_of w s x _ S H) in R. cbn [bind andb] in R.
    destruct (assign w x v) as [w1| | |]; cbn [bind] in R; try discriminate. injection R as ->. eauto.
  Qed.
  Lemma xnstep_ok w (s : @env V) o : sim w s -> xnlegal ca s o ->
    exists w', xnstep ca ma cmpv eqv w o = Ok (w', snd (xnspec ca ma cmpv eqv s o)) /\ sim w' (fst (xnspec ca ma cmpv eqv s o)).
  Proof.
    intros S L. destruct o as [o|x|mv x v|mv x y v]; cbn [xnlegal xnspec xnstep] in *.
    - destruct (nstep_ok ca ma cmpv eqv w s o S L) as (w' & R & S'). rewrite R. cbn [bind fst snd]. eauto.
    - unfold fresh. rewrite (s_v _ _ S), L. cbn [option_map bind fst snd]. eauto.
    - destruct L as (a & H). rewrite H. destruct (set_throws_ok mv w s x a v S H) as (w' & R & S'). rewrite R. cbn [bind fst snd]. eauto.
    - destruct L as ((a & H) & (b & Hy)). rewrite H, Hy, (init_of w s y b S Hy). cbn [bind]. destruct b as [u|]; cbn [negb].
      + destruct (Nat.eqb x y) eqn:E; cbn [fst snd]; [eauto|].
        destruct (set_throws_ok mv w s x a v S H) as (w' & R & S'). rewrite R. cbn [bind]. eauto.
      + destruct (nstep_ok ca ma cmpv eqv w s (NReset x) S) as (w' & R & S'); [exists a; exact H|].
        cbn [nstep] in R. destruct (reset w x) as [w1| | |]; cbn [bind] in R; try discriminate. injection R as ->. cbn [bind fst snd]. eauto.
  Qed.
  Lemma xnrun_ok ops : forall w (s : @env V), sim w s -> xnlegals ca ma cmpv eqv s ops ->
    exists w', xnrun ca ma cmpv eqv w ops = Ok (w', snd (xnspecs ca ma cmpv eqv s ops)) /\ sim w' (fst (xnspecs ca ma cmpv eqv s ops)).
  Proof.
    induction ops as [|o ops IH]; intros w s S L; [exists w; auto|]. destruct L as [L1 L2].
    destruct (xnstep_ok w s o S L1) as (w1 & R1 & S1). cbn [xnrun xnspecs]. rewrite R1. cbn [bind].
    destruct (xnspec ca ma cmpv eqv s o) as [s1 x] eqn:E. cbn [fst snd] in *. destruct (IH w1 s1 S1 L2) as (w2 & R2 & S2).
    rewrite R2. cbn [bind]. destruct (xnspecs ca ma cmpv eqv s1 ops) as [s2 xs]. cbn [fst snd] in *. eauto.
  Qed.
  Lemma exn_history n (ops : list (xnop V)) : xnlegals ca ma cmpv eqv (repeat None n) ops ->
    exists w, xnrun ca ma cmpv eqv (ninit n) ops = Ok (w, snd (xnspecs ca ma cmpv eqv (repeat None n) ops)) /\
      forall x, alternates x (lives w) (alive (fst (xnspecs ca ma cmpv eqv (repeat None n) ops)) x).
  Proof. intros L. destruct (xnrun_ok ops _ _ (ninit_sim n) L) as (w & R & S). exists w. split; [exact R|]. apply S. Qed.
End proofs.
Definition xn_demo : list (xnop Z) := [NPlain (NValue 0 7%Z); NNewThrows 1; NPlain (NNew 1); NSetThrows false 0 8%Z; NPlain (NGet 0); NSetThrows true 0 9%Z; NPlain (NGet 0);
  NSetThrows false 1 3%Z; NPlain (NBool 1); NAssignThrows false 0 1 4%Z; NPlain (NDrop 0)].
Lemma xn_demo_ok : xnlegals true false zcmp Z.eqb (repeat None 2) xn_demo /\
  snd (xnspecs true false zcmp Z.eqb (repeat None 2) xn_demo) =
    [NRet NUnit; NThrown; NRet NUnit; NThrown; NRet (NV 8%Z); NThrown; NRet NRaised; NThrown; NRet (NB false); NRet NUnit; NRet NUnit].
Proof. split; [|reflexivity]. unfold xn_demo. cbn. unfold gone, here. cbn. repeat split; eauto. Qed.
Lemma xn_strong : exists ops : list (xnop Z), xnlegals false false zcmp Z.eqb (repeat None 1) (ops ++ [NSetThrows true 0 1%Z]) /\
  fst (xnspecs false false zcmp Z.eqb (repeat None 1) ops) = [Some (Some 7%Z)] /\
  fst (xnspecs false false zcmp Z.eqb (repeat None 1) (ops ++ [NSetThrows true 0 1%Z])) = [Some None].
Proof. exists [NPlain (NValue 0 7%Z)]. split; [cbn; unfold gone, here; cbn; repeat split; eauto|]. split; reflexivity. Qed.
