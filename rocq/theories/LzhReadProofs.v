From Coq Require Import Wf_nat.
From Verif Require Import Base BaseFacts SrtSpec LzyModel LzySpec LzyProofs LzhModel LzhSpec LzhProofs LzhReadSpec.
Open Scope Z_scope.

(* ---- a tree and an enumerator in the same state --------------------------------------------- *)
Inductive twin : tree -> enum Z -> Prop :=
| tw_empty : twin (Tree KEmpty Nil Nil) EEmpty
| tw_cont : forall l i, twin (Tree (KCont l i) Nil Nil) (ECont l i)
| tw_once : forall l i, twin (Tree (KOnce l i) Nil Nil) (EOnce l i)
| tw_range : forall s n c, twin (Tree (KRange s n c) Nil Nil) (ERange s n c)
| tw_reverse : forall l i, twin (Tree (KReverse l i) Nil Nil) (EReverse l i)
| tw_select : forall f g c t e, pure f g -> twin t e -> twin (Tree (KSelect f c) t Nil) (ESelect e g c)
| tw_where : forall f g i t e, pure f g -> twin t e -> twin (Tree (KWhere f i) t Nil) (EWhere e g i)
| tw_take : forall n t e, twin t e -> twin (Tree (KTake n) t Nil) (ETake e n)
| tw_skip : forall n s t e, twin t e -> twin (Tree (KSkip n s) t Nil) (ESkip e n s)
| tw_repeat : forall n i r t e, twin t e -> twin (Tree (KRepeat n i r) t Nil) (ERepeat e n i r)
| tw_distinct : forall d c t e, twin t e -> twin (Tree (KDistinct d c) t Nil) (EDistinct e Z.compare d c)
| tw_intexc : forall r x i t e, twin t e -> twin (Tree (KIntExc r x i) t Nil) (EIntExc e Z.compare r x i)
| tw_concat : forall i b t e u e2, twin t e -> twin u e2 -> twin (Tree (KConcat i b) t u) (EConcat e e2 i b)
| tw_pair : forall f c o t e u e2, twin t e -> twin u e2 -> twin (Tree (KPair f c) t u) (ESelect (EPair e e2 o) (both f) c).

Definition does (t : tree) (m : method) (t' : tree) (z : Z) : Prop := exists N, forall n, (N <= n)%nat -> texec n t m = Ok (t', Some z).
Definition b2z (b : bool) : Z := if b then yes else no.
Lemma b2z_yes b : (b2z b =? yes) = b. Proof. now destruct b. Qed.
Lemma twin_nil t e : twin t e -> is_nil t = false. Proof. now destruct 1. Qed.

(* running the body of a method of an object in a given state *)
Definition runs (m : method) (c : code) (k : kind) (a b : tree) (t' : tree) (z : Z) : Prop :=
  exists N, forall n, (N <= n)%nat -> tinterp (texec n) (fun t => texec n t m) c k a b = Ok (t', Some z).
Lemma does_runs m k a b t' z : runs m (method_code m k) k a b t' z -> does (Tree k a b) m t' z.
Proof. intros (N & H). exists (S N). intros [|n] Hn; [lia|]. cbn [texec]. apply H. lia. Qed.
Lemma r_return m z k a b : runs m (Return z) k a b (Tree k a b) z.
Proof. exists 0%nat. reflexivity. Qed.
Lemma r_store m k' c k a b t' z : runs m c k' a b t' z -> runs m (Store k' c) k a b t' z.
Proof. intros (N & H). exists N. exact H. Qed.
Lemma r_again m k a b t' z : does (Tree k a b) m t' z -> runs m Again k a b t' z.
Proof. intros (N & H). exists N. exact H. Qed.
Lemma r_one m m' c k a b a' z t' z' : is_nil a = false -> does a m' a' z -> runs m (c z) k a' b t' z' -> runs m (Call One m' c) k a b t' z'.
Proof.
  intros E (N & H) (M & K). exists (Nat.max N M). intros n Hn. cbn [tinterp]. rewrite E, H by lia. cbn [bind]. apply K. lia.
Qed.
Lemma r_two m m' c k a b b' z t' z' : is_nil b = false -> does b m' b' z -> runs m (c z) k a b' t' z' -> runs m (Call Two m' c) k a b t' z'.
Proof.
  intros E (N & H) (M & K). exists (Nat.max N M). intros n Hn. cbn [tinterp]. rewrite E, H by lia. cbn [bind]. apply K. lia.
Qed.
Lemma r_ask1 m m' c k a b a' x t' z' : is_nil a = false -> does a m' a' (b2z x) -> runs m (c x) k a' b t' z' -> runs m (ask One m' c) k a b t' z'.
Proof. intros E D R. unfold ask. eapply r_one; eauto. cbv beta. now rewrite b2z_yes. Qed.
Lemma r_ask2 m m' c k a b b' x t' z' : is_nil b = false -> does b m' b' (b2z x) -> runs m (c x) k a b' t' z' -> runs m (ask Two m' c) k a b t' z'.
Proof. intros E D R. unfold ask. eapply r_two; eauto. cbv beta. now rewrite b2z_yes. Qed.

Lemma current_twin t e : twin t e -> forall v, current e = Ok v -> does t Current t v.
Proof.
  induction 1; intros v E; cbn [current] in E; apply does_runs; cbn [method_code current_code].
  - discriminate.
  - unfold cget in E. destruct (znth l i); [|discriminate]. injection E as ->. apply r_return.
  - unfold cget in E. destruct (znth l i); [|discriminate]. injection E as ->. apply r_return.
  - injection E as ->. apply r_return.
  - unfold cget in E. destruct (znth l (zlen l - 1 - i)); [|discriminate]. injection E as ->. apply r_return.
  - destruct c; [|discriminate]. injection E as ->. apply r_return.
  - eapply r_one; [eapply twin_nil; eauto|apply IHtwin; eauto|apply r_return].
  - eapply r_one; [eapply twin_nil; eauto|apply IHtwin; eauto|apply r_return].
  - eapply r_one; [eapply twin_nil; eauto|apply IHtwin; eauto|apply r_return].
  - eapply r_one; [eapply twin_nil; eauto|apply IHtwin; eauto|apply r_return].
  - destruct c; [|discriminate]. injection E as ->. apply r_return.
  - eapply r_one; [eapply twin_nil; eauto|apply IHtwin; eauto|apply r_return].
  - destruct b.
    + eapply r_two; [eapply twin_nil; eauto|apply IHtwin2; eauto|apply r_return].
    + eapply r_one; [eapply twin_nil; eauto|apply IHtwin1; eauto|apply r_return].
  - destruct c; [|discriminate]. injection E as ->. apply r_return.
Qed.
Lemma index_twin t e : twin t e -> does t Index t (index e).
Proof.
  induction 1; cbn [index]; apply does_runs; cbn [method_code index_code]; try apply r_return.
  - eapply r_one; [eapply twin_nil; eauto|apply IHtwin|apply r_return].
  - eapply r_one; [eapply twin_nil; eauto|apply IHtwin|apply r_return].
  - eapply r_one; [eapply twin_nil; eauto|apply IHtwin|apply r_return].
  - eapply r_one; [eapply twin_nil; eauto|apply IHtwin1|apply r_return].
Qed.
Lemma reset_twin t e : twin t e -> forall e', reset e = Ok e' -> exists t' z, does t Reset t' z /\ twin t' e'.
Proof.
  induction 1; intros e' E; cbn [reset] in E.
  - injection E as <-. do 2 eexists. split; [apply does_runs; apply r_return|constructor].
  - injection E as <-. do 2 eexists. split; [apply does_runs; cbn; apply r_store; apply r_return|constructor].
  - discriminate.
  - destruct (fits (s - 1)); [|discriminate]. injection E as <-. do 2 eexists. split; [apply does_runs; cbn [method_code reset_code]; apply r_store; apply r_return|constructor].
  - injection E as <-. do 2 eexists. split; [apply does_runs; cbn; apply r_store; apply r_return|constructor].
  - destruct (reset e) as [e1| | |]; cbn [bind] in E; try discriminate. injection E as <-. destruct (IHtwin e1 eq_refl) as (t' & z & D & T).
    do 2 eexists. split; [apply does_runs; cbn [method_code reset_code]; eapply r_one; [eapply twin_nil; eauto|exact D|apply r_return]|now constructor].
  - destruct (reset e) as [e1| | |]; cbn [bind] in E; try discriminate. injection E as <-. destruct (IHtwin e1 eq_refl) as (t' & z & D & T).
    do 2 eexists. split; [apply does_runs; cbn [method_code reset_code]; eapply r_one; [eapply twin_nil; eauto|exact D|apply r_store; apply r_return]|now constructor].
  - destruct (reset e) as [e1| | |]; cbn [bind] in E; try discriminate. injection E as <-. destruct (IHtwin e1 eq_refl) as (t' & z & D & T).
    do 2 eexists. split; [apply does_runs; cbn [method_code reset_code]; eapply r_one; [eapply twin_nil; eauto|exact D|apply r_return]|now constructor].
  - destruct (reset e) as [e1| | |]; cbn [bind] in E; try discriminate. injection E as <-. destruct (IHtwin e1 eq_refl) as (t' & z & D & T).
    do 2 eexists. split; [apply does_runs; cbn [method_code reset_code]; eapply r_one; [eapply twin_nil; eauto|exact D|apply r_store; apply r_return]|now constructor].
  - destruct (reset e) as [e1| | |]; cbn [bind] in E; try discriminate. injection E as <-. destruct (IHtwin e1 eq_refl) as (t' & z & D & T).
    do 2 eexists. split; [apply does_runs; cbn [method_code reset_code]; eapply r_one; [eapply twin_nil; eauto|exact D|apply r_store; apply r_return]|now constructor].
  - destruct (reset e) as [e1| | |]; cbn [bind] in E; try discriminate. injection E as <-. destruct (IHtwin e1 eq_refl) as (t' & z & D & T).
    do 2 eexists. split; [apply does_runs; cbn [method_code reset_code]; eapply r_one; [eapply twin_nil; eauto|exact D|apply r_store; apply r_return]|now constructor].
  - destruct (reset e) as [e1| | |]; cbn [bind] in E; try discriminate. injection E as <-. destruct (IHtwin e1 eq_refl) as (t' & z & D & T).
    do 2 eexists. split; [apply does_runs; cbn [method_code reset_code]; eapply r_one; [eapply twin_nil; eauto|exact D|apply r_store; apply r_return]|now constructor].
  - destruct (reset e) as [e1| | |]; cbn [bind] in E; try discriminate. destruct (reset e2) as [e3| | |]; cbn [bind] in E; try discriminate. injection E as <-.
    destruct (IHtwin1 e1 eq_refl) as (t' & z & D & T). destruct (IHtwin2 e3 eq_refl) as (u' & z2 & D2 & T2).
    do 2 eexists. split; [|now constructor; [exact T|exact T2]]. apply does_runs; cbn [method_code reset_code]. eapply r_one; [eapply twin_nil; eauto|exact D|].
    eapply r_two; [eapply twin_nil; eauto|exact D2|]. apply r_store. apply r_return.
  - destruct (reset e) as [e1| | |]; cbn [bind] in E; try discriminate. destruct (reset e2) as [e3| | |]; cbn [bind] in E; try discriminate. injection E as <-.
    destruct (IHtwin1 e1 eq_refl) as (t' & z & D & T). destruct (IHtwin2 e3 eq_refl) as (u' & z2 & D2 & T2).
    do 2 eexists. split; [|now constructor; [exact T|exact T2]]. apply does_runs; cbn [method_code reset_code]. eapply r_one; [eapply twin_nil; eauto|exact D|].
    eapply r_two; [eapply twin_nil; eauto|exact D2|]. apply r_return.
Qed.
Lemma among_contains l x : contains Z.compare l x = among l x.
Proof.
  unfold contains, among. induction l as [|y l IH]; cbn [existsb]; auto. rewrite IH. f_equal. unfold same.
  destruct (Z.compare_spec y x) as [->|L|L]; symmetry; [apply Z.eqb_refl| |]; apply Z.eqb_neq; lia.
Qed.
Lemma r_truth m x k a b : runs m (truth x) k a b (Tree k a b) (b2z x).
Proof. apply r_return. Qed.
Lemma next_twin : forall f t e b e', twin t e -> next f e = Ok (b, e') -> exists t', does t Next t' (b2z b) /\ twin t' e'.
Proof.
  intro f. induction f as [f IHs] using lt_wf_ind. intros t e b e' T E. destruct f as [|f]; [discriminate|].
  assert (IH : forall t e b e', twin t e -> next f e = Ok (b, e') -> exists t', does t Next t' (b2z b) /\ twin t' e') by (intros; eapply (IHs f); eauto).
  destruct T; cbn [next] in E.
  - injection E as <- <-. eexists. split; [apply does_runs; apply r_truth|constructor].
  - injection E as <- <-. eexists. split; [apply does_runs; cbn [method_code next_code]; apply r_store; apply r_truth|constructor].
  - injection E as <- <-. eexists. split; [apply does_runs; cbn [method_code next_code]; apply r_store; apply r_truth|constructor].
  - destruct (fits (s - 1) && fits (s + n) && fits (s + n - 1)); [|discriminate].
    destruct ((s - 1 <=? c) && (c <? s + n - 1)) eqn:B; injection E as <- <-.
    + eexists. split; [apply does_runs; cbn [method_code next_code]; rewrite B; apply r_store; apply r_truth|constructor].
    + eexists. split; [apply does_runs; cbn [method_code next_code]; rewrite B; apply r_truth|constructor].
  - injection E as <- <-. eexists. split; [apply does_runs; cbn [method_code next_code]; apply r_store; apply r_truth|constructor].
  - (* Select *)
    pose proof (twin_nil _ _ T) as Nt. destruct (next f e) as [[b1 e1]| | |] eqn:En; cbn [bind] in E; try discriminate. destruct (IH _ _ _ _ T En) as (t1 & D & T1). destruct b1.
    + destruct (current e1) as [x| | |] eqn:Ec; cbn [bind] in E; try discriminate. injection E as <- <-. pose proof (current_twin _ _ T1 _ Ec) as Dc.
      exists (Tree (KSelect f0 (Some (g x))) t1 Nil). split; [|now constructor]. apply does_runs; cbn [method_code next_code].
      eapply r_ask1; [exact Nt|exact D|]. cbv beta iota. eapply r_one; [eapply twin_nil; eauto|exact Dc|]. cbv beta. rewrite (H x). apply r_store. apply (r_truth _ true).
    + injection E as <- <-. eexists. split; [|constructor; [exact H|exact T1]]. apply does_runs; cbn [method_code next_code]. eapply r_ask1; [exact Nt|exact D|]. apply (r_truth _ false).
  - (* Where *)
    pose proof (twin_nil _ _ T) as Nt. destruct (next f e) as [[b1 e1]| | |] eqn:En; cbn [bind] in E; try discriminate. destruct (IH _ _ _ _ T En) as (t1 & D & T1). destruct b1.
    + destruct (current e1) as [x| | |] eqn:Ec; cbn [bind] in E; try discriminate. pose proof (current_twin _ _ T1 _ Ec) as Dc. destruct (g x) eqn:Gx.
      * injection E as <- <-. exists (Tree (KWhere f0 (i + 1)) t1 Nil). split; [|now constructor]. apply does_runs; cbn [method_code next_code].
        eapply r_ask1; [exact Nt|exact D|]. cbv beta iota. eapply r_one; [eapply twin_nil; eauto|exact Dc|]. cbv beta. rewrite (H x), Gx. apply r_store. apply (r_truth _ true).
      * assert (T2 : twin (Tree (KWhere f0 i) t1 Nil) (EWhere e1 g i)) by now constructor. destruct (IH _ _ _ _ T2 E) as (t2 & D2 & T3). exists t2. split; auto.
        apply does_runs; cbn [method_code next_code]. eapply r_ask1; [exact Nt|exact D|]. cbv beta iota. eapply r_one; [eapply twin_nil; eauto|exact Dc|]. cbv beta. rewrite (H x), Gx. now apply r_again.
    + injection E as <- <-. eexists. split; [|constructor; [exact H|exact T1]]. apply does_runs; cbn [method_code next_code]. eapply r_ask1; [exact Nt|exact D|]. apply (r_truth _ false).
  - (* Take *)
    pose proof (twin_nil _ _ T) as Nt. pose proof (index_twin _ _ T) as Di. destruct (index e >=? n - 1) eqn:B.
    + injection E as <- <-. eexists. split; [|constructor; exact T]. apply does_runs; cbn [method_code next_code]. eapply r_one; [exact Nt|exact Di|]. cbv beta. rewrite B. apply (r_truth _ false).
    + destruct (next f e) as [[b1 e1]| | |] eqn:En; cbn [bind] in E; try discriminate. injection E as <- <-. destruct (IH _ _ _ _ T En) as (t1 & D & T1).
      eexists. split; [|constructor; exact T1]. apply does_runs; cbn [method_code next_code]. eapply r_one; [exact Nt|exact Di|]. cbv beta. rewrite B.
      eapply r_one; [exact Nt|exact D|]. apply r_return.
  - (* Skip *)
    destruct s.
    + pose proof (twin_nil _ _ T) as Nt. destruct (next f e) as [[b1 e1]| | |] eqn:En; cbn [bind] in E; try discriminate. injection E as <- <-. destruct (IH _ _ _ _ T En) as (t1 & D & T1).
      eexists. split; [|constructor; exact T1]. apply does_runs; cbn [method_code next_code]. eapply r_one; [exact Nt|exact D|]. apply r_return.
    + assert (K : forall m t e, twin t e -> (do (b, e0) <- skip_loop (next f) m e; (if b then do (b1, e1) <- next f e0; Ok (b1, ESkip e1 n true) else Ok (false, ESkip e0 n true))) = Ok (b, e') ->
        exists t', runs Next (skipping m (Call One Next Return)) (KSkip n true) t Nil t' (b2z b) /\ twin t' e').
      { clear - IH. induction m as [|m IHm]; intros t e T E; pose proof (twin_nil _ _ T) as Nt; cbn [skip_loop skipping bind] in *.
        - destruct (next f e) as [[b1 e1]| | |] eqn:En; cbn [bind] in E; try discriminate. injection E as <- <-. destruct (IH _ _ _ _ T En) as (t1 & D & T1).
          eexists. split; [|constructor; exact T1]. eapply r_one; [exact Nt|exact D|]. apply r_return.
        - destruct (next f e) as [[b1 e1]| | |] eqn:En; cbn [bind] in E; try discriminate. destruct (IH _ _ _ _ T En) as (t1 & D & T1). destruct b1.
          + destruct (IHm _ _ T1 E) as (t2 & R & T2). exists t2. split; auto. eapply r_ask1; [exact Nt|exact D|exact R].
          + injection E as <- <-. eexists. split; [|constructor; exact T1]. eapply r_ask1; [exact Nt|exact D|]. apply (r_truth _ false). }
      destruct (K _ _ _ T E) as (t' & R & T'). exists t'. split; auto. apply does_runs; cbn [method_code next_code]. apply r_store. exact R.
  - (* Repeat *)
    pose proof (twin_nil _ _ T) as Nt. destruct (r <? n) eqn:Br.
    + destruct (next f e) as [[b1 e1]| | |] eqn:En; cbn [bind] in E; try discriminate. destruct (IH _ _ _ _ T En) as (t1 & D & T1). destruct b1.
      * injection E as <- <-. eexists. split; [|constructor; exact T1]. apply does_runs; cbn [method_code next_code]. rewrite Br. eapply r_ask1; [exact Nt|exact D|]. apply r_store. apply (r_truth _ true).
      * destruct (reset e1) as [e2| | |] eqn:Er; cbn [bind] in E; try discriminate. destruct (reset_twin _ _ T1 _ Er) as (t2 & z & Dr & T2).
        assert (T3 : twin (Tree (KRepeat n i (r + 1)) t2 Nil) (ERepeat e2 n i (r + 1))) by now constructor. destruct (IH _ _ _ _ T3 E) as (t3 & D3 & T4). exists t3. split; auto.
        apply does_runs; cbn [method_code next_code]. rewrite Br. eapply r_ask1; [exact Nt|exact D|]. cbv beta iota. apply r_store.
        eapply r_one; [eapply twin_nil; eauto|exact Dr|]. now apply r_again.
    + injection E as <- <-. eexists. split; [|constructor; exact T]. apply does_runs; cbn [method_code next_code]. rewrite Br. apply (r_truth _ false).
  - (* Distinct *)
    pose proof (twin_nil _ _ T) as Nt. destruct (next f e) as [[b1 e1]| | |] eqn:En; cbn [bind] in E; try discriminate. destruct (IH _ _ _ _ T En) as (t1 & D & T1). destruct b1.
    + destruct (current e1) as [x| | |] eqn:Ec; cbn [bind] in E; try discriminate. pose proof (current_twin _ _ T1 _ Ec) as Dc. rewrite among_contains in E. destruct (among d x) eqn:A.
      * assert (T2 : twin (Tree (KDistinct d c) t1 Nil) (EDistinct e1 Z.compare d c)) by now constructor. destruct (IH _ _ _ _ T2 E) as (t2 & D2 & T3). exists t2. split; auto.
        apply does_runs; cbn [method_code next_code]. eapply r_ask1; [exact Nt|exact D|]. cbv beta iota. eapply r_one; [eapply twin_nil; eauto|exact Dc|]. cbv beta. rewrite A. now apply r_again.
      * injection E as <- <-. exists (Tree (KDistinct (x :: d) (Some x)) t1 Nil). split; [|now constructor]. apply does_runs; cbn [method_code next_code].
        eapply r_ask1; [exact Nt|exact D|]. cbv beta iota. eapply r_one; [eapply twin_nil; eauto|exact Dc|]. cbv beta. rewrite A. apply r_store. apply (r_truth _ true).
    + injection E as <- <-. eexists. split; [|constructor; exact T1]. apply does_runs; cbn [method_code next_code]. eapply r_ask1; [exact Nt|exact D|]. apply (r_truth _ false).
  - (* Intersect, Except *)
    pose proof (twin_nil _ _ T) as Nt. destruct (next f e) as [[b1 e1]| | |] eqn:En; cbn [bind] in E; try discriminate. destruct (IH _ _ _ _ T En) as (t1 & D & T1). destruct b1.
    + destruct (current e1) as [v| | |] eqn:Ec; cbn [bind] in E; try discriminate. pose proof (current_twin _ _ T1 _ Ec) as Dc. rewrite among_contains in E. destruct (Bool.eqb (among r v) x) eqn:A.
      * injection E as <- <-. exists (Tree (KIntExc r x (i + 1)) t1 Nil). split; [|now constructor]. apply does_runs; cbn [method_code next_code].
        eapply r_ask1; [exact Nt|exact D|]. cbv beta iota. eapply r_one; [eapply twin_nil; eauto|exact Dc|]. cbv beta. rewrite A. apply r_store. apply (r_truth _ true).
      * assert (T2 : twin (Tree (KIntExc r x i) t1 Nil) (EIntExc e1 Z.compare r x i)) by now constructor. destruct (IH _ _ _ _ T2 E) as (t2 & D2 & T3). exists t2. split; auto.
        apply does_runs; cbn [method_code next_code]. eapply r_ask1; [exact Nt|exact D|]. cbv beta iota. eapply r_one; [eapply twin_nil; eauto|exact Dc|]. cbv beta. rewrite A. now apply r_again.
    + injection E as <- <-. eexists. split; [|constructor; exact T1]. apply does_runs; cbn [method_code next_code]. eapply r_ask1; [exact Nt|exact D|]. apply (r_truth _ false).
  - (* Concat *)
    pose proof (twin_nil _ _ T1) as Nt. pose proof (twin_nil _ _ T2) as Nu. destruct b0.
    + destruct (next f e2) as [[b1 e3]| | |] eqn:En; cbn [bind] in E; try discriminate. injection E as <- <-. destruct (IH _ _ _ _ T2 En) as (u1 & D & U1).
      eexists. split; [|constructor; [exact T1|exact U1]]. apply does_runs; cbn [method_code next_code]. apply r_store. eapply r_two; [exact Nu|exact D|]. apply r_return.
    + destruct (next f e) as [[b1 e1]| | |] eqn:En; cbn [bind] in E; try discriminate. destruct (IH _ _ _ _ T1 En) as (t1 & D & T3). destruct b1.
      * injection E as <- <-. eexists. split; [|constructor; [exact T3|exact T2]]. apply does_runs; cbn [method_code next_code]. apply r_store. eapply r_ask1; [exact Nt|exact D|]. apply (r_truth _ true).
      * destruct (next f e2) as [[b1 e3]| | |] eqn:En2; cbn [bind] in E; try discriminate. injection E as <- <-. destruct (IH _ _ _ _ T2 En2) as (u1 & D2 & U1).
        eexists. split; [|constructor; [exact T3|exact U1]]. apply does_runs; cbn [method_code next_code]. apply r_store. eapply r_ask1; [exact Nt|exact D|]. cbv beta iota. apply r_store.
        eapply r_two; [exact Nu|exact D2|]. apply r_return.
  - (* Pairwise *)
    pose proof (twin_nil _ _ T1) as Nt. pose proof (twin_nil _ _ T2) as Nu. destruct f as [|f]; [discriminate|]. cbn [next] in E.
    assert (IH' : forall t e b e', twin t e -> next f e = Ok (b, e') -> exists t', does t Next t' (b2z b) /\ twin t' e').
    { clear - IHs. intros; eapply (IHs f); eauto. }
    destruct (next f e) as [[b1 e1]| | |] eqn:En; cbn [bind] in E; try discriminate. destruct (IH' _ _ _ _ T1 En) as (t1 & D & T3). destruct b1.
    + destruct (next f e2) as [[b2 e3]| | |] eqn:En2; cbn [bind] in E; try discriminate. destruct (IH' _ _ _ _ T2 En2) as (u1 & D2 & U1). destruct b2.
      * destruct (current e1) as [x| | |] eqn:Ec; cbn [bind] in E; try discriminate. destruct (current e3) as [y| | |] eqn:Ec2; cbn [bind current value] in E; try discriminate. injection E as <- <-.
        pose proof (current_twin _ _ T3 _ Ec) as Dc. pose proof (current_twin _ _ U1 _ Ec2) as Dc2.
        exists (Tree (KPair f0 (Some (f0 x y))) t1 u1). split; [|apply (tw_pair f0 (Some (f0 x y)) (Some (x, y)) t1 e1 u1 e3); auto]. apply does_runs; cbn [method_code next_code].
        eapply r_ask1; [exact Nt|exact D|]. cbv beta iota. eapply r_ask2; [exact Nu|exact D2|]. cbv beta iota. eapply r_one; [eapply twin_nil; eauto|exact Dc|]. cbv beta.
        eapply r_two; [eapply twin_nil; eauto|exact Dc2|]. apply r_store. apply (r_truth _ true).
      * injection E as <- <-. eexists. split; [|constructor; [exact T3|exact U1]]. apply does_runs; cbn [method_code next_code].
        eapply r_ask1; [exact Nt|exact D|]. cbv beta iota. eapply r_ask2; [exact Nu|exact D2|]. apply (r_truth _ false).
    + injection E as <- <-. eexists. split; [|constructor; [exact T3|exact T2]]. apply does_runs; cbn [method_code next_code]. eapply r_ask1; [exact Nt|exact D|]. apply (r_truth _ false).
Qed.

Lemma shape_twin t p : shape t p -> tame p ->
  exists e i0, twin t e /\ tracks (denote p) i0 (resets p) e /\ snd i0 = 0 /\ (starts_plain p = true -> fst i0 = -1).
Proof.
  induction 1; cbn [tame denote resets starts_plain]; intros W.
  - exists EEmpty, (-1, 0). split; [constructor|]. split; [apply t_empty|auto].
  - exists (ECont l (-1)), (-1, 0). split; [constructor|]. split; [apply t_cont|auto].
  - exists (EOnce l (-1)), (-1, 0). split; [constructor|]. split; [apply t_once|auto].
  - exists (ERange s n (s - 1)), (-1, 0). split; [constructor|]. split; [apply t_range; tauto|auto].
  - destruct IHshape as (e & i & Y & H1 & E); auto. exists (ESelect e g None), i. split; [now constructor|]. split; auto. now apply t_select.
  - destruct IHshape as (e & i & Y & H1 & E); auto. exists (EWhere e g (-1)), (-1, 0). split; [now constructor|]. split; auto. now apply t_where with i.
  - destruct IHshape as (e & i & Y & H1 & E); [tauto|]. exists (ETake e n), i. split; [now constructor|]. split; auto. apply t_take; [auto|tauto|tauto].
  - destruct IHshape as (e & i & Y & H1 & E); [tauto|]. exists (ESkip e n false), (fst i - n, snd i + Z.max 0 (- n)). split; [now constructor|].
    split; [now apply t_skip|]. destruct E as [E1 E2]. cbn [fst snd]. split; [lia|]. intros X. apply andb_true_iff in X as [X1 X2]. rewrite (E2 X2). lia.
  - destruct IHshape as (e & i & Y & H1 & E); [tauto|]. exists (ERepeat e n (-1) 0), (-1, 0). split; [now constructor|]. split; auto.
    destruct W as [W [N|R]]; [now apply t_repeat0 with i|]. rewrite R in *. now apply t_repeat with i.
  - destruct IHshape as (e & i & Y & H1 & E); [tauto|]. exists (EDistinct e Z.compare [] None), (-1, 0). split; [now constructor|]. split; auto. now apply t_distinct with i.
  - exists (EReverse l (-1)), (-1, 0). split; [constructor|]. split; [rewrite H; apply t_reverse|auto].
  - exists (ECont l (-1)), (-1, 0). split; [constructor|]. split; [rewrite H; apply tracks_weak, t_cont|auto].
  - destruct IHshape as (e & i & Y & H1 & E); auto. exists e, i. auto.
  - exists EEmpty, (-1, 0). split; [constructor|]. split; [rewrite H; apply tracks_weak, t_empty|auto].
  - destruct IHshape as (e & i & Y & H1 & E); [tauto|]. exists (EIntExc e Z.compare r keep (-1)), (-1, 0).
    split; [now constructor|]. split; auto. eapply tracks_ext; [|eapply t_intexc; exact H1]. apply filter_ext. intros x. unfold kept. now rewrite H.
  - destruct IHshape1 as (e & i & Y & H1 & E); [tauto|]. destruct IHshape2 as (e2 & i2 & Y2 & H2 & E2); [tauto|]. exists (EConcat e e2 (-1) false), (-1, 0).
    split; [now constructor|]. split; auto. now apply t_concat with i i2.
  - destruct IHshape1 as (e & i & Y & H1 & E); [tauto|]. destruct IHshape2 as (e2 & i2 & Y2 & H2 & E2); [tauto|].
    exists (ESelect (EPair e e2 None) (both f) None), i. split; [now constructor|]. split; auto. apply t_select. now apply t_pair with i2.
Qed.
Lemma drain_twin : forall f t e l acc, twin t e -> drain f e = Ok l -> exists N, forall n, (N <= n)%nat -> read n t acc = Ok (Some (acc ++ l)).
Proof.
  induction f as [|f IH]; intros t e l acc T E; [discriminate|]. cbn [drain] in E.
  destruct (next f e) as [[b e1]| | |] eqn:En; cbn [bind] in E; try discriminate. destruct (next_twin _ _ _ _ _ T En) as (t1 & (N & D) & T1). destruct b.
  - destruct (current e1) as [x| | |] eqn:Ec; cbn [bind] in E; try discriminate. destruct (current_twin _ _ T1 _ Ec) as (M & Dc).
    destruct (drain f e1) as [r| | |] eqn:Ed; cbn [bind] in E; try discriminate. injection E as <-. destruct (IH _ _ _ (acc ++ [x]) T1 Ed) as (K & R).
    exists (S (Nat.max N (Nat.max M K))). intros [|n] Hn; [lia|]. cbn [read]. rewrite D by lia. cbn [bind b2z]. change (yes =? yes) with true. cbv iota. rewrite Dc by lia. cbn [bind].
    rewrite R by lia. now rewrite <- app_assoc.
  - injection E as <-. exists (S N). intros [|n] Hn; [lia|]. cbn [read]. rewrite D by lia. cbn [bind]. rewrite (b2z_yes false). now rewrite app_nil_r.
Qed.
Lemma reading t p : shape t p -> tame p -> exists N, forall n, (N <= n)%nat -> read n t [] = Ok (Some (denote p)).
Proof.
  intros S W. destruct (shape_twin _ _ S W) as (e & i & T & H & _). apply drain_tracks in H as (M & Y). exact (drain_twin M t e _ [] T (Y M (le_n _))).
Qed.

(* ---- programs ------------------------------------------------------------------------------- *)
Definition fit (v : option tree) (p : option (pipe Z)) : Prop :=
  match v, p with Some t, Some p => shape (fresh t) p | None, None => True | _, _ => False end.
Lemma fit_look L P : Forall2 fit L P -> forall i p, look P i = Some p -> exists t, look L i = Some t /\ shape (fresh t) p.
Proof.
  unfold look. induction 1 as [|v p L P F H IH]; intros [|i] q; cbn [nth_error]; try discriminate; [|apply IH].
  destruct v as [t|], p as [p|]; cbn in F; try easy. intros E. injection E as ->. eauto.
Qed.
Lemma fit_free L P : Forall2 fit L P -> forall i, free P i = true -> free L i = true.
Proof.
  unfold free. induction 1 as [|v p L P F H IH]; intros [|i]; cbn [nth_error]; try discriminate; [|apply IH].
  destruct v as [t|], p as [p|]; cbn in F; easy.
Qed.
Lemma fit_upd L P v p : Forall2 fit L P -> fit v p -> forall i, Forall2 fit (upd L i v) (upd P i p).
Proof. induction 1 as [|v' p' L P F H IH]; intros K [|i]; cbn [upd]; constructor; auto. Qed.
Lemma fresh_tree k a b : fresh (Tree k a b) = Tree k a b. Proof. reflexivity. Qed.
Lemma shape_empty t p : shape t p -> t = Tree KEmpty Nil Nil -> denote p = [].
Proof. induction 1; intros E; try discriminate; cbn [denote]; auto. Qed.
Lemma evaluated_does t e : twin t e -> exists b, does t Evaluated t (b2z b).
Proof.
  induction 1; try (eexists; apply does_runs; cbn [method_code evaluated_code]; apply r_truth);
    try (destruct IHtwin as (x1 & D); exists x1; apply does_runs; cbn [method_code evaluated_code]; eapply r_one; [eapply twin_nil; eauto|exact D|apply r_return]).
  - destruct IHtwin1 as (x1 & D), IHtwin2 as (x2 & D2). destruct x1.
    + exists x2. apply does_runs; cbn [method_code evaluated_code]. eapply r_ask1; [eapply twin_nil; eauto|exact D|]. eapply r_two; [eapply twin_nil; eauto|exact D2|apply r_return].
    + exists false. apply does_runs; cbn [method_code evaluated_code]. eapply r_ask1; [eapply twin_nil; eauto|exact D|]. apply (r_truth _ false).
  - destruct IHtwin1 as (x1 & D), IHtwin2 as (x2 & D2). destruct x1.
    + exists x2. apply does_runs; cbn [method_code evaluated_code]. eapply r_ask1; [eapply twin_nil; eauto|exact D|]. eapply r_two; [eapply twin_nil; eauto|exact D2|apply r_return].
    + exists false. apply does_runs; cbn [method_code evaluated_code]. eapply r_ask1; [eapply twin_nil; eauto|exact D|]. apply (r_truth _ false).
Qed.

Ltac here F := match goal with
  | E : look _ ?j = Some _ |- _ => let t := fresh "t" in let L := fresh "L" in let S := fresh "Sh" in
      destruct (fit_look _ _ F _ _ E) as (t & L & S); clear E; try here F
  end.
Ltac done_with F := split; [|reflexivity]; cbn [lists put_list]; repeat apply fit_upd; auto; cbn [fit]; rewrite ?fresh_tree; try (constructor; auto).
Lemma builds_step P o Q : builds P o Q -> forall w, Forall2 fit (lists w) P ->
  exists w', yields (fun n => wstep n w o) (w', ODone) /\ Forall2 fit (lists w') Q /\ enums w' = enums w.
Proof.
  destruct 1; intros w F; try (match goal with E : free _ _ = true |- _ => apply (fit_free _ _ F) in E end); here F || idtac.
  - eexists. split; [exists 0%nat; intros ? ?; cbn [wstep]; rewrite H; unfold wput; reflexivity|]. done_with F.
  - eexists. split; [exists 0%nat; intros ? ?; cbn [wstep]; rewrite H; unfold wput; reflexivity|]. done_with F. destruct x; constructor.
  - eexists. split; [exists 0%nat; intros ? ?; cbn [wstep]; rewrite H, L; unfold wput; reflexivity|]. done_with F.
  - eexists. split; [exists 0%nat; intros ? ?; cbn [wstep]; rewrite H, L; unfold wput; reflexivity|]. done_with F.
  - eexists. split; [exists 0%nat; intros ? ?; cbn [wstep]; rewrite L, L0; unfold wput; reflexivity|]. done_with F.
  - eexists. split; [exists 0%nat; intros ? ?; cbn [wstep]; rewrite L, L0; unfold wput; reflexivity|]. done_with F.
  - eexists. split; [exists 0%nat; intros ? ?; cbn [wstep]; rewrite L;  reflexivity|]. done_with F.
  - eexists. split; [exists 0%nat; intros ? ?; cbn [wstep]; rewrite H, L; unfold wput; reflexivity|]. done_with F.
  - eexists. split; [exists 0%nat; intros ? ?; cbn [wstep]; rewrite H, L; unfold wput; reflexivity|]. done_with F.
  - eexists. split; [exists 0%nat; intros ? ?; cbn [wstep]; rewrite H, L; unfold wput; reflexivity|]. done_with F.
  - eexists. split; [exists 0%nat; intros ? ?; cbn [wstep]; rewrite H, L; unfold wput; reflexivity|]. done_with F.
  - eexists. split; [exists 0%nat; intros ? ?; cbn [wstep]; rewrite H, L; unfold wput; reflexivity|]. done_with F.
  - eexists. split; [exists 0%nat; intros ? ?; cbn [wstep]; rewrite H, L; unfold wput; reflexivity|]. done_with F.
  - eexists. split; [exists 0%nat; intros ? ?; cbn [wstep]; rewrite H, L, L0; unfold wput; reflexivity|]. done_with F.
  - eexists. split; [exists 0%nat; intros ? ?; cbn [wstep]; rewrite H, L, L0; unfold wput; reflexivity|]. done_with F.
  - destruct (reading _ _ Sh H2) as (N & R). eexists. split; [exists N; intros ? ?; cbn [wstep]; rewrite H, L0, L, R by lia; cbn [bind]; unfold wput; reflexivity|]. done_with F.
  - destruct (reading _ _ Sh H1) as (N & R). eexists. split; [exists N; intros ? ?; cbn [wstep]; rewrite H, L, R by lia; cbn [bind]; unfold wput; reflexivity|]. done_with F.
  - destruct t as [|k a c].
    { eexists. split; [exists 0%nat; intros ? ?; cbn [wstep]; rewrite H, L; unfold wput; reflexivity|]. done_with F. eapply shape_empty; eauto. }
    rewrite fresh_tree in Sh. destruct (reading _ _ Sh H1) as (N & R). destruct (shape_twin _ _ Sh H1) as (e & i0 & T & _).
    destruct (evaluated_does _ _ T) as (x & M & D). destruct b; [|destruct x].
    + eexists. split; [exists N; intros n Hn; cbn [wstep]; rewrite H, L; cbn [bind]; change (no =? yes) with false; cbv iota; rewrite R by lia; cbn [bind]; unfold wput; reflexivity|]. done_with F.
    + eexists. split; [exists M; intros n Hn; cbn [wstep]; rewrite H, L, D by lia; cbn [bind b2z]; change (yes =? yes) with true; cbv iota; unfold wput; reflexivity|]. done_with F.
    + eexists. split; [exists (Nat.max N M); intros n Hn; cbn [wstep]; rewrite H, L, D by lia; cbn [bind b2z]; change (no =? yes) with false; cbv iota; rewrite R by lia; cbn [bind]; unfold wput; reflexivity|]. done_with F.
Qed.
Lemma program_runs P ops R : program P ops R -> forall w, Forall2 fit (lists w) P ->
  exists w', yields (fun n => wrun n w ops) (w', repeat ODone (length ops)) /\ Forall2 fit (lists w') R /\ enums w' = enums w.
Proof.
  induction 1 as [P|P o Q ops R B _ IH]; intros w F.
  - exists w. split; [apply y_ret|auto].
  - destruct (builds_step _ _ _ B _ F) as (w1 & Y1 & F1 & G1). destruct (IH _ F1) as (w' & Y & F' & G'). exists w'. split; [|split; [auto|congruence]].
    cbn [wrun length repeat]. eapply y_bind; [exact Y1|]. cbv beta iota. eapply y_bind; [exact Y|]. apply y_ret.
Qed.

Lemma wrun_app n : forall xs ys w, wrun n w (xs ++ ys) = do (w, a) <- wrun n w xs; do (w, b) <- wrun n w ys; Ok (w, a ++ b).
Proof.
  induction xs as [|x xs IH]; intros ys w; cbn [app wrun bind].
  - destruct (wrun n w ys) as [[w' b]| | |]; reflexivity.
  - destruct (wstep n w x) as [[w1 o]| | |]; cbn [bind]; auto. rewrite IH. destruct (wrun n w1 xs) as [[w2 a]| | |]; cbn [bind]; auto.
    destruct (wrun n w2 ys) as [[w3 b]| | |]; reflexivity.
Qed.
Lemma call_yields w t m t' z : enums w = [Some t] -> does t m t' z -> yields (fun n => wstep n w (ECall 0 m)) (World (lists w) [Some t'], OAnswer z).
Proof. intros E (N & D). exists N. intros n Hn. cbn [wstep]. rewrite E. cbn [look nth_error]. rewrite D by lia. cbn [bind]. unfold put_enum. rewrite E. reflexivity. Qed.
Lemma y_cons w o w1 x ops w' xs : yields (fun n => wstep n w o) (w1, x) -> yields (fun n => wrun n w1 ops) (w', xs) ->
  yields (fun n => wrun n w (o :: ops)) (w', x :: xs).
Proof. intros Y1 Y2. cbn [wrun]. eapply y_bind; [exact Y1|]. cbv beta iota. eapply y_bind; [exact Y2|]. apply y_ret. Qed.
Lemma reads_on : forall f t e l w, twin t e -> drain f e = Ok l -> enums w = [Some t] ->
  exists w', yields (fun n => wrun n w (concat (repeat [ECall 0 Next; ECall 0 Current] (length l)) ++ [ECall 0 Next; EDelete 0]))
    (w', flat_map (fun x => [OAnswer yes; OAnswer x]) l ++ [OAnswer no; ODone]).
Proof.
  induction f as [|f IH]; intros t e l w T E Ew; [discriminate|]. cbn [drain] in E.
  destruct (next f e) as [[b e1]| | |] eqn:En; cbn [bind] in E; try discriminate. destruct (next_twin _ _ _ _ _ T En) as (t1 & D & T1).
  pose proof (call_yields w t Next t1 _ Ew D) as Y1. destruct b.
  - destruct (current e1) as [x| | |] eqn:Ec; cbn [bind] in E; try discriminate. pose proof (current_twin _ _ T1 _ Ec) as Dc.
    destruct (drain f e1) as [r| | |] eqn:Ed; cbn [bind] in E; try discriminate. injection E as <-.
    set (w1 := World (lists w) [Some t1]) in *. pose proof (call_yields w1 t1 Current t1 x eq_refl Dc) as Y2.
    destruct (IH t1 e1 r (World (lists w1) [Some t1]) T1 Ed eq_refl) as (w' & Y). exists w'.
    cbn [length repeat concat app flat_map]. eapply y_cons; [exact Y1|]. eapply y_cons; [exact Y2|exact Y].
  - injection E as <-. set (w1 := World (lists w) [Some t1]) in *. exists (World (lists w) [None]). cbn [length repeat concat app flat_map].
    eapply y_cons; [exact Y1|]. eapply y_cons; apply y_ret.
Qed.
Lemma fit_start n : Forall2 fit (repeat None n) (repeat None n).
Proof. induction n; constructor; cbn; auto. Qed.
Lemma end_to_end nl ops P i p : program (repeat None nl) ops P -> look P i = Some p -> tame p ->
  yields (fun n => outs (run n (init nl 1) (ops ++ reading_ops i (length (denote p))))) (repeat ODone (length ops) ++ answers (denote p)).
Proof.
  intros H L T. eapply y_ext; [intros n; apply refines|].
  destruct (program_runs _ _ _ H (start nl 1) (fit_start nl)) as (w & Y & F & G). destruct (fit_look _ _ F _ _ L) as (t & Lt & S).
  destruct (shape_twin _ _ S T) as (e & i0 & Tw & Tr & _). apply drain_tracks in Tr as (M & Dr). specialize (Dr M (le_n _)).
  destruct (reads_on M (fresh t) e _ (put_enum w 0 (Some (fresh t))) Tw Dr) as (w' & Yr); [unfold put_enum; rewrite G; reflexivity|].
  eapply y_ext; [intros n; unfold outs; rewrite wrun_app; reflexivity|].
  assert (Yc : yields (fun n => wrun n w (reading_ops i (length (denote p)))) (w', answers (denote p))).
  { unfold reading_ops, answers. eapply y_cons; [|exact Yr]. cbn [wstep]. rewrite Lt, G. cbn [start enums repeat free nth_error]. apply y_ret. }
  eapply y_bind; [eapply y_bind; [exact Y|]; cbv beta iota; eapply y_bind; [exact Yc|]; apply y_ret|]. apply y_ret.
Qed.
