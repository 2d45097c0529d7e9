(* Proofs for C87: histories. *)
From Coq Require Import ZifyBool ZifyNat.
From Verif Require Import Base BaseFacts.
From Verif Require LstModel SrtSpec DctSpec.
From Verif Require Import RcModel RcSpec LpModel LpSpec LpProofs10 PdModel PdSpec PdProofs PdProofs2.
Open Scope nat_scope.

Section Pd.
  Variable K : Type.
  Variable c : K -> K -> comparison.
  Variable TO : SrtSpec.total_order c.
  Notation cmp := (fun a b => Some (c a b)).
  Notation prun := (prun K cmp).

  Lemma init_pgood n : pgood K c (init_p n).
  Proof.
    split; [apply init_lgood|]. split; [reflexivity|]. intros l v. unfold init_p, lworld_of, lw. cbn [lp al init_l ls].
    destruct l; discriminate.
  Qed.
  Lemma lrun_one s os s' o s'' : lrun s os = Ok s' -> lstep s' o = Ok s'' -> lrun s (os ++ [o]) = Ok s''.
  Proof.
    revert s. induction os as [|x os IH]; intros s H E; cbn [app lrun] in *.
    - injection H as ->. now rewrite E.
    - destruct (lstep s x); try discriminate. cbn [bind] in *. now apply IH.
  Qed.
  Lemma llegal_one s os s' o : llegal_run s os -> lrun s os = Ok s' -> llegal (lworld_of s') o -> llegal_run s (os ++ [o]).
  Proof.
    revert s. induction os as [|x os IH]; intros s L H E; cbn [app lrun llegal_run] in *.
    - injection H as ->. split; [exact E|auto].
    - destruct L as [L1 L2]. split; [exact L1|]. intros t Et. rewrite Et in H. cbn [bind] in H. apply IH; auto.
  Qed.
  (* the lists of values have a history of lists of Ptr *)
  Definition listed (n : nat) (s : pst K) : Prop := exists los, llegal_run (init_l n) los /\ lrun (init_l n) los = Ok (lp s).
  Lemma listed_step n s s' : listed n s -> as_list K s s' -> listed n s'.
  Proof.
    intros (los & L & R) [E|(o & Lo & E)].
    - exists los. now rewrite E.
    - exists (los ++ [o]). split; [eapply llegal_one; eauto|eapply lrun_one; eauto].
  Qed.
  Lemma prun_ok n os : forall s, pgood K c s -> listed n s -> dlegal_run K c s os ->
    exists s' rs, prun s os = Ok (s', rs) /\ dhistory K c s os rs s' /\ pgood K c s' /\ listed n s'.
  Proof.
    induction os as [|o os IH]; intros s G A L; cbn [dlegal_run PdModel.prun] in *.
    - exists s, []. split; [reflexivity|]. split; [constructor|auto].
    - destruct L as [L1 L2]. destruct (pstep_ok K c TO s o G L1) as (s1 & r & E & Sp & G1 & A1).
      destruct (IH s1 G1 (listed_step n s s1 A A1) (L2 s1 r E)) as (s2 & rs & R & H & G2 & A2).
      exists s2, (r :: rs). rewrite E. cbn [bind]. rewrite R. cbn [bind]. split; [reflexivity|]. split; [econstructor; eauto|auto].
  Qed.
  Lemma init_listed n : listed n (init_p n). Proof. exists []. split; [exact I|reflexivity]. Qed.
  Lemma reach n os s rs : dlegal_run K c (init_p n) os -> prun (init_p n) os = Ok (s, rs) -> pgood K c s /\ listed n s.
  Proof.
    intros L R. destruct (prun_ok n os _ (init_pgood n) (init_listed n) L) as (s' & rs' & R' & _ & G & A).
    assert (s' = s) by congruence. now subst.
  Qed.
  Lemma history_ok n os : dlegal_run K c (init_p n) os ->
    exists s rs, prun (init_p n) os = Ok (s, rs) /\ dhistory K c (init_p n) os rs s.
  Proof.
    intros L. destruct (prun_ok n os _ (init_pgood n) (init_listed n) L) as (s & rs & R & H & _). eauto.
  Qed.
  Lemma lists_ok n os s rs : dlegal_run K c (init_p n) os -> prun (init_p n) os = Ok (s, rs) ->
    exists los, llegal_run (init_l n) los /\ lrun (init_l n) los = Ok (lp s).
  Proof. intros L R. exact (proj2 (reach n os s rs L R)). Qed.
  Lemma map_ok n os s rs l f : dlegal_run K c (init_p n) os -> prun (init_p n) os = Ok (s, rs) -> dict (dworld_of s) l = Some f ->
    DctSpec.ascending_keys K (option nat) c f /\ map fst f = keyed (dworld_of s) l /\ al (refs (dworld_of s)) l = Some (map snd f).
  Proof.
    intros L R D. destruct (reach n os s rs L R) as [G _]. destruct (dict_facts K c s l f G D) as (A & Lt & As & x & X & Sh).
    split; [exact As|]. split; [|exact A]. cbn [dworld_of keyed]. unfold keys_of in X.
    destruct (lget (rc (lp s)) (ls (lp s)) l); try discriminate. cbn [bind] in X. destruct (nth_error (ks s) l) as [y|]; [|discriminate].
    injection X as ->. symmetry. now apply shown_shows.
  Qed.
  Lemma alive_ok n os s rs o : dlegal_run K c (init_p n) os -> prun (init_p n) os = Ok (s, rs) ->
    (aa (refs (dworld_of s)) o = true <->
     (exists u, av (refs (dworld_of s)) u = Some (Some o)) \/ exists l f k, dict (dworld_of s) l = Some f /\ In (k, Some o) f).
  Proof.
    intros L R. destruct (reach n os s rs L R) as [G (los & L' & R')]. cbn [dworld_of refs].
    rewrite (lalive_ok n los (lp s) o L' R'). split.
    - intros ([u|l i] & H); unfold arefers in H; cbn [at_] in H; [eauto|].
      destruct (al (lworld_of (lp s)) l) as [v|] eqn:E; [|discriminate]. right.
      destruct (dict (dworld_of s) l) as [f|] eqn:D; [|unfold dict in D; cbn [dworld_of refs] in D; rewrite E in D; discriminate].
      destruct (dict_facts K c s l f G D) as (A & _). assert (v = map snd f) by congruence. subst v.
      apply nth_error_In in H. apply in_map_iff in H. destruct H as ([k x] & <- & H). exists l, f, k. auto.
    - intros [(u & H)|(l & f & k & D & H)]; [exists (PVar u); exact H|].
      destruct (dict_facts K c s l f G D) as (A & _). apply (in_map snd) in H. apply In_nth_error in H. destruct H as (i & H).
      exists (PItem l i). unfold arefers. cbn [at_]. rewrite A. exact H.
  Qed.
  Lemma counter_ok n os s rs u p h o : dlegal_run K c (init_p n) os -> prun (init_p n) os = Ok (s, rs) ->
    nth_error (vs (rc (lp s))) u = Some (Some p, h) -> pr p = Some o ->
    alive (rc (lp s)) o = true /\ exists d, pc p = Some d /\ nth_error (cn (rc (lp s))) d = Some (Some (Z.of_nat (owners (rc (lp s)) o))).
  Proof. intros L R. destruct (reach n os s rs L R) as [_ (los & L' & R')]. exact (lcounter_ok n los (lp s) u p h o L' R'). Qed.
End Pd.

(* ---- cases ---------------------------------------------------------------------------------- *)
Notation zrun := (prun Z (fun a b => Some (Z.compare a b))).
Notation zstep := (pstep Z (fun a b => Some (Z.compare a b))).
Ltac dnext := let s' := fresh "s" in let r := fresh "r" in let H := fresh "H" in intros s' r H; vm_compute in H; injection H as <- <-; cbn [dlegal_run].
(* a registry: objects by name, one of them holding a dictionary with the other *)
Definition registry : list (pop Z) :=
  [DNew; VMake 0 0 1; VMake 1 0 0; DAdd 1 5 (FromVar 1) false; DAdd 0 9 (FromVar 0) true; DAdd 0 3 (FromVar 1) true; VEnd 0; VEnd 1;
   VCopy 2 (FromDict 0 4); VCopy 2 (FromDict 0 9); DAdd 0 3 (FromDict 1 5) false; DHas 0 4; DSet 0 7 (FromDict 1 5) false;
   DSet 0 9 (FromDict 0 3) false; DRemove 0 4; DRemove 0 3; VNull 2; DClear 0]%Z.
Ltac there_ := vm_compute; discriminate.
Ltac dslot := split; [reflexivity|split; reflexivity].
Ltac own_ := cbn [not_own]; first [exact I|intros D_; discriminate D_|
  intros _; eexists; split; [vm_compute; reflexivity|left; vm_compute; discriminate]].
Ltac dholder t := let o := fresh "o" in let H := fresh "H" in intros o H; vm_compute in H; injection H as <-;
  apply (arooted_by _ _ _ t); [unfold touched; cbn; intuition discriminate|reflexivity|stack].
Ltac held_ := first [stack|dholder (PVar 0)|dholder (PVar 2)].
Ltac stores := cbn [dlegal]; split; [there_|split; [there_|split; [own_|split; held_]]].
Lemma registry_legal : dlegal_run Z Z.compare (init_p 3) registry.
Proof.
  unfold registry. cbn [dlegal_run].
  split; [exact I|]. dnext. split; [dslot|]. dnext. split; [dslot|]. dnext.
  split; [stores|]. dnext. split; [stores|]. dnext. split; [stores|]. dnext.
  split; [split; [there_|reflexivity]|]. dnext. split; [split; [there_|reflexivity]|]. dnext.
  split; [split; [dslot|there_]|]. dnext. split; [split; [dslot|there_]|]. dnext.
  split; [stores|]. dnext. split; [there_|]. dnext. split; [stores|]. dnext. split; [stores|]. dnext.
  split; [split; [there_|stack]|]. dnext. split; [split; [there_|stack]|]. dnext.
  split; [split; [there_|stack]|]. dnext. split; [split; [there_|stack]|]. dnext. exact I.
Qed.
Lemma registry_runs : exists s1 s2 s3 r1 r2 r3,
  zrun (init_p 3) (firstn 8 registry) = Ok (s1, r1) /\ dict (dworld_of s1) 0 = Some [(3%Z, Some 1); (9%Z, Some 0)] /\
  dict (dworld_of s1) 1 = Some [(5%Z, Some 1)] /\
  zrun (init_p 3) (firstn 16 registry) = Ok (s2, r2) /\ dict (dworld_of s2) 0 = Some [(7%Z, Some 1); (9%Z, Some 1)] /\
  skipn 8 r2 = [Raised; Done; Raised; Said false; Said true; Said true; Said false; Said true] /\
  zrun (init_p 3) registry = Ok (s3, r3) /\ dict (dworld_of s3) 0 = Some [] /\ dict (dworld_of s3) 1 = None /\ ob (rc (lp s3)) = [false; false].
Proof.
  do 6 eexists. split; [vm_compute; reflexivity|]. split; [reflexivity|]. split; [reflexivity|]. split; [vm_compute; reflexivity|].
  split; [reflexivity|]. split; [reflexivity|]. split; [vm_compute; reflexivity|]. split; [reflexivity|]. split; reflexivity.
Qed.
(* a value of the dictionary itself under a new key: the insertion moves the value away before it is copied *)
Definition own_demo : list (pop Z) := [DNew; VMake 0 0 0; DAdd 0 1 (FromVar 0) false; DAdd 0 2 (FromVar 0) false]%Z.
Lemma own_bad : dlegal_run Z Z.compare (init_p 1) own_demo /\ exists s r s1 r1, zrun (init_p 1) own_demo = Ok (s, r) /\
  dict (dworld_of s) 0 = Some [(1%Z, Some 0); (2%Z, Some 0)] /\ zstep s (DAdd 0 3 (FromDict 0 1) false)%Z = UB /\
  zstep s (DSet 0 3 (FromDict 0 1) false)%Z = UB /\
  zrun (init_p 1) (firstn 3 own_demo) = Ok (s1, r1) /\ zstep s1 (DAdd 0 0 (FromDict 0 1) false)%Z = UB.
Proof.
  split.
  - unfold own_demo. cbn [dlegal_run]. split; [exact I|]. dnext. split; [dslot|]. dnext. split; [stores|]. dnext. split; [stores|]. dnext. exact I.
  - do 4 eexists. split; [vm_compute; reflexivity|]. split; [reflexivity|]. split; [reflexivity|]. split; [reflexivity|].
    split; [vm_compute; reflexivity|reflexivity].
Qed.
(* an object that only its own dictionary keeps *)
Definition own_ring : list (pop Z) := [VMake 0 0 1; VCopy 1 (FromVar 0); DAdd 0 1 (FromVar 1) false; VEnd 1]%Z.
Lemma ring_breaks : dlegal_run Z Z.compare (init_p 2) own_ring /\ exists s r s1, zrun (init_p 2) own_ring = Ok (s, r) /\
  zstep s (VEnd 0) = Ok (s1, Done) /\ dict (dworld_of s1) 0 = Some [(1%Z, Some 0)] /\
  zstep s1 (DRemove 0 1%Z) = UB /\ zstep s1 (DClear 0) = UB /\ zstep s1 (DMove 0 0) = UB.
Proof.
  split.
  - unfold own_ring. cbn [dlegal_run]. split; [dslot|]. dnext. split; [split; [dslot|there_]|]. dnext. split; [stores|]. dnext.
    split; [split; [there_|reflexivity]|]. dnext. exact I.
  - do 3 eexists. split; [vm_compute; reflexivity|]. split; [vm_compute; reflexivity|]. split; [reflexivity|]. split; [reflexivity|]. split; reflexivity.
Qed.
