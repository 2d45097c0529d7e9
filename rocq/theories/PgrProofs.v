From Coq Require Import ZifyBool ZifyNat.
From Verif Require Import Base BaseFacts PgrModel PgrSpec.
Open Scope nat_scope.

(* ---- counting ---- *)
Lemma sum_upd {A} (f : A -> nat) l i x y : nth_error l i = Some x -> sum f (upd l i y) + f x = sum f l + f y.
Proof.
  unfold sum. revert i. induction l as [|z l IH]; intros [|i] H; cbn [nth_error upd fold_right] in *; try discriminate.
  - inversion H; subst. lia.
  - specialize (IH _ H). lia.
Qed.
Lemma sum_in {A} (f : A -> nat) l i x : nth_error l i = Some x -> f x <= sum f l.
Proof.
  unfold sum. revert i. induction l as [|z l IH]; intros [|i] H; cbn [nth_error fold_right] in *; try discriminate.
  - inversion H; subst. lia.
  - specialize (IH _ H). lia.
Qed.
Lemma sum_app {A} (f : A -> nat) l m : sum f (l ++ m) = sum f l + sum f m.
Proof. unfold sum. induction l as [|x l IH]; cbn [app fold_right]; lia. Qed.
Lemma sum_le {A} (f g : A -> nat) l : (forall x, f x <= g x) -> sum f l <= sum g l.
Proof. intros H. unfold sum. induction l as [|x l IH]; cbn [fold_right]; [lia|specialize (H x); lia]. Qed.
Lemma sum_plus {A} (f g : A -> nat) l : sum (fun x => f x + g x) l = sum f l + sum g l.
Proof. unfold sum. induction l as [|x l IH]; cbn [fold_right]; lia. Qed.

Definition one (o : nat) (v : option nat) : nat := match v with Some p => if Nat.eqb o p then 1 else 0 | None => 0 end.
Lemma occ_cons o v l : occ o (v :: l) = one o v + occ o l.
Proof. reflexivity. Qed.
Lemma occ_app o l m : occ o (l ++ m) = occ o l + occ o m.
Proof. induction l as [|v l IH]; cbn [app]; rewrite ?occ_cons; [reflexivity|lia]. Qed.
Lemma occ_upd o l i v v' : nth_error l i = Some v -> occ o (upd l i v') + one o v = occ o l + one o v'.
Proof.
  revert i. induction l as [|x l IH]; intros [|i] H; cbn [nth_error upd] in *; try discriminate; rewrite !occ_cons.
  - inversion H; subst. lia.
  - specialize (IH _ H). lia.
Qed.
Lemma occ_get o l i : one o (getv l i) <= occ o l.
Proof.
  unfold getv. revert i. induction l as [|x l IH]; intros [|i]; cbn [nth_error]; rewrite ?occ_cons; cbn [one]; try lia.
  specialize (IH i). lia.
Qed.
Lemma occ_in o l : In (Some o) l <-> 1 <= occ o l.
Proof.
  induction l as [|v l IH]; cbn [In]; [cbn [occ]; split; [tauto|lia]|]. rewrite occ_cons, IH.
  destruct v as [p|]; cbn [one].
  - destruct (Nat.eqb_spec o p) as [->|N]; split; intros; try lia; auto. destruct H; [congruence|lia].
  - split; intros; [destruct H; [discriminate|lia]|right; lia].
Qed.
Lemma getv_in l x o : getv l x = Some o -> In (Some o) l.
Proof. unfold getv. destruct (nth_error l x) as [v|] eqn:E; [|discriminate]. intros ->. eapply nth_error_In; eauto. Qed.
Lemma getv_nth l x v : nth_error l x = Some v -> getv l x = v.
Proof. unfold getv. now intros ->. Qed.
Lemma getv_some l x o : getv l x = Some o -> nth_error l x = Some (Some o).
Proof. unfold getv. destruct (nth_error l x); congruence. Qed.

(* tasks of each kind *)
Definition is_dec o a := match a with TDec p => if Nat.eqb o p then 1 else 0 | _ => 0 end.
Definition is_counter o a := match a with TCounter p => if Nat.eqb o p then 1 else 0 | _ => 0 end.
Definition is_destroy o a := match a with TDestroy p => if Nat.eqb o p then 1 else 0 | _ => 0 end.
Definition is_free o a := match a with TFree p => if Nat.eqb o p then 1 else 0 | _ => 0 end.
Definition fref (o : nat) (r : rest) : nat := match r with RSet _ p => one o (Some p) | RBuild _ _ acc => occ o acc | _ => 0 end.
(* the counted references thread t has to o *)
Definition hv (o : nat) (t : thread) : nat := occ o (vars t) + sum (is_dec o) (work t) + fref o (fin t).
Definition tc (o : nat) (t : thread) := sum (is_counter o) (work t).
Definition td (o : nat) (t : thread) := sum (is_destroy o) (work t).
Definition tf (o : nat) (t : thread) := sum (is_free o) (work t).
Definition ce (h : list obj) (o : nat) : nat := sum (fun b => occ o (cells b)) h.

Lemma sum_cons {A} (f : A -> nat) x l : sum f (x :: l) = f x + sum f l.
Proof. reflexivity. Qed.
Lemma sum_nil {A} (f : A -> nat) : sum f [] = 0.
Proof. reflexivity. Qed.
Lemma dec_of_sums o v : sum (is_dec o) (dec_of v) = one o v /\ sum (is_counter o) (dec_of v) = 0 /\
  sum (is_destroy o) (dec_of v) = 0 /\ sum (is_free o) (dec_of v) = 0.
Proof. destruct v as [p|]; cbn [dec_of]; rewrite ?sum_cons, ?sum_nil; cbn [is_dec is_counter is_destroy is_free one]; repeat split; lia. Qed.
Lemma cell_sums o l : sum (is_dec o) (map TDec (rev (somes l))) = occ o l /\ sum (is_counter o) (map TDec (rev (somes l))) = 0 /\
  sum (is_destroy o) (map TDec (rev (somes l))) = 0 /\ sum (is_free o) (map TDec (rev (somes l))) = 0.
Proof.
  induction l as [|v l IH]; [repeat split|]. unfold somes in *. cbn [flat_map]. rewrite rev_app_distr, map_app, !sum_app, occ_cons.
  destruct IH as (-> & -> & -> & ->). destruct v as [p|]; cbn [app rev map]; rewrite ?sum_cons, ?sum_nil; cbn [is_dec is_counter is_destroy is_free one]; repeat split; lia.
Qed.

(* r counted references, a, d, e threads before the deletion of the counter, of the object, of the memory; l: deleted *)
Definition okb (ob : option obj) (r a d e l : nat) : Prop :=
  match ob with
  | None => r = 0 /\ a = 0 /\ d = 0 /\ e = 0 /\ l = 0
  | Some b =>
      match lf b, cnt b with
      | Alive, Some n => n = Z.of_nat r /\ (r = 0 -> a = 1) /\ (r > 0 -> a = 0) /\ d = 0 /\ e = 0 /\ l = 0
      | Alive, None => r = 0 /\ a = 0 /\ d = 1 /\ e = 0 /\ l = 0
      | Dying, None => r = 0 /\ a = 0 /\ d = 0 /\ e = 1 /\ l = 0
      | Gone, None => r = 0 /\ a = 0 /\ d = 0 /\ e = 0 /\ l = 1
      | _, Some _ => False
      end
  end.
Definition free_slot (t : thread) (y : nat) : Prop := nth_error (vars t) y = Some None.
Definition good (h : list obj) (t : thread) : Prop :=
  match fin t with
  | RNone => True
  | RSet y _ => free_slot t y
  | RCopy y x => free_slot t y
  | RMove y x => free_slot t y /\ x <> y
  | RRead y o f => free_slot t y /\ In (Some o) (vars t)
  | RInc y o f p => free_slot t y /\ In (Some o) (vars t) /\ exists b, nth_error h o = Some b /\ nth_error (cells b) f = Some (Some p)
  | RStore o f x => In (Some o) (vars t) /\ exists b, nth_error h o = Some b /\ nth_error (cells b) f = Some None
  | RTake y o f => free_slot t y /\ In (Some o) (vars t) /\ exists b, nth_error h o = Some b /\ exists v, nth_error (cells b) f = Some v
  | RBuild y ms acc => y < length (vars t)
  end.
Definition lc (l : list nat) (o : nat) := count_occ Nat.eq_dec l o.
Record inv (w : pg) : Prop := mkInv {
  i_obj : forall o, okb (nth_error (heap w) o) (sum (hv o) (ths w) + ce (heap w) o)
            (sum (tc o) (ths w)) (sum (td o) (ths w)) (sum (tf o) (ths w)) (lc (log w) o);
  i_good : forall i t, nth_error (ths w) i = Some t -> good (heap w) t;
  i_excl : forall i j s t o f, i <> j -> nth_error (ths w) i = Some s -> nth_error (ths w) j = Some t ->
            writes_cell o f s = true -> uses_cell o f t = false;
  i_self : forall i t, nth_error (ths w) i = Some t -> no_self (prog t) }.

Lemma writes_uses o f t : writes_cell o f t = true -> uses_cell o f t = true.
Proof. unfold writes_cell, uses_cell. destruct (fin t); congruence. Qed.
Lemma uses_obj_of o f t : uses_cell o f t = true -> uses_obj o t = true.
Proof. unfold uses_cell, uses_obj. destruct (fin t); try congruence; intros H; apply andb_true_iff in H; tauto. Qed.
Lemma uses_held h o t : good h t -> uses_obj o t = true -> In (Some o) (vars t).
Proof. unfold good, uses_obj. destruct (fin t); intros H E; try discriminate; apply Nat.eqb_eq in E; subst; tauto. Qed.

(* what one thread holds is there *)
Lemma held_obj w i t o : inv w -> nth_error (ths w) i = Some t -> 1 <= hv o t ->
  exists n c, nth_error (heap w) o = Some (mkO (Some n) Alive c).
Proof.
  intros I Et H. pose proof (sum_in (hv o) _ _ _ Et) as Q. pose proof (i_obj w I o) as K.
  destruct (nth_error (heap w) o) as [[[n|] l c]|]; cbn [okb lf cnt] in K; [destruct l; try contradiction; eauto|destruct l; lia|lia].
Qed.
Lemma held_cell w o b p : inv w -> nth_error (heap w) o = Some b -> In (Some p) (cells b) ->
  exists n c, nth_error (heap w) p = Some (mkO (Some n) Alive c).
Proof.
  intros I E H. apply occ_in in H. pose proof (sum_in (fun b => occ p (cells b)) _ _ _ E) as Q. cbv beta in Q.
  pose proof (i_obj w I p) as K. unfold ce in K.
  destruct (nth_error (heap w) p) as [[[n|] l c]|]; cbn [okb lf cnt] in K; [destruct l; try contradiction; eauto|destruct l; lia|lia].
Qed.

(* what a step of thread i has to satisfy *)
Lemma inv_step w i t t' h' l' : inv w -> nth_error (ths w) i = Some t ->
  (forall o R A D E, okb (nth_error (heap w) o) (R + hv o t + ce (heap w) o) (A + tc o t) (D + td o t) (E + tf o t) (lc (log w) o) ->
     okb (nth_error h' o) (R + hv o t' + ce h' o) (A + tc o t') (D + td o t') (E + tf o t') (lc l' o)) ->
  good h' t' ->
  (forall j s o b, j <> i -> nth_error (ths w) j = Some s -> uses_obj o s = true -> nth_error (heap w) o = Some b ->
     exists b', nth_error h' o = Some b' /\ forall f, uses_cell o f s = true -> nth_error (cells b') f = nth_error (cells b) f) ->
  (forall j s o f, j <> i -> nth_error (ths w) j = Some s ->
     (writes_cell o f t' = true -> uses_cell o f s = false) /\ (uses_cell o f t' = true -> writes_cell o f s = false)) ->
  no_self (prog t') ->
  inv (mkW h' (upd (ths w) i t') l').
Proof.
  intros I Et H1 H2 H3 H4 H5. pose proof (nth_error_lt _ _ _ Et) as Li. constructor; cbn [heap ths log].
  - intros o. specialize (H1 o). pose proof (i_obj w I o) as K.
    pose proof (sum_upd (hv o) _ _ _ t' Et) as Q1. pose proof (sum_upd (tc o) _ _ _ t' Et) as Q2.
    pose proof (sum_upd (td o) _ _ _ t' Et) as Q3. pose proof (sum_upd (tf o) _ _ _ t' Et) as Q4.
    pose proof (sum_in (hv o) _ _ _ Et) as P1. pose proof (sum_in (tc o) _ _ _ Et) as P2.
    pose proof (sum_in (td o) _ _ _ Et) as P3. pose proof (sum_in (tf o) _ _ _ Et) as P4.
    specialize (H1 (sum (hv o) (ths w) - hv o t) (sum (tc o) (ths w) - tc o t) (sum (td o) (ths w) - td o t) (sum (tf o) (ths w) - tf o t)).
    replace (sum (hv o) (ths w) - hv o t + hv o t) with (sum (hv o) (ths w)) in H1 by lia.
    replace (sum (tc o) (ths w) - tc o t + tc o t) with (sum (tc o) (ths w)) in H1 by lia.
    replace (sum (td o) (ths w) - td o t + td o t) with (sum (td o) (ths w)) in H1 by lia.
    replace (sum (tf o) (ths w) - tf o t + tf o t) with (sum (tf o) (ths w)) in H1 by lia.
    specialize (H1 K).
    replace (sum (hv o) (upd (ths w) i t')) with (sum (hv o) (ths w) - hv o t + hv o t') by lia.
    replace (sum (tc o) (upd (ths w) i t')) with (sum (tc o) (ths w) - tc o t + tc o t') by lia.
    replace (sum (td o) (upd (ths w) i t')) with (sum (td o) (ths w) - td o t + td o t') by lia.
    replace (sum (tf o) (upd (ths w) i t')) with (sum (tf o) (ths w) - tf o t + tf o t') by lia.
    exact H1.
  - intros j s. destruct (Nat.eq_dec i j) as [<-|N]; [rewrite upd_same by auto; intros X; now inversion X; subst|].
    rewrite upd_other by auto. intros Es. pose proof (i_good w I _ _ Es) as G. unfold good in *.
    pose proof (fun o b => H3 j s o b (not_eq_sym N) Es) as K. unfold uses_obj, uses_cell in K.
    destruct (fin s); auto.
    + destruct G as (G1 & G2 & b & G3 & G4). split; [exact G1|split; [exact G2|]].
      destruct (K _ _ (Nat.eqb_refl _) G3) as (b' & Q1 & Q2). exists b'. split; [exact Q1|]. rewrite Q2; auto. now rewrite !Nat.eqb_refl.
    + destruct G as (G2 & b & G3 & G4). split; [exact G2|].
      destruct (K _ _ (Nat.eqb_refl _) G3) as (b' & Q1 & Q2). exists b'. split; [exact Q1|]. rewrite Q2; auto. now rewrite !Nat.eqb_refl.
    + destruct G as (G1 & G2 & b & G3 & G4). split; [exact G1|split; [exact G2|]].
      destruct (K _ _ (Nat.eqb_refl _) G3) as (b' & Q1 & Q2). exists b'. split; [exact Q1|]. rewrite Q2; auto. now rewrite !Nat.eqb_refl.
  - intros j k s u o f N Es Eu Hw.
    destruct (Nat.eq_dec i j) as [<-|Nj]; [|destruct (Nat.eq_dec i k) as [<-|Nk]].
    + rewrite upd_same in Es by auto. injection Es as <-. rewrite upd_other in Eu by auto. exact (proj1 (H4 k u o f (not_eq_sym N) Eu) Hw).
    + rewrite upd_same in Eu by auto. injection Eu as <-. rewrite upd_other in Es by auto.
      destruct (uses_cell o f t') eqn:E; auto. pose proof (proj2 (H4 j s o f N Es) E). congruence.
    + rewrite upd_other in Es, Eu by auto. eapply (i_excl w I j k); eauto.
  - intros j s. destruct (Nat.eq_dec i j) as [<-|N]; [rewrite upd_same by auto; intros X; now inversion X; subst|].
    rewrite upd_other by auto. apply (i_self w I).
Qed.
