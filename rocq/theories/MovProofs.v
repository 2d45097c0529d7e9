From Coq Require Import ZifyBool ZifyNat Permutation.
From Verif Require Import Base BaseFacts LstModel LstSpec LstProofs SrtModel SrtSpec SrtProofs DctModel DctSpec DctProofs MovModel MovSpec.
Open Scope Z_scope.

Definition alive {T} (t : list (option T)) : list bool := map (fun x => match x with Some _ => true | None => false end) t.
Lemma map_upd {A B} (f : A -> B) l n x : map f (upd l n x) = upd (map f l) n (f x).
Proof. revert n. induction l as [|a l IH]; intros [|n]; cbn [upd map]; auto. now rewrite IH. Qed.
Lemma upd_id {A} (l : list A) n x : nth_error l n = Some x -> upd l n x = l.
Proof. revert n. induction l as [|a l IH]; intros [|n]; cbn [upd nth_error]; auto; intros H; [congruence|]. now rewrite IH. Qed.
Lemma upd_twice {A} (l : list A) n x y : upd (upd l n x) n y = upd l n y.
Proof. revert n. induction l as [|a l IH]; intros [|n]; cbn [upd]; auto. now rewrite IH. Qed.
Lemma alive_nth {T} (t : list (option T)) v b : nth_error (alive t) v = Some b -> if b then exists a, nth_error t v = Some (Some a) else nth_error t v = Some None.
Proof.
  unfold alive. rewrite nth_error_map. destruct (nth_error t v) as [[a|]|]; cbn [option_map]; intros H; inversion H; eauto.
Qed.
Lemma nth_alive {T} (t : list (option T)) v a : nth_error t v = Some a -> nth_error (alive t) v = Some (match a with Some _ => true | None => false end).
Proof. unfold alive. rewrite nth_error_map. now intros ->. Qed.

Section Run.
  Variable S O T R : Type.
  Variable nothing : T.
  Variable op_ok : T -> O -> T -> R -> Prop.
  Variable fine : O -> Prop.
  Variable step : S -> mop O -> res (S * mout R).
  Variable shows : S -> list (option T) -> Prop.
  Notation vstep := (vstep O T R nothing op_ok).
  Notation vrun := (vrun O T R nothing op_ok).
  Notation proper := (proper O fine).

  Lemma proper_next t o t' r os : vstep t o t' r -> proper (alive t) (o :: os) -> proper (alive t') os.
  Proof.
    intros H P. destruct H as [t v Hv|t v w a Hv Hw|t v w a b Ne Hv Hw|t v a Hv|t v a Hv|t v o a a' r Hv Ho]; cbn [MovSpec.proper] in P.
    - unfold alive. rewrite map_upd. tauto.
    - destruct P as (_ & Pw & P). unfold alive. rewrite !map_upd. fold (alive t). rewrite upd_id; [exact P|].
      destruct (Nat.eq_dec v w) as [->|N]; [congruence|]. rewrite upd_other by auto. exact Pw.
    - destruct P as (Pv & Pw & P). unfold alive. rewrite !map_upd. fold (alive t). rewrite (upd_id (alive t) v) by exact Pv. rewrite upd_id; assumption.
    - destruct P as (Pv & Pw & P). unfold alive. rewrite map_upd. fold (alive t). now rewrite upd_id.
    - unfold alive. rewrite map_upd. tauto.
    - destruct P as (Pv & _ & P). unfold alive. rewrite map_upd. fold (alive t). now rewrite upd_id.
  Qed.
  Hypothesis step_ok : forall s t o os, shows s t -> proper (alive t) (o :: os) ->
    exists s' t' r, step s o = Ok (s', r) /\ vstep t o t' r /\ shows s' t'.
  Lemma run_ok os : forall s t, shows s t -> proper (alive t) os -> exists s' t' rs, mrun step s os = Ok (s', rs) /\ vrun t os t' rs /\ shows s' t'.
  Proof.
    induction os as [|o os IH]; intros s t H P; cbn [mrun].
    - exists s, t, []. split; [reflexivity|]. split; [constructor|exact H].
    - destruct (step_ok s t o os H P) as (s1 & t1 & r & E & V & S1). rewrite E. cbn [bind].
      destruct (IH s1 t1 S1 (proper_next _ _ _ _ _ V P)) as (s2 & t2 & rs & E2 & V2 & S2). rewrite E2. cbn [bind].
      exists s2, t2, (r :: rs). split; [reflexivity|]. split; [econstructor; eauto|exact S2].
  Qed.
End Run.

Lemma F2_nth {S T} (P : option S -> option T -> Prop) s t v x : Forall2 P s t -> nth_error t v = Some x -> exists y, nth_error s v = Some y /\ P y x.
Proof.
  intros H. revert v. induction H as [|a b s t H1 H IH]; intros [|v]; cbn [nth_error]; try discriminate; [|apply IH].
  intros E. injection E as <-. eauto.
Qed.
Lemma F2_upd {S T} (P : S -> T -> Prop) s t v x y : Forall2 P s t -> P x y -> Forall2 P (upd s v x) (upd t v y).
Proof. intros H Hp. revert v. induction H as [|a b s t H1 H IH]; intros [|v]; cbn [upd]; constructor; auto. Qed.
Lemma F2_none {S T} (P : option S -> option T -> Prop) n : P None None -> Forall2 P (repeat None n) (repeat None n).
Proof. intros H. induction n; cbn [repeat]; constructor; auto. Qed.
Lemma alive_none {T} n : alive (repeat (@None T) n) = repeat false n.
Proof. induction n; cbn [repeat alive map]; auto. unfold alive in IHn. now rewrite IHn. Qed.

Ltac alv := repeat match goal with
  | H : nth_error (alive ?t) ?v = Some true |- _ => apply alive_nth in H; destruct H as [? H]
  | H : nth_error (alive ?t) ?v = Some false |- _ => apply alive_nth in H end.
Ltac var1 H Hv y Sy := let E := fresh in destruct (F2_nth _ _ _ _ _ H Hv) as (y & E & Sy); unfold mvar, mfree; rewrite E; destruct y as [y|]; try contradiction; cbn [bind].

Section Sorted.
  Variable A : Type.
  Variable c : A -> A -> comparison.
  Variable TO : total_order c.
  Notation cmp := (fun a b => Some (c a b)).
  Lemma empty_ok : lst_shows A empty_lst [] /\ ascending A c [].
  Proof. split; [apply empty_shows|constructor]. Qed.
  Lemma sm_step_ok s t o os : sm_shows c s t -> proper (sop A) (client_ok A) (alive t) (o :: os) ->
    exists s' t' r, sm_step A cmp s o = Ok (s', r) /\ vstep (sop A) (list A) (out A) [] (s_ok c) t o t' r /\ sm_shows c s' t'.
  Proof.
    intros H P. destruct o as [v|v w|v w|v|v o]; cbn [proper] in P; unfold sm_step.
    - destruct P as (Pv & _). alv. var1 H Pv y Sy. do 3 eexists. split; [reflexivity|]. split; [now constructor|].
      apply F2_upd; [exact H|apply empty_ok].
    - destruct P as (Pv & Pw & _). alv. var1 H Pv y Sy. var1 H Pw z Sz. do 3 eexists. split; [reflexivity|]. split; [eapply v_move_new; eauto|].
      apply F2_upd; [apply F2_upd; [exact H|exact Sz]|apply empty_ok].
    - destruct P as (Pv & Pw & _). alv. var1 H Pv y Sy. var1 H Pw z Sz. destruct Sy as [Sy _]. unfold l_move, l_move_self. rewrite (destruct_ok A _ _ Sy).
      destruct (Nat.eqb v w) eqn:E; cbn [bind].
      + apply Nat.eqb_eq in E. subst w. do 3 eexists. split; [reflexivity|]. split; [eapply v_move_self; eauto|]. apply F2_upd; [exact H|apply empty_ok].
      + apply Nat.eqb_neq in E. do 3 eexists. split; [reflexivity|]. split; [eapply v_move; eauto|].
        apply F2_upd; [apply F2_upd; [exact H|exact Sz]|apply empty_ok].
    - destruct P as (Pv & _). alv. var1 H Pv y Sy. destruct Sy as [Sy _]. rewrite (destruct_ok A _ _ Sy). cbn [bind]. do 3 eexists. split; [reflexivity|].
      split; [eapply v_destroy; eauto|]. apply F2_upd; [exact H|exact I].
    - destruct P as (Pv & Po & _). alv. var1 H Pv y Sy. destruct Sy as [Sy Ay]. destruct (s_step_ok A c TO y _ o Sy Ay Po) as (z & l' & r & E & Sz & Az & Ok).
      rewrite E. cbn [bind]. do 3 eexists. split; [reflexivity|]. split; [eapply v_op; [exact Pv|split; [exact Ok|exact Az]]|].
      apply F2_upd; [exact H|split; [exact Sz|exact Az]].
  Qed.
  Lemma sorted_moves n os : proper (sop A) (client_ok A) (repeat false n) os ->
    exists s t rs, mrun (sm_step A cmp) (repeat None n) os = Ok (s, rs) /\ vrun (sop A) (list A) (out A) [] (s_ok c) (repeat None n) os t rs /\ sm_shows c s t.
  Proof.
    intros P. apply (run_ok _ _ _ _ [] (s_ok c) (client_ok A) (sm_step A cmp) (sm_shows c) sm_step_ok).
    - now apply F2_none.
    - now rewrite alive_none.
  Qed.
End Sorted.

Section Dicts.
  Variable K V : Type.
  Variable c : K -> K -> comparison.
  Variable TO : total_order c.
  Notation cmp := (fun a b => Some (c a b)).
  Lemma empty_dict_ok : d_shows K V c empty_dict [].
  Proof. split; [apply empty_shows|]. split; [apply empty_shows|]. constructor. Qed.
  Lemma dm_step_ok s t o os : dm_shows c s t -> proper (dop K V) (fun _ => True) (alive t) (o :: os) ->
    exists s' t' r, dm_step K V cmp s o = Ok (s', r) /\ vstep (dop K V) (fmap K V) (dout K V) [] (d_ok c) t o t' r /\ dm_shows c s' t'.
  Proof.
    intros H P. destruct o as [v|v w|v w|v|v o]; cbn [proper] in P; unfold dm_step.
    - destruct P as (Pv & _). alv. var1 H Pv y Sy. do 3 eexists. split; [reflexivity|]. split; [now constructor|].
      apply F2_upd; [exact H|apply empty_dict_ok].
    - destruct P as (Pv & Pw & _). alv. var1 H Pv y Sy. var1 H Pw z Sz. do 3 eexists. split; [reflexivity|]. split; [eapply v_move_new; eauto|].
      apply F2_upd; [apply F2_upd; [exact H|destruct z; exact Sz]|apply empty_dict_ok].
    - destruct P as (Pv & Pw & _). alv. var1 H Pv y Sy. var1 H Pw z Sz. destruct Sy as (SK & SV & _). unfold l_move, l_move_self.
      rewrite (destruct_ok K _ _ SK), (destruct_ok V _ _ SV).
      destruct (Nat.eqb v w) eqn:E; cbn [bind].
      + apply Nat.eqb_eq in E. subst w. do 3 eexists. split; [reflexivity|]. split; [eapply v_move_self; eauto|]. apply F2_upd; [exact H|apply empty_dict_ok].
      + apply Nat.eqb_neq in E. do 3 eexists. split; [reflexivity|]. split; [eapply v_move; eauto|].
        apply F2_upd; [apply F2_upd; [exact H|destruct z; exact Sz]|apply empty_dict_ok].
    - destruct P as (Pv & _). alv. var1 H Pv y Sy. destruct Sy as (SK & SV & _).
      rewrite (destruct_ok K _ _ SK), (destruct_ok V _ _ SV). cbn [bind]. do 3 eexists. split; [reflexivity|].
      split; [eapply v_destroy; eauto|]. apply F2_upd; [exact H|exact I].
    - destruct P as (Pv & Po & _). alv. var1 H Pv y Sy. destruct (d_step_ok K V c TO y _ o Sy) as (z & E & Sz).
      rewrite E. cbn [bind]. do 3 eexists. split; [reflexivity|]. split; [eapply v_op; [exact Pv|unfold d_ok; apply surjective_pairing]|].
      apply F2_upd; [exact H|exact Sz].
  Qed.
  Lemma dict_moves n os : proper (dop K V) (fun _ => True) (repeat false n) os ->
    exists s t rs, mrun (dm_step K V cmp) (repeat None n) os = Ok (s, rs) /\ vrun (dop K V) (fmap K V) (dout K V) [] (d_ok c) (repeat None n) os t rs /\ dm_shows c s t.
  Proof.
    intros P. apply (run_ok _ _ _ _ [] (d_ok c) (fun _ => True) (dm_step K V cmp) (dm_shows c) dm_step_ok).
    - now apply F2_none.
    - now rewrite alive_none.
  Qed.
End Dicts.

(* ---- groups: an operation on one group does not see the cells of the others ---- *)
Section Frame.
  Variable K V : Type.
  Variable cmp : K -> K -> option comparison.
  Variable veq : V -> V -> bool.
  Notation heap := (list (option (lst V))).
  Variable F : nat -> bool.       (* the cells of the others *)
  Variable H0 : heap.

  Definition sub (h H : heap) : Prop :=
    length h = length H /\ (forall p, F p = true -> nth_error h p = Some None /\ nth_error H p = nth_error H0 p) /\
    (forall p, F p = false -> nth_error h p = nth_error H p).
  Definition gsub (g G : group K V) : Prop := gkeys g = gkeys G /\ gvals g = gvals G /\ sub (gheap g) (gheap G).
  Definition rel {X Y} (P : X -> Y -> Prop) (r : res X) (r' : res Y) : Prop :=
    match r with Ok x => exists y, r' = Ok y /\ P x y | Err => r' = Err | _ => True end.
  Definition fsub {B} (x : group K V * B) (y : group K V * B) : Prop := gsub (fst x) (fst y) /\ snd x = snd y.

  Lemma rel_bind {X Y X' Y'} (P : X -> Y -> Prop) (Q : X' -> Y' -> Prop) r r' f f' :
    rel P r r' -> (forall x y, P x y -> rel Q (f x) (f' y)) -> rel Q (bind r f) (bind r' f').
  Proof.
    unfold rel. destruct r as [x| | |]; cbn [bind]; auto.
    - intros (y & -> & HP) H. cbn [bind]. specialize (H x y HP). destruct (f x); auto.
    - intros -> _. reflexivity.
  Qed.
  Lemma rel_late {X Y} (P : X -> Y -> Prop) r r' : rel P r r' -> rel P (late r) (late r').
  Proof. unfold rel, late. destruct r; auto. intros (y & -> & HP). eauto. Qed.
  Lemma rel_eq {X} (r : res X) : rel eq r r.
  Proof. unfold rel. destruct r; eauto. Qed.
  Lemma rel_ok {X Y} (P : X -> Y -> Prop) x y : P x y -> rel P (Ok x) (Ok y).
  Proof. intros H. cbn. eauto. Qed.
  Lemma rel_same {X Y Z} (P : Y -> Z -> Prop) (r : res X) f f' : (forall x, rel P (f x) (f' x)) -> rel P (bind r f) (bind r f').
  Proof. intros H. apply (rel_bind eq P); [apply rel_eq|]. intros x y <-. apply H. Qed.

  Lemma sub_deref g G p : gsub g G -> rel eq (deref K V g p) (deref K V G p).
  Proof.
    intros (_ & _ & L & S1 & S2). unfold deref. destruct (F p) eqn:Fp.
    - destruct (S1 p Fp) as [-> _]. exact I.
    - rewrite (S2 p Fp). apply rel_eq.
  Qed.
  Lemma deref_mine g G p x : gsub g G -> deref K V g p = Ok x -> F p = false.
  Proof.
    intros (_ & _ & L & S1 & S2) E. destruct (F p) eqn:Fp; auto. unfold deref in E. destruct (S1 p Fp) as [E1 _]. rewrite E1 in E. discriminate.
  Qed.
  Lemma sub_set h H p x : sub h H -> F p = false -> sub (upd h p x) (upd H p x).
  Proof.
    intros (L & S1 & S2) Fp. split; [now rewrite !upd_length|]. split; intros q Fq.
    - assert (q <> p) by congruence. rewrite !upd_other by auto. now apply S1.
    - destruct (Nat.eq_dec q p) as [->|N]; [|rewrite !upd_other by auto; now apply S2].
      destruct (Nat.lt_ge_cases p (length h)) as [Lt|Ge]; [rewrite !upd_same by (congruence || lia); reflexivity|].
      assert (nth_error (upd h p x) p = None) as -> by (apply nth_error_None; rewrite upd_length; lia).
      symmetry. apply nth_error_None. rewrite upd_length. lia.
  Qed.
  Lemma sub_grow h H x : sub h H -> sub (h ++ [x]) (H ++ [x]).
  Proof.
    intros (L & S1 & S2). split; [rewrite !app_length; cbn [length]; lia|]. split; intros q Fq.
    - destruct (S1 q Fq) as [E1 E2]. pose proof (nth_error_lt _ _ _ E1) as Lt. rewrite !nth_error_app1 by lia. auto.
    - destruct (Nat.lt_ge_cases q (length h)) as [Lt|Ge]; [rewrite !nth_error_app1 by lia; auto|].
      rewrite !nth_error_app2 by lia. now rewrite L.
  Qed.
  Lemma sub_setcell g G p x y : gsub g G -> deref K V g p = Ok y -> gsub (setcell K V g p x) (setcell K V G p x).
  Proof.
    intros H E. pose proof (deref_mine g G p y H E) as Fp. destruct H as (E1 & E2 & Sb). split; [exact E1|]. split; [exact E2|].
    cbn [gheap setcell]. now apply sub_set.
  Qed.
  Lemma rel_deref {X Y} (P : X -> Y -> Prop) g G p f f' : gsub g G ->
    (forall x, deref K V g p = Ok x -> rel P (f x) (f' x)) -> rel P (bind (deref K V g p) f) (bind (deref K V G p) f').
  Proof.
    intros Sb H. pose proof (sub_deref g G p Sb) as R. destruct (deref K V g p) as [x| | |]; cbn [bind] in *.
    - destruct R as (y & -> & <-). cbn [bind]. now apply H.
    - now rewrite R.
    - exact I.
    - exact I.
  Qed.
  Lemma rel_deref_late {X Y} (P : X -> Y -> Prop) g G p f f' : gsub g G ->
    (forall x, deref K V g p = Ok x -> rel P (f x) (f' x)) -> rel P (bind (late (deref K V g p)) f) (bind (late (deref K V G p)) f').
  Proof.
    intros Sb H. pose proof (sub_deref g G p Sb) as R. destruct (deref K V g p) as [x| | |]; cbn [bind late] in *; try exact I.
    destruct R as (y & -> & <-). cbn [bind late]. now apply H.
  Qed.
  Lemma sub_delete g G p : gsub g G -> rel gsub (delete K V g p) (delete K V G p).
  Proof.
    intros Sb. unfold delete. apply rel_deref; [exact Sb|]. intros x E. apply rel_same. intros _. apply rel_ok. eapply sub_setcell; eauto.
  Qed.
  Lemma sub_same ks vs g G : gsub g G -> gsub (mkGroup ks vs (gheap g)) (mkGroup ks vs (gheap G)).
  Proof. intros (_ & _ & Sb). split; [reflexivity|]. split; [reflexivity|exact Sb]. Qed.

  Lemma sub_add g G k v : gsub g G -> rel gsub (g_add K V cmp g k v) (g_add K V cmp G k v).
  Proof.
    intros Sb. pose proof Sb as (Ek & Ev & Sh). unfold g_add. rewrite <- Ek, <- Ev. apply rel_same. intros i.
    apply (rel_bind fsub).
    - destruct (i =? -1).
      + cbv zeta. destruct Sh as (L & Sh). rewrite <- L. apply rel_same. intros [ks j]. apply rel_same. intros vs. apply rel_ok.
        split; [|reflexivity]. split; [reflexivity|]. split; [reflexivity|]. cbn [gheap fst]. apply sub_grow. split; [exact L|exact Sh].
      + apply rel_same. intros p. apply rel_ok. split; [exact Sb|reflexivity].
    - intros [g1 p] [G1 p'] [Sb1 E]. cbn [fst snd] in *. subst p'. apply rel_deref_late; [exact Sb1|]. intros x Ex.
      apply rel_same. intros y. apply rel_ok. eapply sub_setcell; eauto.
  Qed.
  Lemma sub_remove g G k : gsub g G -> rel fsub (g_remove K V cmp g k) (g_remove K V cmp G k).
  Proof.
    intros Sb. pose proof Sb as (Ek & Ev & Sh). unfold g_remove. rewrite <- Ek, <- Ev. apply rel_same. intros i. destruct (negb (i =? -1)).
    - apply rel_same. intros ks. apply rel_same. intros p. apply rel_same. intros vs. apply (rel_bind gsub).
      + apply rel_late, sub_delete. now apply sub_same.
      + intros g1 G1 Sb1. apply rel_ok. split; [exact Sb1|reflexivity].
    - apply rel_ok. split; [exact Sb|reflexivity].
  Qed.
  Lemma sub_remove_value g G k v : gsub g G -> rel fsub (g_remove_value K V cmp veq g k v) (g_remove_value K V cmp veq G k v).
  Proof.
    intros Sb. pose proof Sb as (Ek & Ev & Sh). unfold g_remove_value. rewrite <- Ek, <- Ev. apply rel_same. intros i. destruct (negb (i =? -1)).
    - apply rel_same. intros p. apply rel_deref; [exact Sb|]. intros x Ex. apply rel_same. intros [y b]. cbv zeta.
      pose proof (sub_setcell g G p (Some y) x Sb Ex) as Sb1. destruct (count y =? 0).
      + cbn [gkeys gvals setcell]. rewrite <- Ek, <- Ev. apply rel_same. intros ks. apply rel_same. intros vs. apply (rel_bind gsub).
        * apply rel_late, sub_delete. exact (sub_same ks vs _ _ Sb1).
        * intros g1 G1 Sb2. apply rel_ok. split; [exact Sb2|reflexivity].
      + apply rel_ok. split; [exact Sb1|reflexivity].
    - apply rel_ok. split; [exact Sb|reflexivity].
  Qed.
  Lemma sub_delete_all n : forall g G i, gsub g G -> rel gsub (g_delete_all K V g i n) (g_delete_all K V G i n).
  Proof.
    induction n as [|n IH]; intros g G i Sb; cbn [g_delete_all]; [now apply rel_ok|].
    pose proof Sb as (_ & Ev & _). rewrite <- Ev. apply rel_same. intros p. apply (rel_bind gsub); [now apply sub_delete|]. intros g1 G1 Sb1. now apply IH.
  Qed.
  Lemma sub_clear g G : gsub g G -> rel gsub (g_clear K V g) (g_clear K V G).
  Proof.
    intros Sb. unfold g_clear. pose proof Sb as (_ & Ev & _). rewrite <- Ev. apply (rel_bind gsub); [now apply sub_delete_all|].
    intros g1 G1 Sb1. pose proof Sb1 as (Ek1 & Ev1 & _). rewrite <- Ek1, <- Ev1. apply rel_same. intros ks. apply rel_same. intros vs. apply rel_ok. now apply sub_same.
  Qed.
  Lemma sub_by_index g G i : gsub g G -> rel eq (g_by_index K V g i) (g_by_index K V G i).
  Proof. intros Sb. unfold g_by_index. pose proof Sb as (_ & Ev & _). rewrite <- Ev. apply rel_same. intros p. now apply sub_deref. Qed.
  Lemma sub_step g G o : gsub g G -> rel fsub (g_step K V cmp veq g o) (g_step K V cmp veq G o).
  Proof.
    intros Sb. pose proof Sb as (Ek & Ev & Sh).
    assert (R : rel fsub (g_step_raw K V cmp veq g o) (g_step_raw K V cmp veq G o)).
    { destruct o as [k v|k|k v| |k|k v| |i|k|k i]; cbn [g_step_raw].
      - apply (rel_bind gsub); [now apply sub_add|]. intros g1 G1 S1. apply rel_ok. split; [exact S1|reflexivity].
      - apply (rel_bind fsub); [now apply sub_remove|]. intros [g1 b] [G1 b'] [S1 E]. cbn [snd] in E. subst b'. apply rel_ok. split; [exact S1|reflexivity].
      - apply (rel_bind fsub); [now apply sub_remove_value|]. intros [g1 b] [G1 b'] [S1 E]. cbn [snd] in E. subst b'. apply rel_ok. split; [exact S1|reflexivity].
      - apply (rel_bind gsub); [now apply sub_clear|]. intros g1 G1 S1. apply rel_ok. split; [exact S1|reflexivity].
      - rewrite <- Ek. apply rel_same. intros i. apply rel_ok. split; [exact Sb|reflexivity].
      - unfold g_contains_value. rewrite <- Ek. apply (rel_bind eq); [|intros b b' <-; apply rel_ok; split; [exact Sb|reflexivity]].
        apply rel_same. intros i. destruct (negb (i =? -1)); [|apply rel_eq]. apply (rel_bind eq); [now apply sub_by_index|]. intros x x' <-. apply rel_eq.
      - rewrite <- Ek. apply rel_ok. split; [exact Sb|reflexivity].
      - rewrite <- Ek. apply rel_same. intros k. apply rel_ok. split; [exact Sb|reflexivity].
      - unfold g_get. rewrite <- Ek. apply (rel_bind eq); [|intros b b' <-; apply rel_ok; split; [exact Sb|reflexivity]].
        apply rel_same. intros i. now apply sub_by_index.
      - unfold g_get. rewrite <- Ek. apply (rel_bind eq); [apply rel_same; intros j; now apply sub_by_index|]. intros x x' <-. apply rel_same. intros v.
        apply rel_ok. split; [exact Sb|reflexivity]. }
    unfold g_step. unfold rel in R. destruct (g_step_raw K V cmp veq g o) as [[g1 r]| | |].
    - destruct R as ([G1 r'] & -> & Q). cbn. eauto.
    - rewrite R. apply rel_ok. split; [exact Sb|reflexivity].
    - exact I.
    - exact I.
  Qed.

  (* the cells that are not the others' *)
  Fixpoint hide (k : nat) (h : heap) : heap :=
    match h with [] => [] | x :: h => (if F k then None else x) :: hide (S k) h end.
  Lemma hide_nth h : forall k p, nth_error (hide k h) p = if F (k + p) then option_map (fun _ => None) (nth_error h p) else nth_error h p.
  Proof.
    induction h as [|x h IH]; intros k p; cbn [hide].
    - destruct p; cbn [nth_error option_map]; destruct (F _); reflexivity.
    - destruct p as [|p]; cbn [nth_error].
      + rewrite Nat.add_0_r. destruct (F k); reflexivity.
      + rewrite IH. now replace (S k + p)%nat with (k + S p)%nat by lia.
  Qed.
  Lemma hide_length h : forall k, length (hide k h) = length h.
  Proof. induction h as [|x h IH]; intros k; cbn [hide length]; auto. Qed.
End Frame.

Section Groups.
  Variable K V : Type.
  Variable c : K -> K -> comparison.
  Variable TO : total_order c.
  Variable veq : V -> V -> bool.
  Notation cmp := (fun a b => Some (c a b)).
  Notation M := (fmap K (list V)).
  Notation gvar := (option (lst K * lst nat)).

  Definition one_shows (h : list (option (lst V))) (x : lst K * lst nat) (m : M) : Prop :=
    lst_shows K (fst x) (map fst m) /\ lst_shows nat (snd x) (ps_of (snd x)) /\ cells K V h (ps_of (snd x)) m /\
    ascending_keys K (list V) c m /\ Forall (fun kv => snd kv <> []) m.
  Lemma gm_shows_alt vs h t : gm_shows K V c (mkGvars vs h) t <->
    Forall2 (opt_shows (one_shows h)) vs t /\ NoDup (owned vs) /\ forall p x, nth_error h p = Some (Some x) -> In p (owned vs).
  Proof. reflexivity. Qed.
  Lemma ps_eq x ps : lst_shows nat x ps -> ps_of x = ps.
  Proof. intros H. unfold ps_of. now rewrite (contents_ok _ _ H). Qed.
  Lemma owned_app (l1 l2 : list gvar) : owned (l1 ++ l2) = owned l1 ++ owned l2.
  Proof. apply flat_map_app. Qed.
  Lemma owned_mid (l1 l2 : list gvar) x : owned (l1 ++ Some x :: l2) = owned l1 ++ ps_of (snd x) ++ owned l2.
  Proof. now rewrite owned_app. Qed.
  Lemma owned_perm (l1 l2 : list gvar) x : Permutation (owned (l1 ++ Some x :: l2)) (ps_of (snd x) ++ owned (l1 ++ l2)).
  Proof. rewrite owned_mid, owned_app. rewrite !app_assoc. apply Permutation_app_tail, Permutation_app_comm. Qed.
  Lemma owned_none (l1 l2 : list gvar) : owned (l1 ++ None :: l2) = owned (l1 ++ l2).
  Proof. now rewrite !owned_app. Qed.

  Definition others (l : list gvar) (p : nat) : bool := existsb (Nat.eqb p) (owned l).
  Lemma others_in l p : others l p = true <-> In p (owned l).
  Proof.
    unfold others. rewrite existsb_exists. split; [intros (q & Hq & E); apply Nat.eqb_eq in E; now subst|].
    intros H. exists p. split; [exact H|apply Nat.eqb_refl].
  Qed.
  Lemma others_out l p : others l p = false <-> ~ In p (owned l).
  Proof. rewrite <- others_in. destruct (others l p); split; congruence. Qed.

  Lemma NoDup_app_both {A} (l1 l2 : list A) : NoDup (l1 ++ l2) -> NoDup l1 /\ NoDup l2 /\ forall a, In a l1 -> In a l2 -> False.
  Proof.
    induction l1 as [|a l1 IH]; cbn [app]; intros H; [split; [constructor|split; [exact H|intros a []]]|].
    inversion H as [|? ? N1 N2]; subst. destruct (IH N2) as (D1 & D2 & D3). rewrite in_app_iff in N1. split; [constructor; tauto|]. split; [exact D2|].
    intros b [<-|Hb] Hc; [tauto|eauto].
  Qed.
  Lemma NoDup_app_join {A} (l1 l2 : list A) : NoDup l1 -> NoDup l2 -> (forall a, In a l1 -> In a l2 -> False) -> NoDup (l1 ++ l2).
  Proof.
    intros H1 H2 H3. induction H1 as [|a l1 N H1 IH]; cbn [app]; [exact H2|]. constructor.
    - rewrite in_app_iff. intros [Hi|Hi]; [tauto|]. exact (H3 a (or_introl eq_refl) Hi).
    - apply IH. intros b Hb. apply H3. now right.
  Qed.
  Lemma app_inv_len {A} (a b a' b' : list A) : length a = length a' -> a ++ b = a' ++ b' -> a = a' /\ b = b'.
  Proof.
    revert a'. induction a as [|x a IH]; intros [|y a']; cbn [length app]; try discriminate; [auto|]. intros L E. injection E as -> E.
    destruct (IH a') as [-> ->]; auto.
  Qed.
  Lemma cells_same h h' ps m : cells K V h ps m -> (forall p, In p ps -> nth_error h' p = nth_error h p) -> cells K V h' ps m.
  Proof.
    unfold cells. induction 1 as [|q kv ps m (x & E & Sx) H IH]; intros N; constructor.
    - exists x. split; [|exact Sx]. rewrite N; [exact E|now left].
    - apply IH. intros p Hp. apply N. now right.
  Qed.
  Lemma cells_live h ps m p : cells K V h ps m -> In p ps -> exists x, nth_error h p = Some (Some x).
  Proof. induction 1 as [|q kv ps m (x & E & Sx) H IH]; intros Hi; [destruct Hi|]. destruct Hi as [<-|Hi]; eauto. Qed.
  Lemma F2_same {S T} (P Q : option S -> option T -> Prop) s t : Forall2 P s t -> (forall x y, In x s -> P x y -> Q x y) -> Forall2 Q s t.
  Proof. induction 1 as [|x y s t H1 H IH]; intros I; constructor; [apply I; [now left|exact H1]|]. apply IH. intros a b Ha. apply I. now right. Qed.
  Lemma one_same h h' x m : one_shows h x m -> (forall p, In p (ps_of (snd x)) -> nth_error h' p = nth_error h p) -> one_shows h' x m.
  Proof.
    intros (E1 & E2 & E3 & E4) H. split; [exact E1|]. split; [exact E2|]. split; [|exact E4]. eapply cells_same; eauto.
  Qed.
  Lemma in_owned (l : list gvar) x p : In (Some x) l -> In p (ps_of (snd x)) -> In p (owned l).
  Proof. intros H1 H2. unfold owned. apply in_flat_map. exists (Some x). now split. Qed.

  Lemma split_live (s : list gvar) (t : list (option M)) P v m : Forall2 (opt_shows P) s t -> nth_error t v = Some (Some m) ->
    exists l1 x l2 t1 t2, s = l1 ++ Some x :: l2 /\ t = t1 ++ Some m :: t2 /\ length l1 = v /\ length t1 = v /\
      Forall2 (opt_shows P) l1 t1 /\ P x m /\ Forall2 (opt_shows P) l2 t2.
  Proof.
    intros H Hv. destruct (nth_error_split _ _ Hv) as (t1 & t2 & -> & L). apply Forall2_app_inv_r in H. destruct H as (l1 & l' & H1 & H2 & ->).
    inversion H2 as [|x0 ? l2 ? Hx H3]; subst. destruct x0 as [x|]; [|contradiction]. cbn [opt_shows] in Hx.
    exists l1, x, l2, t1, t2. rewrite (Forall2_len _ _ _ H1). repeat (split; [reflexivity|]). auto.
  Qed.
  Lemma split_dead (s : list gvar) (t : list (option M)) P v : Forall2 (opt_shows P) s t -> nth_error t v = Some None ->
    exists l1 l2 t1 t2, s = l1 ++ None :: l2 /\ t = t1 ++ None :: t2 /\ length l1 = v /\ length t1 = v /\
      Forall2 (opt_shows P) l1 t1 /\ Forall2 (opt_shows P) l2 t2.
  Proof.
    intros H Hv. destruct (nth_error_split _ _ Hv) as (t1 & t2 & -> & L). apply Forall2_app_inv_r in H. destruct H as (l1 & l' & H1 & H2 & ->).
    inversion H2 as [|x0 ? l2 ? Hx H3]; subst. destruct x0 as [x|]; [contradiction|].
    exists l1, l2, t1, t2. rewrite (Forall2_len _ _ _ H1). repeat (split; [reflexivity|]). auto.
  Qed.
  Lemma upd_mid {A} (l1 : list A) a l2 v b : length l1 = v -> upd (l1 ++ a :: l2) v b = l1 ++ b :: l2.
  Proof. intros <-. induction l1 as [|x l1 IH]; cbn [app length upd]; [reflexivity|]. now rewrite IH. Qed.
  Lemma nth_mid {A} (l1 : list A) a l2 v : length l1 = v -> nth_error (l1 ++ a :: l2) v = Some a.
  Proof. intros <-. rewrite nth_error_app2 by lia. now rewrite Nat.sub_diag. Qed.

  (* the group of one variable, the cells of the others hidden *)
  Lemma hidden l1 x l2 t1 m t2 h : length l1 = length t1 -> gm_shows K V c (mkGvars (l1 ++ Some x :: l2) h) (t1 ++ Some m :: t2) ->
    let F := others (l1 ++ l2) in let g := mkGroup (fst x) (snd x) (hide V F 0 h) in
    g_shows K V c g m /\ gsub K V F h g (mkGroup (fst x) (snd x) h).
  Proof.
    intros L H F g. destruct (proj1 (gm_shows_alt _ _ _) H) as (H' & ND & HL). clear H. rename H' into H. 
    assert (Hx : one_shows h x m).
    { destruct (F2_nth _ _ _ (length t1) (Some m) H) as (y & E & Sy); [now apply nth_mid|].
      pose proof (nth_mid l1 (Some x) l2 _ L) as E'. assert (y = Some x) as -> by congruence. exact Sy. }
    pose proof (Permutation_NoDup (owned_perm l1 l2 x) ND) as ND'. apply NoDup_app_both in ND'. destruct ND' as (N1 & N2 & N3).
    assert (NF : forall p, In p (ps_of (snd x)) -> F p = false). { intros p Hp. apply others_out. intros Hq. exact (N3 p Hp Hq). }
    assert (HS : forall p, F p = true -> exists y, nth_error h p = Some (Some y)).
    { intros p Hp. apply others_in in Hp.
      assert (Hi : exists y, In (Some y) (l1 ++ Some x :: l2) /\ In p (ps_of (snd y))).
      { unfold owned in Hp. apply in_flat_map in Hp. destruct Hp as ([y|] & Hy & Hp); [|destruct Hp]. exists y. split; [|exact Hp].
        rewrite in_app_iff in *. cbn [In]. tauto. }
      destruct Hi as (y & Hy & Hp'). clear - H Hy Hp'. revert Hy. generalize dependent (t1 ++ Some m :: t2). generalize (l1 ++ Some x :: l2).
      induction 1 as [|a b s t H1 H IH]; intros Hy; [destruct Hy|]. destruct Hy as [->|Hy]; [|now apply IH].
      destruct b as [b|]; [|contradiction]. destruct H1 as (_ & _ & C & _). eapply cells_live; eauto. }
    destruct Hx as (X1 & X2 & X3 & X4 & X5). split.
    - exists (ps_of (snd x)). cbn [g gkeys gvals gheap]. split; [exact X1|]. split; [exact X2|]. split.
      { eapply cells_same; [exact X3|]. intros p Hp. rewrite hide_nth. cbn [Nat.add]. now rewrite (NF p Hp). }
      split; [exact N1|]. split; [|split; assumption]. intros p y. rewrite hide_nth. cbn [Nat.add]. destruct (F p) eqn:Fp.
      + destruct (nth_error h p); cbn [option_map]; discriminate.
      + intros E. pose proof (HL p y E) as Hp. apply (Permutation_in _ (owned_perm l1 l2 x)) in Hp. rewrite in_app_iff in Hp.
        apply others_out in Fp. tauto.
    - split; [reflexivity|]. split; [reflexivity|]. cbn [g gheap]. split; [now rewrite hide_length|]. split; intros p Fp; rewrite hide_nth; cbn [Nat.add]; rewrite Fp; auto.
      destruct (HS p Fp) as (y & ->). now split.
  Qed.
  Lemma shown l1 x l2 t1 m t2 h g' G' m' : length l1 = length t1 -> gm_shows K V c (mkGvars (l1 ++ Some x :: l2) h) (t1 ++ Some m :: t2) ->
    g_shows K V c g' m' -> gsub K V (others (l1 ++ l2)) h g' G' ->
    gm_shows K V c (mkGvars (l1 ++ Some (gkeys G', gvals G') :: l2) (gheap G')) (t1 ++ Some m' :: t2).
  Proof.
    intros L H Hg (Ek & Ev & Lh & S1 & S2). destruct (proj1 (gm_shows_alt _ _ _) H) as (H' & ND & HL). clear H. rename H' into H.
    pose proof (Permutation_NoDup (owned_perm l1 l2 x) ND) as ND'. apply NoDup_app_both in ND'. destruct ND' as (N1 & N2 & N3).
    destruct Hg as (ps & G1 & G2 & G3 & G4 & G5 & G6 & G7). rewrite Ek in G1. rewrite Ev in G2.
    assert (NF : forall p, In p ps -> others (l1 ++ l2) p = false).
    { intros p Hp. destruct (cells_live _ _ _ _ G3 Hp) as (y & E). destruct (others (l1 ++ l2) p) eqn:Fp; auto.
      destruct (S1 p Fp) as [E1 _]. congruence. }
    apply gm_shows_alt. split; [|split].
    - apply Forall2_app_inv_l in H. destruct H as (t1' & t' & H1 & H2 & E). 
      assert (t1' = t1 /\ t' = Some m :: t2) as [-> ->].
      { apply app_inv_len; [|now symmetry]. rewrite <- (Forall2_len _ _ _ H1). exact L. }
      inversion H2 as [|? ? ? ? Hx H3]; subst. apply Forall2_app; [|constructor].
      + eapply F2_same; [exact H1|]. intros [y|] [b|] Hy; cbn [opt_shows]; auto. intros Hb. eapply one_same; [exact Hb|].
        intros p Hp. destruct (S1 p) as [_ ->]; [|reflexivity]. apply others_in. apply (in_owned _ y); [apply in_or_app; now left|exact Hp].
      + cbn [opt_shows]. unfold one_shows. cbn [fst snd]. rewrite (ps_eq _ _ G2). split; [exact G1|]. split; [exact G2|]. split; [|split; assumption].
        eapply cells_same; [exact G3|]. intros p Hp. symmetry. now apply S2, NF.
      + eapply F2_same; [exact H3|]. intros [y|] [b|] Hy; cbn [opt_shows]; auto. intros Hb. eapply one_same; [exact Hb|].
        intros p Hp. destruct (S1 p) as [_ ->]; [|reflexivity]. apply others_in. apply (in_owned _ y); [apply in_or_app; now right|exact Hp].
    - eapply Permutation_NoDup; [apply Permutation_sym, owned_perm|]. cbn [snd]. rewrite (ps_eq _ _ G2).
      apply NoDup_app_join; [exact G4|exact N2|]. intros p Hp Hq. apply NF in Hp. apply others_out in Hp. tauto.
    - intros p y E. eapply Permutation_in; [apply Permutation_sym, owned_perm|]. cbn [snd]. rewrite (ps_eq _ _ G2). apply in_or_app.
      destruct (others (l1 ++ l2) p) eqn:Fp; [right; now apply others_in|]. left. rewrite <- (S2 p Fp) in E. eapply G5; eauto.
  Qed.

  Lemma var_op s t v m o : gm_shows K V c s t -> nth_error t v = Some (Some m) ->
    exists x G, nth_error (gvs s) v = Some (Some x) /\ g_step K V cmp veq (gthis K V s x) o = Ok (G, snd (mg_step K V c veq m o)) /\
      gm_shows K V c (gput K V s v G) (upd t v (Some (fst (mg_step K V c veq m o)))).
  Proof.
    destruct s as [vs h]. intros H Hv. pose proof (proj1 (proj1 (gm_shows_alt _ _ _) H)) as HF.
    destruct (split_live _ _ _ _ _ HF Hv) as (l1 & x & l2 & t1 & t2 & -> & -> & L1 & L2 & _).
    assert (L : length l1 = length t1) by lia. destruct (hidden l1 x l2 t1 m t2 h L H) as [Hg Hs].
    destruct (g_step_ok K V c TO veq _ _ o Hg) as (g' & E & Hg').
    pose proof (sub_step K V cmp veq _ _ _ _ o Hs) as R. rewrite E in R. destruct R as ([G r] & EG & SG & Er). cbn [fst snd] in SG, Er. subst r.
    exists x, G. split; [cbn [gvs]; now apply nth_mid|]. split; [exact EG|]. unfold gput. cbn [gvs]. rewrite !upd_mid by assumption.
    eapply shown; eauto.
  Qed.
  Lemma var_clear s t v m : gm_shows K V c s t -> nth_error t v = Some (Some m) ->
    exists x G, nth_error (gvs s) v = Some (Some x) /\ g_clear K V (gthis K V s x) = Ok G /\ gm_shows K V c (gput K V s v G) (upd t v (Some [])).
  Proof.
    intros H Hv. destruct (var_op s t v m GClear H Hv) as (x & G & E1 & E2 & E3). exists x, G. split; [exact E1|].
    unfold g_step, g_step_raw in E2. cbn [mg_step mg_step_raw fst snd] in E2, E3. split; [|exact E3].
    destruct (g_clear K V (gthis K V s x)) as [g1| | |]; cbn [bind] in E2; [|discriminate E2..]. congruence.
  Qed.
  Definition own (x : gvar) : list nat := match x with Some x => ps_of (snd x) | None => [] end.
  Lemma owned_upd (vs : list gvar) v x y : nth_error vs v = Some x -> Permutation (own x ++ owned (upd vs v y)) (own y ++ owned vs).
  Proof.
    intros H. destruct (nth_error_split _ _ H) as (l1 & l2 & -> & L). rewrite upd_mid by exact L.
    assert (E : forall z, Permutation (owned (l1 ++ z :: l2)) (own z ++ owned (l1 ++ l2))).
    { intros [z|]; [apply owned_perm|]. now rewrite owned_none. }
    rewrite (E x), (E y). rewrite !app_assoc. apply Permutation_app_tail, Permutation_app_comm.
  Qed.
  Lemma same_heap vs vs' h t t' : gm_shows K V c (mkGvars vs h) t -> Forall2 (opt_shows (one_shows h)) vs' t' -> Permutation (owned vs) (owned vs') ->
    gm_shows K V c (mkGvars vs' h) t'.
  Proof.
    intros H HF P. destruct (proj1 (gm_shows_alt _ _ _) H) as (_ & ND & HL). apply gm_shows_alt. split; [exact HF|].
    split; [eapply Permutation_NoDup; eauto|]. intros p x E. eapply Permutation_in; eauto.
  Qed.
  Lemma own_empty : own (Some (empty_lst, empty_lst)) = [].
  Proof. reflexivity. Qed.
  Lemma one_empty h : one_shows h (empty_lst, empty_lst) [].
  Proof. split; [apply empty_shows|]. split; [apply (empty_shows nat)|]. split; [constructor|]. split; constructor. Qed.
  Lemma one_none h x : one_shows h x [] -> ps_of (snd x) = [].
  Proof. intros (_ & _ & C & _). unfold cells in C. now inversion C. Qed.

  Lemma gm_step_ok s t o os : gm_shows K V c s t -> proper (gop K V) (fun _ => True) (alive t) (o :: os) ->
    exists s' t' r, gm_step K V cmp veq s o = Ok (s', r) /\ vstep (gop K V) M (dout K V) [] (g_ok c veq) t o t' r /\ gm_shows K V c s' t'.
  Proof.
    intros H P. destruct o as [v|v w|v w|v|v o]; cbn [proper] in P; unfold gm_step.
    - destruct P as (Pv & _). alv. destruct s as [vs h]. cbn [gvs gvheap]. pose proof (proj1 (proj1 (gm_shows_alt _ _ _) H)) as HF.
      destruct (F2_nth _ _ _ _ _ HF Pv) as (y & E & Sy). unfold mfree. rewrite E. destruct y; [contradiction|]. cbn [bind].
      do 3 eexists. split; [reflexivity|]. split; [now constructor|]. eapply same_heap; [exact H|apply F2_upd; [exact HF|apply one_empty]|].
      symmetry. exact (owned_upd vs v None (Some (empty_lst, empty_lst)) E).
    - destruct P as (Pv & Pw & _). alv. destruct s as [vs h]. cbn [gvs gvheap]. pose proof (proj1 (proj1 (gm_shows_alt _ _ _) H)) as HF.
      destruct (F2_nth _ _ _ _ _ HF Pv) as (u & Ex & Sx). destruct (F2_nth _ _ _ _ _ HF Pw) as (y & Ey & Sy).
      unfold mfree, mvar. rewrite Ex, Ey. destruct u; [contradiction|]. destruct y as [y|]; [|contradiction]. cbn [bind l_move_new].
      do 3 eexists. split; [reflexivity|]. split; [eapply v_move_new; eauto|]. eapply same_heap; [exact H| |].
      + apply F2_upd; [apply F2_upd; [exact HF|destruct y; exact Sy]|apply one_empty].
      + assert (N : v <> w) by congruence. pose proof (owned_upd vs v None (Some y) Ex) as P1.
        assert (Ey' : nth_error (upd vs v (Some y)) w = Some (Some y)) by (rewrite upd_other by exact N; exact Ey).
        pose proof (owned_upd _ w _ (Some (empty_lst, empty_lst)) Ey') as P2. rewrite own_empty in P2. cbn [app] in P2. cbn [own app] in P1, P2.
        rewrite P1 in P2. apply Permutation_app_inv_l in P2. symmetry. destruct y; exact P2.
    - destruct P as (Pv & Pw & _). alv. destruct (var_clear s t v _ H Pv) as (u0 & G & Ex0 & EG & HG).
      pose proof (proj1 H) as HF0. destruct (F2_nth _ _ _ _ _ HF0 Pw) as (y0 & Ey0 & Sy0). destruct y0 as [y0|]; [|contradiction]. clear HF0 Sy0.
      unfold mvar at 1. rewrite Ex0. cbn [bind]. unfold mvar at 1. rewrite Ey0. cbn [bind]. rewrite EG. cbn [bind].
      pose proof (nth_error_lt _ _ _ Pv) as Lv.
      set (t1 := upd t v (Some [])) in *.
      assert (Pv1 : nth_error t1 v = Some (Some [])) by (unfold t1; rewrite upd_same by exact Lv; reflexivity).
      destruct (gput K V s v G) as [vs h]. cbv zeta. cbn [gvs gvheap].
      pose proof (proj1 (proj1 (gm_shows_alt _ _ _) HG)) as HF. destruct (F2_nth _ _ _ _ _ HF Pv1) as (y & Ey & Sy). destruct y as [y|]; [|contradiction].
      unfold mvar. rewrite Ey. cbn [bind]. cbn [opt_shows] in Sy. pose proof (one_none _ _ Sy) as Oy. destruct Sy as (SK & SV & _). unfold l_move, l_move_self.
      destruct (Nat.eqb v w) eqn:E.
      + apply Nat.eqb_eq in E. subst w. rewrite Ey. cbn [bind]. rewrite (destruct_ok K _ _ SK), (destruct_ok nat _ _ SV). cbn [bind].
        do 3 eexists. split; [reflexivity|]. split; [eapply v_move_self; eauto|]. eapply same_heap; [exact HG| |].
        * pose proof (F2_upd _ _ _ v (Some (empty_lst, empty_lst)) (Some []) HF (one_empty h)) as Q. unfold t1 in Q. rewrite upd_twice in Q. exact Q.
        * symmetry. pose proof (owned_upd vs v _ (Some (empty_lst, empty_lst)) Ey) as P1. cbn [own] in P1. rewrite Oy in P1. exact P1.
      + apply Nat.eqb_neq in E. assert (Pw1 : nth_error t1 w = nth_error t w) by (unfold t1; rewrite upd_other by congruence; reflexivity).
        rewrite Pw in Pw1. destruct (F2_nth _ _ _ _ _ HF Pw1) as (z & Ez & Sz). destruct z as [z|]; [|contradiction]. rewrite Ez. cbn [bind].
        rewrite (destruct_ok K _ _ SK), (destruct_ok nat _ _ SV). cbn [bind]. do 3 eexists. split; [reflexivity|]. split; [eapply v_move; eauto|].
        eapply same_heap; [exact HG| |].
        * apply F2_upd; [|apply one_empty]. 
          pose proof (F2_upd _ _ _ v (Some z) _ HF Sz) as Q. unfold t1 in Q. rewrite upd_twice in Q. destruct z; exact Q.
        * pose proof (owned_upd vs v _ (Some z) Ey) as P1. cbn [own] in P1. rewrite Oy in P1. cbn [app] in P1.
          assert (Ez' : nth_error (upd vs v (Some z)) w = Some (Some z)) by (rewrite upd_other by congruence; exact Ez).
          pose proof (owned_upd _ w _ (Some (empty_lst, empty_lst)) Ez') as P2. rewrite own_empty in P2. cbn [own app] in P2.
          rewrite P1 in P2. apply Permutation_app_inv_l in P2. symmetry. destruct z; exact P2.
    - destruct P as (Pv & _). alv. destruct (var_clear s t v _ H Pv) as (u0 & G & Ex0 & EG & HG). unfold mvar. rewrite Ex0. cbn [bind]. rewrite EG. cbn [bind].
      pose proof (nth_error_lt _ _ _ Pv) as Lv. assert (Lg : (v < length (gvs s))%nat) by (now apply nth_error_lt in Ex0).
      assert (Pv1 : nth_error (upd t v (Some (@nil (K * list V)))) v = Some (Some [])) by (rewrite upd_same by exact Lv; reflexivity).
      unfold gput in HG. pose proof (proj1 (proj1 (gm_shows_alt _ _ _) HG)) as HF.
      destruct (F2_nth _ _ _ _ _ HF Pv1) as (y & Ey & Sy). rewrite upd_same in Ey by exact Lg. injection Ey as <-. cbn [opt_shows] in Sy.
      pose proof (one_none _ _ Sy) as Oy. destruct Sy as (SK & SV & _). cbn [fst snd] in SK, SV, Oy.
      rewrite (destruct_ok nat _ _ SV), (destruct_ok K _ _ SK). cbn [bind]. do 3 eexists. split; [reflexivity|]. split; [eapply v_destroy; eauto|].
      eapply same_heap; [exact HG| |].
      + rewrite <- (upd_twice (gvs s) v (Some (gkeys G, gvals G))), <- (upd_twice t v (Some [])). apply F2_upd; [exact HF|exact I].
      + rewrite <- (upd_twice (gvs s) v (Some (gkeys G, gvals G)) None). symmetry.
        assert (Ey : nth_error (upd (gvs s) v (Some (gkeys G, gvals G))) v = Some (Some (gkeys G, gvals G))) by (now rewrite upd_same).
        pose proof (owned_upd _ v _ None Ey) as P1. cbn [own snd] in P1. rewrite Oy in P1. exact P1.
    - destruct P as (Pv & Po & _). alv. destruct (var_op s t v _ o H Pv) as (u0 & G & Ex0 & EG & HG). unfold mvar. rewrite Ex0. cbn [bind]. rewrite EG. cbn [bind].
      do 3 eexists. split; [reflexivity|]. split; [eapply v_op; [exact Pv|unfold g_ok; apply surjective_pairing]|exact HG].
  Qed.
  Lemma group_moves n os : proper (gop K V) (fun _ => True) (repeat false n) os ->
    exists s t rs, mrun (gm_step K V cmp veq) (gm_start K V n) os = Ok (s, rs) /\ vrun (gop K V) M (dout K V) [] (g_ok c veq) (repeat None n) os t rs /\
      gm_shows K V c s t.
  Proof.
    intros P. apply (run_ok _ _ _ _ [] (g_ok c veq) (fun _ => True) (gm_step K V cmp veq) (gm_shows K V c) gm_step_ok).
    - apply gm_shows_alt. split; [now apply F2_none|]. assert (owned (repeat (@None (lst K * lst nat)) n) = []) as E by (clear; induction n; auto).
      rewrite E. split; [constructor|]. intros [|p] x; discriminate.
    - now rewrite alive_none.
  Qed.

  (* no list of values is lost *)
  Fixpoint live_from {B} (k : nat) (h : list (option B)) : list nat :=
    match h with [] => [] | Some _ :: h => k :: live_from (S k) h | None :: h => live_from (S k) h end.
  Lemma live_from_in {B} (h : list (option B)) : forall k p, In p (live_from k h) <-> (k <= p)%nat /\ exists x, nth_error h (p - k) = Some (Some x).
  Proof.
    induction h as [|[b|] h IH]; intros k p; cbn [live_from].
    - split; [intros []|]. intros (_ & x & E). destruct (p - k)%nat; discriminate.
    - cbn [In]. rewrite IH. split.
      + intros [<-|(L & x & E)]; [split; [lia|]; exists b; now rewrite Nat.sub_diag|]. split; [lia|]. exists x.
        replace (p - k)%nat with (S (p - S k)) by lia. exact E.
      + intros (L & x & E). destruct (Nat.eq_dec k p) as [->|N]; [now left|right]. split; [lia|]. exists x.
        replace (p - k)%nat with (S (p - S k)) in E by lia. exact E.
    - rewrite IH. split; intros (L & x & E).
      + split; [lia|]. exists x. replace (p - k)%nat with (S (p - S k)) by lia. exact E.
      + destruct (Nat.eq_dec k p) as [->|N]; [rewrite Nat.sub_diag in E; discriminate|]. split; [lia|]. exists x.
        replace (p - k)%nat with (S (p - S k)) in E by lia. exact E.
  Qed.
  Lemma live_from_nodup {B} (h : list (option B)) : forall k, NoDup (live_from k h).
  Proof.
    induction h as [|[b|] h IH]; intros k; cbn [live_from]; [constructor| |apply IH]. constructor; [|apply IH].
    rewrite live_from_in. intros (L & _). lia.
  Qed.
  Lemma live_from_len {B} (h : list (option B)) : forall k, zlen (live_from k h) = in_use h.
  Proof. induction h as [|[b|] h IH]; intros k; cbn [live_from in_use]; [reflexivity|rewrite zlen_cons, IH; lia|apply IH]. Qed.
  Lemma owned_len h vs t : Forall2 (opt_shows (one_shows h)) vs t -> zlen (owned vs) = all_keys t.
  Proof.
    induction 1 as [|x y vs t H1 H IH]; [reflexivity|]. destruct x as [x|], y as [m|]; try contradiction; [|exact IH].
    cbn [all_keys]. unfold owned. cbn [flat_map]. fold (owned vs). rewrite zlen_app, IH. destruct H1 as (_ & _ & C & _).
    unfold zlen. unfold cells in C. now rewrite (Forall2_len _ _ _ C).
  Qed.
  Lemma no_leak s t : gm_shows K V c s t -> in_use (gvheap s) = all_keys t.
  Proof.
    destruct s as [vs h]. intros H. destruct (proj1 (gm_shows_alt _ _ _) H) as (HF & ND & HL). cbn [gvheap].
    rewrite <- (live_from_len h 0), <- (owned_len h vs t HF). unfold zlen. f_equal. apply Permutation_length. apply NoDup_Permutation; [apply live_from_nodup|exact ND|].
    intros p. rewrite live_from_in, Nat.sub_0_r. split; [intros (_ & x & E); eauto|]. intros Hp. split; [lia|].
    clear - HF Hp. induction HF as [|x y vs t H1 H IH]; [destruct Hp|]. unfold owned in Hp. cbn [flat_map] in Hp. apply in_app_or in Hp.
    destruct Hp as [Hp|Hp]; [|now apply IH]. destruct x as [x|]; [|destruct Hp]. destruct y as [m|]; [|contradiction].
    destruct H1 as (_ & _ & C & _). eapply cells_live; eauto.
  Qed.
End Groups.

(* concrete programs *)
Definition sorted_program : list (mop (sop Z)) :=
  [MNew 0; MOp 0 (SAdd 3); MOp 0 (SAdd 1); MMoveNew 1 0; MOp 0 SCount; MOp 1 (SGet 0); MMoveAssign 0 1; MOp 0 (SIndexOf 3); MDestroy 1; MMoveAssign 0 0; MOp 0 SCount].
Definition dict_program : list (mop (dop Z Z)) :=
  [MNew 0; MOp 0 (DAdd 3 30); MOp 0 (DSet 1 10); MMoveNew 1 0; MOp 0 DCount; MOp 1 (DGet 3); MMoveAssign 0 1; MOp 0 (DGet 1); MDestroy 1; MMoveAssign 0 0; MOp 0 DCount].
Definition group_program : list (mop (gop Z Z)) :=
  [MNew 0; MNew 1; MOp 0 (GAdd 3 30); MOp 0 (GAdd 3 31); MOp 1 (GAdd 1 10); MMoveAssign 1 0; MOp 0 GCount; MOp 1 (GValueAt 3 1); MOp 0 (GAdd 7 70);
   MMoveNew 2 1; MDestroy 1; MOp 2 (GValueCount 3); MMoveAssign 2 2; MOp 2 GCount; MDestroy 2; MDestroy 0].
Notation zc := (fun a b => Some (Z.compare a b)).
Lemma sorted_program_ok : proper (sop Z) (client_ok Z) (repeat false 2) sorted_program.
Proof. cbn. repeat (split; [try reflexivity; exact I|]). exact I. Qed.
Lemma dict_program_ok : proper (dop Z Z) (fun _ => True) (repeat false 2) dict_program.
Proof. cbn. repeat (split; [try reflexivity; exact I|]). exact I. Qed.
Lemma group_program_ok : proper (gop Z Z) (fun _ => True) (repeat false 3) group_program.
Proof. cbn. repeat (split; [try reflexivity; exact I|]). exact I. Qed.
Lemma sorted_program_run : exists s, mrun (sm_step Z zc) (repeat None 2) sorted_program =
  Ok (s, [Done; Answer (RInt 0); Answer (RInt 0); Done; Answer (RInt 0); Answer (RVal 1); Done; Answer (RInt 1); Done; Done; Answer (RInt 0)]).
Proof. eexists. vm_compute. reflexivity. Qed.
Lemma dict_program_run : exists s, mrun (dm_step Z Z zc) (repeat None 2) dict_program =
  Ok (s, [Done; Answer (OBool true); Answer (OBool true); Done; Answer (OInt 0); Answer (OVal 30); Done; Answer (OVal 10); Done; Done; Answer (OInt 0)]).
Proof. eexists. vm_compute. reflexivity. Qed.
Lemma group_program_run : exists s, mrun (gm_step Z Z zc Z.eqb) (gm_start Z Z 3) group_program =
  Ok (s, [Done; Done; Answer (OBool true); Answer (OBool true); Answer (OBool true); Done; Answer (OInt 0); Answer (OVal 31); Answer (OBool true);
          Done; Done; Answer (OInt 2); Done; Answer (OInt 0); Done; Done]) /\ in_use (gvheap s) = 0.
Proof. eexists. split; vm_compute; reflexivity. Qed.

Lemma all_gone {T R} n (s : list (option (fmap T R))) : s = repeat None n -> all_keys s = 0.
Proof. intros ->. induction n; auto. Qed.
Lemma group_all K V c (TO : total_order c) veq n os : proper (gop K V) (fun _ => True) (repeat false n) os ->
  exists s t rs, mrun (gm_step K V (fun a b => Some (c a b)) veq) (gm_start K V n) os = Ok (s, rs) /\
    vrun (gop K V) (fmap K (list V)) (dout K V) [] (g_ok c veq) (repeat None n) os t rs /\ gm_shows K V c s t /\ in_use (gvheap s) = all_keys t.
Proof.
  intros P. destruct (group_moves K V c TO veq n os P) as (s & t & rs & E & Vr & Sh). exists s, t, rs.
  split; [exact E|]. split; [exact Vr|]. split; [exact Sh|]. eapply no_leak; eauto.
Qed.
Lemma group_gone K V c (TO : total_order c) veq n os : proper (gop K V) (fun _ => True) (repeat false n) os ->
  forall s rs, mrun (gm_step K V (fun a b => Some (c a b)) veq) (gm_start K V n) os = Ok (s, rs) ->
  Forall (fun x => x = None) (gvs s) -> Forall (fun x => x = None) (gvheap s).
Proof.
  intros P s rs E HN. destruct (group_moves K V c TO veq n os P) as (s' & t & rs' & E' & _ & Sh). rewrite E in E'. injection E' as <- <-.
  destruct Sh as (HF & _ & HL). assert (O : owned (gvs s) = []).
  { clear - HN. unfold owned. induction HN as [|x l H HN IH]; [reflexivity|]. subst x. exact IH. }
  apply Forall_forall. intros [x|] Hx; [|reflexivity]. destruct (In_nth_error _ _ Hx) as (p & Ep). specialize (HL p x Ep). rewrite O in HL. destruct HL.
Qed.

(* the specification leaves no choice: dictionaries and groups *)
Lemma vrun_det {O T R} nothing (f : T -> O -> T * R) t os t1 rs1 t2 rs2 :
  vrun O T R nothing (fun m o m' r => f m o = (m', r)) t os t1 rs1 -> vrun O T R nothing (fun m o m' r => f m o = (m', r)) t os t2 rs2 -> t1 = t2 /\ rs1 = rs2.
Proof.
  intros H. revert t2 rs2. induction H as [t|t o t1 r os t' rs S1 R1 IH]; intros t2 rs2 H2; inversion H2 as [|? ? t1' r' ? ? ? S2 R2]; subst; [auto|].
  assert (t1 = t1' /\ r = r') as [<- <-].
  { clear - S1 S2. destruct S1; inversion S2; subst; try tauto; split; congruence. }
  destruct (IH _ _ R2) as [<- <-]. auto.
Qed.
Lemma self_moves :
  (exists s, mrun (sm_step Z zc) (repeat None 1) [MNew 0; MOp 0 (SAdd 5); MMoveAssign 0 0; MOp 0 SCount] =
     Ok (s, [Done; Answer (RInt 0); Done; Answer (RInt 0)])) /\
  (exists s, mrun (dm_step Z Z zc) (repeat None 1) [MNew 0; MOp 0 (DAdd 5 50); MMoveAssign 0 0; MOp 0 DCount] =
     Ok (s, [Done; Answer (OBool true); Done; Answer (OInt 0)])) /\
  (exists s, mrun (gm_step Z Z zc Z.eqb) (gm_start Z Z 1) [MNew 0; MOp 0 (GAdd 5 50); MMoveAssign 0 0; MOp 0 GCount] =
     Ok (s, [Done; Answer (OBool true); Done; Answer (OInt 0)])).
Proof. split; [|split]; eexists; vm_compute; reflexivity. Qed.
