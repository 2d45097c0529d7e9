From Coq Require Import Permutation.
From Verif Require Import Base BaseFacts LzhModel LzhSpec.
Open Scope Z_scope.

(* ---- the heap --------------------------------------------------------------------------- *)
Lemma get_lt h p c : get h p = Some c -> (p < length h)%nat.
Proof. unfold get. destruct (nth_error h p) eqn:E; [|discriminate]. intros _. eapply nth_error_lt; eauto. Qed.
Lemma get_upd_same h p c : (p < length h)%nat -> get (upd h p (Some c)) p = Some c.
Proof. intros H. unfold get. now rewrite upd_same. Qed.
Lemma get_upd_none h p : (p < length h)%nat -> get (upd h p None) p = None.
Proof. intros H. unfold get. now rewrite upd_same. Qed.
Lemma get_upd_other h p q c : q <> p -> get (upd h p c) q = get h q.
Proof. intros H. unfold get. rewrite upd_other by lia. reflexivity. Qed.
Lemma get_app1 h c p : (p < length h)%nat -> get (h ++ [c]) p = get h p.
Proof. intros H. unfold get. now rewrite nth_error_app1. Qed.
Lemma get_app2 h c : get (h ++ [Some c]) (length h) = Some c.
Proof. unfold get. rewrite nth_error_app2, Nat.sub_diag by lia. reflexivity. Qed.
Lemma get_app_inv h c p d : get (h ++ [Some c]) p = Some d -> get h p = Some d \/ p = length h.
Proof.
  intros H. pose proof (get_lt _ _ _ H) as L. rewrite app_length in L. cbn [length] in L.
  destruct (Nat.eq_dec p (length h)); auto. left. rewrite get_app1 in H; auto. lia.
Qed.

(* the tree that starts at p, and the addresses it occupies *)
Inductive rep (h : heap) : option nat -> tree -> list nat -> Prop :=
| rep_nil : rep h None Nil []
| rep_node : forall p k a b ta tb fa fb, get h p = Some (Cell k a b) -> rep h a ta fa -> rep h b tb fb ->
    rep h (Some p) (Tree k ta tb) (p :: fa ++ fb).
Lemma rep_frame h h' p t f : rep h p t f -> (forall x, In x f -> get h' x = get h x) -> rep h' p t f.
Proof.
  induction 1 as [|p k a b ta tb fa fb G Ra IHa Rb IHb]; intros F; [constructor|].
  econstructor; [rewrite F; [exact G|now left]|apply IHa|apply IHb]; intros x Hx; apply F; right; apply in_app_iff; auto.
Qed.
Lemma rep_lt h p t f : rep h p t f -> forall x, In x f -> (x < length h)%nat.
Proof.
  induction 1 as [|p k a b ta tb fa fb G Ra IHa Rb IHb]; intros x Hx; [destruct Hx|].
  destruct Hx as [<-|Hx]; [eapply get_lt; eauto|]. apply in_app_iff in Hx. destruct Hx; auto.
Qed.
Lemma rep_live h p t f : rep h p t f -> forall x, In x f -> get h x <> None.
Proof.
  induction 1 as [|p k a b ta tb fa fb G Ra IHa Rb IHb]; intros x Hx; [destruct Hx|].
  destruct Hx as [<-|Hx]; [congruence|]. apply in_app_iff in Hx. destruct Hx; auto.
Qed.
Lemma rep_some h p t f : rep h (Some p) t f -> exists k ta tb, t = Tree k ta tb.
Proof. inversion 1; subst; eauto. Qed.
Lemma rep_is_nil h p t f : rep h p t f -> is_nil t = match p with None => true | _ => false end.
Proof. inversion 1; reflexivity. Qed.
Lemma nodup_app A (a b : list A) : NoDup (a ++ b) <-> NoDup a /\ NoDup b /\ forall x, In x a -> ~ In x b.
Proof.
  induction a as [|y a IH]; cbn [app].
  - split; [intros H; repeat split; auto; constructor|tauto].
  - rewrite !NoDup_cons_iff, IH, in_app_iff. cbn [In]. split.
    + intros (H & H1 & H2 & H3). repeat split; auto. intros x [<-|Hx]; auto.
    + intros ((H & H1) & H2 & H3). repeat split; auto. intros [?|?]; auto. eapply H3; eauto.
Qed.
Lemma nodup_lt (l : list nat) n : NoDup l -> (forall x, In x l -> (x < n)%nat) -> (length l <= n)%nat.
Proof.
  intros N H. rewrite <- (seq_length n 0). apply NoDup_incl_length; auto. intros x Hx. apply in_seq. specialize (H x Hx). lia.
Qed.

(* ---- calls ------------------------------------------------------------------------------- *)
(* a call changes only the object's own memory, and only as the tree says *)
Definition agrees (h : heap) (p : nat) (f : list nat) (x : res (heap * option Z)) (y : res (tree * option Z)) : Prop :=
  match y with
  | Ok (t, r) => exists h', x = Ok (h', r) /\ rep h' (Some p) t f /\ length h' = length h /\ (forall q, ~ In q f -> get h' q = get h q)
  | Err => x = Err
  | UB => x = UB
  | NoFuel => x = NoFuel
  end.
Lemma set_kind_rep h p k k' a b ta tb fa fb : get h p = Some (Cell k a b) -> rep h a ta fa -> rep h b tb fb -> NoDup (p :: fa ++ fb) ->
  exists h', set_kind h p k' = Ok h' /\ get h' p = Some (Cell k' a b) /\ rep h' a ta fa /\ rep h' b tb fb /\ length h' = length h /\
    (forall q, q <> p -> get h' q = get h q).
Proof.
  intros G Ra Rb N. unfold set_kind. rewrite G. pose proof (get_lt _ _ _ G). inversion N as [|? ? N1 N2]; subst. rewrite in_app_iff in N1.
  eexists. split; [reflexivity|]. split; [now apply get_upd_same|].
  split; [|split; [|split; [apply upd_length|intros q Hq; now apply get_upd_other]]].
  - eapply rep_frame; [exact Ra|]. intros x Hx. apply get_upd_other. intros ->. tauto.
  - eapply rep_frame; [exact Rb|]. intros x Hx. apply get_upd_other. intros ->. tauto.
Qed.

Section Interp.
  Variable call : heap -> nat -> method -> res (heap * option Z).
  Variable tcall : tree -> method -> res (tree * option Z).
  Variable again : heap -> res (heap * option Z).
  Variable tagain : tree -> res (tree * option Z).
  Variable p : nat.
  Variable Hcall : forall h q t f m, rep h (Some q) t f -> NoDup f -> agrees h q f (call h q m) (tcall t m).
  Variable Hagain : forall h t f, rep h (Some p) t f -> NoDup f -> agrees h p f (again h) (tagain t).
  Lemma interp_ok c : forall h k a b ta tb fa fb,
    get h p = Some (Cell k a b) -> rep h a ta fa -> rep h b tb fb -> NoDup (p :: fa ++ fb) ->
    agrees h p (p :: fa ++ fb) (interp call again p c h) (tinterp tcall tagain c k ta tb).
  Proof.
    induction c as [z| |k' c IH|w m c IH|]; intros h k a b ta tb fa fb G Ra Rb N; cbn [interp tinterp].
    - exists h. split; auto. split; [econstructor; eauto|]. auto.
    - exists h. split; auto. split; [econstructor; eauto|]. auto.
    - destruct (set_kind_rep h p k k' a b ta tb fa fb G Ra Rb N) as (h' & -> & G' & Ra' & Rb' & L & F). cbn [bind].
      specialize (IH _ _ _ _ _ _ _ _ G' Ra' Rb' N). unfold agrees in *. destruct (tinterp tcall tagain c k' ta tb) as [[t r]| | |]; auto.
      destruct IH as (h2 & E & R & L2 & F2). exists h2. repeat split; auto; try lia. intros q Hq. rewrite F2 by auto. apply F. intros ->. apply Hq. now left.
    - unfold child. rewrite G. destruct w.
      + rewrite (rep_is_nil _ _ _ _ Ra). destruct a as [q|]; [|reflexivity]. cbn [bind].
        pose proof N as N'. apply NoDup_cons_iff in N' as (N1 & N2). apply nodup_app in N2 as (Na & Nb & Nab).
        pose proof (Hcall h q ta fa m Ra Na) as HC. unfold agrees in HC. destruct (tcall ta m) as [[ta' r]| | |]; cbn [bind].
        * destruct HC as (h' & -> & Ra' & L & F). cbn [bind].
          assert (G' : get h' p = Some (Cell k (Some q) b)) by (rewrite F; auto; rewrite in_app_iff in N1; tauto).
          assert (Rb' : rep h' b tb fb) by (eapply rep_frame; [exact Rb|]; intros x Hx; apply F; intros Hx'; exact (Nab x Hx' Hx)).
          destruct r as [z|].
          -- specialize (IH z _ _ _ _ _ _ _ _ G' Ra' Rb' N). unfold agrees in *. destruct (tinterp tcall tagain (c z) k ta' tb) as [[t r]| | |]; auto.
             destruct IH as (h2 & E & R & L2 & F2). exists h2. repeat split; auto; try lia.
             intros x Hx. rewrite F2 by auto. apply F. intros Hx'. apply Hx. right. apply in_app_iff. auto.
          -- exists h'. split; auto. split; [econstructor; eauto|]. split; auto. intros x Hx. apply F. intros Hx'. apply Hx. right. apply in_app_iff. auto.
        * now rewrite HC.
        * now rewrite HC.
        * now rewrite HC.
      + rewrite (rep_is_nil _ _ _ _ Rb). destruct b as [q|]; [|reflexivity]. cbn [bind].
        pose proof N as N'. apply NoDup_cons_iff in N' as (N1 & N2). apply nodup_app in N2 as (Na & Nb & Nab).
        pose proof (Hcall h q tb fb m Rb Nb) as HC. unfold agrees in HC. destruct (tcall tb m) as [[tb' r]| | |]; cbn [bind].
        * destruct HC as (h' & -> & Rb' & L & F). cbn [bind].
          assert (G' : get h' p = Some (Cell k a (Some q))) by (rewrite F; auto; rewrite in_app_iff in N1; tauto).
          assert (Ra' : rep h' a ta fa) by (eapply rep_frame; [exact Ra|]; intros x Hx; apply F; intros Hx'; exact (Nab x Hx Hx')).
          destruct r as [z|].
          -- specialize (IH z _ _ _ _ _ _ _ _ G' Ra' Rb' N). unfold agrees in *. destruct (tinterp tcall tagain (c z) k ta tb') as [[t r]| | |]; auto.
             destruct IH as (h2 & E & R & L2 & F2). exists h2. repeat split; auto; try lia.
             intros x Hx. rewrite F2 by auto. apply F. intros Hx'. apply Hx. right. apply in_app_iff. auto.
          -- exists h'. split; auto. split; [econstructor; eauto|]. split; auto. intros x Hx. apply F. intros Hx'. apply Hx. right. apply in_app_iff. auto.
        * now rewrite HC.
        * now rewrite HC.
        * now rewrite HC.
    - apply Hagain; [econstructor; eauto|auto].
  Qed.
End Interp.
Lemma exec_ok : forall n h p t f m, rep h (Some p) t f -> NoDup f -> agrees h p f (exec n h p m) (texec n t m).
Proof.
  induction n as [|n IH]; intros h p t f m R N; [reflexivity|]. cbn [exec texec].
  inversion R as [|? k a b ta tb fa fb G Ra Rb]; subst. rewrite G.
  apply interp_ok with a b; auto; intros; apply IH; auto.
Qed.

(* ---- Clone and delete --------------------------------------------------------------------- *)
Lemma clone_ok : forall n h p t f, rep h p t f -> (length f <= n)%nat ->
  exists h' p' f', clone n h p = Ok (h', p') /\ rep h' p' t f' /\ NoDup f' /\ (p' = None <-> p = None) /\ (length h <= length h')%nat /\
    (forall x, (x < length h)%nat -> get h' x = get h x) /\
    (forall x, In x f' <-> (length h <= x)%nat /\ get h' x <> None).
Proof.
  induction n as [|n IH]; intros h p t f R L.
  - inversion R; subst; [|cbn [length] in L; lia]. exists h, None, []. cbn [clone].
    split; [reflexivity|]. split; [constructor|]. split; [constructor|]. split; [tauto|]. split; [lia|]. split; [auto|]. intros x. split; [intros []|].
    intros (H1 & H2). destruct (get h x) eqn:E; [|tauto]. apply get_lt in E. cbn [In]. lia.
  - inversion R as [|q k a b ta tb fa fb G Ra Rb]; subst.
    + exists h, None, []. cbn [clone].
      split; [reflexivity|]. split; [constructor|]. split; [constructor|]. split; [tauto|]. split; [lia|]. split; [auto|]. intros x. split; [intros []|].
      intros (H1 & H2). destruct (get h x) eqn:E; [|tauto]. apply get_lt in E. cbn [In]. lia.
    + cbn [length] in L. rewrite app_length in L. cbn [clone]. rewrite G.
      destruct (IH h a ta fa Ra) as (h1 & a' & fa' & -> & Ra' & Na & _ & L1 & F1 & X1); [lia|]. cbn [bind].
      assert (Rb1 : rep h1 b tb fb) by (eapply rep_frame; [exact Rb|]; intros x Hx; apply F1; eapply rep_lt; [|exact Hx]; eauto).
      destruct (IH h1 b tb fb Rb1) as (h2 & b' & fb' & -> & Rb' & Nb & _ & L2 & F2 & X2); [lia|]. cbn [bind alloc].
      exists (h2 ++ [Some (Cell k a' b')]), (Some (length h2)), (length h2 :: fa' ++ fb').
      assert (Ra2 : rep h2 a' ta fa') by (eapply rep_frame; [exact Ra'|]; intros x Hx; apply F2; exact (rep_lt _ _ _ _ Ra' x Hx)).
      split; [reflexivity|]. split; [|split; [|split; [split; discriminate|split; [rewrite app_length; cbn [length]; lia|split]]]].
      * econstructor; [apply get_app2| |].
        -- eapply rep_frame; [exact Ra2|]. intros x Hx. apply get_app1. eapply rep_lt; [|exact Hx]; eauto.
        -- eapply rep_frame; [exact Rb'|]. intros x Hx. apply get_app1. eapply rep_lt; [|exact Hx]; eauto.
      * constructor.
        -- rewrite in_app_iff. intros [Hx|Hx]; [apply (rep_lt _ _ _ _ Ra2) in Hx|apply (rep_lt _ _ _ _ Rb') in Hx]; lia.
        -- apply nodup_app. split; [|split]; auto. intros x Hx Hy. apply X2 in Hy. apply (rep_lt _ _ _ _ Ra') in Hx. lia.
      * intros x Hx. rewrite get_app1 by lia. rewrite F2 by lia. apply F1. lia.
      * intros x. cbn [In]. rewrite in_app_iff, X1, X2. split.
        -- intros [<-|[[H1 H2]|[H1 H2]]].
           ++ split; [lia|]. rewrite get_app2. discriminate.
           ++ split; [lia|]. destruct (get h1 x) eqn:E; [|tauto]. pose proof (get_lt _ _ _ E). rewrite get_app1 by lia. rewrite F2 by lia. congruence.
           ++ split; [lia|]. destruct (get h2 x) eqn:E; [|tauto]. pose proof (get_lt _ _ _ E). rewrite get_app1 by lia. congruence.
        -- intros (H1 & H2). destruct (get (h2 ++ [Some (Cell k a' b')]) x) eqn:E; [|tauto]. destruct (get_app_inv _ _ _ _ E) as [E2|E2]; [|now left].
           right. destruct (Nat.lt_ge_cases x (length h1)).
           ++ left. split; [lia|]. rewrite F2 in E2 by lia. congruence.
           ++ right. split; [lia|]. congruence.
Qed.
Lemma del_ok : forall n h p t f, rep h p t f -> NoDup f -> (length f <= n)%nat ->
  exists h', del n h p = Ok h' /\ length h' = length h /\ (forall x, In x f -> get h' x = None) /\ (forall x, ~ In x f -> get h' x = get h x).
Proof.
  induction n as [|n IH]; intros h p t f R N L.
  - inversion R; subst; [|cbn [length] in L; lia]. exists h. cbn [del]. repeat split; auto. intros x [].
  - inversion R as [|q k a b ta tb fa fb G Ra Rb]; subst.
    + exists h. cbn [del]. repeat split; auto. intros x [].
    + cbn [length] in L. rewrite app_length in L. cbn [del]. rewrite G.
      apply NoDup_cons_iff in N as (N1 & N2). apply nodup_app in N2 as (Na & Nb & Nab). rewrite in_app_iff in N1.
      destruct (IH h a ta fa Ra Na) as (h1 & -> & L1 & D1 & F1); [lia|]. cbn [bind].
      assert (Rb1 : rep h1 b tb fb) by (eapply rep_frame; [exact Rb|]; intros x Hx; apply F1; intros Hx'; exact (Nab x Hx' Hx)).
      destruct (IH h1 b tb fb Rb1 Nb) as (h2 & -> & L2 & D2 & F2); [lia|]. cbn [bind].
      assert (G2 : get h2 q = Some (Cell k a b)) by (rewrite F2, F1; tauto). rewrite G2. pose proof (get_lt _ _ _ G2).
      eexists. split; [reflexivity|]. split; [rewrite upd_length; lia|]. split.
      * intros x Hx. destruct (Nat.eq_dec x q) as [->|Nx]; [now apply get_upd_none|]. rewrite get_upd_other by auto.
        destruct Hx as [<-|Hx]; [tauto|]. apply in_app_iff in Hx. destruct (in_dec Nat.eq_dec x fb) as [I|I]; [now apply D2|]. rewrite F2 by auto. apply D1. tauto.
      * cbn [In]. intros x Hx. rewrite in_app_iff in Hx. rewrite get_upd_other by auto. rewrite F2 by auto. apply F1. auto.
Qed.

(* ---- a heap that holds exactly the given objects -------------------------------------------- *)
Inductive holds (h : heap) : list (nat * tree) -> list nat -> Prop :=
| holds_nil : holds h [] []
| holds_cons : forall p t f os g, rep h (Some p) t f -> holds h os g -> holds h ((p, t) :: os) (f ++ g).
Definition Holds (h : heap) (os : list (nat * tree)) : Prop :=
  exists g, holds h os g /\ NoDup g /\ forall x, get h x <> None -> In x g.
Lemma holds_frame h h' os g : holds h os g -> (forall x, In x g -> get h' x = get h x) -> holds h' os g.
Proof.
  induction 1 as [|p t f os g R H IH]; intros F; constructor.
  - eapply rep_frame; [exact R|]. intros x Hx. apply F. apply in_app_iff; auto.
  - apply IH. intros x Hx. apply F. apply in_app_iff; auto.
Qed.
Lemma holds_live h os g : holds h os g -> forall x, In x g -> get h x <> None.
Proof. induction 1 as [|p t f os g R H IH]; intros x Hx; [destruct Hx|]. apply in_app_iff in Hx. destruct Hx; auto. eapply rep_live; eauto. Qed.
Lemma holds_lt h os g : holds h os g -> forall x, In x g -> (x < length h)%nat.
Proof. intros H x Hx. pose proof (holds_live _ _ _ H x Hx). destruct (get h x) eqn:E; [|tauto]. eapply get_lt; eauto. Qed.
Lemma holds_perm h os os' : Permutation os os' -> forall g, holds h os g -> exists g', holds h os' g' /\ Permutation g g'.
Proof.
  induction 1 as [|[p t] os os' P IH|[p t] [q u] os|os1 os2 os3 P1 IH1 P2 IH2]; intros g H.
  - inversion H; subst. exists []. split; constructor.
  - inversion H as [|? ? f ? g0 R H0]; subst. destruct (IH _ H0) as (g' & H' & P'). exists (f ++ g'). split; [now constructor|]. now apply Permutation_app_head.
  - inversion H as [|? ? f ? g0 R H0]; subst. inversion H0 as [|? ? f2 ? g2 R2 H2]; subst.
    exists (f2 ++ f ++ g2). split; [constructor; auto; constructor; auto|]. rewrite !app_assoc. apply Permutation_app_tail, Permutation_app_comm.
  - destruct (IH1 _ H) as (g1 & H1 & Q1). destruct (IH2 _ H1) as (g2 & H2 & Q2). exists g2. split; auto. now transitivity g1.
Qed.
Lemma Holds_perm h os os' : Permutation os os' -> Holds h os -> Holds h os'.
Proof.
  intros P (g & H & N & C). destruct (holds_perm h os os' P g H) as (g' & H' & Q). exists g'. split; auto. split.
  - eapply Permutation_NoDup; eauto.
  - intros x Hx. eapply Permutation_in; eauto.
Qed.
Lemma Holds_nil : Holds [] [].
Proof. exists []. split; [constructor|]. split; [constructor|]. intros x H. exfalso. apply H. unfold get. now destruct x. Qed.
Lemma Holds_none h : Holds h [] -> forall x, get h x = None.
Proof. intros (g & H & N & C) x. inversion H; subst. destruct (get h x) eqn:E; auto. exfalso. apply (C x). congruence. Qed.
Lemma Holds_some h p t os : Holds h ((p, t) :: os) -> exists k a b, t = Tree k a b.
Proof. intros (g & H & _). inversion H; subst. eapply rep_some; eauto. Qed.

Lemma Holds_exec n h p t os m : Holds h ((p, t) :: os) ->
  match texec n t m with
  | Ok (t', r) => exists h', exec n h p m = Ok (h', r) /\ Holds h' ((p, t') :: os)
  | Err => exec n h p m = Err
  | UB => exec n h p m = UB
  | NoFuel => exec n h p m = NoFuel
  end.
Proof.
  intros (g & H & N & C). inversion H as [|? ? f ? g0 R H0]; subst. apply nodup_app in N as (Nf & Ng & D).
  pose proof (exec_ok n h p t f m R Nf) as A. unfold agrees in A. destruct (texec n t m) as [[t' r]| | |]; auto.
  destruct A as (h' & E & R' & L & F). exists h'. split; auto. exists (f ++ g0). split; [constructor; auto|].
  - eapply holds_frame; [exact H0|]. intros x Hx. apply F. intros Hx'. exact (D x Hx' Hx).
  - split; [apply nodup_app; auto|]. intros x Hx. destruct (in_dec Nat.eq_dec x f); [apply in_app_iff; auto|]. apply C. rewrite <- F; auto.
Qed.
Lemma Holds_clone h p t os : Holds h os -> In (p, t) os -> exists h' q, clone_all h p = Ok (h', q) /\ Holds h' ((q, t) :: os).
Proof.
  intros (g & H & N & C) I. apply in_split in I as (o1 & o2 & ->).
  destruct (holds_perm h _ _ (Permutation_sym (Permutation_middle o1 o2 (p, t))) g H) as (g' & H' & P).
  inversion H' as [|? ? f ? g0 R H0]; subst. assert (Nf : NoDup f) by (apply (Permutation_NoDup P) in N; apply nodup_app in N; tauto).
  pose proof (nodup_lt f (length h) Nf (rep_lt _ _ _ _ R)) as Lf.
  destruct (clone_ok (S (length h)) h (Some p) t f R) as (h' & p' & f' & E & R' & N' & Z & L & F & X); [lia|].
  unfold clone_all. rewrite E. cbn [bind]. destruct p' as [q|]; [|destruct Z as [Z _]; specialize (Z eq_refl); discriminate].
  exists h', q. split; auto. exists (f' ++ g). split; [constructor; auto|].
  - eapply holds_frame; [exact H|]. intros x Hx. apply F. eapply holds_lt; [|exact Hx]; eauto.
  - split.
    + apply nodup_app. split; [|split]; auto. intros x Hx Hy. apply X in Hx. apply (holds_lt _ _ _ H) in Hy. lia.
    + intros x Hx. apply in_app_iff. destruct (Nat.lt_ge_cases x (length h)); [right; apply C; rewrite <- F; auto|left; apply X; auto].
Qed.
Lemma Holds_delete h p t os : Holds h ((p, t) :: os) -> exists h', delete_all h p = Ok h' /\ Holds h' os.
Proof.
  intros (g & H & N & C). inversion H as [|? ? f ? g0 R H0]; subst. apply nodup_app in N as (Nf & Ng & D).
  pose proof (nodup_lt f (length h) Nf (rep_lt _ _ _ _ R)) as Lf.
  destruct (del_ok (S (length h)) h (Some p) t f R Nf) as (h' & E & L & X & F); [lia|]. exists h'. split; auto.
  exists g0. split; [|split; auto].
  - eapply holds_frame; [exact H0|]. intros x Hx. apply F. intros Hx'. exact (D x Hx' Hx).
  - intros x Hx. destruct (in_dec Nat.eq_dec x f) as [I|I]; [rewrite X in Hx by auto; tauto|]. rewrite F in Hx by auto. apply C in Hx. apply in_app_iff in Hx. tauto.
Qed.
Lemma Holds_alloc h k os new a b ta tb :
  Holds h (new ++ os) ->
  (a = None /\ ta = Nil /\ b = None /\ tb = Nil /\ new = []) \/
  (exists p, a = Some p /\ b = None /\ tb = Nil /\ new = [(p, ta)]) \/
  (exists p q, a = Some p /\ b = Some q /\ new = [(p, ta); (q, tb)]) ->
  Holds (fst (alloc h (Cell k a b))) ((snd (alloc h (Cell k a b)), Tree k ta tb) :: os).
Proof.
  intros (g & H & N & C) HN. cbn [alloc fst snd].
  assert (A : exists fa fb g0, rep h a ta fa /\ rep h b tb fb /\ holds h os g0 /\ g = (fa ++ fb) ++ g0).
  { destruct HN as [(-> & -> & -> & -> & ->)|[(p & -> & -> & -> & ->)|(p & q & -> & -> & ->)]]; cbn [app] in H.
    - exists [], [], g. repeat split; auto; constructor.
    - inversion H as [|? ? f ? g0 R H0]; subst. exists f, [], g0. rewrite app_nil_r. repeat split; auto; constructor.
    - inversion H as [|? ? f ? g0 R H0]; subst. inversion H0 as [|? ? f2 ? g2 R2 H2]; subst. exists f, f2, g2. rewrite app_assoc. auto. }
  destruct A as (fa & fb & g0 & Ra & Rb & H0 & ->). exists ((length h :: fa ++ fb) ++ g0).
  assert (Lg : forall x, In x ((fa ++ fb) ++ g0) -> (x < length h)%nat).
  { intros x Hx. rewrite !in_app_iff in Hx. destruct Hx as [[Hx|Hx]|Hx]; [eapply rep_lt; [|exact Hx]; eauto|eapply rep_lt; [|exact Hx]; eauto|eapply holds_lt; [|exact Hx]; eauto]. }
  split; [constructor|split].
  - econstructor; [apply get_app2| |].
    + eapply rep_frame; [exact Ra|]. intros x Hx. apply get_app1. apply Lg. rewrite !in_app_iff. auto.
    + eapply rep_frame; [exact Rb|]. intros x Hx. apply get_app1. apply Lg. rewrite !in_app_iff. auto.
  - eapply holds_frame; [exact H0|]. intros x Hx. apply get_app1. apply Lg. rewrite !in_app_iff. auto.
  - cbn [app]. constructor; auto. intros Hx. apply Lg in Hx. lia.
  - intros x Hx. cbn [app In]. destruct (get (h ++ [Some (Cell k a b)]) x) eqn:E; [|tauto].
    destruct (get_app_inv _ _ _ _ E) as [E2|E2]; [right; apply C; congruence|auto].
Qed.

(* ---- slots --------------------------------------------------------------------------------- *)
Fixpoint somes {X : Type} (l : list (option X)) : list X :=
  match l with [] => [] | Some x :: l => x :: somes l | None :: l => somes l end.
Lemma somes_put X (l : list (option X)) : forall i x, nth_error l i = Some None -> Permutation (somes (upd l i (Some x))) (x :: somes l).
Proof.
  induction l as [|v l IH]; intros [|i] x E; cbn [nth_error] in E; try discriminate; cbn [upd somes].
  - injection E as ->. apply Permutation_refl.
  - destruct v as [y|]; [|now apply IH]. rewrite (IH _ _ E). apply perm_swap.
Qed.
Lemma somes_take X (l : list (option X)) : forall i x, nth_error l i = Some (Some x) -> Permutation (somes l) (x :: somes (upd l i None)).
Proof.
  induction l as [|v l IH]; intros [|i] x E; cbn [nth_error] in E; try discriminate; cbn [upd somes].
  - injection E as ->. apply Permutation_refl.
  - destruct v as [y|]; [|now apply IH]. rewrite (IH _ _ E). apply perm_swap.
Qed.
Lemma upd_upd X (l : list X) : forall i x y, upd (upd l i x) i y = upd l i y.
Proof. induction l as [|v l IH]; intros [|i] x y; cbn [upd]; auto. now rewrite IH. Qed.
Lemma upd_id X (l : list X) : forall i x, nth_error l i = Some x -> upd l i x = l.
Proof. induction l as [|v l IH]; intros [|i] x E; cbn [nth_error] in E; try discriminate; cbn [upd]; [congruence|]. now rewrite IH. Qed.
Lemma map_upd X Y (f : X -> Y) (l : list X) : forall i x, map f (upd l i x) = upd (map f l) i (f x).
Proof. induction l as [|v l IH]; intros [|i] x; cbn [upd map]; auto. now rewrite IH. Qed.
Lemma somes_set X (l : list (option X)) i x y : nth_error l i = Some (Some x) -> Permutation (somes (upd l i (Some y))) (y :: somes (upd l i None)).
Proof.
  intros E. rewrite <- (upd_upd _ l i None (Some y)). apply somes_put. apply upd_same. eapply nth_error_lt; eauto.
Qed.
Lemma somes_app X (l m : list (option X)) : somes (l ++ m) = somes l ++ somes m.
Proof. induction l as [|[x|] l IH]; cbn [somes app]; auto. now rewrite IH. Qed.
Lemma free_map X Y (f : option X -> option Y) (l : list (option X)) i : f None = None -> (forall x, f (Some x) <> None) -> free (map f l) i = free l i.
Proof. intros F G. unfold free. rewrite nth_error_map. destruct (nth_error l i) as [[x|]|]; cbn [option_map]; auto; [|now rewrite F]. specialize (G x). destruct (f (Some x)); congruence. Qed.
Lemma free_nth X (l : list (option X)) i : free l i = true -> nth_error l i = Some None.
Proof. unfold free. destruct (nth_error l i) as [[x|]|]; try discriminate. auto. Qed.
Lemma nth_free X (l : list (option X)) i : nth_error l i = Some None -> free l i = true.
Proof. unfold free. now intros ->. Qed.
Lemma look_nth X (l : list (option X)) i x : look l i = Some x <-> nth_error l i = Some (Some x).
Proof. unfold look. destruct (nth_error l i) as [[y|]|]; split; intros H; congruence. Qed.
Lemma look_map X Y (f : option X -> option Y) (l : list (option X)) i : f None = None -> look (map f l) i = match look l i with Some x => f (Some x) | None => None end.
Proof. intros F. unfold look. rewrite nth_error_map. destruct (nth_error l i) as [[x|]|]; cbn [option_map]; auto; [|now rewrite F]. now destruct (f (Some x)). Qed.

(* how many lazy lists refer to the control block c *)
Definition hit (c : nat) (v : lvar) : Z := match v with Some (Some d) => if (d =? c)%nat then 1 else 0 | _ => 0 end.
Fixpoint refs (c : nat) (l : list lvar) : Z := match l with [] => 0 | v :: l => hit c v + refs c l end.
Lemma hit_nonneg c v : 0 <= hit c v <= 1.
Proof. unfold hit. destruct v as [[d|]|]; try lia. destruct (d =? c)%nat; lia. Qed.
Lemma refs_nonneg c l : 0 <= refs c l.
Proof. induction l as [|v l IH]; cbn [refs]; [lia|]. pose proof (hit_nonneg c v). lia. Qed.
Lemma refs_upd c l : forall i v w, nth_error l i = Some v -> refs c (upd l i w) = refs c l - hit c v + hit c w.
Proof.
  induction l as [|x l IH]; intros [|i] v w E; cbn [nth_error] in E; try discriminate; cbn [upd refs].
  - injection E as ->. lia.
  - rewrite (IH _ _ w E). lia.
Qed.
Lemma refs_in c l i : nth_error l i = Some (Some (Some c)) -> 1 <= refs c l.
Proof.
  revert i. induction l as [|x l IH]; intros [|i] E; cbn [nth_error] in E; try discriminate; cbn [refs].
  - injection E as ->. cbn [hit]. rewrite Nat.eqb_refl. pose proof (refs_nonneg c l). lia.
  - specialize (IH _ E). pose proof (hit_nonneg c x). lia.
Qed.
Lemma refs_repeat c n : refs c (repeat None n) = 0.
Proof. induction n as [|n IH]; cbn [repeat refs hit]; auto. Qed.
Lemma hit_self c : hit c (Some (Some c)) = 1.
Proof. unfold hit. now rewrite Nat.eqb_refl. Qed.
Lemma hit_other c d : d <> c -> hit c (Some (Some d)) = 0.
Proof. intros H. unfold hit. destruct (Nat.eqb_spec d c); congruence. Qed.

(* ---- the state and the world --------------------------------------------------------------- *)
Notation gblock := (option ((Z * nat) * tree)) (only parsing).
Definition obj_of (x : (Z * nat) * tree) : nat * tree := (snd (fst x), snd x).
Definition tree_at (G : list gblock) (c : nat) : tree := match nth_error G c with Some (Some (_, t)) => t | _ => Nil end.
Definition value (G : list gblock) (v : lvar) : option tree :=
  match v with None => None | Some None => Some Nil | Some (Some c) => Some (tree_at G c) end.
Definition counted (G : list gblock) (l : list lvar) : Prop :=
  forall c, match nth_error G c with Some (Some ((n, p), t)) => n = refs c l /\ 0 < n | _ => refs c l = 0 end.
Record inv (os : list (nat * tree)) (s : state) (w : world) (G : list gblock) (F : list (option (nat * tree))) : Prop := {
  i_blocks : blocks s = map (option_map fst) G;
  i_en : en s = map (option_map fst) F;
  i_enums : enums w = map (option_map snd) F;
  i_lists : lists w = map (value G) (lz s);
  i_count : counted G (lz s);
  i_holds : Holds (hp s) (os ++ map obj_of (somes G) ++ somes F) }.
Definition Inv (os : list (nat * tree)) (s : state) (w : world) : Prop := exists G F, inv os s w G F.

Lemma repeat_map X Y (f : X -> Y) x n : map f (repeat x n) = repeat (f x) n.
Proof. induction n as [|n IH]; cbn [repeat map]; auto. now rewrite IH. Qed.
Lemma somes_repeat X n : somes (repeat (@None X) n) = [].
Proof. induction n as [|n IH]; cbn [repeat somes]; auto. Qed.
Lemma inv_start nl ne : Inv [] (init nl ne) (start nl ne).
Proof.
  exists [], (repeat None ne). constructor; cbn [init start blocks en enums lists lz hp map somes app]; auto.
  - now rewrite repeat_map.
  - now rewrite repeat_map.
  - now rewrite repeat_map.
  - intros c. rewrite refs_repeat. now destruct c.
  - rewrite somes_repeat. apply Holds_nil.
Qed.
Lemma free_lists os s w G F i : inv os s w G F -> free (lists w) i = free (lz s) i.
Proof. intros I. rewrite (i_lists _ _ _ _ _ I). apply free_map; auto. intros [c|]; discriminate. Qed.
Lemma look_lists os s w G F i : inv os s w G F -> look (lists w) i = match look (lz s) i with Some v => value G (Some v) | None => None end.
Proof. intros I. rewrite (i_lists _ _ _ _ _ I). now apply look_map. Qed.
Lemma free_enums os s w G F i : inv os s w G F -> free (enums w) i = free (en s) i.
Proof. intros I. rewrite (i_enums _ _ _ _ _ I), (i_en _ _ _ _ _ I). rewrite !free_map; auto; intros; discriminate. Qed.
Lemma look_en os s w G F i : inv os s w G F -> look (en s) i = option_map fst (look F i) /\ look (enums w) i = option_map snd (look F i).
Proof. intros I. rewrite (i_enums _ _ _ _ _ I), (i_en _ _ _ _ _ I), !look_map by auto. now destruct (look F i). Qed.
Lemma block_at os s w G F i c : inv os s w G F -> look (lz s) i = Some (Some c) ->
  exists n p t, nth_error G c = Some (Some ((n, p), t)) /\ nth_error (blocks s) c = Some (Some (n, p)) /\ n = refs c (lz s) /\ 0 < n /\ tree_at G c = t /\ fresh t = t /\ is_nil t = false.
Proof.
  intros I L. apply look_nth in L. apply refs_in in L. pose proof (i_count _ _ _ _ _ I c) as C. destruct (nth_error G c) as [[[[n p] t]|]|] eqn:E; try lia.
  exists n, p, t. split; auto. split; [rewrite (i_blocks _ _ _ _ _ I), nth_error_map, E; reflexivity|]. destruct C as (C1 & C2). split; auto. split; auto.
  split; [unfold tree_at; now rewrite E|].
  pose proof (i_holds _ _ _ _ _ I) as H. pose proof (somes_take _ _ _ _ E) as P. apply (Permutation_map obj_of) in P. cbn [map] in P.
  assert (Q : Permutation (os ++ map obj_of (somes G) ++ somes F) ((p, t) :: os ++ map obj_of (somes (upd G c None)) ++ somes F)).
  { rewrite P. cbn [app]. symmetry. apply Permutation_middle. }
  apply (Holds_perm _ _ _ Q) in H. apply Holds_some in H as (k & a & b & ->). auto.
Qed.
Lemma Inv_heap os os' s w G F h : inv os s w G F -> Holds h (os' ++ map obj_of (somes G) ++ somes F) -> inv os' (with_heap s h) w G F.
Proof. intros [I1 I2 I3 I4 I5 I6] H. constructor; auto. Qed.

(* xs() *)
Lemma act_xs os s w i v : Inv os s w -> look (lz s) i = Some v ->
  exists h p t, xs s v = Ok (with_heap s h, p) /\ look (lists w) i = Some t /\ Inv ((p, fresh t) :: os) (with_heap s h) w.
Proof.
  intros (G & F & I) L. rewrite (look_lists _ _ _ _ _ i I), L. destruct v as [c|].
  - destruct (block_at _ _ _ _ _ _ _ I L) as (n & p & t & E & Eb & _ & _ & Et & Ef & _). cbn [value]. rewrite Et. cbn [xs]. rewrite Eb.
    destruct (Holds_clone (hp s) p t _ (i_holds _ _ _ _ _ I)) as (h & q & Ec & H).
    { apply in_app_iff. right. apply in_app_iff. left. apply in_map_iff. exists ((n, p), t). split; auto. eapply Permutation_in; [symmetry; apply (somes_take _ _ _ _ E)|]. now left. }
    exists h, q, t. rewrite Ec. split; auto. split; auto. rewrite Ef. exists G, F. eapply Inv_heap; eauto.
  - cbn [value xs alloc]. exists (hp s ++ [Some (Cell KEmpty None None)]), (length (hp s)), Nil. split; auto. split; auto. exists G, F.
    eapply Inv_heap; [exact I|]. cbn [fresh].
    exact (Holds_alloc (hp s) KEmpty _ [] None None Nil Nil (i_holds _ _ _ _ _ I) ltac:(left; auto)).
Qed.
(* a new object that takes over temporary ones *)
Lemma act_alloc new os s w k a b ta tb : Inv (new ++ os) s w ->
  (a = None /\ ta = Nil /\ b = None /\ tb = Nil /\ new = []) \/
  (exists p, a = Some p /\ b = None /\ tb = Nil /\ new = [(p, ta)]) \/
  (exists p q, a = Some p /\ b = Some q /\ new = [(p, ta); (q, tb)]) ->
  Inv ((length (hp s), Tree k ta tb) :: os) (with_heap s (hp s ++ [Some (Cell k a b)])) w.
Proof.
  intros (G & F & I) HN. exists G, F. eapply Inv_heap; [exact I|].
  pose proof (i_holds _ _ _ _ _ I) as H. rewrite <- app_assoc in H. exact (Holds_alloc (hp s) k _ new a b ta tb H HN).
Qed.
Lemma nth_error_snoc X (l : list X) x c : nth_error (l ++ [x]) c = if (c =? length l)%nat then Some x else nth_error l c.
Proof.
  destruct (Nat.eqb_spec c (length l)) as [->|N]; [rewrite nth_error_app2, Nat.sub_diag by lia; reflexivity|].
  destruct (Nat.lt_ge_cases c (length l)); [now rewrite nth_error_app1|]. rewrite nth_error_app2 by lia.
  destruct (c - length l)%nat eqn:E; [lia|]. cbn [nth_error]. destruct n; cbn [nth_error]; symmetry; now apply nth_error_None.
Qed.
Lemma act_make p t os s w i : Inv ((p, t) :: os) s w -> free (lz s) i = true -> Inv os (make_lazy s i p) (put_list w i (Some t)).
Proof.
  intros (G & F & I) Fr. apply free_nth in Fr. destruct I as [I1 I2 I3 I4 I5 I6].
  assert (Lb : length (blocks s) = length G) by (rewrite I1; apply map_length).
  exists (G ++ [Some ((1, p), t)]), F. constructor; cbn [make_lazy new_block set_lazy blocks lz en hp put_list lists enums]; auto.
  - rewrite I1, map_app. reflexivity.
  - rewrite I4, map_upd, Lb. cbn [value].
    replace (tree_at (G ++ [Some (1, p, t)]) (length G)) with t by (unfold tree_at; now rewrite nth_error_snoc, Nat.eqb_refl). f_equal.
    apply map_ext_in. intros [[c|]|] Hv; cbn [value]; auto. unfold tree_at. rewrite nth_error_snoc. destruct (Nat.eqb_spec c (length G)) as [->|]; auto.
    exfalso. apply In_nth_error in Hv as (j & Hj). apply refs_in in Hj. specialize (I5 (length G)). replace (nth_error G (length G)) with (@None gblock) in I5; [lia|]. symmetry. now apply nth_error_None.
  - intros c. rewrite nth_error_snoc, Lb, (refs_upd c _ _ _ _ Fr). cbn [hit]. specialize (I5 c). destruct (Nat.eqb_spec c (length G)) as [->|N].
    + rewrite Nat.eqb_refl. replace (nth_error G (length G)) with (@None gblock) in I5 by (symmetry; now apply nth_error_None). lia.
    + destruct (Nat.eqb_spec (length G) c); [congruence|]. destruct (nth_error G c) as [[[[m q] u]|]|]; lia.
  - rewrite somes_app, map_app. cbn [somes map]. eapply Holds_perm; [|exact I6]. cbn [app obj_of fst snd].
    rewrite <- app_assoc. cbn [app]. rewrite !app_assoc. rewrite <- Permutation_middle. reflexivity.
Qed.
(* temporaries *)
Lemma act_exec n p t os s w m : Inv ((p, t) :: os) s w ->
  match texec n t m with
  | Ok (t', r) => exists h, exec n (hp s) p m = Ok (h, r) /\ Inv ((p, t') :: os) (with_heap s h) w
  | Err => exec n (hp s) p m = Err
  | UB => exec n (hp s) p m = UB
  | NoFuel => exec n (hp s) p m = NoFuel
  end.
Proof.
  intros (G & F & I). pose proof (Holds_exec n (hp s) p t _ m (i_holds _ _ _ _ _ I)) as H. destruct (texec n t m) as [[t' r]| | |]; auto.
  destruct H as (h & E & H). exists h. split; auto. exists G, F. eapply Inv_heap; eauto.
Qed.
Lemma act_delete p t os s w : Inv ((p, t) :: os) s w -> exists h, delete_all (hp s) p = Ok h /\ Inv os (with_heap s h) w.
Proof.
  intros (G & F & I). destruct (Holds_delete (hp s) p t _ (i_holds _ _ _ _ _ I)) as (h & E & H). exists h. split; auto. exists G, F. eapply Inv_heap; eauto.
Qed.
Lemma with_heap_hp s h : hp (with_heap s h) = h. Proof. reflexivity. Qed.
Lemma with_heap2 s h h' : with_heap (with_heap s h) h' = with_heap s h'. Proof. reflexivity. Qed.
Lemma copy_loop_ok : forall n p t os s w acc, Inv ((p, t) :: os) s w ->
  match read n t acc with
  | Ok r => exists h t', copy_loop n (hp s) p acc = Ok (h, r) /\ Inv ((p, t') :: os) (with_heap s h) w
  | Err => copy_loop n (hp s) p acc = Err
  | UB => copy_loop n (hp s) p acc = UB
  | NoFuel => copy_loop n (hp s) p acc = NoFuel
  end.
Proof.
  induction n as [|n IH]; intros p t os s w acc I; [reflexivity|]. cbn [read copy_loop].
  pose proof (act_exec n p t os s w Next I) as H. destruct (texec n t Next) as [[t1 r]| | |]; cbn [bind]; [|now rewrite H|now rewrite H|now rewrite H].
  destruct H as (h1 & -> & I1). cbn [bind]. destruct r as [b|]; [|eauto]. destruct (b =? yes); [|eauto].
  pose proof (act_exec n p t1 os _ w Current I1) as H. rewrite with_heap_hp in H.
  destruct (texec n t1 Current) as [[t2 r]| | |]; cbn [bind]; [|now rewrite H|now rewrite H|now rewrite H].
  destruct H as (h2 & -> & I2). cbn [bind]. rewrite with_heap2 in I2. destruct r as [v|]; [|eauto].
  specialize (IH p t2 os _ w (acc ++ [v]) I2). rewrite with_heap_hp in IH. destruct (read n t2 (acc ++ [v])) as [r| | |]; auto.
Qed.
Lemma copy_from_ok n os s w i v : Inv os s w -> look (lz s) i = Some v ->
  exists t, look (lists w) i = Some t /\
  match read n (fresh t) [] with
  | Ok r => exists h, copy_from n s v = Ok (with_heap s h, r) /\ Inv os (with_heap s h) w
  | Err => copy_from n s v = Err
  | UB => copy_from n s v = UB
  | NoFuel => copy_from n s v = NoFuel
  end.
Proof.
  intros I L. destruct (act_xs _ _ _ _ _ I L) as (h & p & t & E & Et & I1). exists t. split; auto. unfold copy_from. rewrite E. cbn [bind].
  pose proof (copy_loop_ok n p (fresh t) os _ w [] I1) as H. destruct (read n (fresh t) []) as [r| | |]; [|now rewrite H|now rewrite H|now rewrite H].
  destruct H as (h1 & t1 & -> & I2). cbn [bind]. destruct (act_delete _ _ _ _ _ I2) as (h2 & E2 & I3). rewrite with_heap_hp in E2. rewrite E2. cbn [bind].
  exists h2. split; auto.
Qed.
(* enumerator variables *)
Lemma act_take os s w e p : Inv os s w -> look (en s) e = Some p ->
  exists t, look (enums w) e = Some t /\ Inv ((p, t) :: os) (set_enum s e None) (put_enum w e None).
Proof.
  intros (G & F & I) L. destruct (look_en _ _ _ _ _ e I) as (Le & Lw). rewrite L in Le. destruct (look F e) as [[q t]|] eqn:EF; [|discriminate].
  cbn [option_map fst snd] in *. injection Le as <-. exists t. split; auto. apply look_nth in EF. destruct I as [I1 I2 I3 I4 I5 I6].
  exists G, (upd F e None). constructor; cbn [set_enum put_enum blocks en lz hp lists enums]; auto.
  - now rewrite I2, map_upd.
  - now rewrite I3, map_upd.
  - eapply Holds_perm; [|exact I6]. rewrite (somes_take _ _ _ _ EF). cbn [app]. rewrite !app_assoc. symmetry. apply Permutation_middle.
Qed.
Lemma act_put p t os s w e : Inv ((p, t) :: os) s w -> free (en s) e = true -> Inv os (set_enum s e (Some p)) (put_enum w e (Some t)).
Proof.
  intros (G & F & I) Fr. pose proof Fr as Fr2. rewrite (i_en _ _ _ _ _ I), free_map in Fr2 by (auto; intros; discriminate).
  apply free_nth in Fr2. destruct I as [I1 I2 I3 I4 I5 I6].
  exists G, (upd F e (Some (p, t))). constructor; cbn [set_enum put_enum blocks en lz hp lists enums]; auto.
  - now rewrite I2, map_upd.
  - now rewrite I3, map_upd.
  - eapply Holds_perm; [|exact I6]. rewrite (somes_put _ _ _ _ Fr2). cbn [app]. rewrite !app_assoc. apply Permutation_middle.
Qed.
(* lazy list variables *)
Lemma value_upd G c n p t n' p' v : nth_error G c = Some (Some ((n, p), t)) -> value (upd G c (Some ((n', p'), t))) v = value G v.
Proof.
  intros E. destruct v as [[d|]|]; cbn [value]; auto. f_equal. unfold tree_at. destruct (Nat.eq_dec c d) as [->|N].
  - rewrite upd_same by (eapply nth_error_lt; eauto). now rewrite E.
  - now rewrite upd_other by lia.
Qed.
Lemma upd_nth X (l : list X) c x d : nth_error (upd l c x) d = if (d =? c)%nat then match nth_error l c with Some _ => Some x | None => None end else nth_error l d.
Proof.
  destruct (Nat.eqb_spec d c) as [->|N]; [|rewrite upd_other by lia; reflexivity].
  destruct (nth_error l c) eqn:E; [apply upd_same; eapply nth_error_lt; eauto|]. apply nth_error_None. rewrite upd_length. now apply nth_error_None.
Qed.
Lemma act_share os s w i j v : Inv os s w -> free (lz s) i = true -> look (lz s) j = Some v ->
  exists s1 t, acquire s v = Ok s1 /\ look (lists w) j = Some t /\ lz s1 = lz s /\ en s1 = en s /\ Inv os (set_lazy s1 i (Some v)) (put_list w i (Some t)).
Proof.
  intros (G & F & I) Fr L. apply free_nth in Fr. rewrite (look_lists _ _ _ _ _ j I), L. destruct v as [c|].
  - destruct (block_at _ _ _ _ _ _ _ I L) as (n & p & t & E & Eb & En & Pn & Et & _). cbn [acquire value]. rewrite Eb, Et.
    eexists. exists t. split; [reflexivity|]. split; auto. cbn [lz en]. split; auto. split; auto.
    destruct I as [I1 I2 I3 I4 I5 I6]. exists (upd G c (Some ((n + 1, p), t))), F.
    constructor; cbn [set_lazy put_list blocks en lz hp lists enums]; auto.
    + now rewrite I1, map_upd.
    + rewrite I4. rewrite (map_ext _ _ (fun x => value_upd G c n p t (n + 1) p x E)), map_upd. cbn [value]. now rewrite Et.
    + intros d. rewrite upd_nth, (refs_upd d _ _ _ _ Fr), E. cbn [hit]. specialize (I5 d). destruct (Nat.eqb_spec d c) as [->|N].
      * rewrite Nat.eqb_refl. lia.
      * destruct (Nat.eqb_spec c d); [congruence|]. destruct (nth_error G d) as [[[[m q] u]|]|]; lia.
    + eapply Holds_perm; [|exact I6]. apply Permutation_app_head. apply Permutation_app_tail.
      rewrite (somes_set _ _ _ _ _ E), (somes_take _ _ _ _ E). reflexivity.
  - cbn [acquire value]. exists s, Nil. split; auto. split; auto. split; auto. split; auto. destruct I as [I1 I2 I3 I4 I5 I6]. exists G, F.
    constructor; cbn [set_lazy put_list blocks en lz hp lists enums]; auto.
    + now rewrite I4, map_upd.
    + intros d. rewrite (refs_upd d _ _ _ _ Fr). cbn [hit]. specialize (I5 d). destruct (nth_error G d) as [[[[m q] u]|]|]; lia.
Qed.
Lemma act_drop os s w i v x : Inv os s w -> look (lz s) i = Some v -> x = None \/ x = Some None ->
  exists s1, release s v = Ok s1 /\ lz s1 = lz s /\ en s1 = en s /\ Inv os (set_lazy s1 i x) (put_list w i (match x with None => None | _ => Some Nil end)).
Proof.
  intros (G & F & I) L X. pose proof L as Ln. apply look_nth in Ln.
  assert (Xv : forall G', value G' x = match x with None => None | _ => Some Nil end) by (intros; destruct X as [-> | ->]; reflexivity).
  assert (Xh : forall d, hit d x = 0) by (intros; destruct X as [-> | ->]; reflexivity).
  destruct v as [c|].
  - destruct (block_at _ _ _ _ _ _ _ I L) as (n & p & t & E & Eb & En & Pn & Et & _). cbn [release]. rewrite Eb.
    destruct I as [I1 I2 I3 I4 I5 I6]. destruct (Z.eqb_spec (n - 1) 0) as [Z1|Z1].
    + assert (Q : Permutation (os ++ map obj_of (somes G) ++ somes F) ((p, t) :: os ++ map obj_of (somes (upd G c None)) ++ somes F)).
      { pose proof (Permutation_map obj_of (somes_take _ _ _ _ E)) as P. cbn [map] in P. rewrite P. cbn [app obj_of fst snd]. symmetry. apply Permutation_middle. }
      destruct (Holds_delete (hp s) p t _ (Holds_perm _ _ _ Q I6)) as (h & -> & H). cbn [bind]. eexists. split; [reflexivity|]. cbn [lz en]. split; auto. split; auto.
      assert (Z0 : forall d, refs d (upd (lz s) i x) = refs d (lz s) - hit d (Some (Some c))) by (intros; rewrite (refs_upd d _ _ _ _ Ln), Xh; lia).
      exists (upd G c None), F. constructor; cbn [set_lazy put_list blocks en lz hp lists enums]; auto.
      * now rewrite I1, map_upd.
      * rewrite I4, <- (Xv (upd G c None)), map_upd. apply nth_error_ext. intros j. rewrite !upd_nth, !nth_error_map.
        destruct (Nat.eqb_spec j i) as [->|Nj]; [now rewrite Ln|]. destruct (nth_error (lz s) j) as [[[d|]|]|] eqn:Ej; cbn [option_map value]; auto.
        unfold tree_at. rewrite upd_nth. destruct (Nat.eqb_spec d c) as [->|Nd]; auto. exfalso.
        assert (Ej2 : nth_error (upd (lz s) i x) j = Some (Some (Some c))) by (rewrite upd_other by lia; auto). apply refs_in in Ej2. rewrite Z0, hit_self in Ej2. lia.
      * intros d. rewrite Z0, upd_nth, E. specialize (I5 d). destruct (Nat.eqb_spec d c) as [->|Nd]; [rewrite hit_self; lia|].
        rewrite hit_other by congruence. destruct (nth_error G d) as [[[[m q] u]|]|]; lia.
    + eexists. split; [reflexivity|]. cbn [lz en]. split; auto. split; auto.
      assert (Z0 : forall d, refs d (upd (lz s) i x) = refs d (lz s) - hit d (Some (Some c))) by (intros; rewrite (refs_upd d _ _ _ _ Ln), Xh; lia).
      exists (upd G c (Some ((n - 1, p), t))), F. constructor; cbn [set_lazy put_list blocks en lz hp lists enums]; auto.
      * now rewrite I1, map_upd.
      * rewrite I4. rewrite (map_ext _ _ (fun y => value_upd G c n p t (n - 1) p y E)), map_upd. now rewrite Xv.
      * intros d. rewrite Z0, upd_nth, E. specialize (I5 d). destruct (Nat.eqb_spec d c) as [->|Nd]; [rewrite hit_self; lia|].
        rewrite hit_other by congruence. destruct (nth_error G d) as [[[[m q] u]|]|]; lia.
      * eapply Holds_perm; [|exact I6]. apply Permutation_app_head. apply Permutation_app_tail.
        rewrite (somes_set _ _ _ _ _ E), (somes_take _ _ _ _ E). reflexivity.
  - cbn [release]. exists s. split; auto. split; auto. split; auto. destruct I as [I1 I2 I3 I4 I5 I6]. exists G, F.
    constructor; cbn [set_lazy put_list blocks en lz hp lists enums]; auto.
    + now rewrite I4, map_upd, Xv.
    + intros d. rewrite (refs_upd d _ _ _ _ Ln), Xh. cbn [hit]. specialize (I5 d). destruct (nth_error G d) as [[[[m q] u]|]|]; lia.
Qed.
Lemma set_lazy2 s i x y : set_lazy (set_lazy s i x) i y = set_lazy s i y.
Proof. unfold set_lazy. cbn. now rewrite upd_upd. Qed.
Lemma acquire_set s i x v : acquire (set_lazy s i x) v = bind (acquire s v) (fun s => Ok (set_lazy s i x)).
Proof. destruct v as [c|]; [|reflexivity]. cbn [acquire set_lazy blocks hp lz en]. destruct (nth_error (blocks s) c) as [[[n p]|]|]; reflexivity. Qed.
Lemma put_list2 w i x y : put_list (put_list w i x) i y = put_list w i y.
Proof. unfold put_list. cbn. now rewrite upd_upd. Qed.

(* Evaluated() changes nothing *)
Fixpoint quiet (c : code) : Prop :=
  match c with
  | Return _ => True | Raise => True | Store _ _ => False | Again => False
  | Call _ m c => m = Evaluated /\ forall z, quiet (c z)
  end.
Lemma quiet_evaluated k : quiet (evaluated_code k).
Proof. destruct k; cbn; auto; split; auto; intros z; destruct (z =? yes); cbn; auto. Qed.
Lemma texec_quiet : forall n t t' r, texec n t Evaluated = Ok (t', r) -> t' = t.
Proof.
  induction n as [|n IH]; intros t t' r E; cbn [texec] in E; [discriminate|]. destruct t as [|k a b]; [discriminate|]. cbn [method_code] in E.
  pose proof (quiet_evaluated k) as Q. remember (evaluated_code k) as c eqn:Ec. clear Ec.
  induction c as [z| |k' c IHc|w m c IHc|]; cbn [quiet tinterp] in *; try (destruct Q; fail); try congruence.
  destruct Q as (-> & Q). destruct w.
  - destruct (is_nil a); [discriminate|]. destruct (texec n a Evaluated) as [[a' r']| | |] eqn:Ea; cbn [bind] in E; try discriminate.
    apply IH in Ea. subst a'. destruct r' as [z|]; [apply (IHc z); auto|congruence].
  - destruct (is_nil b); [discriminate|]. destruct (texec n b Evaluated) as [[b' r']| | |] eqn:Eb; cbn [bind] in E; try discriminate.
    apply IH in Eb. subst b'. destruct r' as [z|]; [apply (IHc z); auto|congruence].
Qed.
Lemma act_evaluated n os s w i c m p : Inv os s w -> look (lz s) i = Some (Some c) -> nth_error (blocks s) c = Some (Some (m, p)) ->
  exists t, look (lists w) i = Some t /\
  match texec n t Evaluated with
  | Ok (_, r) => exists h, exec n (hp s) p Evaluated = Ok (h, r) /\ Inv os (with_heap s h) w
  | Err => exec n (hp s) p Evaluated = Err
  | UB => exec n (hp s) p Evaluated = UB
  | NoFuel => exec n (hp s) p Evaluated = NoFuel
  end.
Proof.
  intros (G & F & I) L Eb. destruct (block_at _ _ _ _ _ _ _ I L) as (n0 & p0 & t & E & Eb0 & _ & _ & Et & _). assert (n0 = m /\ p0 = p) as (-> & ->) by (split; congruence).
  exists t. split; [rewrite (look_lists _ _ _ _ _ i I), L; cbn [value]; now rewrite Et|].
  assert (Q : Permutation (os ++ map obj_of (somes G) ++ somes F) ((p, t) :: os ++ map obj_of (somes (upd G c None)) ++ somes F)).
  { pose proof (Permutation_map obj_of (somes_take _ _ _ _ E)) as P. cbn [map] in P. rewrite P. cbn [app obj_of fst snd]. symmetry. apply Permutation_middle. }
  pose proof (Holds_exec n (hp s) p t _ Evaluated (Holds_perm _ _ _ Q (i_holds _ _ _ _ _ I))) as H.
  destruct (texec n t Evaluated) as [[t' r]| | |] eqn:Ex; auto. apply texec_quiet in Ex. subst t'. destruct H as (h & Eh & H). exists h. split; auto.
  exists G, F. eapply Inv_heap; [exact I|]. eapply Holds_perm; [symmetry; exact Q|exact H].
Qed.

(* ---- one operation -------------------------------------------------------------------------- *)
Definition leaking (o : op) (x : out) : Prop := match o with LSetOp _ _ _ _ => x = ORaised | _ => False end.
Definition matches (os : list (nat * tree)) (o : op) (x : res (state * out)) (y : res (world * out)) : Prop :=
  match y with
  | Ok (w', r) => exists s' os', x = Ok (s', r) /\ Inv os' s' w' /\ (os' = os \/ leaking o r)
  | Err => x = Err
  | UB => x = UB
  | NoFuel => x = NoFuel
  end.
Lemma m_ok os o s' r w' : Inv os s' w' -> matches os o (Ok (s', r)) (Ok (w', r)).
Proof. intros I. exists s', os. auto. Qed.
Lemma m_lists os s w i : Inv os s w -> free (lists w) i = free (lz s) i.
Proof. intros (G & F & I). eapply free_lists; eauto. Qed.
Lemma m_enums os s w i : Inv os s w -> free (enums w) i = free (en s) i.
Proof. intros (G & F & I). eapply free_enums; eauto. Qed.
Lemma m_look os s w i : Inv os s w -> look (lz s) i = None -> look (lists w) i = None.
Proof. intros (G & F & I) L. rewrite (look_lists _ _ _ _ _ i I), L. reflexivity. Qed.
Lemma m_looke os s w i : Inv os s w -> look (en s) i = None -> look (enums w) i = None.
Proof. intros (G & F & I) L. destruct (look_en _ _ _ _ _ i I) as (H1 & H2). rewrite H1 in L. rewrite H2. now destruct (look F i). Qed.
Lemma m_nil os s w i v : Inv os s w -> look (lz s) i = Some v -> exists t, look (lists w) i = Some t /\ is_nil t = match v with None => true | _ => false end.
Proof.
  intros (G & F & I) L. rewrite (look_lists _ _ _ _ _ i I), L. destruct v as [c|]; cbn [value]; [|eauto].
  destruct (block_at _ _ _ _ _ _ _ I L) as (n & p & t & _ & _ & _ & _ & Et & _ & Hn). exists t. rewrite Et. auto.
Qed.
Lemma put_bad os o s w : Inv os s w -> matches os o (bad s) (wbad w).
Proof. intros I. now apply m_ok. Qed.
Lemma lz_with s h : lz (with_heap s h) = lz s. Proof. reflexivity. Qed.
Lemma step_ok n os s w o : Inv os s w -> matches os o (step n s o) (wstep n w o).
Proof.
  intros I. destruct o as [i|i x|i j|i j|i j|i j|i|i u j|i b j k|i keep j k|i j|i j force|i e|e i|e f|e m|e]; cbn [step wstep];
    rewrite ?(m_lists _ _ _ i I), ?(m_enums _ _ _ e I).
  - (* LEmpty *)
    destruct (free (lz s) i) eqn:Fr; [|now apply put_bad]. apply m_ok. destruct I as (G & F & [I1 I2 I3 I4 I5 I6]). exists G, F. apply free_nth in Fr.
    constructor; cbn [set_lazy put_list blocks en lz hp lists enums]; auto.
    + now rewrite I4, map_upd.
    + intros d. rewrite (refs_upd d _ _ _ _ Fr). cbn [hit]. specialize (I5 d). destruct (nth_error G d) as [[[[m q] u]|]|]; lia.
  - (* LSource *)
    destruct (free (lz s) i) eqn:Fr; [|now apply put_bad]. cbn [alloc]. apply m_ok. apply act_make; auto.
    apply (act_alloc [] os s w (source_kind x) None None Nil Nil I). left; auto 6.
  - (* LCopy *)
    destruct (free (lz s) i) eqn:Fr; [|now apply put_bad]. destruct (look (lz s) j) as [v|] eqn:L; [|rewrite (m_look _ _ _ _ I L); now apply put_bad].
    destruct (act_share _ _ _ i j v I Fr L) as (s1 & t & -> & -> & _ & _ & I1). cbn [bind]. now apply m_ok.
  - (* LMove *)
    destruct (free (lz s) i) eqn:Fr; [|now apply put_bad]. destruct (look (lz s) j) as [v|] eqn:L; [|rewrite (m_look _ _ _ _ I L); now apply put_bad].
    destruct (act_share _ _ _ i j v I Fr L) as (s1 & t & -> & -> & El & _ & I1). cbn [bind].
    assert (N : i <> j) by (intros ->; unfold free, look in *; destruct (nth_error (lz s) j) as [[?|]|]; discriminate).
    assert (L2 : look (lz (set_lazy s1 i (Some v))) j = Some v).
    { apply look_nth. cbn [set_lazy lz]. rewrite El, upd_other by auto. now apply look_nth. }
    destruct (act_drop _ _ _ j v (Some None) I1 L2) as (s2 & -> & _ & _ & I2); auto. cbn [bind]. now apply m_ok.
  - (* LAssign *)
    destruct (look (lz s) i) as [v0|] eqn:L0; [|rewrite (m_look _ _ _ _ I L0); now apply put_bad].
    destruct (m_nil _ _ _ _ _ I L0) as (t0 & Lt0 & _). rewrite Lt0.
    destruct (look (lz s) j) as [v|] eqn:L; [|rewrite (m_look _ _ _ _ I L); now apply put_bad].
    destruct (m_nil _ _ _ _ _ I L) as (t & Lt & _). rewrite Lt. destruct (Nat.eqb_spec i j) as [->|N].
    + apply m_ok. assert (t = t0) by congruence. subst t0. replace (put_list w j (Some t)) with w; auto.
      destruct w as [wl we]. unfold put_list. cbn [lists enums] in *. f_equal. symmetry. apply upd_id. now apply look_nth.
    + destruct (act_drop _ _ _ i v0 None I L0) as (s1 & -> & El & _ & I1); auto. cbn [bind].
      assert (Fi : free (lz (set_lazy s1 i None)) i = true).
      { apply nth_free. cbn [set_lazy lz]. rewrite El. apply upd_same. apply look_nth in L0. eapply nth_error_lt; eauto. }
      assert (L2 : look (lz (set_lazy s1 i None)) j = Some v).
      { apply look_nth. cbn [set_lazy lz]. rewrite El, upd_other by auto. now apply look_nth. }
      destruct (act_share _ _ _ i j v I1 Fi L2) as (s2 & t2 & E2 & Lt2 & _ & _ & I2). rewrite acquire_set in E2.
      destruct (acquire s1 v) as [s3| | |]; cbn [bind] in E2; try discriminate. injection E2 as <-. cbn [bind].
      rewrite set_lazy2, put_list2 in I2. apply m_ok. replace t with t2; auto.
      apply look_nth in Lt2. cbn [put_list lists] in Lt2. rewrite upd_other in Lt2 by auto. apply look_nth in Lt2. congruence.
  - (* LMoveAssign *)
    destruct (look (lz s) i) as [v0|] eqn:L0; [|rewrite (m_look _ _ _ _ I L0); now apply put_bad].
    destruct (m_nil _ _ _ _ _ I L0) as (t0 & Lt0 & _). rewrite Lt0.
    destruct (look (lz s) j) as [v|] eqn:L; [|rewrite (m_look _ _ _ _ I L); now apply put_bad].
    destruct (m_nil _ _ _ _ _ I L) as (t & Lt & _). rewrite Lt. destruct (Nat.eqb_spec i j) as [->|N].
    + cbn [bind]. destruct (act_drop _ _ _ j v (Some None) I L) as (s1 & -> & _ & _ & I1); auto. cbn [bind]. unfold wput. rewrite put_list2. now apply m_ok.
    + destruct (act_drop _ _ _ i v0 None I L0) as (s1 & -> & El & _ & I1); auto. cbn [bind].
      assert (Fi : free (lz (set_lazy s1 i None)) i = true).
      { apply nth_free. cbn [set_lazy lz]. rewrite El. apply upd_same. apply look_nth in L0. eapply nth_error_lt; eauto. }
      assert (L2 : look (lz (set_lazy s1 i None)) j = Some v).
      { apply look_nth. cbn [set_lazy lz]. rewrite El, upd_other by auto. now apply look_nth. }
      destruct (act_share _ _ _ i j v I1 Fi L2) as (s2 & t2 & E2 & Lt2 & El2 & _ & I2). rewrite acquire_set in E2.
      destruct (acquire s1 v) as [s3| | |]; cbn [bind] in E2; try discriminate. injection E2 as <-. cbn [bind].
      rewrite set_lazy2, put_list2 in I2. assert (t2 = t).
      { apply look_nth in Lt2. cbn [put_list lists] in Lt2. rewrite upd_other in Lt2 by auto. apply look_nth in Lt2. congruence. } subst t2.
      assert (L3 : look (lz (set_lazy s3 i (Some v))) j = Some v).
      { apply look_nth. apply look_nth in L2. cbn [set_lazy lz] in *. rewrite <- El2 in L2. rewrite upd_other in L2 by auto. rewrite upd_other in * by auto. auto. }
      destruct (act_drop _ _ _ j v (Some None) I2 L3) as (s4 & -> & _ & _ & I4); auto. cbn [bind]. now apply m_ok.
  - (* LDrop *)
    destruct (look (lz s) i) as [v|] eqn:L; [|rewrite (m_look _ _ _ _ I L); now apply put_bad].
    destruct (m_nil _ _ _ _ _ I L) as (t & -> & _). destruct (act_drop _ _ _ i v None I L) as (s1 & -> & _ & _ & I1); auto. cbn [bind]. now apply m_ok.
  - (* LUnary *)
    destruct (free (lz s) i) eqn:Fr; [|now apply put_bad]. destruct (look (lz s) j) as [v|] eqn:L; [|rewrite (m_look _ _ _ _ I L); now apply put_bad].
    destruct (act_xs _ _ _ _ _ I L) as (h & p & t & -> & -> & I1). cbn [bind alloc]. apply m_ok. apply act_make; auto.
    apply (act_alloc [(p, fresh t)] os _ w (unary_kind u) (Some p) None (fresh t) Nil I1). right. left. eauto.
  - (* LBinary *)
    destruct (free (lz s) i) eqn:Fr; [|now apply put_bad]. destruct (look (lz s) j) as [v|] eqn:L; [|rewrite (m_look _ _ _ _ I L); now apply put_bad].
    destruct (m_nil _ _ _ _ _ I L) as (t & Lt & _). rewrite Lt.
    destruct (look (lz s) k) as [v2|] eqn:L2; [|rewrite (m_look _ _ _ _ I L2); now apply put_bad].
    destruct (m_nil _ _ _ _ _ I L2) as (t2 & Lt2 & _). rewrite Lt2.
    destruct (act_xs _ _ _ _ _ I L) as (h & p & t' & -> & E' & I1). assert (t' = t) by congruence. subst t'. cbn [bind].
    destruct (act_xs _ _ _ k v2 I1 L2) as (h2 & p2 & t' & -> & E2' & I2). assert (t' = t2) by congruence. subst t'. cbn [bind alloc]. rewrite with_heap2 in *.
    apply m_ok. apply act_make; auto. refine (act_alloc [(p, fresh t); (p2, fresh t2)] os _ w (binary_kind b) (Some p) (Some p2) (fresh t) (fresh t2) _ _).
    + destruct I2 as (G & F & I2). exists G, F. destruct I2 as [J1 J2 J3 J4 J5 J6]. constructor; auto. eapply Holds_perm; [|exact J6]. cbn [app]. apply perm_swap.
    + right. right. eauto 6.
  - (* LSetOp *)
    destruct (free (lz s) i) eqn:Fr; [|now apply put_bad]. destruct (look (lz s) j) as [v|] eqn:L; [|rewrite (m_look _ _ _ _ I L); now apply put_bad].
    destruct (m_nil _ _ _ _ _ I L) as (t & Lt & _). rewrite Lt.
    destruct (look (lz s) k) as [v2|] eqn:L2; [|rewrite (m_look _ _ _ _ I L2); now apply put_bad].
    destruct (act_xs _ _ _ _ _ I L) as (h & p & t' & -> & E' & I1). assert (t' = t) by congruence. subst t'. cbn [bind].
    destruct (copy_from_ok n _ _ _ k v2 I1 L2) as (t2 & -> & C). destruct (read n (fresh t2) []) as [r| | |]; cbn [bind]; [|now rewrite C|now rewrite C|now rewrite C].
    destruct C as (h2 & -> & I2). cbn [bind alloc]. rewrite with_heap2 in *. destruct r as [vs|].
    + apply m_ok. apply act_make; auto. apply (act_alloc [(p, fresh t)] os _ w (KIntExc vs keep (-1)) (Some p) None (fresh t) Nil I2). right. left. eauto.
    + eexists. exists ((p, fresh t) :: os). split; [reflexivity|]. split; [exact I2|]. right. reflexivity.
  - (* LReverse *)
    destruct (free (lz s) i) eqn:Fr; [|now apply put_bad]. destruct (look (lz s) j) as [v|] eqn:L; [|rewrite (m_look _ _ _ _ I L); now apply put_bad].
    destruct (copy_from_ok n _ _ _ j v I L) as (t & -> & C). destruct (read n (fresh t) []) as [r| | |]; cbn [bind]; [|now rewrite C|now rewrite C|now rewrite C].
    destruct C as (h & -> & I1). cbn [bind alloc]. destruct r as [vs|]; [|now apply m_ok].
    apply m_ok. apply act_make; auto. apply (act_alloc [] os _ w (KReverse vs (-1)) None None Nil Nil I1). left; auto 6.
  - (* LEvaluate *)
    destruct (free (lz s) i) eqn:Fr; [|now apply put_bad]. destruct (look (lz s) j) as [v|] eqn:L; [|rewrite (m_look _ _ _ _ I L); now apply put_bad].
    destruct (m_nil _ _ _ _ _ I L) as (t & Lt & Hn). rewrite Lt. destruct v as [c|].
    + destruct t as [|tk ta tb]; [discriminate|]. set (t := Tree tk ta tb) in *.
      assert (B : exists m p, nth_error (blocks s) c = Some (Some (m, p))) by (destruct I as (G & F & I); destruct (block_at _ _ _ _ _ _ _ I L) as (m & p & ? & _ & ? & _); eauto).
      destruct B as (m & p & B). rewrite B.
      assert (K : forall h, Inv os (with_heap s h) w ->
        matches os (LEvaluate i j force)
          (do (s, r) <- copy_from n (with_heap s h) (Some c);
           match r with Some vs => let (h, q) := alloc (hp s) (Cell (KCont vs (-1)) None None) in Ok (make_lazy (with_heap s h) i q, ODone) | None => Ok (s, ORaised) end)
          (do r <- read n t []; match r with Some vs => wput w i (Tree (KCont vs (-1)) Nil Nil) | None => Ok (w, ORaised) end)).
      { intros h Ih. destruct (copy_from_ok n _ _ _ j (Some c) Ih L) as (t' & Lt' & C). assert (t' = t) by congruence. subst t'.
        change (fresh t) with t in C. destruct (read n t []) as [r| | |]; cbn [bind]; [|now rewrite C|now rewrite C|now rewrite C].
        destruct C as (h2 & -> & I1). cbn [bind alloc]. rewrite with_heap2 in *. destruct r as [vs|]; [|now apply m_ok].
        apply m_ok. apply act_make; auto. apply (act_alloc [] os _ w (KCont vs (-1)) None None Nil Nil I1). left; auto 6. }
      destruct force.
      * cbn [bind]. apply K. replace (with_heap s (hp s)) with s by (now destruct s). auto.
      * destruct (act_evaluated n os s w j c m p I L B) as (t' & Lt' & C). assert (t' = t) by congruence. subst t'.
        destruct (texec n t Evaluated) as [[t' r]| | |]; cbn [bind]; [|now rewrite C|now rewrite C|now rewrite C].
        destruct C as (h & -> & I1). cbn [bind]. destruct r as [b|]; [|now apply m_ok]. destruct (b =? yes); [|now apply K].
        destruct (act_share _ _ _ i j (Some c) I1 Fr L) as (s1 & t'' & E1 & Lt'' & _ & _ & I2). rewrite E1. cbn [bind]. assert (t'' = t) by congruence. subst t''. now apply m_ok.
    + destruct t; [|discriminate]. apply m_ok. destruct I as (G & F & [I1 I2 I3 I4 I5 I6]). exists G, F. apply free_nth in Fr.
      constructor; cbn [set_lazy put_list blocks en lz hp lists enums]; auto.
      * now rewrite I4, map_upd.
      * intros d. rewrite (refs_upd d _ _ _ _ Fr). cbn [hit]. specialize (I5 d). destruct (nth_error G d) as [[[[m q] u]|]|]; lia.
  - (* LAdopt *)
    destruct (free (lz s) i) eqn:Fr; [|now apply put_bad]. destruct (look (en s) e) as [p|] eqn:L; [|rewrite (m_looke _ _ _ _ I L); now apply put_bad].
    destruct (act_take _ _ _ _ _ I L) as (t & -> & I1). apply m_ok. apply act_make; auto.
  - (* ECreate *)
    destruct (free (en s) e) eqn:Fr; [|now apply put_bad]. destruct (look (lz s) i) as [v|] eqn:L; [|rewrite (m_look _ _ _ _ I L); now apply put_bad].
    destruct (act_xs _ _ _ _ _ I L) as (h & p & t & -> & -> & I1). cbn [bind]. apply m_ok. apply act_put; auto.
  - (* EClone *)
    destruct (free (en s) e) eqn:Fr; [|now apply put_bad]. destruct (look (en s) f) as [p|] eqn:L; [|rewrite (m_looke _ _ _ _ I L); now apply put_bad].
    destruct I as (G & F & I). destruct (look_en _ _ _ _ _ f I) as (Le & Lw). rewrite L in Le. destruct (look F f) as [[q t]|] eqn:EF; [|discriminate].
    cbn [option_map fst snd] in *. injection Le as <-. rewrite Lw.
    destruct (Holds_clone (hp s) p t _ (i_holds _ _ _ _ _ I)) as (h & q & -> & H).
    { apply in_app_iff. right. apply in_app_iff. right. apply look_nth in EF. eapply Permutation_in; [symmetry; apply (somes_take _ _ _ _ EF)|]. now left. }
    cbn [bind]. apply m_ok. apply act_put; auto. exists G, F. eapply Inv_heap; eauto.
  - (* ECall *)
    destruct (look (en s) e) as [p|] eqn:L; [|rewrite (m_looke _ _ _ _ I L); now apply put_bad].
    destruct (act_take _ _ _ _ _ I L) as (t & -> & I1). pose proof (act_exec n _ _ _ _ _ m I1) as C. cbn [set_enum hp] in C.
    destruct (texec n t m) as [[t' r]| | |]; cbn [bind]; [|now rewrite C|now rewrite C|now rewrite C].
    destruct C as (h & -> & I2). cbn [bind]. apply m_ok.
    assert (Fe : free (en (with_heap (set_enum s e None) h)) e = true).
    { apply nth_free. cbn [with_heap set_enum en]. apply upd_same. apply look_nth in L. eapply nth_error_lt; eauto. }
    pose proof (act_put _ _ _ _ _ _ I2 Fe) as I3. unfold put_enum, set_enum, with_heap in *. cbn [en hp blocks lz lists enums] in *. rewrite !upd_upd in I3.
    apply look_nth in L. now rewrite (upd_id _ _ _ _ L) in I3.
  - (* EDelete *)
    destruct (look (en s) e) as [p|] eqn:L; [|rewrite (m_looke _ _ _ _ I L); now apply put_bad].
    destruct (act_take _ _ _ _ _ I L) as (t & -> & I1). destruct (act_delete _ _ _ _ _ I1) as (h & E & I2). cbn [set_enum hp] in E. rewrite E. cbn [bind]. now apply m_ok.
Qed.
Lemma run_ok n : forall ops os s w, Inv os s w ->
  match wrun n w ops with
  | Ok (w', r) => exists s' os', run n s ops = Ok (s', r) /\ Inv os' s' w' /\ (set_ops_fine ops r -> os' = os)
  | Err => run n s ops = Err
  | UB => run n s ops = UB
  | NoFuel => run n s ops = NoFuel
  end.
Proof.
  induction ops as [|o ops IH]; intros os s w I; cbn [wrun run].
  - exists s, os. auto.
  - pose proof (step_ok n os s w o I) as M. unfold matches in M. destruct (wstep n w o) as [[w1 x]| | |]; cbn [bind]; [|now rewrite M|now rewrite M|now rewrite M].
    destruct M as (s1 & os1 & -> & I1 & D). cbn [bind]. specialize (IH os1 s1 w1 I1). destruct (wrun n w1 ops) as [[w2 r]| | |]; cbn [bind]; [|now rewrite IH|now rewrite IH|now rewrite IH].
    destruct IH as (s2 & os2 & -> & I2 & E). cbn [bind]. exists s2, os2. split; auto. split; auto. intros Fine.
    assert (set_ops_fine ops r /\ ~ leaking o x) as (Fr & Nl) by (destruct o; cbn [set_ops_fine leaking] in *; tauto).
    rewrite (E Fr). destruct D; tauto.
Qed.
Lemma refines n nl ne ops : outs (run n (init nl ne) ops) = outs (wrun n (start nl ne) ops).
Proof.
  pose proof (run_ok n ops [] (init nl ne) (start nl ne) (inv_start nl ne)) as H. unfold outs. destruct (wrun n (start nl ne) ops) as [[w r]| | |]; try now rewrite H.
  destruct H as (s & os & -> & _). reflexivity.
Qed.
Lemma all_none_somes X (l : list (option X)) : all_deleted l -> somes l = [].
Proof.
  induction l as [|v l IH]; intros H; [reflexivity|]. destruct (H 0%nat) as [E|E]; cbn [nth_error] in E; [discriminate|]. injection E as ->. cbn [somes].
  apply IH. intros i. exact (H (S i)).
Qed.
Lemma deleted_map X Y (f : X -> Y) (l : list (option X)) : all_deleted (map (option_map f) l) -> all_deleted l.
Proof. intros H i. specialize (H i). rewrite nth_error_map in H. destruct (nth_error l i) as [[x|]|]; cbn [option_map] in H; auto. destruct H; discriminate. Qed.
Lemma no_refs c (l : list lvar) : all_deleted l -> refs c l = 0.
Proof.
  induction l as [|v l IH]; intros H; [reflexivity|]. destruct (H 0%nat) as [E|E]; cbn [nth_error] in E; [discriminate|]. injection E as ->. cbn [refs hit].
  rewrite IH; auto. intros i. exact (H (S i)).
Qed.
Lemma no_leak n nl ne ops s xs : run n (init nl ne) ops = Ok (s, xs) -> set_ops_fine ops xs -> all_deleted (lz s) -> all_deleted (en s) ->
  all_deleted (hp s) /\ all_deleted (blocks s).
Proof.
  intros R Fine Dl De. pose proof (run_ok n ops [] (init nl ne) (start nl ne) (inv_start nl ne)) as H. destruct (wrun n (start nl ne) ops) as [[w r]| | |]; try congruence.
  destruct H as (s' & os & E & (G & F & [I1 I2 I3 I4 I5 I6]) & Fo). assert (s' = s /\ r = xs) as (-> & ->) by (split; congruence). rewrite (Fo Fine) in I6.
  assert (DG : all_deleted G).
  { intros c. specialize (I5 c). rewrite (no_refs c _ Dl) in I5. destruct (nth_error G c) as [[[[m p] t]|]|]; auto. lia. }
  rewrite I2 in De. apply deleted_map in De. rewrite (all_none_somes _ _ DG), (all_none_somes _ _ De) in I6. cbn [map app] in I6. split.
  - intros i. pose proof (Holds_none _ I6 i) as N. unfold get in N. destruct (nth_error (hp s) i) as [[c|]|]; auto. discriminate.
  - intros c. rewrite I1, nth_error_map. destruct (DG c) as [-> | ->]; cbn [option_map]; auto.
Qed.

(* ---- the trees that occur never run into undefined behaviour ---------------------------------- *)
Definition arity (k : kind) : nat :=
  match k with
  | KEmpty | KCont _ _ | KOnce _ _ | KRange _ _ _ | KReverse _ _ => 0
  | KConcat _ _ | KPair _ _ => 2
  | _ => 1
  end.
Fixpoint wf (t : tree) : Prop :=
  match t with
  | Nil => True
  | Tree k a b => is_nil a = (arity k =? 0)%nat /\ is_nil b = (arity k <? 2)%nat /\ wf a /\ wf b
  end.
Fixpoint fits_in (n : nat) (c : code) : Prop :=
  match c with
  | Return _ => True | Raise => True | Again => True
  | Store k c => arity k = n /\ fits_in n c
  | Call w _ c => (match w with One => 1 | Two => 2 end <= n)%nat /\ forall z, fits_in n (c z)
  end.
Lemma fits_fetch n o : fits_in n (fetch o).
Proof. destruct o; exact I. Qed.
Lemma fits_skipping m c : fits_in 1 c -> fits_in 1 (skipping m c).
Proof. intros H. induction m as [|m IH]; cbn [skipping]; auto. cbn. split; auto. intros z. destruct (z =? yes); auto. cbn. exact I. Qed.
Ltac fits := repeat match goal with
  | |- _ /\ _ => split | |- forall _, _ => intros ? | |- _ => exact I
  | |- fits_in _ (fetch _) => apply fits_fetch
  | |- fits_in _ (skipping _ _) => apply fits_skipping
  | |- fits_in _ (if ?b then _ else _) => destruct b
  | |- fits_in _ (match ?x with _ => _ end) => destruct x
  | |- _ => progress cbn [fits_in arity ask truth]
  | |- _ => lia | |- _ => reflexivity
  end.
Lemma fits_code m k : fits_in (arity k) (method_code m k).
Proof.
  destruct m, k; cbn [method_code next_code reset_code current_code index_code evaluated_code arity]; unfold ask, truth; fits. destruct t; lia.
Qed.
Lemma texec_wf : forall n t m, wf t -> is_nil t = false ->
  match texec n t m with Ok (t', _) => wf t' /\ is_nil t' = false | NoFuel => True | _ => False end.
Proof.
  induction n as [|n IH]; intros t m W N; cbn [texec]; auto. destruct t as [|k a b]; [discriminate|]. clear N.
  pose proof (fits_code m k) as Fc. remember (arity k) as ar eqn:Ea. remember (method_code m k) as c eqn:Ec. clear Ec.
  revert k a b Ea W. induction c as [z| |k' c IHc|w m' c IHc|]; intros k a b Ea W; cbn [tinterp fits_in] in *.
  - auto.
  - auto.
  - destruct Fc as (Fk & Fc). apply IHc; auto. cbn [wf] in *. now rewrite Fk, Ea.
  - destruct Fc as (Fw & Fc). pose proof W as (Wa & Wb & Wfa & Wfb). rewrite <- Ea in *. destruct w.
    + replace (ar =? 0)%nat with false in Wa by (symmetry; apply Nat.eqb_neq; lia). rewrite Wa. specialize (IH a m' Wfa Wa).
      destruct (texec n a m') as [[a' r]| | |]; cbn [bind]; auto. destruct IH as (Wa' & Na').
      assert (W' : wf (Tree k a' b)) by (cbn [wf]; rewrite <- Ea; repeat split; auto; rewrite Na'; symmetry; apply Nat.eqb_neq; lia).
      destruct r as [z|]; [apply IHc; auto|]. split; auto.
    + replace (ar <? 2)%nat with false in Wb by (symmetry; apply Nat.ltb_ge; lia). rewrite Wb. specialize (IH b m' Wfb Wb).
      destruct (texec n b m') as [[b' r]| | |]; cbn [bind]; auto. destruct IH as (Wb' & Nb').
      assert (W' : wf (Tree k a b')) by (cbn [wf]; rewrite <- Ea; repeat split; auto; rewrite Nb'; symmetry; apply Nat.ltb_ge; lia).
      destruct r as [z|]; [apply IHc; auto|]. split; auto.
  - apply IH; auto.
Qed.
Lemma read_wf : forall n t acc, wf t -> is_nil t = false -> match read n t acc with Ok _ => True | NoFuel => True | _ => False end.
Proof.
  induction n as [|n IH]; intros t acc W N; cbn [read]; auto. pose proof (texec_wf n t Next W N) as H. destruct (texec n t Next) as [[t1 r]| | |]; cbn [bind]; auto.
  destruct H as (W1 & N1). destruct r as [b|]; auto. destruct (b =? yes); auto.
  pose proof (texec_wf n t1 Current W1 N1) as H. destruct (texec n t1 Current) as [[t2 r]| | |]; cbn [bind]; auto. destruct H as (W2 & N2). destruct r; auto. now apply IH.
Qed.
Definition slots_wf (l : list (option tree)) : Prop := forall i t, nth_error l i = Some (Some t) -> wf t.
Record wwf (w : world) : Prop := { w_lists : slots_wf (lists w); w_enums : slots_wf (enums w); w_some : forall e t, nth_error (enums w) e = Some (Some t) -> is_nil t = false }.
Lemma slots_upd l i v : slots_wf l -> (forall t, v = Some t -> wf t) -> slots_wf (upd l i v).
Proof.
  intros H V j t E. rewrite upd_nth in E. destruct (Nat.eqb_spec j i) as [->|N]; [|eauto]. destruct (nth_error l i); [|discriminate]. injection E as ->. auto.
Qed.
Lemma wwf_list w i v : wwf w -> (forall t, v = Some t -> wf t) -> wwf (put_list w i v).
Proof. intros [W1 W2 W3] V. constructor; cbn [put_list lists enums]; auto. now apply slots_upd. Qed.
Lemma wwf_enum w e v : wwf w -> (forall t, v = Some t -> wf t /\ is_nil t = false) -> wwf (put_enum w e v).
Proof.
  intros [W1 W2 W3] V. constructor; cbn [put_enum lists enums]; auto.
  - apply slots_upd; auto. intros t E. now apply V.
  - intros j t E. rewrite upd_nth in E. destruct (Nat.eqb_spec j e) as [->|N]; [|eauto]. destruct (nth_error (enums w) e); [|discriminate]. injection E as ->. now apply V.
Qed.
Lemma wf_fresh t : wf t -> wf (fresh t) /\ is_nil (fresh t) = false.
Proof. destruct t; cbn [fresh is_nil]; auto. intros _. split; auto. cbn. auto. Qed.
Definition good (r : res (world * out)) : Prop := match r with Ok (w, _) => wwf w | NoFuel => True | _ => False end.
Lemma good_put w i t : wwf w -> wf t -> good (wput w i t).
Proof. intros W T. apply wwf_list; auto. intros ? E. injection E as <-. auto. Qed.
Lemma wf_unary u t : wf t -> wf (Tree (unary_kind u) (fresh t) Nil).
Proof. intros W. destruct (wf_fresh t W) as (H1 & H2). cbn [wf]. rewrite H2. destruct u; cbn; auto. Qed.
Lemma wf_binary b t t2 : wf t -> wf t2 -> wf (Tree (binary_kind b) (fresh t) (fresh t2)).
Proof. intros W W2. destruct (wf_fresh t W) as (H1 & H2), (wf_fresh t2 W2) as (H3 & H4). cbn [wf]. rewrite H2, H4. destruct b; cbn; auto. Qed.
Lemma wstep_good n w o : wwf w -> good (wstep n w o).
Proof.
  intros W. assert (Lk : forall i t, look (lists w) i = Some t -> wf t) by (intros i t E; apply look_nth in E; eapply w_lists; eauto).
  assert (Le : forall i t, look (enums w) i = Some t -> wf t /\ is_nil t = false).
  { intros i t E; apply look_nth in E. split; [eapply w_enums; eauto|eapply w_some; eauto]. }
  assert (B : good (wbad w)) by exact W.
  destruct o as [i|i x|i j|i j|i j|i j|i|i u j|i b j k|i keep j k|i j|i j force|i e|e i|e f|e m|e]; cbn [wstep].
  - destruct (free (lists w) i); auto. now apply good_put.
  - destruct (free (lists w) i); auto. apply good_put; auto. destruct x; cbn; auto.
  - destruct (free (lists w) i); auto. destruct (look (lists w) j) eqn:E; auto. apply good_put; eauto.
  - destruct (free (lists w) i); auto. destruct (look (lists w) j) eqn:E; auto. apply good_put; [|exact I]. apply wwf_list; auto. intros ? H. injection H as <-. eauto.
  - destruct (look (lists w) i); auto. destruct (look (lists w) j) eqn:E; auto. apply good_put; eauto.
  - destruct (look (lists w) i); auto. destruct (look (lists w) j) eqn:E; auto. apply good_put; [|exact I]. apply wwf_list; auto. intros ? H. injection H as <-. eauto.
  - destruct (look (lists w) i); auto. apply wwf_list; auto. discriminate.
  - destruct (free (lists w) i); auto. destruct (look (lists w) j) eqn:E; auto. apply good_put; auto. apply wf_unary. eauto.
  - destruct (free (lists w) i); auto. destruct (look (lists w) j) eqn:E; auto. destruct (look (lists w) k) eqn:E2; auto. apply good_put; auto. apply wf_binary; eauto.
  - destruct (free (lists w) i); auto. destruct (look (lists w) j) as [t|] eqn:E; auto. destruct (look (lists w) k) as [t2|] eqn:E2; auto.
    destruct (wf_fresh t2 (Lk _ _ E2)) as (W2 & N2). pose proof (read_wf n (fresh t2) [] W2 N2) as R. destruct (read n (fresh t2) []) as [[vs|]| | |]; cbn [bind]; auto.
    apply good_put; auto. destruct (wf_fresh t (Lk _ _ E)) as (W1 & N1). cbn [wf arity]. rewrite N1. cbn. auto.
  - destruct (free (lists w) i); auto. destruct (look (lists w) j) as [t|] eqn:E; auto.
    destruct (wf_fresh t (Lk _ _ E)) as (W2 & N2). pose proof (read_wf n (fresh t) [] W2 N2) as R. destruct (read n (fresh t) []) as [[vs|]| | |]; cbn [bind]; auto.
    apply good_put; auto. cbn. auto.
  - destruct (free (lists w) i); auto. destruct (look (lists w) j) as [t|] eqn:E; auto. destruct t as [|tk ta tb]; [now apply good_put|]. set (t := Tree tk ta tb) in *.
    assert (K : good (do r <- read n t []; match r with Some vs => wput w i (Tree (KCont vs (-1)) Nil Nil) | None => Ok (w, ORaised) end)).
    { pose proof (read_wf n t [] (Lk _ _ E) eq_refl) as R. destruct (read n t []) as [[vs|]| | |]; cbn [bind]; auto. apply good_put; auto. cbn. auto. }
    destruct force; [exact K|]. pose proof (texec_wf n t Evaluated (Lk _ _ E) eq_refl) as H. destruct (texec n t Evaluated) as [[t' r]| | |]; cbn [bind]; auto.
    destruct r as [b|]; auto. destruct (b =? yes); [|exact K]. apply good_put; auto. exact (Lk _ _ E).
  - destruct (free (lists w) i); auto. destruct (look (enums w) e) eqn:E; auto. apply good_put; [|now apply (Le e)]. apply wwf_enum; auto. discriminate.
  - destruct (free (enums w) e); auto. destruct (look (lists w) i) as [t|] eqn:E; auto. apply wwf_enum; auto. intros ? H. injection H as <-. apply wf_fresh. eauto.
  - destruct (free (enums w) e); auto. destruct (look (enums w) f) as [t|] eqn:E; auto. apply wwf_enum; auto. intros ? H. injection H as <-. eauto.
  - destruct (look (enums w) e) as [t|] eqn:E; auto. destruct (Le _ _ E) as (W1 & N1). pose proof (texec_wf n t m W1 N1) as H.
    destruct (texec n t m) as [[t' r]| | |]; cbn [bind]; auto. apply wwf_enum; auto. intros ? H2. injection H2 as <-. auto.
  - destruct (look (enums w) e) as [t|] eqn:E; auto. apply wwf_enum; auto. discriminate.
Qed.
Lemma wrun_good n : forall ops w, wwf w -> wrun n w ops = NoFuel \/ exists r, wrun n w ops = Ok r.
Proof.
  induction ops as [|o ops IH]; intros w W; cbn [wrun]; [eauto|]. pose proof (wstep_good n w o W) as H.
  destruct (wstep n w o) as [[w1 x]| | |]; cbn [good bind] in *; try tauto. destruct (IH w1 H) as [-> |((w2 & r) & ->)]; cbn [bind]; eauto.
Qed.
Lemma wwf_start nl ne : wwf (start nl ne).
Proof.
  assert (K : forall n i t, nth_error (repeat (@None tree) n) i = Some (Some t) -> False).
  { intros n i t E. apply nth_error_In in E. apply repeat_spec in E. discriminate. }
  constructor; cbn [start lists enums]; intros i t E; destruct (K _ _ _ E).
Qed.
Lemma never_undefined n nl ne ops : run n (init nl ne) ops = NoFuel \/ exists s xs, run n (init nl ne) ops = Ok (s, xs).
Proof.
  pose proof (run_ok n ops [] _ _ (inv_start nl ne)) as H. destruct (wrun_good n ops (start nl ne) (wwf_start nl ne)) as [E|((w & r) & E)]; rewrite E in H; auto.
  destruct H as (s & os & -> & _). eauto.
Qed.

(* ---- demonstration and the leak ----------------------------------------------------------------- *)
(* two lists share a prototype, one enumerator is advanced, another one starts afresh, everything ends *)
Definition demo_ops : list op :=
  [LSource 0 (SList [1; 2; 3]); LUnary 1 (USelect (fun x => Some (x * x))) 0; LCopy 2 1; ECreate 0 1; ECall 0 Next; ECall 0 Next; ECall 0 Current;
   LDrop 1; ECreate 1 2; ECall 1 Next; ECall 1 Current; EClone 2 0; ECall 0 Next; ECall 0 Current; ECall 2 Current;
   LBinary 1 BConcat 2 2; LMove 3 1; LReverse 4 3; LSetOp 5 true 4 0; LDrop 0; LDrop 1; LDrop 2; LDrop 3; LDrop 4; LDrop 5; EDelete 0; EDelete 1; EDelete 2].
Definition demo_outs : list out :=
  [ODone; ODone; ODone; ODone; OAnswer 1; OAnswer 1; OAnswer 4; ODone; ODone; OAnswer 1; OAnswer 1; ODone; OAnswer 1; OAnswer 9; OAnswer 4;
   ODone; ODone; ODone; ODone; ODone; ODone; ODone; ODone; ODone; ODone; ODone; ODone; ODone].
(* the second list of Intersect throws while it is read: the clone of the first is never deleted *)
Definition leak_ops : list op :=
  [LSource 0 (SList [1; 2]); LUnary 1 (USelect (fun _ => None)) 0; LSetOp 2 true 0 1; LDrop 0; LDrop 1].
Lemma leak_run n : (5 <= n)%nat -> exists s, run n (init 3 0) leak_ops = Ok (s, [ODone; ODone; ORaised; ODone; ODone]) /\
  all_deleted (lz s) /\ all_deleted (en s) /\ all_deleted (blocks s) /\ exists p c, nth_error (hp s) p = Some (Some c).
Proof.
  intros Hn. do 5 (destruct n as [|n]; [lia|]). eexists. split; [reflexivity|]. split; [|split; [|split]].
  - intros [|[|[|[|i]]]]; cbn; auto.
  - intros [|i]; cbn; auto.
  - intros [|[|[|i]]]; cbn; auto.
  - exists 3%nat. eexists. reflexivity.
Qed.
Lemma self_move n : exists s, run n (init 1 1) [LSource 0 (SList [7]); LMoveAssign 0 0; ECreate 0 0] = Ok (s, [ODone; ODone; ODone]) /\ lz s = [Some None].
Proof. eexists. split; reflexivity. Qed.
