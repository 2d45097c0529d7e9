From Coq Require Import ZifyBool ZifyNat.
From Verif Require Import Base BaseFacts LstModel LstSpec LstProofs SrtModel EvtModel.
From Verif Require SrtSpec SrtProofs.
From Verif Require Import EvtSpec.
Open Scope Z_scope.

Notation entry := (Z * nat)%type.
Definition ac (a b : entry) : comparison := fst a ?= fst b.
Lemma ac_total : SrtSpec.total_order ac.
Proof.
  split; unfold ac.
  - intros a b. now rewrite Z.compare_antisym.
  - intros a b d. rewrite !Z.compare_le_iff. lia.
Qed.
Notation asc := (SrtSpec.ascending entry ac).
Notation shows := (lst_shows entry).
Lemma nth_upd {A} (l : list A) i x j : nth_error (upd l i x) j = if Nat.eqb i j then (match nth_error l i with Some _ => Some x | None => None end) else nth_error l j.
Proof.
  destruct (Nat.eqb_spec i j).
  - subst. destruct (nth_error l j) eqn:E.
    + apply upd_same. eapply nth_error_lt; eauto.
    + apply nth_error_None. rewrite upd_length. now apply nth_error_None.
  - now apply upd_other.
Qed.

Section proofs.
  Context (V : Type) (moved : V) (n : nat).
  (* event e holds exactly the handlers of s attached to it *)
  Definition holds (s : list srec) (e : nat) (l : list entry) : Prop :=
    asc l /\ NoDup l /\ (forall a h, In (a, h) l <-> exists r, nth_error s h = Some r /\ sat r = Some e /\ saddr r = a).
  Record sim (w : ew) (s : list srec) : Prop := mkSim {
    si_ev : length (evs w) = n;
    si_hs : hs w = map (fun r => mkH (sfn r) (saddr r) (sflag r)) s;
    si_list : forall e x, nth_error (evs w) e = Some x -> exists l, shows x l /\ holds s e l;
    si_addr : forall h1 h2 r1 r2, nth_error s h1 = Some r1 -> nth_error s h2 = Some r2 -> live r1 -> live r2 -> saddr r1 = saddr r2 -> h1 = h2 }.
  Lemma sim0 : sim (events n) [].
  Proof.
    constructor.
    - apply repeat_length.
    - reflexivity.
    - intros e x H. cbn [events evs] in H. apply nth_error_In in H. apply repeat_spec in H. subst x. exists []. split; [apply empty_shows|].
      split; [constructor|]. split; [constructor|]. intros a h. split; [intros []|]. intros (r & H & _). destruct h; discriminate.
    - intros h1 h2 r1 r2 H. destruct h1; discriminate.
  Qed.
  Lemma holds_same s s' e l : holds s e l -> (forall h a, (exists r, nth_error s h = Some r /\ sat r = Some e /\ saddr r = a) <-> (exists r, nth_error s' h = Some r /\ sat r = Some e /\ saddr r = a)) -> holds s' e l.
  Proof. intros (A & B & C) H. split; [exact A|]. split; [exact B|]. intros a h. rewrite C. apply H. Qed.
  Lemma nodup_mid {A} (l1 l2 : list A) a : NoDup (l1 ++ l2) -> ~ In a (l1 ++ l2) -> NoDup (l1 ++ a :: l2).
  Proof. intros H1 H2. apply NoDup_Add with (a := a) (l := l1 ++ l2); [apply Add_app|]. split; auto. Qed.
  (* the live addresses of the spec are distinct, so the order is strict *)
  Lemma strict w s e l : sim w s -> holds s e l -> attached_in_order s e (map snd l).
  Proof.
    intros S (A & N & C). split; [|split].
    - clear A. assert (forall p q, In p l -> In q l -> snd p = snd q -> p = q) as J.
      { intros [a h] [b h'] P Q E. cbn in E. subst h'. apply C in P. apply C in Q. destruct P as (r & R1 & _ & <-), Q as (r' & R2 & _ & <-). congruence. }
      clear C. induction l as [|p l IH]; [constructor|]. inversion N; subst. cbn [map]. constructor.
      + intros I. apply in_map_iff in I. destruct I as (q & E & I). apply H1. rewrite (J p q); auto; [now left|now right].
      + apply IH; auto. intros. apply J; auto; now right.
    - intros h. split.
      + intros I. apply in_map_iff in I. destruct I as ([a h'] & E & I). cbn in E. subst h'. apply C in I. destruct I as (r & R & T & _). eauto.
      + intros (r & R & T). apply in_map_iff. exists (saddr r, h). split; [reflexivity|]. apply C. eauto.
    - unfold SrtSpec.ascending in A. assert (forall p, In p l -> exists r, nth_error s (snd p) = Some r /\ sat r = Some e /\ saddr r = fst p) as D.
      { intros [a h] I. apply C in I. exact I. }
      clear C. induction l as [|p l IH]; [constructor|]. inversion N; subst. inversion A; subst. cbn [map]. constructor.
      + apply IH; auto. intros q I. apply D. now right.
      + apply Forall_forall. intros h I. apply in_map_iff in I. destruct I as (q & E & I). subst h.
        destruct (D p (or_introl eq_refl)) as (rp & P1 & P2 & P3). destruct (D q (or_intror I)) as (rq & Q1 & Q2 & Q3).
        exists rp, rq. split; [exact P1|]. split; [exact Q1|]. rewrite Forall_forall in H4. specialize (H4 q I). unfold SrtSpec.le, ac in H4. rewrite Z.compare_le_iff in H4.
        destruct (Z.eq_dec (fst p) (fst q)); [|lia]. exfalso. apply H1.
        assert (snd p = snd q) as E. { eapply (si_addr w s S); eauto; [right; congruence|right; congruence|congruence]. }
        destruct p as [a h], q as [b h']. cbn in *. congruence.
  Qed.
  Lemma nth_hs w s h : sim w s -> nth_error (hs w) h = option_map (fun r => mkH (sfn r) (saddr r) (sflag r)) (nth_error s h).
  Proof. intros S. rewrite (si_hs w s S). apply nth_error_map. Qed.
  Lemma raise_all w s e x l (v0 : V) (rv : bool) : sim w s -> nth_error (evs w) e = Some x -> shows x l -> holds s e l ->
    forall (r d : list entry) (v : V) (fuel : nat), l = d ++ r -> v = (match d with [] => v0 | _ => if rv then moved else v0 end) -> (length r <= fuel)%nat ->
    exists cs : list (nat * nat * V), raise V moved (fun _ _ => []) fuel e (zlen d) v rv w = Ok (w, cs) /\ map (fun c : nat * nat * V => fst (fst c)) cs = map snd r /\
      (forall h f (y : V), In (h, f, y) cs -> exists r, nth_error s h = Some r /\ sfn r = f) /\
      map snd cs = match r with [] => [] | _ => v :: repeat (if rv then moved else v0) (length r - 1) end.
  Proof.
    intros S Ex Sh (A & N & C). induction r as [|p r IH]; intros d v fuel E Ev F; destruct (Sh) as (Cx & _).
    - exists []. split; [|split; [reflexivity|split; [intros ? ? ? []|reflexivity]]]. rewrite app_nil_r in E. subst d.
      destruct fuel; cbn [raise]; rewrite Ex, Cx; replace (zlen l <? zlen l) with false by lia; reflexivity.
    - destruct fuel as [|fuel]; [cbn in F; lia|].
      assert (exists rr, nth_error s (snd p) = Some rr) as [rr Hr].
      { destruct p as [a h]. destruct (proj1 (C a h)) as (rr & R & _); [rewrite E; apply in_app_iff; right; now left|]. eauto. }
      destruct (IH (d ++ [p]) (if rv then moved else v) fuel) as (cs & R1 & R2 & R3 & R4).
      + now rewrite <- app_assoc.
      + destruct d; cbn [app]; destruct rv; subst v; auto.
      + cbn in F. lia.
      + exists ((snd p, sfn rr, v) :: cs). split; [|split; [|split]].
        * cbn [raise]. rewrite Ex, Cx. replace (zlen d <? zlen l) with true by (rewrite E; unfold zlen; rewrite app_length; cbn; lia).
          rewrite (get_ok _ _ _ _ Sh). replace (znth l (zlen d)) with (Some p).
          -- cbn [bind]. rewrite (nth_hs w s _ S), Hr. cbn [option_map hfn crun bind].
             replace (zlen d + 1) with (zlen (d ++ [p])) by (unfold zlen; rewrite app_length; cbn; lia). rewrite R1. reflexivity.
          -- symmetry. rewrite E. unfold zlen. rewrite znth_nat, nth_error_app2 by lia. now rewrite Nat.sub_diag.
        * cbn [map fst]. now rewrite R2.
        * intros h f y [I|I]; [inversion I; subst; eauto|eauto].
        * cbn [map snd]. rewrite R4. f_equal. cbn [length]. destruct r as [|q r]; [reflexivity|]. cbn [length]. cbn [Nat.sub]. rewrite ?Nat.sub_0_r. cbn [repeat]. f_equal.
          destruct rv; [reflexivity|]. subst v. destruct d; reflexivity.
  Qed.
  Lemma holds_length w s e l : sim w s -> holds s e l -> (length l <= length (hs w))%nat.
  Proof.
    intros S H. pose proof (strict w s e l S H) as (N & I & _). assert (length (hs w) = length (seq 0 (length s))) as -> by (now rewrite (si_hs w s S), map_length, seq_length).
    rewrite <- (map_length snd l). apply NoDup_incl_length; [exact N|]. intros h J. apply I in J. destruct J as (r & R & _).
    apply in_seq. apply nth_error_lt in R. lia.
  Qed.
  Lemma step_ok w s o : sim w s -> client V n s o ->
    exists w' r s', estep V moved w o = Ok (w', r) /\ ok_step V moved s o s' r /\ sim w' s'.
  Proof.
    intros S Cl. pose proof (si_ev w s S) as Ln. destruct o as [o|e v rv].
    2:{ cbn [client] in Cl. destruct (nth_error (evs w) e) as [x|] eqn:Ex; [|apply nth_error_None in Ex; lia].
        destruct (si_list w s S e x Ex) as (l & Sh & H).
        destruct (raise_all w s e x l v rv S Ex Sh H l [] v (length (hs w)) eq_refl eq_refl (holds_length w s e l S H)) as (cs & R1 & R2 & R3 & R4).
        cbn [estep]. change (zlen []) with 0 in R1. rewrite R1. cbn [bind]. do 3 eexists. split; [reflexivity|]. split; [|exact S].
        apply ok_raise with (map snd l); auto; [eapply strict; eauto|]. rewrite map_length, R4. destruct l; [reflexivity|]. cbn [length arguments]. do 2 f_equal. lia. }
    destruct o as [e f a|e h|h|h|e]; cbn [estep cstep]; cbn [client] in Cl.
    - destruct Cl as [Le Fr]. destruct (nth_error (evs w) e) as [x|] eqn:Ex; [|apply nth_error_None in Ex; lia].
      destruct (si_list w s S e x Ex) as (l & Sh & H). destruct (H) as (A & N & C).
      destruct (SrtProofs.s_add_ok entry ac ac_total x l (a, length (hs w)) Sh A) as (y & l1 & l2 & El & Ey & Sy & Ay & _).
      unfold ecmp. unfold ac in Ey. rewrite Ey. cbn [bind]. do 3 eexists. split; [reflexivity|].
      assert (length (hs w) = length s) as Lh by (rewrite (si_hs w s S); apply map_length). rewrite Lh in *. split; [constructor|].
      assert (forall h r, nth_error (s ++ [mkS f a (Some e) true true]) h = Some r -> nth_error s h = Some r \/ h = length s /\ r = mkS f a (Some e) true true) as NA.
      { intros h r Hr. destruct (Nat.lt_ge_cases h (length s)); [rewrite nth_error_app1 in Hr by lia; auto|].
        rewrite nth_error_app2 in Hr by lia. destruct (h - length s)%nat as [|k] eqn:K; [|destruct k; discriminate]. cbn in Hr. inversion Hr. right. split; [lia|reflexivity]. }
      assert (forall h r, nth_error s h = Some r -> nth_error (s ++ [mkS f a (Some e) true true]) h = Some r) as NB.
      { intros h r Hr. rewrite nth_error_app1; [exact Hr|]. eapply nth_error_lt; eauto. }
      assert (nth_error (s ++ [mkS f a (Some e) true true]) (length s) = Some (mkS f a (Some e) true true)) as NC by (rewrite nth_error_app2, Nat.sub_diag by lia; reflexivity).
      constructor; cbn [evs hs].
      + now rewrite upd_length.
      + rewrite map_app, (si_hs w s S). reflexivity.
      + intros e' x' Ex'. rewrite nth_upd in Ex'. destruct (Nat.eqb_spec e e').
        * subst e'. rewrite Ex in Ex'. inversion Ex'; subst x'. exists (l1 ++ (a, length s) :: l2). split; [exact Sy|]. split; [exact Ay|]. split.
          -- apply nodup_mid; [now rewrite <- El|]. rewrite <- El. intros I. apply C in I. destruct I as (r & R & _). apply nth_error_lt in R. lia.
          -- intros b h. transitivity ((b, h) = (a, length s) \/ In (b, h) l).
             { rewrite El, !in_app_iff. cbn [In]. intuition congruence. }
             rewrite C. split.
             ++ intros [I|(r & R1 & R2 & R3)]; [inversion I; subst; eexists; split; [exact NC|auto]|eexists; split; [apply NB; exact R1|auto]].
             ++ intros (r & R1 & R2 & R3). apply NA in R1. destruct R1 as [R1|[-> ->]]; [right; eauto|left]. cbn in R3. congruence.
        * destruct (si_list w s S e' x' Ex') as (l' & Sh' & H'). exists l'. split; [exact Sh'|]. eapply holds_same; [exact H'|].
          intros h b. split; intros (r & R1 & R2 & R3).
          -- eexists. split; [apply NB; exact R1|auto].
          -- apply NA in R1. destruct R1 as [R1|[-> ->]]; [eauto|]. cbn in R2. congruence.
      + intros h1 h2 r1 r2 R1 R2 L1 L2 E. apply NA in R1. apply NA in R2. destruct R1 as [R1|[-> ->]], R2 as [R2|[-> ->]]; auto.
        * eapply (si_addr w s S); eauto.
        * exfalso. cbn in E. exact (Fr h1 r1 R1 L1 E).
        * exfalso. cbn in E. exact (Fr h2 r2 R2 L2 (eq_sym E)).
    - destruct Cl as (Le & r & Hr & Hh). destruct (nth_error (evs w) e) as [x|] eqn:Ex; [|apply nth_error_None in Ex; lia].
      rewrite (nth_hs w s h S), Hr. cbn [option_map haddr hfn]. destruct (si_list w s S e x Ex) as (l & Sh & H). destruct (H) as (A & N & C).
      destruct (SrtProofs.s_index_ok entry ac ac_total x l (saddr r, h) Sh A) as [(l1 & b & l2 & El & Cb & Ei)|(l1 & l2 & El & B1 & B2 & Ei)];
        unfold ecmp; unfold ac in Ei; rewrite Ei; cbn [bind].
      + assert (b = (saddr r, h)) as ->.
        { unfold ac in Cb. apply Z.compare_eq_iff in Cb. cbn in Cb. destruct b as [a h']. cbn in Cb. subst a.
          destruct (proj1 (C (saddr r) h')) as (r' & R1 & R2 & R3); [rewrite El; apply in_app_iff; right; now left|].
          f_equal. eapply (si_addr w s S); eauto; [right; congruence|left; exact Hh]. }
        pose proof (zlen_nonneg l1). replace (zlen l1 =? -1) with false by lia.
        assert (Hi : 0 <= zlen l1 < zlen l) by (rewrite El; unfold zlen; rewrite app_length; cbn; lia).
        destruct (remove_at_at _ x l (zlen l1) Sh Hi) as (y & Ey & Sy). rewrite Ey. cbn [bind].
        assert (Er : ztake entry (zlen l1) l ++ zdrop entry (zlen l1 + 1) l = l1 ++ l2).
        { rewrite El. unfold ztake, zdrop. rewrite zlen_to_nat, firstn_app, firstn_all, Nat.sub_diag. cbn [firstn]. rewrite app_nil_r.
          rewrite skipn_app, skipn_all2 by (unfold zlen; lia). replace (Z.to_nat (zlen l1 + 1) - length l1)%nat with 1%nat by (unfold zlen; lia). reflexivity. }
        rewrite Er in Sy. destruct (proj1 (C (saddr r) h)) as (r' & R1 & R2 & R3); [rewrite El; apply in_app_iff; right; now left|].
        assert (r' = r) by congruence. subst r'. do 3 eexists. split; [reflexivity|]. split; [eapply ok_remove; eauto|].
        constructor; cbn [evs hs].
        * now rewrite upd_length.
        * rewrite (si_hs w s S). clear. revert h. induction s as [|y s IH]; intros [|h]; cbn [upd map]; [reflexivity|reflexivity|reflexivity|]. now rewrite IH.
        * intros e' x' Ex'. rewrite nth_upd in Ex'. destruct (Nat.eqb_spec e e').
          -- subst e'. rewrite Ex in Ex'. inversion Ex'; subst x'. exists (l1 ++ l2). split; [exact Sy|]. rewrite El in A, N, C.
             apply NoDup_remove in N as [N1 N2]. split; [now apply (SrtProofs.asc_drop_mid entry ac l1 [(saddr r, h)] l2)|]. split; [exact N1|].
             intros b k. rewrite nth_upd, Hr. destruct (Nat.eqb_spec h k).
             ++ subst k. split.
                ** intros I. exfalso. assert (In (b, h) (l1 ++ (saddr r, h) :: l2)) as J by (rewrite in_app_iff in *; cbn [In]; tauto).
                   apply C in J. destruct J as (r2 & J1 & _ & <-). assert (r2 = r) by congruence. subst r2. contradiction.
                ** intros (r2 & J1 & J2 & _). inversion J1; subst. discriminate.
             ++ rewrite <- C, !in_app_iff. cbn [In]. intuition congruence.
          -- destruct (si_list w s S e' x' Ex') as (l' & Sh' & H'). exists l'. split; [exact Sh'|]. eapply holds_same; [exact H'|].
             intros k b. rewrite nth_upd, Hr. destruct (Nat.eqb_spec h k); [|reflexivity]. subst k. split; intros (r2 & J1 & J2 & J3).
             ++ assert (r2 = r) by congruence. subst r2. congruence.
             ++ inversion J1; subst. discriminate.
        * intros h1 h2 r1 r2 Q1 Q2 L1 L2 E. rewrite nth_upd, Hr in Q1, Q2.
          assert (forall k q, (if Nat.eqb h k then Some (mkS (sfn r) (saddr r) None false (sheld r)) else nth_error s k) = Some q -> exists q', nth_error s k = Some q' /\ (live q -> live q') /\ saddr q' = saddr q) as G.
          { intros k q Q. destruct (Nat.eqb_spec h k); [subst k; inversion Q; subst q; exists r; split; [auto|]; split; [left; exact Hh|reflexivity]|]. exists q. auto. }
          destruct (G _ _ Q1) as (q1 & G1 & G2 & G3), (G _ _ Q2) as (q2 & G4 & G5 & G6). eapply (si_addr w s S); eauto. congruence.
      + cbn [Z.eqb]. do 3 eexists. split; [reflexivity|]. split; [|exact S]. eapply ok_remove_none; [exact Hr|]. intros T.
        assert (In (saddr r, h) l) as I by (apply C; eauto). pose proof (SrtProofs.c_refl entry ac ac_total (saddr r, h)) as Rf. rewrite El in I. apply in_app_iff in I.
        destruct I as [I|I]; [rewrite (B1 _ I) in Rf|rewrite (B2 _ I) in Rf]; discriminate.
    - destruct Cl as (r & Hr & Hh). rewrite (nth_hs w s h S), Hr. cbn [option_map hattached]. do 3 eexists. split; [reflexivity|]. split; [now constructor|exact S].
    - destruct Cl as (r & Hr & Hh). do 3 eexists. split; [reflexivity|]. split; [econstructor; eauto|].
      assert (forall k q, nth_error (upd s h (mkS (sfn r) (saddr r) (sat r) (sflag r) false)) k = Some q -> exists q', nth_error s k = Some q' /\ (live q -> live q') /\ saddr q' = saddr q /\ sat q' = sat q) as G.
      { intros k q Q. rewrite nth_upd, Hr in Q. destruct (Nat.eqb_spec h k); [subst k; inversion Q; subst q; exists r; repeat split; auto; left; exact Hh|]. exists q. auto. }
      constructor.
      + exact Ln.
      + rewrite (si_hs w s S). clear - Hr. revert h Hr. induction s as [|y s IH]; intros [|h] Hr; cbn [upd map]; cbn in Hr; try reflexivity; try discriminate.
        * inversion Hr; subst. reflexivity.
        * now rewrite <- IH.
      + intros e x Ex. destruct (si_list w s S e x Ex) as (l' & Sh' & H'). exists l'. split; [exact Sh'|]. eapply holds_same; [exact H'|].
        intros k b. rewrite nth_upd, Hr. destruct (Nat.eqb_spec h k); [|reflexivity]. subst k. split; intros (r2 & J1 & J2 & J3).
        * assert (r2 = r) by congruence. subst r2. eexists. split; [reflexivity|]. cbn. auto.
        * inversion J1; subst. cbn in *. eauto.
      + intros h1 h2 r1 r2 Q1 Q2 L1 L2 E. destruct (G _ _ Q1) as (q1 & G1 & G2 & G3 & _), (G _ _ Q2) as (q2 & G4 & G5 & G6 & _). eapply (si_addr w s S); eauto. congruence.
    - destruct (nth_error (evs w) e) as [x|] eqn:Ex; [|apply nth_error_None in Ex; lia]. do 3 eexists. split; [reflexivity|]. split; [constructor|].
      constructor; cbn [evs hs].
      + now rewrite upd_length.
      + rewrite (si_hs w s S), map_map. reflexivity.
      + intros e' x' Ex'. rewrite nth_upd in Ex'. destruct (Nat.eqb_spec e e').
        * subst e'. rewrite Ex in Ex'. inversion Ex'; subst x'. exists []. split; [apply empty_shows|]. split; [constructor|]. split; [constructor|].
          intros a h. split; [intros []|]. intros (r & R1 & R2 & _). rewrite nth_error_map in R1. destruct (nth_error s h) as [q|]; [|discriminate]. cbn in R1. inversion R1; subst r. cbn in R2.
          destruct (sat q) as [e'|]; [|discriminate]. destruct (Nat.eqb_spec e e'); congruence.
        * destruct (si_list w s S e' x' Ex') as (l' & Sh' & H'). exists l'. split; [exact Sh'|]. eapply holds_same; [exact H'|].
          intros h a. rewrite nth_error_map. destruct (nth_error s h) as [q|]; cbn [option_map]; [|split; intros (r & ? & _); discriminate].
          assert (sat (leave e q) = Some e' <-> sat q = Some e') as X.
          { cbn [leave sat]. destruct (sat q) as [e2|]; [|tauto]. destruct (Nat.eqb_spec e e2); [subst; split; congruence|tauto]. }
          split; intros (r & R1 & R2 & R3); inversion R1; subst r; eexists; (split; [reflexivity|]); (split; [now apply X|exact R3]).
      + intros h1 h2 r1 r2 Q1 Q2 L1 L2 E. rewrite nth_error_map in Q1, Q2. destruct (nth_error s h1) as [q1|] eqn:G1; [|discriminate]. destruct (nth_error s h2) as [q2|] eqn:G2; [|discriminate].
        cbn in Q1, Q2. inversion Q1; subst r1. inversion Q2; subst r2.
        assert (forall q, live (leave e q) -> live q) as G.
        { intros q [A|A]; [left; exact A|]. cbn in A. right. destruct (sat q); [discriminate|]. contradiction. }
        eapply (si_addr w s S); eauto.
  Qed.
  Lemma run_ok os : forall w s, sim w s -> clients V moved n s os -> exists w' rs s', erun V moved w os = Ok (w', rs) /\ ok_run V moved s os rs s'.
  Proof.
    induction os as [|o os IH]; intros w s S Cl; cbn [erun].
    - do 3 eexists. split; [reflexivity|constructor].
    - inversion Cl as [|? ? ? C1 C2]; subst. destruct (step_ok w s o S C1) as (w1 & r & s1 & E & K & S1). rewrite E. cbn [bind].
      destruct (IH w1 s1 S1 (C2 _ _ K)) as (w2 & rs & s2 & E2 & K2). rewrite E2. cbn [bind]. do 3 eexists. split; [reflexivity|]. econstructor; eauto.
  Qed.
  Lemma history os : clients V moved n [] os -> exists w rs s, erun V moved (events n) os = Ok (w, rs) /\ ok_run V moved [] os rs s.
  Proof. apply run_ok. apply sim0. Qed.

  (* callbacks that leave the event itself alone *)
  Lemma cstep_spares e w o w' r : spares e o -> cstep V w o = Ok (w', r) -> nth_error (evs w') e = nth_error (evs w) e.
  Proof.
    intros Sp H. destruct o as [e' f a|e' h|h|h|e']; cbn [cstep spares] in *.
    - destruct (nth_error (evs w) e') as [x|]; [|discriminate]. destruct (s_add _ _ _ _) as [[y i]| | |]; try discriminate. cbn [bind] in H. inversion H; subst. cbn [evs]. now apply upd_other.
    - destruct (nth_error (evs w) e') as [x|]; [|discriminate]. destruct (nth_error (hs w) h) as [q|]; [|discriminate].
      destruct (s_index_of _ _ _ _) as [i| | |]; try discriminate. cbn [bind] in H. destruct (i =? -1); [now inversion H; subst|].
      destruct (remove_at _ _ _); try discriminate. cbn [bind] in H. inversion H; subst. cbn [evs]. now apply upd_other.
    - destruct (nth_error (hs w) h); inversion H; now subst.
    - inversion H; now subst.
    - destruct (nth_error (evs w) e') as [x|]; [|discriminate]. inversion H; subst. cbn [evs]. now apply upd_other.
  Qed.
  Lemma crun_spares e os : forall w w', Forall (spares e) os -> crun V w os = Ok w' -> nth_error (evs w') e = nth_error (evs w) e.
  Proof.
    induction os as [|o os IH]; intros w w' F H; cbn [crun] in H; [now inversion H|]. inversion F; subst. destruct (cstep V w o) as [[w1 r]| | |] eqn:E; try discriminate.
    cbn [bind] in H. rewrite (IH _ _ H3 H). eapply cstep_spares; eauto.
  Qed.
  Lemma raise_spares beh e (B : forall f w, Forall (spares e) (beh f w)) x l (v0 : V) (rv : bool) : shows x l -> forall (r d : list entry) (fuel : nat) (v : V) w w' cs, l = d ++ r -> nth_error (evs w) e = Some x ->
    raise V moved beh fuel e (zlen d) v rv w = Ok (w', cs) -> v = (match d with [] => v0 | _ => if rv then moved else v0 end) ->
    map (fun c : nat * nat * V => fst (fst c)) cs = map snd r /\ map snd cs = match r with [] => [] | _ => v :: repeat (if rv then moved else v0) (length r - 1) end.
  Proof.
    intros Sh. destruct (Sh) as (Cx & _). induction r as [|p r IH]; intros d fuel v w w' cs E Ex R Ev.
    - rewrite app_nil_r in E. subst d. destruct fuel; cbn [raise] in R; rewrite Ex, Cx in R; replace (zlen l <? zlen l) with false in R by lia; inversion R; auto.
    - assert (zlen d <? zlen l = true) as Lt by (rewrite E; unfold zlen; rewrite app_length; cbn; lia).
      destruct fuel as [|fuel]; cbn [raise] in R; rewrite Ex, Cx, Lt in R; [discriminate|].
      rewrite (get_ok _ _ _ _ Sh) in R. replace (znth l (zlen d)) with (Some p) in R.
      + cbn [bind] in R. destruct (nth_error (hs w) (snd p)) as [q|]; [|discriminate]. destruct (crun V w (beh (hfn q) w)) as [w1| | |] eqn:E1; try discriminate. cbn [bind] in R.
        destruct (raise V moved beh fuel e (zlen d + 1) (if rv then moved else v) rv w1) as [[w2 cs2]| | |] eqn:E2; try discriminate. cbn [bind] in R. inversion R; subst w' cs. cbn [map fst snd].
        replace (zlen d + 1) with (zlen (d ++ [p])) in E2 by (unfold zlen; rewrite app_length; cbn; lia).
        destruct (fun A B => IH (d ++ [p]) fuel _ w1 w2 cs2 A B E2) as [R1 R2].
        * now rewrite <- app_assoc.
        * rewrite (crun_spares e _ _ _ (B _ _) E1). exact Ex.
        * destruct d; cbn [app]; destruct rv; subst v; auto.
        * rewrite R1, R2. split; [reflexivity|]. f_equal. cbn [length]. destruct r as [|q' r]; [reflexivity|]. cbn [length]. cbn [Nat.sub]. rewrite ?Nat.sub_0_r. cbn [repeat]. f_equal.
          destruct rv; [reflexivity|]. subst v. destruct d; reflexivity.
      + symmetry. rewrite E. unfold zlen. rewrite znth_nat, nth_error_app2 by lia. now rewrite Nat.sub_diag.
  Qed.
  Lemma other_events beh e (B : forall f w, Forall (spares e) (beh f w)) w x l fuel v rv w' cs : nth_error (evs w) e = Some x -> shows x l ->
    raise V moved beh fuel e 0 v rv w = Ok (w', cs) -> map (fun c : nat * nat * V => fst (fst c)) cs = map snd l /\ map snd cs = arguments V moved v rv (length l).
  Proof.
    intros Ex Sh R. destruct (raise_spares beh e B x l v rv Sh l [] fuel v w w' cs eq_refl Ex R eq_refl) as [R1 R2]. split; [exact R1|]. rewrite R2.
    destruct l; [reflexivity|]. cbn [length arguments]. do 2 f_equal. lia.
  Qed.
End proofs.

(* the handler of callback 7 removes itself from event 0 *)
Definition beh_self (f : nat) (w : ew) : list cop := if Nat.eqb f 7 then [ERemove 0 0] else [].
(* the handler of callback 7 adds a handler of callback 8, which gets a lower address *)
Definition beh_add (f : nat) (w : ew) : list cop := if (Nat.eqb f 7) && (Nat.ltb (length (hs w)) 2) then [EAdd 0 8 10] else [].
Definition two : ew := match erun Z 0 (events 1) [Do (EAdd 0 7 100); Do (EAdd 0 8 200)] with Ok (w, _) => w | _ => events 0 end.
Definition one : ew := match erun Z 0 (events 1) [Do (EAdd 0 7 100)] with Ok (w, _) => w | _ => events 0 end.
Definition demo : list (eop Z) :=
  [Do (EAdd 0 7 300); Do (EAdd 0 8 100); Do (EAdd 1 9 200); ERaise 0 5 false; Do (ERemove 0 2); Do (ERemove 0 0); Do (ERemove 0 0);
   Do (EAttached 0); ERaise 0 6 false; Do (ERenew 1); Do (EAttached 2)].
Lemma demo_clients : clients Z 0 2 [] demo.
Proof.
  unfold demo. repeat (apply cl_cons; [|let s := fresh "s" in let r := fresh "r" in let H := fresh "H" in intros s r H; inversion H; subst; clear H;
    repeat match goal with H : nth_error _ _ = Some _ |- _ => cbn in H; inversion H; subst; clear H end; cbn [sat] in *; try congruence; cbn [app upd length map leave sfn saddr sat sflag sheld Nat.eqb] in *]);
    try apply cl_nil; cbn [client];
    try (split; [lia|]); try lia; try (eexists; split; reflexivity);
    intros h q Hq _; destruct h as [|[|[|h]]]; cbn in Hq; inversion Hq; cbn; lia.
Qed.
