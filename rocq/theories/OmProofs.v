(* Proofs about OmModel: it follows StrModel, block by block. *)
From Verif Require Import Base BaseFacts StrModel StrSpec StrProofs OmModel OmSpec.
From Coq Require Import ZifyBool ZifyNat.
Open Scope Z_scope.

(* ---- the relation ------------------------------------------------------------------ *)
Definition blk_rel (s : ostate) (p : nat) (q : option nat) (b : option block) : Prop :=
  match b with
  | Some (Static cs) => nth_error (bufs s) p = Some (BStatic cs) /\ q = None
  | Some (Counted cs n) => nth_error (bufs s) p = Some (BNew cs) /\ exists c, q = Some c /\ nth_error (cnts s) c = Some (Some n)
  | Some Freed => nth_error (bufs s) p = Some BGone /\ exists c, q = Some c /\ nth_error (cnts s) c = Some None
  | None => False
  end.

Notation addr := (nat * option nat)%type.
Record HSim (mp : list addr) (LB : list (nat * list (option Z))) (LC : list nat) (s : ostate) (h : heap) : Prop := {
  hs_len : length mp = length h;
  hs_zero : nth_error mp 0 = Some (0%nat, None);
  hs_blk : forall b p q, nth_error mp b = Some (p, q) -> blk_rel s p q (nth_error h b);
  hs_injb : forall b b' p q q', nth_error mp b = Some (p, q) -> nth_error mp b' = Some (p, q') -> b = b';
  hs_injc : forall b b' p p' c, nth_error mp b = Some (p, Some c) -> nth_error mp b' = Some (p', Some c) -> b = b';
  hs_covb : forall p cs, nth_error (bufs s) p = Some (BNew cs) -> In p (map fst LB) \/ exists b q, nth_error mp b = Some (p, q);
  hs_covc : forall c n, nth_error (cnts s) c = Some (Some n) -> In c LC \/ exists b p, nth_error mp b = Some (p, Some c);
  hs_lb : forall p cs, In (p, cs) LB -> nth_error (bufs s) p = Some (BNew cs) /\ forall b q, nth_error mp b <> Some (p, q);
  hs_lc : forall c, In c LC -> nth_error (cnts s) c = Some (Some 1) /\ forall b p, nth_error mp b <> Some (p, Some c);
  hs_ndb : NoDup (map fst LB);
  hs_ndc : NoDup LC }.

Definition srel (mp : list addr) (x : ostr) (y : str) : Prop :=
  exists p q, nth_error mp (buf y) = Some (p, q) /\ obuf x = p /\
    (if managed y then q <> None /\ octr x = q else octr x = None) /\
    ostart x = start y /\ olen x = len y /\ oreal x = real y.
Definition vrel (mp : list addr) (x : option ostr) (y : option str) : Prop :=
  match x, y with Some x, Some y => srel mp x y | None, None => True | _, _ => False end.

Lemma nth_app_l {A} (l m : list A) i x : nth_error l i = Some x -> nth_error (l ++ m) i = Some x.
Proof. intros H. rewrite nth_error_app1; [exact H|]. apply nth_error_Some. congruence. Qed.
Lemma nth_app_last {A} (l : list A) x : nth_error (l ++ [x]) (length l) = Some x.
Proof. rewrite nth_error_app2, Nat.sub_diag by lia. reflexivity. Qed.
Lemma nth_app_inv {A} (l : list A) x i y : nth_error (l ++ [x]) i = Some y ->
  nth_error l i = Some y \/ (i = length l /\ y = x).
Proof.
  intros H. destruct (Nat.lt_ge_cases i (length l)) as [Hi|Hi].
  - left. rewrite nth_error_app1 in H by exact Hi. exact H.
  - right. rewrite nth_error_app2 in H by exact Hi. destruct (i - length l)%nat eqn:E; cbn in H.
    + split; [lia|congruence].
    + destruct n; discriminate.
Qed.
Lemma nth_lt {A} (l : list A) i x : nth_error l i = Some x -> (i < length l)%nat.
Proof. intros H. apply nth_error_Some. congruence. Qed.

Lemma srel_app mp mp2 x y : srel mp x y -> srel (mp ++ mp2) x y.
Proof. intros (p & q & H & R). exists p, q. split; [now apply nth_app_l|exact R]. Qed.
Lemma vrel_app mp mp2 x y : vrel mp x y -> vrel (mp ++ mp2) x y.
Proof. destruct x, y; cbn; auto using srel_app. Qed.
Lemma vrels_app mp mp2 xs ys : Forall2 (vrel mp) xs ys -> Forall2 (vrel (mp ++ mp2)) xs ys.
Proof. induction 1; constructor; auto using vrel_app. Qed.

Section ALLOC.
  Variables (mp : list addr) (LB : list (nat * list (option Z))) (LC : list nat) (s : ostate) (h : heap).
  Hypothesis H : HSim mp LB LC s h.

  Lemma mp_lt b p q : nth_error mp b = Some (p, q) -> (p < length (bufs s))%nat.
  Proof.
    intros E. pose proof (hs_blk _ _ _ _ _ H _ _ _ E) as B. destruct (nth_error h b) as [[cs|cs n|]|]; cbn in B;
      try tauto; destruct B as [B _]; eapply nth_lt; exact B.
  Qed.
  Lemma mp_lt_c b p c : nth_error mp b = Some (p, Some c) -> (c < length (cnts s))%nat.
  Proof.
    intros E. pose proof (hs_blk _ _ _ _ _ H _ _ _ E) as B. destruct (nth_error h b) as [[cs|cs n|]|]; cbn in B; try tauto.
    - destruct B. discriminate.
    - destruct B as (_ & c' & Ec & B). injection Ec as <-. eapply nth_lt; exact B.
    - destruct B as (_ & c' & Ec & B). injection Ec as <-. eapply nth_lt; exact B.
  Qed.
  Lemma lb_lt p : In p (map fst LB) -> (p < length (bufs s))%nat.
  Proof. intros E. apply in_map_iff in E as ([p' cs] & <- & E). apply (hs_lb _ _ _ _ _ H) in E as [E _]. eapply nth_lt; exact E. Qed.
  Lemma lc_lt c : In c LC -> (c < length (cnts s))%nat.
  Proof. intros E. apply (hs_lc _ _ _ _ _ H) in E as [E _]. eapply nth_lt; exact E. Qed.

  (* blocks of the left side that the right side does not have *)
  Lemma leak_counter : HSim mp LB (length (cnts s) :: LC) (fst (new_counter s)) h.
  Proof.
    unfold new_counter. cbn [fst].
    constructor; cbn [bufs cnts ovars]; try apply H.
    - intros b p q E. pose proof (hs_blk _ _ _ _ _ H _ _ _ E) as B. destruct (nth_error h b) as [[cs|cs n|]|]; cbn in *; auto.
      + destruct B as (? & c & ? & ?). split; [auto|]. exists c. split; [auto|]. now apply nth_app_l.
      + destruct B as (? & c & ? & ?). split; [auto|]. exists c. split; [auto|]. now apply nth_app_l.
    - intros c n E. apply nth_app_inv in E as [E|[-> E]]; [|left; now left].
      destruct (hs_covc _ _ _ _ _ H _ _ E) as [?|?]; [left; now right|now right].
    - intros c [<-|E].
      + split; [apply nth_app_last|]. intros b p E. apply mp_lt_c in E. lia.
      + destruct (hs_lc _ _ _ _ _ H _ E) as [E1 E2]. split; [now apply nth_app_l|exact E2].
    - constructor; [|apply H]. intros E. apply lc_lt in E. lia.
  Qed.
  Lemma leak_buffer cs : HSim mp ((length (bufs s), cs) :: LB) LC (fst (new_buffer s (BNew cs))) h.
  Proof.
    unfold new_buffer in *. cbn [fst] in *.
    constructor; cbn [bufs cnts ovars]; try apply H.
    - intros b p q E. pose proof (hs_blk _ _ _ _ _ H _ _ _ E) as B.
      destruct (nth_error h b) as [[cs'|cs' n|]|]; cbn in *; auto; destruct B; split; auto; now apply nth_app_l.
    - intros p cs' E. apply nth_app_inv in E as [E|[-> E]]; [|left; now left].
      destruct (hs_covb _ _ _ _ _ H _ _ E) as [?|?]; [left; now right|now right].
    - intros p cs' [E|E].
      + injection E as <- <-. split; [apply nth_app_last|]. intros b q E. apply mp_lt in E. lia.
      + destruct (hs_lb _ _ _ _ _ H _ _ E) as [E1 E2]. split; [now apply nth_app_l|exact E2].
    - cbn [map fst]. constructor; [|apply H]. intros E. apply lb_lt in E. lia.
  Qed.
  Lemma extra_static cs : HSim mp LB LC (fst (new_buffer s (BStatic cs))) h.
  Proof.
    unfold new_buffer in *. cbn [fst] in *.
    constructor; cbn [bufs cnts ovars]; try apply H.
    - intros b p q E. pose proof (hs_blk _ _ _ _ _ H _ _ _ E) as B.
      destruct (nth_error h b) as [[cs'|cs' n|]|]; cbn in *; auto; destruct B; split; auto; now apply nth_app_l.
    - intros p cs' E. apply nth_app_inv in E as [E|[-> E]]; [|discriminate]. exact (hs_covb _ _ _ _ _ H _ _ E).
    - intros p cs' E. destruct (hs_lb _ _ _ _ _ H _ _ E) as [E1 E2]. split; [now apply nth_app_l|exact E2].
  Qed.
  (* a static block on both sides *)
  Lemma both_static cs :
    HSim (mp ++ [(length (bufs s), None)]) LB LC (fst (new_buffer s (BStatic cs))) (h ++ [Static cs]).
  Proof.
    pose proof (extra_static cs) as X. pose proof mp_lt as ML. pose proof lb_lt as LL.
    unfold new_buffer in *. cbn [fst] in *.
    constructor; cbn [bufs cnts ovars].
    - rewrite !app_length, (hs_len _ _ _ _ _ H). reflexivity.
    - apply nth_app_l, H.
    - intros b p q E. apply nth_app_inv in E as [E|[-> E]].
      + pose proof (nth_lt _ _ _ E) as L. rewrite (hs_len _ _ _ _ _ H) in L. rewrite nth_error_app1 by exact L.
        exact (hs_blk _ _ _ _ _ X _ _ _ E).
      + injection E as -> ->. rewrite (hs_len _ _ _ _ _ H), nth_app_last. split; [|reflexivity]. apply nth_app_last.
    - intros b b' p q q' E E'. apply nth_app_inv in E as [E|[-> E]]; apply nth_app_inv in E' as [E'|[-> E']].
      + exact (hs_injb _ _ _ _ _ H _ _ _ _ _ E E').
      + injection E' as -> ->. apply ML in E. lia.
      + injection E as -> ->. apply ML in E'. lia.
      + reflexivity.
    - intros b b' p p' c E E'. apply nth_app_inv in E as [E|[-> E]]; [|discriminate].
      apply nth_app_inv in E' as [E'|[-> E']]; [|discriminate]. exact (hs_injc _ _ _ _ _ H _ _ _ _ _ E E').
    - intros p cs' E. destruct (hs_covb _ _ _ _ _ X _ _ E) as [?|(b & q & E')]; [now left|right]. exists b, q. now apply nth_app_l.
    - intros c n E. destruct (hs_covc _ _ _ _ _ X _ _ E) as [?|(b & q & E')]; [now left|right]. exists b, q. now apply nth_app_l.
    - intros p cs' E. destruct (hs_lb _ _ _ _ _ X _ _ E) as [E1 E2]. split; [exact E1|]. intros b q E3.
      apply nth_app_inv in E3 as [E3|[-> E3]]; [exact (E2 _ _ E3)|]. injection E3 as -> ->.
      assert (length (bufs s) < length (bufs s))%nat; [|lia]. apply LL. apply in_map_iff. exists (length (bufs s), cs'). auto.
    - intros c E. destruct (hs_lc _ _ _ _ _ X _ E) as [E1 E2]. split; [exact E1|]. intros b p E3.
      apply nth_app_inv in E3 as [E3|[-> E3]]; [exact (E2 _ _ E3)|discriminate].
    - apply H.
    - apply H.
  Qed.
End ALLOC.

(* an unowned buffer and an unowned counter become a block *)
Lemma adopt mp LB LC s h id c cs : HSim mp ((id, cs) :: LB) (c :: LC) s h ->
  HSim (mp ++ [(id, Some c)]) LB LC s (h ++ [Counted cs 1]).
Proof.
  intros H. destruct (hs_lb _ _ _ _ _ H id cs (or_introl eq_refl)) as [Hb Hb2].
  destruct (hs_lc _ _ _ _ _ H c (or_introl eq_refl)) as [Hc Hc2].
  pose proof (hs_ndb _ _ _ _ _ H) as Nb. pose proof (hs_ndc _ _ _ _ _ H) as Nc.
  cbn [map fst] in Nb. inversion Nb as [|? ? Nb1 Nb2]. inversion Nc as [|? ? Nc1 Nc2]. subst.
  constructor.
  - rewrite !app_length, (hs_len _ _ _ _ _ H). reflexivity.
  - apply nth_app_l, H.
  - intros b p q E. apply nth_app_inv in E as [E|[-> E]].
    + pose proof (nth_lt _ _ _ E) as L. rewrite (hs_len _ _ _ _ _ H) in L. rewrite nth_error_app1 by exact L.
      exact (hs_blk _ _ _ _ _ H _ _ _ E).
    + injection E as -> ->. rewrite (hs_len _ _ _ _ _ H), nth_app_last. split; [exact Hb|]. exists c. auto.
  - intros b b' p q q' E E'. apply nth_app_inv in E as [E|[-> E]]; apply nth_app_inv in E' as [E'|[-> E']].
    + exact (hs_injb _ _ _ _ _ H _ _ _ _ _ E E').
    + injection E' as -> ->. now apply Hb2 in E.
    + injection E as -> ->. now apply Hb2 in E'.
    + reflexivity.
  - intros b b' p p' c' E E'. apply nth_app_inv in E as [E|[-> E]]; apply nth_app_inv in E' as [E'|[-> E']].
    + exact (hs_injc _ _ _ _ _ H _ _ _ _ _ E E').
    + injection E' as -> ->. now apply Hc2 in E.
    + injection E as -> ->. now apply Hc2 in E'.
    + reflexivity.
  - intros p cs' E. destruct (hs_covb _ _ _ _ _ H _ _ E) as [[E'|E']|(b & q & E')].
    + right. cbn in E'. subst. eexists _, _. apply nth_app_last.
    + now left.
    + right. exists b, q. now apply nth_app_l.
  - intros c' n E. destruct (hs_covc _ _ _ _ _ H _ _ E) as [[E'|E']|(b & q & E')].
    + right. subst. eexists _, _. apply nth_app_last.
    + now left.
    + right. exists b, q. now apply nth_app_l.
  - intros p cs' E. destruct (hs_lb _ _ _ _ _ H _ _ (or_intror E)) as [E1 E2]. split; [exact E1|]. intros b q E3.
    apply nth_app_inv in E3 as [E3|[-> E3]]; [exact (E2 _ _ E3)|]. injection E3 as -> ->.
    apply Nb1. apply in_map_iff. exists (id, cs'). auto.
  - intros c' E. destruct (hs_lc _ _ _ _ _ H _ (or_intror E)) as [E1 E2]. split; [exact E1|]. intros b p E3.
    apply nth_app_inv in E3 as [E3|[-> E3]]; [exact (E2 _ _ E3)|]. injection E3 as -> ->. contradiction.
  - exact Nb2.
  - exact Nc2.
Qed.

(* reading *)
Lemma ocells_ok mp LB LC s h x y : HSim mp LB LC s h -> srel mp x y -> forall cs,
  cells_of h (buf y) = Ok cs -> ocells s (obuf x) = Ok cs.
Proof.
  intros H (p & q & E & -> & _) cs C. pose proof (hs_blk _ _ _ _ _ H _ _ _ E) as B. unfold cells_of in C. unfold ocells.
  destruct (nth_error h (buf y)) as [[cs'|cs' n|]|]; try discriminate; injection C as ->; cbn in B; destruct B as [-> _]; reflexivity.
Qed.

(* replacing the state of a mapped block *)
Lemma hsim_set mp LB LC s h b p c B (nb : mblock) (nc : option Z) : HSim mp LB LC s h ->
  nth_error mp b = Some (p, Some c) ->
  blk_rel (mkO (upd (bufs s) p nb) (upd (cnts s) c nc) (ovars s)) p (Some c) (Some B) ->
  HSim mp LB LC (mkO (upd (bufs s) p nb) (upd (cnts s) c nc) (ovars s)) (upd h b B).
Proof.
  intros H E HB. assert (Hl : (b < length h)%nat) by (rewrite <- (hs_len _ _ _ _ _ H); eapply nth_lt; exact E).
  constructor; cbn [bufs cnts ovars]; try apply H.
  - rewrite upd_length. apply H.
  - intros b' p' q' E'. destruct (Nat.eq_dec b b') as [<-|N].
    + rewrite E in E'. injection E' as <- <-. rewrite upd_same by exact Hl. exact HB.
    + rewrite upd_other by exact N. pose proof (hs_blk _ _ _ _ _ H _ _ _ E') as B'.
      assert (Np : p <> p') by (intros <-; apply N; exact (hs_injb _ _ _ _ _ H _ _ _ _ _ E E')).
      assert (Nc : q' <> Some c) by (intros ->; apply N; exact (hs_injc _ _ _ _ _ H _ _ _ _ _ E E')).
      destruct (nth_error h b') as [[cs|cs n|]|]; cbn [blk_rel bufs cnts] in *; try tauto; rewrite upd_other by exact Np; auto;
        destruct B' as (B1 & c' & -> & B2); (split; [exact B1|]); exists c'; (split; [reflexivity|]); rewrite upd_other by congruence; exact B2.
  - intros p' cs E'. destruct (Nat.eq_dec p p') as [<-|N]; [right; eauto|].
    rewrite upd_other in E' by exact N. exact (hs_covb _ _ _ _ _ H _ _ E').
  - intros c' n E'. destruct (Nat.eq_dec c c') as [<-|N]; [right; eauto|].
    rewrite upd_other in E' by exact N. exact (hs_covc _ _ _ _ _ H _ _ E').
  - intros p' cs E'. destruct (hs_lb _ _ _ _ _ H _ _ E') as [E1 E2]. split; [|exact E2].
    destruct (Nat.eq_dec p p') as [<-|N]; [now apply E2 in E|]. rewrite upd_other by exact N. exact E1.
  - intros c' E'. destruct (hs_lc _ _ _ _ _ H _ E') as [E1 E2]. split; [|exact E2].
    destruct (Nat.eq_dec c c') as [<-|N]; [now apply E2 in E|]. rewrite upd_other by exact N. exact E1.
Qed.

Lemma upd_mem {A} (l : list A) i x : nth_error l i = Some x -> upd l i x = l.
Proof.
  revert i. induction l as [|a l IH]; intros [|i] E; cbn in *; try discriminate; try congruence.
  f_equal. auto.
Qed.

Lemma oinc_ok mp LB LC s h x y h' : HSim mp LB LC s h -> srel mp x y -> inc h y = Ok h' ->
  exists s', oinc s x = Ok s' /\ ovars s' = ovars s /\ HSim mp LB LC s' h'.
Proof.
  intros H (p & q & E & Ep & Eq & _) I. unfold inc in I. unfold oinc. destruct (managed y).
  - destruct Eq as [_ ->]. pose proof (hs_blk _ _ _ _ _ H _ _ _ E) as B.
    destruct (nth_error h (buf y)) as [[cs|cs n|]|] eqn:Eh; try discriminate. injection I as <-.
    destruct B as (B1 & c & -> & B2). rewrite B2. eexists. split; [reflexivity|]. split; [reflexivity|].
    unfold set_counter. rewrite <- (upd_mem _ _ _ B1) at 1. eapply hsim_set; [exact H|exact E|].
    cbn [blk_rel bufs cnts]. split; [apply upd_same; eapply nth_lt; exact B1|].
    exists c. split; [reflexivity|]. apply upd_same. eapply nth_lt; exact B2.
  - injection I as <-. rewrite Eq. eauto.
Qed.
Lemma odec_ok mp LB LC s h x y h' : HSim mp LB LC s h -> srel mp x y -> dec h y = Ok h' ->
  exists s', odec s x = Ok s' /\ ovars s' = ovars s /\ HSim mp LB LC s' h'.
Proof.
  intros H (p & q & E & Ep & Eq & _) I. unfold dec in I. unfold odec. destruct (managed y).
  - destruct Eq as [_ ->]. pose proof (hs_blk _ _ _ _ _ H _ _ _ E) as B.
    destruct (nth_error h (buf y)) as [[cs|cs n|]|] eqn:Eh; try discriminate. injection I as <-.
    destruct B as (B1 & c & -> & B2). rewrite B2. rewrite Ep. destruct (n - 1 =? 0).
    + unfold delete_buffer. rewrite B1. cbn [bind]. eexists. split; [reflexivity|]. split; [reflexivity|].
      unfold set_counter. cbn [bufs cnts ovars]. eapply hsim_set; [exact H|exact E|].
      cbn [blk_rel bufs cnts]. split; [apply upd_same; eapply nth_lt; exact B1|].
      exists c. split; [reflexivity|]. apply upd_same. eapply nth_lt; exact B2.
    + eexists. split; [reflexivity|]. split; [reflexivity|].
      unfold set_counter. rewrite <- (upd_mem _ _ _ B1) at 1. eapply hsim_set; [exact H|exact E|].
      cbn [blk_rel bufs cnts]. split; [apply upd_same; eapply nth_lt; exact B1|].
      exists c. split; [reflexivity|]. apply upd_same. eapply nth_lt; exact B2.
  - injection I as <-. rewrite Eq. eauto.
Qed.

(* ---- expressions ------------------------------------------------------------------- *)
(* what a failure costs: nothing for the first allocation; a buffer for CopyFrom, a counter
   for the others *)
Definition costs (cp : bool) (f : oracle) (LB LB' : list (nat * list (option Z))) (LC LC' : list nat) : Prop :=
  (f = Some 0%nat /\ LB' = LB /\ LC' = LC) \/
  (f = Some 1%nat /\ cp = true /\ length LB' = S (length LB) /\ LC' = LC) \/
  (f = Some 1%nat /\ cp = false /\ LB' = LB /\ length LC' = S (length LC)).

Definition fsim (cp : bool) (f : oracle) mp LB LC (s : ostate) (h : heap)
  (r : res (ostate * outcome ostr)) (R : res (heap * str)) : Prop :=
  match R with
  | Ok (h', y) =>
      (exists s' x mp2, r = Ok (s', Done x) /\ ovars s' = ovars s /\ HSim (mp ++ mp2) LB LC s' h' /\ srel (mp ++ mp2) x y) \/
      (exists s' LB' LC', r = Ok (s', Fail) /\ ovars s' = ovars s /\ HSim mp LB' LC' s' h /\ costs cp f LB LB' LC LC')
  | Err => r = Err
  | _ => True
  end.

Lemma fails_at f : fails f = true -> f = Some 0%nat.
Proof. destruct f as [[|n]|]; cbn; congruence. Qed.
Lemma fails_at2 f : fails f = false -> fails (next f) = true -> f = Some 1%nat.
Proof. destruct f as [[|[|n]]|]; cbn; congruence. Qed.

Lemma srel_empty mp LB LC s h : HSim mp LB LC s h -> srel mp oempty empty.
Proof. intros H. exists 0%nat, None. cbn. repeat split; auto. apply H. Qed.

(* a buffer and a counter allocated together, in either order *)
Lemma pair_alloc mp LB LC s h cs n : HSim mp LB LC s h ->
  HSim (mp ++ [(length (bufs s), Some (length (cnts s)))]) LB LC
    (mkO (bufs s ++ [BNew cs]) (cnts s ++ [Some 1]) (ovars s)) (h ++ [Counted cs 1]) /\
  srel (mp ++ [(length (bufs s), Some (length (cnts s)))])
    (mkOs (length (bufs s)) (Some (length (cnts s))) 0 n n) (mkStr (length h) true 0 n n).
Proof.
  intros H. split.
  - apply adopt. pose proof (leak_counter _ _ _ _ _ H) as X. apply (fun X => leak_buffer _ _ _ _ _ X cs) in X.
    cbn [new_counter new_buffer fst bufs cnts ovars] in X. exact X.
  - exists (length (bufs s)), (Some (length (cnts s))). cbn [buf managed start len real obuf octr ostart olen oreal].
    rewrite <- (hs_len _ _ _ _ _ H), nth_app_last. repeat split; congruence.
Qed.

Lemma calc_not_err m : calc_length m <> Err.
Proof. induction m as [|c m IH]; cbn; [congruence|]. destruct (c =? 0); [congruence|]. destruct (calc_length m); cbn; congruence. Qed.
Lemma new_array_not_err n : new_array n <> Err. Proof. unfold new_array. destruct (n <? 0); congruence. Qed.
Lemma aget_not_err {A} (l : list A) i : aget l i <> Err.
Proof. unfold aget. destruct (znth l i); congruence. Qed.
Lemma rdcell_not_err cs i : rdcell cs i <> Err.
Proof. unfold rdcell. pose proof (aget_not_err cs i). destruct (aget cs i) as [[x|]| | |]; cbn; congruence. Qed.
Lemma mem_read_not_err cs i n : mem_read cs i n <> Err.
Proof.
  unfold mem_read. destruct (n <? 0); [congruence|]. revert i. induction (Z.to_nat n) as [|k IH]; intros i; cbn [rdcells]; [congruence|].
  pose proof (rdcell_not_err cs i). destruct (rdcell cs i); cbn [bind]; try congruence.
  specialize (IH (i + 1)). destruct (rdcells cs (i + 1) k); cbn [bind]; congruence.
Qed.
Lemma mem_write_not_err l : forall cs i, mem_write cs i l <> Err.
Proof.
  induction l as [|x l IH]; intros cs i; cbn [mem_write]; [congruence|].
  unfold aset. destruct (_ && _); cbn [bind]; [apply IH|congruence].
Qed.

Lemma lit_sim cp f mp LB LC s h p : HSim mp LB LC s h -> cp = false \/ f <> Some 1%nat ->
  fsim cp f mp LB LC s h (o_literal f s p) (of_literal h p).
Proof.
  intros H Hf. destruct p as [mem|]; [|reflexivity]. unfold of_literal, o_literal.
  unfold new_counter at 1. cbv iota beta.
  destruct (calc_length mem) as [n| | |] eqn:Ec; cbn [bind]; try exact I;
    [|exfalso; revert Ec; apply calc_not_err].
  destruct (new_array (n + 1)) as [b| | |] eqn:Eb; cbn [bind]; try exact I; [|exfalso; revert Eb; apply new_array_not_err].
  destruct (mem_read (map Some mem) 0 (n + 1)) as [src| | |] eqn:Er; cbn [bind]; try exact I; [|exfalso; revert Er; apply mem_read_not_err].
  destruct (mem_write b 0 src) as [b2| | |] eqn:Ew; cbn [bind]; try exact I; [|exfalso; revert Ew; apply mem_write_not_err].
  unfold own. cbn [fsim].
  destruct (fails f) eqn:F1.
  { right. exists s, LB, LC. split; [reflexivity|]. split; [reflexivity|]. split; [exact H|]. left. apply fails_at in F1. auto. }
  destruct (fails (next f)) eqn:F2.
  { right. eexists _, _, _. split; [reflexivity|]. split; [|split].
    2: exact (leak_counter _ _ _ _ _ H). { reflexivity. }
    right. right. pose proof (fails_at2 _ F1 F2) as ->. destruct Hf as [->|]; [|congruence]. auto. }
  left. unfold new_buffer. cbn [bufs cnts ovars]. eexists _, _, _. split; [reflexivity|]. split; [reflexivity|].
  now apply pair_alloc.
Qed.

Ltac go H := let E := fresh "E" in match goal with
  | |- fsim _ _ _ _ _ _ _ _ (bind ?r _) => destruct r eqn:E; cbn [bind]; try exact I;
      [|exfalso; revert E; (apply calc_not_err || apply new_array_not_err || apply aget_not_err || apply rdcell_not_err
                 || apply mem_read_not_err || apply mem_write_not_err)]
  end.

Lemma take_sim cp f mp LB LC s h mem n : HSim mp LB LC s h ->
  fsim cp f mp LB LC s h (o_take_over f s mem n) (take_over h mem n).
Proof.
  intros H. unfold take_over, o_take_over. destruct (n <? 0); [reflexivity|].
  go H. destruct (negb _); [reflexivity|]. unfold own. cbn [fsim].
  destruct (fails f) eqn:F1.
  { right. exists s, LB, LC. split; [reflexivity|]. split; [reflexivity|]. split; [exact H|]. left. apply fails_at in F1. auto. }
  left. unfold new_counter, new_buffer. cbn [bufs cnts ovars]. eexists _, _, _. split; [reflexivity|]. split; [reflexivity|].
  now apply pair_alloc.
Qed.

Lemma from_sim f mp LB LC s h mem n : HSim mp LB LC s h ->
  fsim true f mp LB LC s h (o_copy_from f s mem n) (copy_from h mem n).
Proof.
  intros H. unfold copy_from, o_copy_from. destruct (n <? 0); [reflexivity|]. destruct (n >? 0).
  2:{ left. exists s, oempty, []. rewrite app_nil_r. split; [reflexivity|]. split; [reflexivity|]. split; [exact H|]. eapply srel_empty; exact H. }
  go H. go H. go H. go H. unfold own. cbn [fsim].
  destruct (fails f) eqn:F1.
  { right. exists s, LB, LC. split; [reflexivity|]. split; [reflexivity|]. split; [exact H|]. left. apply fails_at in F1. auto. }
  cbn [bind]. unfold new_buffer. cbv iota beta.
  destruct (fails (next f)) eqn:F2.
  { right. unfold odec. cbn [octr bind]. eexists _, _, _. split; [reflexivity|]. split; [|split].
    2: exact (leak_buffer _ _ _ _ _ H _). { reflexivity. }
    right. left. pose proof (fails_at2 _ F1 F2) as ->. auto. }
  left. unfold new_counter. cbn [bufs cnts ovars]. eexists _, _, _. split; [reflexivity|]. split; [reflexivity|].
  now apply pair_alloc.
Qed.

Lemma unm_sim mp LB LC s h p : HSim mp LB LC s h ->
  match unmanaged h p with
  | Ok (h', y) => exists s' x a, o_unmanaged s p = Ok (s', x) /\ ovars s' = ovars s /\ HSim mp LB LC s' h /\
      HSim (mp ++ [a]) LB LC s' h' /\ srel (mp ++ [a]) x y
  | Err => o_unmanaged s p = Err
  | _ => True
  end.
Proof.
  intros H. destruct p as [mem|]; [|reflexivity]. unfold unmanaged, o_unmanaged.
  destruct (calc_length mem) as [n| | |] eqn:Ec; cbn [bind]; try exact I; [|exfalso; revert Ec; apply calc_not_err].
  unfold new_buffer. eexists _, _, _. split; [reflexivity|]. split; [reflexivity|]. split; [|split].
  - exact (extra_static _ _ _ _ _ H _).
  - exact (both_static _ _ _ _ _ H _).
  - exists (length (bufs s)), None. cbn [buf managed start len real obuf octr ostart olen oreal].
    rewrite <- (hs_len _ _ _ _ _ H), nth_app_last. repeat split.
Qed.

Lemma inc_cases h y : (exists h', inc h y = Ok h') \/ inc h y = UB.
Proof. unfold inc. destruct (managed y); [|eauto]. destruct (nth_error h (buf y)) as [[| |]|]; eauto. Qed.
Lemma dec_cases h y : (exists h', dec h y = Ok h') \/ dec h y = UB.
Proof. unfold dec. destruct (managed y); [|eauto]. destruct (nth_error h (buf y)) as [[| |]|]; eauto. Qed.
Lemma cells_cases h b : (exists cs, cells_of h b = Ok cs) \/ cells_of h b = UB.
Proof. unfold cells_of. destruct (nth_error h b) as [[| |]|]; eauto. Qed.

Lemma copy_sim cp f mp LB LC s h x y : HSim mp LB LC s h -> srel mp x y ->
  fsim cp f mp LB LC s h (o_copy s x) (copy h y).
Proof.
  intros H R. unfold copy, o_copy. destruct (inc_cases h y) as [[h' E]|E]; rewrite E; cbn [bind]; [|exact I].
  destruct (oinc_ok _ _ _ _ _ _ _ _ H R E) as (s' & -> & Ev & H'). cbn [bind]. left. exists s', x, []. rewrite app_nil_r. auto.
Qed.
Lemma sub_sim cp f mp LB LC s h x y i n : HSim mp LB LC s h -> srel mp x y ->
  fsim cp f mp LB LC s h (o_sub_unsafe s x i n) (sub_unsafe h y i n).
Proof.
  intros H R. unfold sub_unsafe, o_sub_unsafe. destruct (n <=? 0).
  { left. exists s, oempty, []. rewrite app_nil_r. split; [reflexivity|]. split; [reflexivity|]. split; [exact H|]. eapply srel_empty; exact H. }
  destruct (inc_cases h y) as [[h' E]|E]; rewrite E; cbn [bind]; [|exact I].
  destruct (oinc_ok _ _ _ _ _ _ _ _ H R E) as (s' & -> & Ev & H'). cbn [bind]. left. eexists s', _, []. rewrite app_nil_r.
  split; [reflexivity|]. split; [exact Ev|]. split; [exact H'|].
  destruct R as (p & q & R1 & R2 & R3 & R4 & R5 & R6). exists p, q. cbn [buf managed start len real obuf octr ostart olen oreal].
  repeat split; auto. congruence.
Qed.

Lemma srel_fields mp x y : srel mp x y -> ostart x = start y /\ olen x = len y /\ oreal x = real y.
Proof. intros (p & q & _ & _ & _ & ?). tauto. Qed.

Lemma replace_sim cp f mp LB LC s h x y t u i n : HSim mp LB LC s h -> srel mp x y -> srel mp t u -> f <> Some 1%nat ->
  fsim cp f mp LB LC s h (o_replace f s x t i n) (replace_unsafe h y u i n).
Proof.
  intros H R1 R2 Hf. unfold replace_unsafe, o_replace.
  destruct (srel_fields _ _ _ R1) as (-> & -> & _). destruct (srel_fields _ _ _ R2) as (-> & -> & _).
  destruct (_ && _); [now apply copy_sim|]. destruct (_ && _); [now apply copy_sim|].
  unfold new_counter. cbv iota beta zeta.
  go H.
  destruct (cells_cases h (buf y)) as [[cs C1]|C1]; rewrite C1; cbn [bind]; [|exact I].
  destruct (cells_cases h (buf u)) as [[ss C2]|C2]; rewrite C2; cbn [bind]; [|exact I].
  pose proof (ocells_ok _ _ _ _ _ _ _ H R1 _ C1) as D1. pose proof (ocells_ok _ _ _ _ _ _ _ H R2 _ C2) as D2.
  unfold ocells in *. cbn [bufs]. rewrite D1, D2. cbn [bind].
  go H. go H. go H. go H. go H. go H. go H. unfold own. cbn [fsim].
  destruct (fails f) eqn:F1.
  { right. exists s, LB, LC. split; [reflexivity|]. split; [reflexivity|]. split; [exact H|]. left. apply fails_at in F1. auto. }
  destruct (fails (next f)) eqn:F2; [exfalso; apply Hf; now apply fails_at2|].
  left. cbn [bind]. rewrite ?E0, ?E1, ?E2, ?E3, ?E4, ?E5, ?E6; cbn [bind].
  unfold new_buffer. cbn [bufs cnts ovars]. eexists _, _, _. split; [reflexivity|]. split; [reflexivity|].
  now apply pair_alloc.
Qed.

(* dropping a static block of the right side *)
Lemma forget mp a LB LC s h cs : HSim (mp ++ [a]) LB LC s (h ++ [Static cs]) -> (0 < length mp)%nat -> HSim mp LB LC s h.
Proof.
  intros H L. pose proof (hs_len _ _ _ _ _ H) as Hl. rewrite !app_length in Hl. cbn in Hl.
  assert (Hl' : length mp = length h) by lia. destruct a as [pa qa].
  assert (Ha : nth_error (bufs s) pa = Some (BStatic cs) /\ qa = None).
  { pose proof (hs_blk _ _ _ _ _ H (length mp) pa qa (nth_app_last _ _)) as B. rewrite Hl', nth_app_last in B. exact B. }
  assert (Hin : forall b p q, nth_error mp b = Some (p, q) -> nth_error (mp ++ [(pa, qa)]) b = Some (p, q)) by (intros; now apply nth_app_l).
  constructor.
  - exact Hl'.
  - pose proof (hs_zero _ _ _ _ _ H) as Z0. rewrite nth_error_app1 in Z0 by exact L. exact Z0.
  - intros b p q E. pose proof (hs_blk _ _ _ _ _ H _ _ _ (Hin _ _ _ E)) as B.
    rewrite nth_error_app1 in B by (rewrite <- Hl'; eapply nth_lt; exact E). exact B.
  - intros b b' p q q' E E'. exact (hs_injb _ _ _ _ _ H _ _ _ _ _ (Hin _ _ _ E) (Hin _ _ _ E')).
  - intros b b' p p' c E E'. exact (hs_injc _ _ _ _ _ H _ _ _ _ _ (Hin _ _ _ E) (Hin _ _ _ E')).
  - intros p cs' E. destruct (hs_covb _ _ _ _ _ H _ _ E) as [?|(b & q & E')]; [now left|].
    apply nth_app_inv in E' as [E'|[_ E']]; [right; eauto|]. injection E' as -> ->. destruct Ha as [Ha _]. congruence.
  - intros c n E. destruct (hs_covc _ _ _ _ _ H _ _ E) as [?|(b & q & E')]; [now left|].
    apply nth_app_inv in E' as [E'|[_ E']]; [right; eauto|]. injection E' as -> <-. destruct Ha as [_ Ha]. congruence.
  - intros p cs' E. destruct (hs_lb _ _ _ _ _ H _ _ E) as [E1 E2]. split; [exact E1|]. intros b q E3. exact (E2 _ _ (Hin _ _ _ E3)).
  - intros c E. destruct (hs_lc _ _ _ _ _ H _ E) as [E1 E2]. split; [exact E1|]. intros b q E3. exact (E2 _ _ (Hin _ _ _ E3)).
  - apply H.
  - apply H.
Qed.

(* a call with a temporary unmanaged string *)
Lemma temp_sim cp f mp LB LC s h p (k : ostate -> ostr -> res (ostate * outcome ostr)) (K : heap -> str -> res (heap * str)) :
  HSim mp LB LC s h ->
  (forall mp' s' h' x y, HSim (mp ++ mp') LB LC s' h' -> srel (mp ++ mp') x y -> fsim cp f (mp ++ mp') LB LC s' h' (k s' x) (K h' y)) ->
  fsim cp f mp LB LC s h
    (do (s, t) <- o_unmanaged s p; do (s, r) <- k s t; do s <- odec s t; Ok (s, r))
    (do (h, t) <- unmanaged h p; do (h, r) <- K h t; do h <- dec h t; Ok (h, r)).
Proof.
  intros H Hk. pose proof (unm_sim _ _ _ _ _ p H) as U.
  assert (Hm : forall h' y, unmanaged h p = Ok (h', y) -> managed y = false /\ exists cs, h' = h ++ [Static cs]).
  { intros h' y E. unfold unmanaged in E. destruct p as [mem|]; [|discriminate].
    destruct (calc_length mem); cbn [bind] in E; try discriminate. injection E as <- <-. cbn. eauto. }
  destruct (unmanaged h p) as [[h1 t]| | |] eqn:Eu; cbn [bind]; try exact I.
  2:{ cbn [fsim]. rewrite U. reflexivity. }
  destruct U as (s1 & x & a & -> & Ev1 & Hb & H1 & R1). cbn [bind].
  destruct (Hm _ _ eq_refl) as [Mt [cs Eh1]].
  specialize (Hk [a] s1 h1 x t H1 R1). unfold fsim in Hk.
  destruct (K h1 t) as [[h2 y]| | |]; cbn [bind]; try exact I.
  2:{ cbn [fsim]. rewrite Hk. reflexivity. }
  unfold dec. rewrite Mt. cbn [bind fsim].
  assert (Ox : octr x = None) by (destruct R1 as (? & ? & _ & _ & R & _); rewrite Mt in R; exact R).
  destruct Hk as [(s2 & x2 & mp2 & -> & Ev2 & H2 & R2)|(s2 & LB' & LC' & -> & Ev2 & H2 & C)]; cbn [bind];
    unfold odec; rewrite Ox; cbn [bind].
  - left. exists s2, x2, ([a] ++ mp2). rewrite app_assoc. split; [reflexivity|]. split; [congruence|]. auto.
  - right. exists s2, LB', LC'. split; [reflexivity|]. split; [congruence|]. split; [|exact C]. subst h1. eapply forget; [exact H2|].
    eapply nth_lt. exact (hs_zero _ _ _ _ _ H).
Qed.

Lemma replace_lit_sim cp f mp LB LC s h x y p i n : HSim mp LB LC s h -> srel mp x y -> f <> Some 1%nat ->
  fsim cp f mp LB LC s h (o_replace_lit f s x p i n) (replace_unsafe_lit h y p i n).
Proof.
  intros H R Hf. unfold replace_unsafe_lit, o_replace_lit. destruct (srel_fields _ _ _ R) as (_ & -> & _).
  assert (En : (match p with None => Ok true | Some mem => do c <- aget mem 0; Ok (c =? 0) end) <> Err).
  { destruct p as [mem|]; [|congruence]. pose proof (aget_not_err mem 0). destruct (aget mem 0); cbn; congruence. }
  destruct (match p with None => Ok true | Some mem => do c <- aget mem 0; Ok (c =? 0) end) as [nothing| | |]; cbn [bind]; try exact I;
    [|congruence].
  destruct (_ && _); [now apply copy_sim|]. destruct (_ && _); [apply lit_sim; auto|].
  apply (temp_sim cp f mp LB LC s h p (fun s t => o_replace f s x t i n) (fun h t => replace_unsafe h y t i n) H).
  intros mp' s' h' x' y' H' R'. apply replace_sim; auto using srel_app.
Qed.

Lemma lit_concat_sim cp f mp LB LC s h x y p : HSim mp LB LC s h -> srel mp x y -> f <> Some 1%nat ->
  fsim cp f mp LB LC s h (o_lit_concat f s p x) (lit_concat h p y).
Proof.
  intros H R Hf. unfold lit_concat, o_lit_concat. destruct (srel_fields _ _ _ R) as (_ & -> & _).
  destruct (_ =? 0); [apply lit_sim; auto|].
  apply (temp_sim cp f mp LB LC s h p (fun s t => o_concat f s t x) (fun h t => concat h t y) H).
  intros mp' s' h' x' y' H' R'. unfold o_concat, concat. destruct (srel_fields _ _ _ R') as (_ & -> & _).
  apply replace_sim; auto using srel_app.
Qed.

(* ---- states ------------------------------------------------------------------------ *)
Definition Sim mp LB LC (s : ostate) (t : state) : Prop :=
  HSim mp LB LC s (hp t) /\ Forall2 (vrel mp) (ovars s) (vars t).

Lemma hsim_vars mp LB LC s h s' : HSim mp LB LC s h -> bufs s' = bufs s -> cnts s' = cnts s -> HSim mp LB LC s' h.
Proof.
  destruct s as [b c v], s' as [b' c' v']. cbn. intros H -> ->. constructor; apply H.
Qed.

Lemma var_sim mp s t v : Forall2 (vrel mp) (ovars s) (vars t) ->
  match var t v with
  | Ok y => exists x, ovar s v = Ok x /\ srel mp x y
  | Err => False
  | _ => ovar s v = UB
  end.
Proof.
  intros H. unfold var, ovar. revert v. induction H as [|x y xs ys Hxy H IH]; intros [|v]; cbn [nth_error].
  - reflexivity.
  - reflexivity.
  - destruct x, y; cbn in Hxy; try tauto. exists o. auto.
  - exact (IH v).
Qed.
Lemma setvar_sim mp xs ys v x y : Forall2 (vrel mp) xs ys -> vrel mp x y -> Forall2 (vrel mp) (upd xs v x) (upd ys v y).
Proof. intros H Hx. revert v. induction H; intros [|v]; cbn; constructor; auto. Qed.

Definition cps (e : expr) : bool := match e with ECopyFrom _ _ => true | _ => false end.

Lemma eval_sim f mp LB LC s t e : Sim mp LB LC s t -> (joins e = true -> f <> Some 1%nat) ->
  match eval t e with
  | Ok (t', y) =>
      (exists s' x mp2, oeval f s e = Ok (s', Done x) /\ Sim (mp ++ mp2) LB LC s' t' /\ srel (mp ++ mp2) x y) \/
      (exists s' LB' LC', oeval f s e = Ok (s', Fail) /\ Sim mp LB' LC' s' t /\ costs (cps e) f LB LB' LC LC')
  | Err => oeval f s e = Err
  | _ => True
  end.
Proof.
  intros [H V] Hj.
  assert (K : forall r R, fsim (cps e) f mp LB LC s (hp t) r R ->
    match (do (h', x) <- R; Ok (mkState h' (vars t), x)) with
    | Ok (t', y) =>
      (exists s' x mp2, r = Ok (s', Done x) /\ Sim (mp ++ mp2) LB LC s' t' /\ srel (mp ++ mp2) x y) \/
      (exists s' LB' LC', r = Ok (s', Fail) /\ Sim mp LB' LC' s' t /\ costs (cps e) f LB LB' LC LC')
    | Err => r = Err
    | _ => True
    end).
  { intros r R F. destruct R as [[h' y]| | |]; cbn [bind]; auto. cbn [fsim] in F.
    destruct F as [(s' & x & mp2 & -> & Ev & H' & R')|(s' & LB' & LC' & -> & Ev & H' & C)].
    - left. exists s', x, mp2. split; [reflexivity|]. split; [|exact R']. split; [exact H'|]. cbn [vars]. rewrite Ev. now apply vrels_app.
    - right. exists s', LB', LC'. split; [reflexivity|]. split; [|exact C]. split; [exact H'|]. now rewrite Ev. }
  destruct e; cbn [eval oeval joins] in *; try (specialize (Hj eq_refl)).
  all: repeat match goal with Hv : Forall2 (vrel _) _ (vars ?u) |- context [bind (var ?u ?w) _] =>
         let X := fresh "X" in pose proof (var_sim _ _ _ w Hv) as X; destruct (var u w) eqn:?; cbn [bind];
         [destruct X as (? & X & ?); rewrite X; cbn [bind] | now exfalso | exact I | exact I] end.
  - apply K. left. exists s, oempty, []. rewrite app_nil_r. split; [reflexivity|]. split; [reflexivity|]. split; [exact H|]. eapply srel_empty; exact H.
  - apply K. apply lit_sim; auto.
  - apply K. now apply take_sim.
  - apply K. apply lit_sim; auto.
  - apply K. now apply from_sim.
  - apply K. pose proof (unm_sim _ _ _ _ _ p H) as U. destruct (unmanaged (hp t) p) as [[h' y]| | |]; cbn [fsim]; auto.
    + destruct U as (s' & x & a & -> & Ev & _ & H' & R'). cbn [bind]. left. exists s', x, [a]. auto.
    + rewrite U. reflexivity.
  - apply K. now apply copy_sim.
  - left. eexists _, _, []. split; [reflexivity|]. rewrite app_nil_r. split; [|eassumption]. split; [eapply hsim_vars; [exact H|reflexivity|reflexivity]|].
    cbn [osetvar ovars setvar vars]. apply setvar_sim; [exact V|]. cbn. eapply srel_empty; exact H.
  - apply K. unfold o_left, left. edestruct srel_fields as (_ & -> & _); [eassumption|]. destruct (_ && _); [now apply sub_sim|reflexivity].
  - apply K. unfold o_right, right. edestruct srel_fields as (_ & -> & _); [eassumption|]. destruct (_ && _); [now apply sub_sim|reflexivity].
  - apply K. unfold o_sub, sub. edestruct srel_fields as (_ & -> & _); [eassumption|]. destruct (_ && _); [|reflexivity].
    unfold vadd. destruct (_ && _); cbn [bind]; [|exact I]. destruct (_ && _); [now apply sub_sim|reflexivity].
  - apply K. unfold o_remove, remove. edestruct srel_fields as (_ & -> & _); [eassumption|]. destruct (_ && _); [|reflexivity].
    unfold vadd. destruct (_ && _); cbn [bind]; [|exact I]. destruct (_ && _); [|reflexivity].
    apply replace_sim; auto. eapply srel_empty; exact H.
  - apply K. unfold o_insert, insert. edestruct (fun a b => srel_fields mp a b) as (_ & -> & _); [eassumption|]. destruct (_ && _); [|reflexivity].
    apply replace_sim; auto.
  - apply K. unfold o_concat, concat. edestruct (fun a b => srel_fields mp a b) as (_ & -> & _); [eassumption|]. apply replace_sim; auto.
  - apply K. unfold o_concat_lit, concat_lit. edestruct srel_fields as (_ & -> & _); [eassumption|]. now apply replace_lit_sim.
  - apply K. now apply lit_concat_sim.
Qed.

Lemma move_sim mp LB LC s t v x y : Sim mp LB LC s t -> srel mp x y ->
  match move_into t v y with
  | Ok t' => exists s', omove_into s v x = Ok s' /\ Sim mp LB LC s' t'
  | Err => False
  | _ => True
  end.
Proof.
  intros [H V] R. unfold move_into, omove_into. pose proof (var_sim _ _ _ v V) as X.
  destruct (var t v) as [old| | |]; cbn [bind]; auto. destruct X as (ox & -> & Ro). cbn [bind].
  destruct (dec_cases (hp t) old) as [[h' E]|E]; rewrite E; cbn [bind]; [|exact I].
  destruct (odec_ok _ _ _ _ _ _ _ _ H Ro E) as (s' & -> & Ev & H'). cbn [bind]. eexists. split; [reflexivity|].
  split; [eapply hsim_vars; [exact H'|reflexivity|reflexivity]|]. cbn [osetvar ovars setvar vars]. rewrite Ev. now apply setvar_sim.
Qed.

Lemma nth_vrel mp xs ys v : Forall2 (vrel mp) xs ys ->
  match nth_error xs v, nth_error ys v with
  | Some x, Some y => vrel mp x y
  | None, None => True
  | _, _ => False
  end.
Proof. intros H. revert v. induction H; intros [|v]; cbn; auto. apply IHForall2. Qed.

Lemma step_raw_sim f mp LB LC s t o : Sim mp LB LC s t -> tolerated o f = true ->
  match step_raw t o with
  | Ok (t', y) =>
      (exists s' mp2, ostep_raw s o f = Ok (s', ROut y) /\ Sim (mp ++ mp2) LB LC s' t') \/
      (exists s' LB' LC', ostep_raw s o f = Ok (s', RNoMemory) /\ Sim mp LB' LC' s' t /\ costs (copies o) f LB LB' LC LC')
  | Err => ostep_raw s o f = Err
  | _ => True
  end.
Proof.
  intros S Ht. pose proof S as [H V]. 
  destruct o; cbn [step_raw ostep_raw].
  - (* OInit *)
    pose proof (nth_vrel _ _ _ v V) as X.
    destruct (nth_error (vars t) v) as [[y|]|] eqn:Ev; try exact I.
    destruct (nth_error (ovars s) v) as [[x|]|] eqn:Ev'; try (now exfalso).
    assert (Hj : joins e = true -> f <> Some 1%nat) by (intros J ->; cbn in Ht; rewrite J in Ht; discriminate).
    pose proof (eval_sim f mp LB LC s t e S Hj) as E. destruct (eval t e) as [[t' y]| | |]; cbn [bind]; auto.
    + destruct E as [(s' & x & mp2 & -> & [H' V'] & R')|(s' & LB' & LC' & -> & S' & C)]; cbn [bind].
      * left. eexists _, mp2. split; [reflexivity|]. split; [eapply hsim_vars; [exact H'|reflexivity|reflexivity]|].
        cbn [osetvar ovars setvar vars]. apply setvar_sim; [exact V'|exact R'].
      * right. exists s', LB', LC'. split; [reflexivity|]. split; [exact S'|]. destruct e; exact C.
    + rewrite E. reflexivity.
  - (* OSet *)
    pose proof (var_sim _ _ _ v V) as X. destruct (var t v) as [y0| | |]; cbn [bind]; auto. 2: now exfalso.
    destruct X as (x0 & -> & _). cbn [bind].
    assert (Hj : joins e = true -> f <> Some 1%nat) by (intros J ->; cbn in Ht; rewrite J in Ht; discriminate).
    pose proof (eval_sim f mp LB LC s t e S Hj) as E. destruct (eval t e) as [[t' y]| | |]; cbn [bind]; auto.
    + destruct E as [(s' & x & mp2 & -> & S' & R')|(s' & LB' & LC' & -> & S' & C)]; cbn [bind].
      * pose proof (move_sim _ _ _ _ _ v _ _ S' R') as M. destruct (move_into t' v y) as [t2| | |]; cbn [bind]; auto. 2: now exfalso.
        destruct M as (s2 & -> & S2). cbn [bind]. change (dec (hp t2) empty) with (@Ok heap (hp t2)). cbn [bind].
        left. eexists _, mp2. split; [reflexivity|]. destruct t2 as [hh vv]. exact S2.
      * destruct (move_into t' v y) as [t2| | |] eqn:EM; cbn [bind]; auto.
        2:{ unfold move_into in EM. destruct (var t' v) as [z| | |] eqn:EV; cbn [bind] in EM; try discriminate.
            - destruct (dec_cases (hp t') z) as [[? D]|D]; rewrite D in EM; discriminate.
            - unfold var in EV. destruct (nth_error (vars t') v) as [[|]|]; discriminate. }
        change (dec (hp t2) empty) with (@Ok heap (hp t2)). cbn [bind].
        right. exists s', LB', LC'. split; [reflexivity|]. split; [exact S'|]. destruct e; exact C.
    + rewrite E. reflexivity.
  - (* OAssign *)
    pose proof (var_sim _ _ _ v V) as X. destruct (var t v) as [y| | |]; cbn [bind]; auto. 2: now exfalso.
    destruct X as (x & -> & Rx). cbn [bind].
    pose proof (var_sim _ _ _ w V) as X. destruct (var t w) as [y2| | |]; cbn [bind]; auto. 2: now exfalso.
    destruct X as (x2 & -> & Rx2). cbn [bind].
    destruct (Nat.eqb v w). { left. exists s, []. rewrite app_nil_r. auto. }
    destruct (dec_cases (hp t) y) as [[h1 D]|D]; rewrite D; cbn [bind]; [|exact I].
    destruct (odec_ok _ _ _ _ _ _ _ _ H Rx D) as (s1 & -> & Ev1 & H1). cbn [bind].
    destruct (inc_cases h1 y2) as [[h2 D2]|D2]; rewrite D2; cbn [bind]; [|exact I].
    destruct (oinc_ok _ _ _ _ _ _ _ _ H1 Rx2 D2) as (s2 & -> & Ev2 & H2). cbn [bind].
    left. eexists _, []. rewrite app_nil_r. split; [reflexivity|]. split; [eapply hsim_vars; [exact H2|reflexivity|reflexivity]|].
    cbn [osetvar ovars setvar vars]. rewrite Ev2, Ev1. apply setvar_sim; [exact V|exact Rx2].
  - (* OMoveAssign *)
    pose proof (var_sim _ _ _ v V) as X. destruct (var t v) as [y| | |]; cbn [bind]; auto. 2: now exfalso.
    destruct X as (x & -> & Rx). cbn [bind].
    pose proof (var_sim _ _ _ w V) as X. destruct (var t w) as [y2| | |]; cbn [bind]; auto. 2: now exfalso.
    destruct X as (x2 & -> & Rx2). cbn [bind].
    destruct (Nat.eqb v w). { left. exists s, []. rewrite app_nil_r. auto. }
    pose proof (move_sim _ _ _ _ _ v _ _ S Rx2) as M. destruct (move_into t v y2) as [t2| | |]; cbn [bind]; auto. 2: now exfalso.
    destruct M as (s2 & -> & [H2 V2]). cbn [bind].
    left. eexists _, []. rewrite app_nil_r. split; [reflexivity|]. split; [eapply hsim_vars; [exact H2|reflexivity|reflexivity]|].
    cbn [osetvar ovars setvar vars]. apply setvar_sim; [exact V2|]. cbn. eapply srel_empty; exact H.
  - (* ODestroy *)
    pose proof (var_sim _ _ _ v V) as X. destruct (var t v) as [y| | |]; cbn [bind]; auto. 2: now exfalso.
    destruct X as (x & -> & Rx). cbn [bind].
    destruct (dec_cases (hp t) y) as [[h1 D]|D]; rewrite D; cbn [bind]; [|exact I].
    destruct (odec_ok _ _ _ _ _ _ _ _ H Rx D) as (s1 & -> & Ev1 & H1). cbn [bind].
    left. eexists _, []. rewrite app_nil_r. split; [reflexivity|]. split; [eapply hsim_vars; [exact H1|reflexivity|reflexivity]|].
    cbn [osetvar ovars setvar vars]. rewrite Ev1. apply setvar_sim; [exact V|exact I].
  - (* OBuffer *)
    unfold o_buffer. pose proof (var_sim _ _ _ v V) as X. destruct (var t v) as [y| | |] eqn:EV; cbn [bind]; auto. 2: now exfalso.
    destruct X as (x & -> & Rx). cbn [bind]. unfold buffer. pose proof (srel_fields _ _ _ Rx) as (-> & -> & ->).
    destruct (negb _) eqn:En.
    + destruct (new_array (len y + 1)) as [b| | |] eqn:E1; cbn [bind]; auto. 2:{ exfalso; revert E1; apply new_array_not_err. }
      destruct (cells_cases (hp t) (buf y)) as [[cs C1]|C1]; rewrite C1; cbn [bind]; [|exact I].
      rewrite (ocells_ok _ _ _ _ _ _ _ H Rx _ C1). cbn [bind].
      destruct (mem_read cs (start y) (len y)) as [p| | |] eqn:E2; cbn [bind]; auto. 2:{ exfalso; revert E2; apply mem_read_not_err. }
      destruct (mem_write b 0 p) as [b1| | |] eqn:E3; cbn [bind]; auto. 2:{ exfalso; revert E3; apply mem_write_not_err. }
      destruct (mem_write b1 (len y) [0]) as [b2| | |] eqn:E4; cbn [bind]; auto. 2:{ exfalso; revert E4; apply mem_write_not_err. }
      destruct (dec_cases (hp t) y) as [[h1 D]|D]; rewrite D; cbn [bind]; [|exact I].
      unfold own, cells_of. cbn [bind buf]. rewrite nth_app_last. cbn [bind start].
      destruct (fails f) eqn:F1.
      { right. cbn [bind]. exists s, LB, LC. split; [reflexivity|]. split; [exact S|]. left. apply fails_at in F1. auto. }
      pose proof (leak_buffer _ _ _ _ _ H b2) as HL. unfold new_buffer in *. cbn [fst] in HL.
      destruct (odec_ok _ _ _ _ _ _ _ _ HL Rx D) as (s1 & -> & Ev1 & H1). cbn [bind].
      destruct (fails (next f)) eqn:F2. { exfalso. pose proof (fails_at2 _ F1 F2) as ->. discriminate Ht. }
      pose proof (leak_counter _ _ _ _ _ H1) as H2. unfold new_counter in *. cbn [fst bind obuf] in *.
      pose proof (proj1 (hs_lb _ _ _ _ _ H2 _ _ (or_introl eq_refl))) as Hb.
      apply adopt in H2. unfold osetvar, ocells. cbn [bufs cnts ovars] in *. rewrite Hb. cbn [bind ostart].
      left. eexists _, _. split; [reflexivity|]. split; [eapply hsim_vars; [exact H2|reflexivity|reflexivity]|].
      cbn [ovars setvar vars]. rewrite Ev1. cbn [ovars]. apply setvar_sim; [now apply vrels_app|].
      cbn [vrel]. eexists _, _. cbn [buf managed start len real obuf octr ostart olen oreal].
      rewrite <- (hs_len _ _ _ _ _ H1), nth_app_last. repeat split; congruence.
    + cbn [bind]. destruct (cells_cases (hp t) (buf y)) as [[cs C1]|C1]; rewrite C1; cbn [bind]; [|exact I].
      rewrite (ocells_ok _ _ _ _ _ _ _ H Rx _ C1). cbn [bind]. rewrite (proj1 (srel_fields _ _ _ Rx)).
      left. eexists _, []. rewrite app_nil_r. split; [reflexivity|].
      assert (Eu : setvar t (hp t) v (Some y) = t).
      { unfold setvar. destruct t as [hh vv]. cbn [hp vars] in *. f_equal. apply upd_mem.
        unfold var in EV. cbn [vars] in EV. destruct (nth_error vv v) as [[z|]|]; congruence. }
      rewrite Eu. exact S.
  - pose proof (var_sim _ _ _ v V) as X. destruct (var t v) as [y| | |]; cbn [bind]; auto. 2: now exfalso.
    destruct X as (x & -> & Rx). cbn [bind]. unfold at_, o_at. pose proof (srel_fields _ _ _ Rx) as (-> & -> & _).
    destruct (_ && _); [|reflexivity]. destruct (cells_cases (hp t) (buf y)) as [[cs C1]|C1]; rewrite C1; cbn [bind]; [|exact I].
    rewrite (ocells_ok _ _ _ _ _ _ _ H Rx _ C1). cbn [bind]. destruct (rdcell cs (start y + i)) eqn:E; cbn [bind]; auto.
    left. exists s, []. rewrite app_nil_r. auto.
  - pose proof (var_sim _ _ _ v V) as X. destruct (var t v) as [y| | |]; cbn [bind]; auto. 2: now exfalso.
    destruct X as (x & -> & Rx). cbn [bind]. pose proof (srel_fields _ _ _ Rx) as (_ & -> & _).
    left. exists s, []. rewrite app_nil_r. auto.
  - pose proof (var_sim _ _ _ v V) as X. destruct (var t v) as [y| | |]; cbn [bind]; auto. 2: now exfalso.
    destruct X as (x & -> & Rx). cbn [bind]. unfold index_of, o_index_of. pose proof (srel_fields _ _ _ Rx) as (-> & -> & _).
    destruct (cells_cases (hp t) (buf y)) as [[cs C1]|C1]; rewrite C1; cbn [bind]; [|exact I].
    rewrite (ocells_ok _ _ _ _ _ _ _ H Rx _ C1). cbn [bind]. destruct (index_loop cs (start y) c 0 (Z.to_nat (len y))) eqn:E; cbn [bind]; auto.
    left. exists s, []. rewrite app_nil_r. auto.
  - pose proof (var_sim _ _ _ v V) as X. destruct (var t v) as [y| | |]; cbn [bind]; auto. 2: now exfalso.
    destruct X as (x & -> & Rx). cbn [bind].
    pose proof (var_sim _ _ _ w V) as X. destruct (var t w) as [y2| | |]; cbn [bind]; auto. 2: now exfalso.
    destruct X as (x2 & -> & Rx2). cbn [bind]. unfold compare, o_compare.
    pose proof (srel_fields _ _ _ Rx) as (-> & -> & _). pose proof (srel_fields _ _ _ Rx2) as (-> & -> & _).
    assert (Eb : Nat.eqb (obuf x) (obuf x2) = Nat.eqb (buf y) (buf y2)).
    { destruct Rx as (p & q & A1 & A2 & _), Rx2 as (p2 & q2 & B1 & B2 & _). rewrite A2, B2.
      destruct (Nat.eqb_spec (buf y) (buf y2)) as [N|N].
      - rewrite N in A1. rewrite A1 in B1. injection B1 as -> _. apply Nat.eqb_refl.
      - apply Nat.eqb_neq. intros ->. apply N. exact (hs_injb _ _ _ _ _ H _ _ _ _ _ A1 B1). }
    rewrite Eb. destruct (_ && _). { cbn [bind]. left. exists s, []. rewrite app_nil_r. auto. }
    destruct (cells_cases (hp t) (buf y)) as [[cs C1]|C1]; rewrite C1; cbn [bind]; [|exact I].
    destruct (cells_cases (hp t) (buf y2)) as [[cs2 C2]|C2]; rewrite C2; cbn [bind]; [|exact I].
    rewrite (ocells_ok _ _ _ _ _ _ _ H Rx _ C1), (ocells_ok _ _ _ _ _ _ _ H Rx2 _ C2). cbn [bind].
    destruct (cmp_loop _ _ _ _ _ _ _) eqn:E; cbn [bind]; auto.
    left. exists s, []. rewrite app_nil_r. auto.
Qed.
