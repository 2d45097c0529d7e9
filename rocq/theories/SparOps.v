(* Every operation of C60 is safe and computes what its specification says. *)
From Coq Require Import ZifyBool ZifyNat Permutation.
From Verif Require Import Base BaseFacts MbSpec SparModel SparSpec SparHeap SparSafe.
Open Scope Z_scope.

(* lists of things that own chunks *)
Section all.
  Context {A B : Type} (ok : A -> B -> list chunk -> Prop).
  Inductive all_ok : list A -> list B -> list chunk -> Prop :=
  | ao_nil R : R = [] -> all_ok [] [] R
  | ao_cons a b r l m R' R : ok a b r -> all_ok l m R' -> Permutation R (r ++ R') -> all_ok (a :: l) (b :: m) R.
  Lemma all_perm l m R R' : all_ok l m R -> Permutation R' R -> all_ok l m R'.
  Proof.
    intros [R0 E|a b r l0 m0 R0 R1 H1 H2 P] Q.
    - constructor. subst. now apply Permutation_sym, Permutation_nil in Q.
    - econstructor; eauto. now rewrite Q.
  Qed.
  Lemma all_len l m R : all_ok l m R -> length l = length m.
  Proof. induction 1; cbn; auto. Qed.
  Lemma all_at l m R : all_ok l m R -> forall i a, nth_error l i = Some a ->
    exists b r R', nth_error m i = Some b /\ ok a b r /\ Permutation R (r ++ R') /\
      (forall a' b' r', ok a' b' r' -> all_ok (upd l i a') (upd m i b') (r' ++ R')) /\
      (forall j a' b', j <> i -> nth_error l j = Some a' -> nth_error m j = Some b' -> exists r', ok a' b' r' /\ incl r' R').
  Proof.
    induction 1 as [R E|a b r l m R1 R H1 H2 IH P]; intros i x E'; [destruct i; discriminate|]. destruct i as [|i].
    - injection E' as <-. exists b, r, R1. split; [reflexivity|]. split; [exact H1|]. split; [exact P|]. split.
      + intros a' b' r' K. cbn [upd]. econstructor; eauto.
      + intros j a' b' N J1 J2. destruct j as [|j]; [lia|]. cbn in J1, J2. clear -H2 J1 J2. revert j J1 J2. revert l m R1 H2.
        induction 1 as [R E|a b r l m R1 R H1 H2 IH P]; intros j J1 J2; [destruct j; discriminate|]. destruct j as [|j].
        * injection J1 as <-. injection J2 as <-. exists r. split; [exact H1|]. intros q Hq. eapply Permutation_in; [apply Permutation_sym, P|]. apply in_or_app. auto.
        * destruct (IH _ J1 J2) as (r' & K & I). exists r'. split; [exact K|]. intros q Hq. eapply Permutation_in; [apply Permutation_sym, P|]. apply in_or_app. auto.
    - cbn in E'. destruct (IH _ _ E') as (b' & r' & R' & K1 & K2 & K3 & K4 & K5). exists b', r', (r ++ R'). split; [exact K1|]. split; [exact K2|].
      split; [rewrite P, K3; rewrite !app_assoc; apply Permutation_app_tail, Permutation_app_comm|]. split.
      + intros a'' b'' r'' K. cbn [upd]. econstructor; [exact H1|apply K4, K|]. rewrite !app_assoc. apply Permutation_app_tail, Permutation_app_comm.
      + intros j a'' b'' N J1 J2. destruct j as [|j].
        * injection J1 as <-. injection J2 as <-. exists r. split; [exact H1|]. intros q Hq. apply in_or_app. auto.
        * destruct (K5 j _ _ ltac:(lia) J1 J2) as (q & Q1 & Q2). exists q. split; [exact Q1|]. intros z Hz. apply in_or_app. auto.
  Qed.
  Lemma all_none l m R i : all_ok l m R -> nth_error l i = None -> nth_error m i = None.
  Proof. intros H E. apply nth_error_None in E. apply nth_error_None. rewrite <- (all_len _ _ _ H). exact E. Qed.
  Lemma all_snoc l m R a b r : all_ok l m R -> ok a b r -> all_ok (l ++ [a]) (m ++ [b]) (r ++ R).
  Proof.
    intros H K. induction H as [R E|a' b' r' l m R' R H1 H2 IH P].
    - subst. cbn. econstructor; [exact K|now constructor|reflexivity].
    - cbn [app]. econstructor; [exact H1|exact IH|]. rewrite P, !app_assoc. apply Permutation_app_tail, Permutation_app_comm.
  Qed.
End all.
Notation env_ok := (all_ok var_ok).

Inductive pubs : list chunk -> list chunk -> Prop :=
| pubs_none R R' : Permutation R R' -> pubs R R'
| pubs_one R R' R1 b c l : Permutation R (PB b (map Some l) :: PC c 1 :: R') -> Permutation R1 (RF c b l :: R') -> pubs R R1.
Lemma hv_pubs m R R' F u : hinv m (R ++ F) u -> pubs R R' -> exists u', hinv m (R' ++ F) u'.
Proof.
  intros H K. destruct K as [R0 R1 P|R0 R1 R2 b c l P P2].
  - exists u. eapply hinv_perm; [|exact H]. now apply Permutation_app_tail.
  - pose proof (hinv_perm _ _ _ _ (Permutation_app_tail F P) H) as H'. cbn [app] in H'. apply hv_publish in H'. exists ((c, b, l) :: u).
    eapply hinv_perm; [|exact H']. rewrite P2. reflexivity.
Qed.
(* a new value for a variable *)
Inductive own : sv -> list Z -> list chunk -> Prop :=
| own_var v s r : var_ok v s r -> own v s r
| own_fresh b c s n : n = zlen s -> own (mkSv (Some b) (Some c) 0 n n) s (fresh b c s).
Lemma take_all l : ztake (zlen l) (zdrop 0 (l ++ [0])) = l.
Proof. unfold ztake, zdrop, zlen. cbn [Z.to_nat skipn]. rewrite Nat2Z.id, firstn_app, firstn_all, Nat.sub_diag. cbn. apply app_nil_r. Qed.
Lemma own_pubs v s n R R0 : own v s n -> Permutation R0 (n ++ R) -> exists r, var_ok v s r /\ pubs R0 (r ++ R).
Proof.
  intros [v' s' r V|b c s' k ->] P.
  - exists r. split; [exact V|]. now constructor.
  - exists [RF c b (s' ++ [0])]. split.
    + pose proof (vo_ref b c 0 (zlen s') (zlen s') (s' ++ [0])) as V. rewrite take_all in V. apply V; try (pose proof (zlen_nonneg s'); lia).
      * now rewrite zlen_app.
      * rewrite znth_z by (pose proof (zlen_nonneg s'); lia). rewrite zlen_to_nat, nth_error_app2, Nat.sub_diag by lia. reflexivity.
    + eapply pubs_one; [exact P|reflexivity].
Qed.

Definition coherent (l : list chunk) : Prop := forall c b t c' t', In (RF c b t) l -> In (RF c' b t') l -> t = t'.
Lemma hinv_coherent m l u : hinv m l u -> coherent l.
Proof.
  intros H c b t c' t' I J. apply (h_rf _ _ _ H) in I. apply (h_rf _ _ _ H) in J.
  pose proof (pub_inj_b _ _ _ _ _ _ _ (h_nb _ _ _ H) I J) as ->. eapply pub_fun; [exact (h_nc _ _ _ H)| |]; eauto.
Qed.

Section ops.
  Context (SH : list chunk) (shv : list sv) (sh : list (list Z)).
  Hypothesis Hsh : forall s v, nth_error shv s = Some v -> exists t, nth_error sh s = Some t /\ sees SH [] v t.
  Definition Q (vs : list (list Z)) (r : out) (R : list chunk) (p : SparModel.env * out) : Prop :=
    snd p = r /\ exists R0, pubs R R0 /\ env_ok (fst p) vs R0.
  Notation sf vs r := (safe SH shv (Q vs r)).
  Definition src_fine (x : src) : Prop := match x with Own _ => True | Sh s => (s < length shv)%nat end.
  Definition op_fine (o : op) : Prop :=
    match o with
    | OCopy _ x | OSub _ x _ _ | ORemove _ x _ _ | OAt x _ => src_fine x
    | OInsert _ x _ y | OCompare x y => src_fine x /\ src_fine y
    | OBuffer (Sh s) => exists v, nth_error shv s = Some v /\ sstart v + slen v = sreal v
    | OSend _ _ | OReceive _ => False
    | _ => True
    end.
  Lemma sees_env e vs R w v : env_ok e vs R -> nth_error e w = Some v -> exists t, nth_error vs w = Some t /\ sees SH R v t.
  Proof.
    intros H E. destruct (all_at _ _ _ _ H _ _ E) as (t & r & R' & K1 & K2 & K3 & _). exists t. split; [exact K1|]. exists r. split; [exact K2|].
    intros x Hx. apply in_or_app. left. eapply Permutation_in; [apply Permutation_sym, K3|]. apply in_or_app. auto.
  Qed.
  Lemma safe_pick {A} (P : list chunk -> A -> Prop) e vs R x bad (k : sv -> code A) : env_ok e vs R -> src_fine x ->
    (value vs sh x = None -> safe SH shv P R bad) -> (forall v t, value vs sh x = Some t -> sees SH R v t -> safe SH shv P R (k v)) ->
    safe SH shv P R (pick e x bad k).
  Proof.
    intros H F B K. destruct x as [w|s]; cbn [pick value src_fine] in *.
    - destruct (nth_error e w) as [v|] eqn:E.
      + destruct (sees_env _ _ _ _ _ H E) as (t & E1 & S). eapply K; eauto.
      + apply B. eapply all_none; eauto.
    - cbn [safe]. destruct (nth_error shv s) as [v|] eqn:E; [|apply nth_error_None in E; lia]. exists v. split; [reflexivity|].
      destruct (Hsh _ _ E) as (t & E1 & S). eapply K; [exact E1|]. eapply sees_mono; [|exact S]. intros q [].
  Qed.
  Lemma ret_same vs r e R : env_ok e vs R -> sf vs r R (Ret (e, r)).
  Proof. intros H. cbn [safe]. split; [reflexivity|]. exists R. split; [constructor; reflexivity|exact H]. Qed.
  Lemma safe_set e vs R v x s n R0 l : env_ok e vs R -> nth_error vs v = Some l -> own x s n -> Permutation R0 (n ++ R) ->
    sf (upd vs v s) Done R0 (set_var e v x).
  Proof.
    intros H E O P. unfold set_var. destruct (nth_error e v) as [old|] eqn:E1; [|apply (all_none _ _ _ _ _ H) in E1; congruence].
    destruct (all_at _ _ _ _ H _ _ E1) as (t & r & R' & K1 & K2 & K3 & K4 & _).
    eapply safe_dec; [exact K2| |].
    - rewrite P, K3. rewrite app_assoc, (Permutation_app_comm n r), <- app_assoc. reflexivity.
    - intros R1 P1. cbn [safe]. split; [reflexivity|]. destruct (own_pubs _ _ _ _ _ O P1) as (r1 & V & PU). exists (r1 ++ R'). split; [exact PU|]. now apply K4.
  Qed.
  Lemma has_spec e vs R v : env_ok e vs R -> has e v = match nth_error vs v with Some _ => true | None => false end.
  Proof.
    intros H. unfold has. destruct (nth_error vs v) eqn:E.
    - apply nth_error_lt in E. rewrite <- (all_len _ _ _ _ H) in E. lia.
    - apply nth_error_None in E. rewrite <- (all_len _ _ _ _ H) in E. lia.
  Qed.
  Lemma sees_empty R : sees SH R empty_sv [].
  Proof. exists []. split; [constructor|intros x []]. Qed.

  (* Sub *)
  Lemma sub_own v s r i n : var_ok v s r -> 0 <= i -> 0 < n -> i + n <= slen v ->
    own (mkSv (sbuf v) (scnt v) (sstart v + i) n (sreal v)) (ztake n (zdrop i s)) r.
  Proof.
    intros [|b c j k real l L Z0 J K B] I N U; [cbn in U; lia|]. cbn [sbuf scnt sstart slen sreal] in *. constructor.
    replace (ztake n (zdrop i (ztake k (zdrop j l)))) with (ztake n (zdrop (j + i) l)).
    - constructor; auto; lia.
    - unfold ztake, zdrop. rewrite skipn_firstn_comm, firstn_firstn, skipn_skipn. f_equal; [lia|]. f_equal. lia.
  Qed.
  Lemma reads_slice R v s i n : sees SH R v s -> 0 <= i -> 0 <= n -> i + n <= zlen s -> reads SH R (sbuf v) (sstart v + i) (ztake n (zdrop i s)).
  Proof.
    intros S I N U k x E. pose proof (sees_reads _ _ _ _ S) as K. unfold ztake, zdrop in E. rewrite nth_error_firstn in E.
    destruct (Nat.ltb k (Z.to_nat n)); [|discriminate]. rewrite nth_error_skipn in E. specialize (K _ _ E).
    now replace (sstart v + i + Z.of_nat k) with (sstart v + Z.of_nat (Z.to_nat i + k)) by lia.
  Qed.
  Lemma zlen_slice s i n : 0 <= i -> 0 <= n -> i + n <= zlen s -> length (ztake n (zdrop i s)) = Z.to_nat n.
  Proof. intros I N U. unfold ztake, zdrop, zlen in *. rewrite firstn_length, skipn_length. lia. Qed.

  Lemma safe_replace e vs R v x s y t i n l : env_ok e vs R -> nth_error vs v = Some l -> sees SH R x s -> sees SH R y t ->
    0 <= i <= zlen s -> 0 <= i + n <= zlen s ->
    sf (upd vs v (ztake i s ++ t ++ zdrop (i + n) s)) Done R (replace_unsafe x y i n (set_var e v)).
  Proof.
    intros H E Sx Sy I N. pose proof (sees_len _ _ _ _ Sx) as Lx. pose proof (sees_len _ _ _ _ Sy) as Ly. unfold replace_unsafe.
    destruct ((slen y =? 0) && (n =? 0)) eqn:C1; [|destruct ((i =? 0) && (n =? slen x)) eqn:C2].
    - destruct t; [|rewrite zlen_cons in Ly; pose proof (zlen_nonneg t); lia]. replace (i + n) with i by lia. cbn [app]. replace (ztake i s ++ zdrop i s) with s by (symmetry; apply firstn_skipn).
      destruct Sx as (r & V & J). eapply safe_inc; [exact V|exact J|]. eapply safe_set; [exact H|exact E|constructor; exact V|reflexivity].
    - replace i with 0 by lia. replace (0 + n) with (zlen s) by lia. replace (ztake 0 s) with (@nil Z) by reflexivity. replace (zdrop (zlen s) s) with (@nil Z) by (symmetry; apply skipn_all2; unfold zlen; lia).
      rewrite app_nil_r. cbn [app]. destruct Sy as (r & V & J). eapply safe_inc; [exact V|exact J|]. eapply safe_set; [exact H|exact E|constructor; exact V|reflexivity].
    - cbn [safe]. intros c. pose proof (zlen_nonneg t) as T0. split; [lia|]. intros b.
      set (k := slen x - n + slen y). 
      pose proof (sees_mono SH R (PC c 1 :: R) _ _ (incl_tl _ (incl_refl R)) Sx) as Sx'. pose proof (sees_mono SH R (PC c 1 :: R) _ _ (incl_tl _ (incl_refl R)) Sy) as Sy'.
      assert (zlen (ztake i s) = i) as Z1 by (unfold ztake, zlen in *; rewrite firstn_length; lia).
      assert (zlen (zdrop (i + n) s) = zlen s - i - n) as Z3 by (unfold zdrop, zlen in *; rewrite skipn_length; lia).
      replace (repeat None (Z.to_nat (k + 1))) with ([] ++ repeat (@None Z) (Z.to_nat i) ++ (repeat None (Z.to_nat (slen y)) ++ repeat None (Z.to_nat (slen x - i - n)) ++ [None])) by (change [@None Z] with (repeat (@None Z) 1); rewrite <- !repeat_app; cbn [app]; f_equal; lia).
      replace (Z.to_nat i) with (length (ztake i s)) at 2 by (unfold zlen in Z1; lia).
      apply safe_copy; [|reflexivity|rewrite repeat_length; unfold zlen in Z1; lia|].
      { replace (sstart x) with (sstart x + 0) by lia. replace (ztake i s) with (ztake i (zdrop 0 s)) by reflexivity. apply reads_slice; auto; lia. }
      replace (Z.to_nat (slen y)) with (length t) at 2 by (unfold zlen in Ly; lia).
      change ([] ++ map Some (ztake i s) ++ repeat None (Z.to_nat (slen y)) ++ repeat None (Z.to_nat (slen x - i - n)) ++ [None]) with
        (map Some (ztake i s) ++ repeat None (Z.to_nat (slen y)) ++ (repeat None (Z.to_nat (slen x - i - n)) ++ [None])).
      apply safe_copy; [now apply sees_reads|rewrite zlen_map; exact Z1|rewrite repeat_length; unfold zlen in Ly; lia|].
      replace (Z.to_nat (slen x - i - n)) with (length (zdrop (i + n) s)) at 2 by (unfold zlen in *; lia). rewrite (app_assoc (map Some (ztake i s)) (map Some t) _).
      apply safe_copy; [|rewrite zlen_app, !zlen_map; lia|rewrite repeat_length; unfold zlen in *; lia|].
      { replace (zdrop (i + n) s) with (ztake (zlen s - i - n) (zdrop (i + n) s)) by (unfold ztake; apply firstn_all2; unfold zlen in *; lia).
        replace (sstart x + i + n) with (sstart x + (i + n)) by lia. apply reads_slice; auto; lia. }
      cbn [safe]. do 2 eexists. split; [reflexivity|]. split; [rewrite !zlen_app, !zlen_map; change (zlen [@None Z]) with 1; lia|].
      rewrite (app_assoc (map Some (ztake i s) ++ map Some t) (map Some (zdrop (i + n) s)) [None]). replace (Z.to_nat k) with (Z.to_nat (zlen ((map Some (ztake i s) ++ map Some t) ++ map Some (zdrop (i + n) s)))) by (rewrite !zlen_app, !zlen_map; lia).
      rewrite upd_mid. replace (((map Some (ztake i s) ++ map Some t) ++ map Some (zdrop (i + n) s)) ++ [Some 0]) with (map Some ((ztake i s ++ t ++ zdrop (i + n) s) ++ [0])) by (rewrite !map_app, <- !app_assoc; reflexivity).
      eapply safe_set; [exact H|exact E| |].
      + apply own_fresh. rewrite !zlen_app. lia.
      + reflexivity.
  Qed.

  Lemma lexi_prefix d : forall n m, (n <= length d)%nat -> (m <= length d)%nat -> lexi (firstn n d) (firstn m d) = Nat.compare n m.
  Proof.
    induction d as [|x d IH]; intros n m Hn Hm.
    - cbn in *. replace n with 0%nat by lia. now replace m with 0%nat by lia.
    - destruct n as [|n], m as [|m]; cbn [firstn lexi Nat.compare]; auto. rewrite Z.compare_refl. apply IH; cbn in *; lia.
  Qed.
  Lemma addr_eq_lexi R x s y t : coherent (R ++ SH) -> sees SH R x s -> sees SH R y t -> addr_eq x y = true -> lexi s t = (slen x ?= slen y).
  Proof.
    intros C (r & V & I) (r' & V' & I') A. unfold addr_eq in A.
    destruct V as [|b c i n real l L Z0 J N B], V' as [|b' c' i' n' real' l' L' Z0' J' N' B']; cbn [sbuf sstart slen empty_sv] in *; try discriminate; [reflexivity|].
    apply andb_prop in A. destruct A as [A1 A2]. apply Nat.eqb_eq in A1. subst b'. assert (i' = i) by lia. subst i'.
    assert (l = l') as <- by (eapply C; [apply I; now left|apply I'; now left]).
    unfold ztake, zdrop, zlen in *. rewrite lexi_prefix by (rewrite skipn_length; lia). rewrite <- Z2Nat.inj_compare by lia. reflexivity.
  Qed.
  Lemma sees_reads_z R v s : sees SH R v s -> sstart v + slen v = sreal v -> reads SH R (sbuf v) (sstart v) (s ++ [0]).
  Proof.
    intros (r & V & I) A. destruct V as [|b c i n real l L Z0 J N B]; cbn [sbuf sstart slen sreal empty_sv] in *.
    - intros k x E. destruct k as [|k]; [|destruct k; discriminate]. injection E as <-. cbn. auto.
    - intros k x E. cbn [readable]. left. exists c, l. split; [apply I; now left|]. rewrite znth_z in * by lia.
      assert (length (ztake n (zdrop i l)) = Z.to_nat n) as LL by (apply zlen_slice; lia).
      destruct (Nat.lt_ge_cases k (Z.to_nat n)) as [K|K].
      + rewrite nth_error_app1 in E by lia. unfold ztake, zdrop in E. rewrite nth_error_firstn in E. replace (Nat.ltb k (Z.to_nat n)) with true in E by lia. rewrite nth_error_skipn in E.
        rewrite <- E. f_equal. lia.
      + rewrite nth_error_app2 in E by lia. rewrite LL in E. destruct (k - Z.to_nat n)%nat as [|q] eqn:D; [|destruct q; discriminate]. injection E as <-. rewrite <- Z0. f_equal. lia.
  Qed.
  Lemma safe_text_of {A} (P : list chunk -> A -> Prop) R v s k : reads SH R (sbuf v) (sstart v) (s ++ [0]) -> zlen s = slen v ->
    safe SH shv P R (k (before_zero s)) -> safe SH shv P R (text_of v k).
  Proof. intros H L S. unfold text_of. eapply safe_text; [exact H|unfold zlen in L; lia|exact S]. Qed.

  Lemma op_safe e vs R o : env_ok e vs R -> coherent (R ++ SH) -> op_fine o -> sf (fst (seval sh vs o)) (snd (seval sh vs o)) R (op_code e o).
  Proof.
    intros H C F. destruct o as [v l|v|v x|v w|v x i n|v x i y|v x i n|x i|x y|x|v j|v]; cbn [op_fine] in F; cbn [op_code].
    - rewrite (has_spec _ _ _ v H). unfold seval. destruct (nth_error vs v) eqn:E; cbn [fst snd]; [|now apply ret_same].
      apply safe_make. intros b c. eapply safe_set; [exact H|exact E|apply own_fresh; reflexivity|reflexivity].
    - unfold seval. destruct (nth_error vs v) eqn:E; cbn [fst snd].
      + eapply safe_set; [exact H|exact E|constructor; constructor|reflexivity].
      + unfold set_var. destruct (nth_error e v) eqn:E1; [|now apply ret_same]. destruct (sees_env _ _ _ _ _ H E1) as (t & E2 & _). congruence.
    - rewrite (has_spec _ _ _ v H). unfold seval. destruct (nth_error vs v) as [l|] eqn:E; cbn [fst snd]; [|now apply ret_same].
      destruct (nth_error e v) as [old|] eqn:E1; [|apply (all_none _ _ _ _ _ H) in E1; congruence].
      destruct (all_at _ _ _ _ H _ _ E1) as (t & r & R' & K1 & K2 & K3 & K4 & K5).
      assert (forall y s, sees SH R' y s -> sf (upd vs v s) Done R (dec old (inc y (Ret (upd e v y, Done))))) as KK.
      { intros y s (r1 & V & I). eapply safe_dec; [exact K2|exact K3|]. intros R1 P1. eapply safe_inc; [exact V| |].
        - intros q Hq. apply I in Hq. apply in_app_or in Hq. apply in_or_app. destruct Hq; [left|now right]. eapply Permutation_in; [apply Permutation_sym, P1|auto].
        - cbn [safe]. split; [reflexivity|]. exists (r1 ++ R'). split; [constructor; now apply Permutation_app_head|]. cbn [fst]. now apply K4. }
      destruct x as [w|s]; cbn [value pick].
      + destruct (Nat.eqb_spec v w) as [<-|N].
        * rewrite E. replace (upd vs v l) with vs; [now apply ret_same|]. clear -E. revert v E. induction vs as [|a vs IH]; intros [|v] E; cbn in *; try discriminate; [congruence|]. f_equal. auto.
        * destruct (nth_error e w) as [y|] eqn:E3.
          -- destruct (sees_env _ _ _ _ _ H E3) as (s & E4 & _). rewrite E4. apply KK. destruct (K5 w _ _ ltac:(auto) E3 E4) as (r2 & V2 & I2). exists r2. split; [exact V2|]. intros q Hq. apply in_or_app. auto.
          -- rewrite (all_none _ _ _ _ _ H E3). now apply ret_same.
      + cbn [src_fine] in F. cbn [safe]. destruct (nth_error shv s) as [y|] eqn:E3; [|apply nth_error_None in E3; lia]. exists y. split; [reflexivity|].
        destruct (Hsh _ _ E3) as (u & E4 & S4). rewrite E4. apply KK. eapply sees_mono; [|exact S4]. intros q [].
    - unfold seval. destruct (nth_error e v) as [old|] eqn:E1.
      2:{ rewrite (all_none _ _ _ _ _ H E1). now apply ret_same. }
      destruct (all_at _ _ _ _ H _ _ E1) as (t & r & R' & K1 & K2 & K3 & K4 & K5). rewrite K1. cbn [value].
      destruct (nth_error e w) as [y|] eqn:E2.
      2:{ rewrite (all_none _ _ _ _ _ H E2). now apply ret_same. }
      destruct (sees_env _ _ _ _ _ H E2) as (s & E4 & _). rewrite E4. destruct (Nat.eqb_spec v w) as [<-|N]; [now apply ret_same|]. cbn [fst snd].
      eapply safe_dec; [exact K2|exact K3|]. intros R1 P1. cbn [safe]. split; [reflexivity|]. cbn [fst].
      pose proof (K4 _ _ _ vo_empty) as H'. cbn [app] in H'.
      assert (nth_error (upd e v empty_sv) w = Some y) as E5 by (rewrite nth_upd; destruct (Nat.eqb_spec v w); [lia|exact E2]).
      destruct (all_at _ _ _ _ H' _ _ E5) as (s' & r1 & R2 & J1 & J2 & J3 & J4 & _).
      assert (s' = s) as -> by (rewrite nth_upd in J1; destruct (Nat.eqb_spec v w); [lia|congruence]).
      pose proof (J4 _ _ _ vo_empty) as H''. cbn [app] in H''.
      assert (nth_error (upd (upd e v empty_sv) w empty_sv) v = Some empty_sv) as E6.
      { rewrite nth_upd. destruct (Nat.eqb_spec w v); [lia|]. rewrite nth_upd, Nat.eqb_refl, E1. reflexivity. }
      destruct (all_at _ _ _ _ H'' _ _ E6) as (s3 & r3 & R3 & L1 & L2 & L3 & L4 & _).
      assert (r3 = []) as -> by (clear -L2; inversion L2; reflexivity). cbn [app] in L3.
      exists (r1 ++ R3). split; [constructor; rewrite P1, J3, L3; reflexivity|].
      assert (forall {X} (l : list X) a b c, upd (upd (upd l v a) w b) v c = upd (upd l v c) w b) as UU.
      { intros X l a b c. apply nth_error_ext. intros q. rewrite !nth_upd. destruct (Nat.eqb_spec v q), (Nat.eqb_spec w q); subst; try lia; try reflexivity.
        destruct (Nat.eqb_spec w q); [lia|]. now destruct (nth_error l q). }
      specialize (L4 _ _ _ J2). rewrite !UU in L4. exact L4.
    - rewrite (has_spec _ _ _ v H). unfold seval. destruct (nth_error vs v) as [l|] eqn:E; cbn [fst snd]; [|now apply ret_same].
      eapply safe_pick; [exact H|exact F| |].
      + intros EV. rewrite EV. now apply ret_same.
      + intros y s EV S. rewrite EV. pose proof (sees_len _ _ _ _ S) as L. rewrite L.
        destruct (negb ((i >=? 0) && (i <=? slen y))) eqn:C1.
        { replace ((0 <=? i) && (i <=? slen y) && (0 <=? i + n) && (i + n <=? slen y)) with false by lia. now apply ret_same. }
        destruct (negb ((i + n >=? 0) && (i + n <=? slen y))) eqn:C2.
        { replace ((0 <=? i) && (i <=? slen y) && (0 <=? i + n) && (i + n <=? slen y)) with false by lia. now apply ret_same. }
        replace ((0 <=? i) && (i <=? slen y) && (0 <=? i + n) && (i + n <=? slen y)) with true by lia. cbn [fst snd]. unfold sub_unsafe. destruct (Z.leb_spec n 0).
        * replace (ztake n (zdrop i s)) with (@nil Z) by (unfold ztake; now replace (Z.to_nat n) with 0%nat by lia). eapply safe_set; [exact H|exact E|constructor; constructor|reflexivity].
        * destruct S as (r & V & I). eapply safe_inc; [exact V|exact I|]. eapply safe_set; [exact H|exact E|apply sub_own; [exact V|lia|lia|lia]|reflexivity].
    - destruct F as [F1 F2]. rewrite (has_spec _ _ _ v H). unfold seval. destruct (nth_error vs v) as [l|] eqn:E; cbn [fst snd]; [|now apply ret_same].
      eapply safe_pick; [exact H|exact F1| |].
      + intros EV. rewrite EV. now apply ret_same.
      + intros a s EV S. rewrite EV. eapply safe_pick; [exact H|exact F2| |].
        * intros EV2. rewrite EV2. now apply ret_same.
        * intros b t EV2 T. rewrite EV2. pose proof (sees_len _ _ _ _ S) as L. destruct (negb ((i >=? 0) && (i <=? slen a))) eqn:C1.
          { replace ((0 <=? i) && (i <=? zlen s)) with false by lia. now apply ret_same. }
          replace ((0 <=? i) && (i <=? zlen s)) with true by lia. cbn [fst snd].
          pose proof (safe_replace e vs R v a s b t i 0 l H E S T ltac:(lia) ltac:(lia)) as K. now replace (i + 0) with i in K by lia.
    - rewrite (has_spec _ _ _ v H). unfold seval. destruct (nth_error vs v) as [l|] eqn:E; cbn [fst snd]; [|now apply ret_same].
      eapply safe_pick; [exact H|exact F| |].
      + intros EV. rewrite EV. now apply ret_same.
      + intros y s EV S. rewrite EV. pose proof (sees_len _ _ _ _ S) as L.
        destruct (negb ((i >=? 0) && (i <? slen y))) eqn:C1.
        { replace ((0 <=? i) && (i <? zlen s) && (0 <=? i + n) && (i + n <=? zlen s)) with false by lia. now apply ret_same. }
        destruct (negb ((i + n >=? 0) && (i + n <=? slen y))) eqn:C2.
        { replace ((0 <=? i) && (i <? zlen s) && (0 <=? i + n) && (i + n <=? zlen s)) with false by lia. now apply ret_same. }
        replace ((0 <=? i) && (i <? zlen s) && (0 <=? i + n) && (i + n <=? zlen s)) with true by lia. cbn [fst snd].
        exact (safe_replace e vs R v y s empty_sv [] i n l H E S (sees_empty R) ltac:(lia) ltac:(lia)).
    - unfold seval. eapply safe_pick; [exact H|exact F| |].
      + intros EV. rewrite EV. now apply ret_same.
      + intros y s EV S. rewrite EV. pose proof (sees_len _ _ _ _ S) as L. destruct (negb ((i >=? 0) && (i <? slen y))) eqn:C1.
        * replace (znth s i) with (@None Z); [now apply ret_same|]. unfold znth. destruct (Z.ltb_spec i 0); [reflexivity|]. symmetry. apply nth_error_None. unfold zlen in L. lia.
        * rewrite znth_z by lia. destruct (nth_error s (Z.to_nat i)) as [z|] eqn:E; [|apply nth_error_None in E; unfold zlen in L; lia]. cbn [safe fst snd]. exists z. split; [|now apply ret_same].
          pose proof (sees_reads _ _ _ _ S _ _ E) as K. now replace (sstart y + Z.of_nat (Z.to_nat i)) with (sstart y + i) in K by lia.
    - destruct F as [F1 F2]. unfold seval. eapply safe_pick; [exact H|exact F1| |].
      + intros EV. rewrite EV. now apply ret_same.
      + intros a s EV S. rewrite EV. eapply safe_pick; [exact H|exact F2| |].
        * intros EV2. rewrite EV2. now apply ret_same.
        * intros b t EV2 T. rewrite EV2. cbn [fst snd]. unfold compare. destruct (addr_eq a b) eqn:AE.
          { rewrite <- (addr_eq_lexi _ _ _ _ _ C S T AE). now apply ret_same. }
          pose proof (sees_len _ _ _ _ S) as L. pose proof (sees_len _ _ _ _ T) as L'.
          eapply (safe_compare_loop SH shv _ R (sbuf a) (sbuf b) _ _ s t); [now apply sees_reads|now apply sees_reads|unfold zlen in *; lia|now rewrite L, L'|]. now apply ret_same.
    - destruct x as [w|s].
      + unfold seval. cbn [value]. destruct (nth_error e w) as [v|] eqn:E1; [|rewrite (all_none _ _ _ _ _ H E1); now apply ret_same].
        destruct (sees_env _ _ _ _ _ H E1) as (s & E2 & S). rewrite E2. cbn [fst snd]. pose proof (sees_len _ _ _ _ S) as L. destruct (Z.eqb_spec (sstart v + slen v) (sreal v)) as [A|A].
        * eapply (safe_text_of _ R v s); [now apply sees_reads_z|exact L|]. now apply ret_same.
        * unfold detach. cbn [safe]. pose proof (zlen_nonneg s) as L0. split; [lia|]. intros b.
          replace (repeat None (Z.to_nat (slen v + 1))) with ([] ++ repeat (@None Z) (length s) ++ [None]) by (change [@None Z] with (repeat (@None Z) 1); rewrite <- !repeat_app; cbn [app]; f_equal; unfold zlen in L; lia).
          replace (Z.to_nat (slen v)) with (length s) by (unfold zlen in L; lia).
          apply safe_copy; [now apply sees_reads|reflexivity|now rewrite repeat_length|]. cbn [safe app].
          do 2 eexists. split; [reflexivity|]. split; [rewrite zlen_app, zlen_map; change (zlen [@None Z]) with 1; lia|].
          replace (Z.to_nat (slen v)) with (Z.to_nat (zlen (map Some s))) by (rewrite zlen_map; lia). rewrite upd_mid.
          destruct (all_at _ _ _ _ H _ _ E1) as (s' & r & R' & K1 & K2 & K3 & K4 & K5). assert (s' = s) as -> by congruence.
          eapply safe_dec; [exact K2| |].
          { instantiate (1 := PB b (map Some s ++ [Some 0]) :: R'). rewrite K3. apply Permutation_middle. }
          intros R1 P1. cbn [safe]. intros c.
          eapply (safe_text_of _ _ _ s).
          -- cbn [sbuf sstart]. intros k x E. cbn [readable]. right. exists (map Some s ++ [Some 0]). split; [right; eapply Permutation_in; [apply Permutation_sym, P1|now left]|].
             rewrite znth_z by lia. replace (map Some s ++ [Some 0]) with (map Some (s ++ [0])) by (now rewrite map_app). rewrite nth_error_map. replace (Z.to_nat (0 + Z.of_nat k)) with k by lia. now rewrite E.
          -- exact L.
          -- cbn [safe]. split; [reflexivity|]. cbn [fst].
             destruct (own_pubs (mkSv (Some b) (Some c) 0 (slen v) (slen v)) s (fresh b c s) R' (PC c 1 :: R1)) as (r1 & V1 & PU).
             { now apply own_fresh. }
             { rewrite P1. unfold fresh. rewrite map_app. cbn [map app]. apply perm_swap. }
             exists (r1 ++ R'). split; [exact PU|]. replace vs with (upd vs w s); [now apply K4|]. clear -E2. revert w E2. induction vs as [|a vs IH]; intros [|w] E; cbn in *; try discriminate; [congruence|]. f_equal. auto.
      + destruct F as (v & E & A). cbn [safe]. exists v. split; [exact E|]. destruct (Hsh _ _ E) as (t & E1 & S). unfold seval. cbn [value]. rewrite E1. cbn [fst snd].
        assert (sees SH R v t) as S' by (eapply sees_mono; [|exact S]; intros q []). replace (sstart v + slen v =? sreal v) with true by lia.
        eapply (safe_text_of _ R v t); [now apply sees_reads_z|exact (sees_len _ _ _ _ S')|]. now apply ret_same.
    - destruct F.
    - destruct F.
  Qed.
End ops.
