(* What a thread may do with the chunks it owns. *)
From Coq Require Import ZifyBool ZifyNat Permutation.
From Verif Require Import Base BaseFacts MbSpec SparModel SparSpec SparHeap.
Open Scope Z_scope.

Section safe.
  Context (SH : list chunk) (shv : list sv).       (* the references of the variables every thread can see, and those variables *)
  Definition readable (R : list chunk) (b : option nat) (i x : Z) : Prop :=
    match b with
    | None => i = 0 /\ x = 0
    | Some b => (exists c l, In (RF c b l) (R ++ SH) /\ znth l i = Some x) \/ (exists l, In (PB b l) R /\ znth l i = Some (Some x))
    end.
  Section code.
    Context {A : Type} (Q : list chunk -> A -> Prop).
    Fixpoint safe (R : list chunk) (p : code A) : Prop :=
      match p with
      | Ret a => Q R a
      | Inc c k => exists b l, In (RF c b l) (R ++ SH) /\ safe (RF c b l :: R) k
      | Dec c k => exists b l R', Permutation R (RF c b l :: R') /\ (forall n, 1 <= n -> safe R' (k n)) /\
                     safe (PB b (map Some l) :: PC c 0 :: R') (k 0)
      | NewB n k => 0 <= n /\ forall b, safe (PB b (repeat None (Z.to_nat n)) :: R) (k b)
      | NewC z k => forall c, safe (PC c z :: R) (k c)
      | Rd b i k => exists x, readable R b i x /\ safe R (k x)
      | Wr b i x k => exists l R', Permutation R (PB b l :: R') /\ 0 <= i < zlen l /\ safe (PB b (upd l (Z.to_nat i) (Some x)) :: R') k
      | DelB b k => exists l R', Permutation R (PB b l :: R') /\ safe R' k
      | DelC c k => exists n R', Permutation R (PC c n :: R') /\ safe R' k
      | Load s k => exists v, nth_error shv s = Some v /\ safe R (k v)
      | Store _ _ _ => False
      end.
  End code.
  Lemma znth_map {A B} (f : A -> B) l i : znth (map f l) i = match znth l i with Some x => Some (f x) | None => None end.
  Proof. unfold znth. destruct (i <? 0); [reflexivity|]. rewrite nth_error_map. now destruct (nth_error l (Z.to_nat i)). Qed.

  (* a step of a safe thread goes through, leaves the heap in order and the thread safe *)
  Lemma step_ok {A} (Q : list chunk -> A -> Prop) R F p m u : incl SH F -> shr m = shv ->
    hinv m (R ++ F) u -> safe Q R p -> (forall a, p <> Ret a) ->
    exists p' m' R' u', astep p m = Ok (p', m') /\ shr m' = shv /\ hinv m' (R' ++ F) u' /\ safe Q R' p'.
  Proof.
    intros HS Hsh H S N. destruct p as [a|c k|c k|n k|z k|b i k|b i x k|b k|c k|s k|s v k]; cbn [safe] in S; cbn [astep].
    - now elim (N a).
    - destruct S as (b & l & I & S). assert (In (RF c b l) (R ++ F)) as I' by (apply in_app_or in I; apply in_or_app; destruct I; auto).
      destruct (hv_inc _ _ _ _ _ _ H I') as [E H']. rewrite E. do 2 eexists. exists (RF c b l :: R), u. split; [reflexivity|]. split; [exact Hsh|]. split; [exact H'|exact S].
    - destruct S as (b & l & R' & P & S1 & S2). pose proof (hinv_perm _ _ _ _ (Permutation_app_tail F P) H) as H'. cbn [app] in H'.
      destruct (hv_dec _ _ _ _ _ _ H') as [E [K1 K2]]. rewrite E.
      replace (Z.of_nat (rfc c (R' ++ F)) + 1 - 1) with (Z.of_nat (rfc c (R' ++ F))) by lia.
      destruct (Nat.eq_dec (rfc c (R' ++ F)) 0) as [Z0|Z0].
      + destruct (K2 Z0) as (u' & K). rewrite Z0 in *. do 2 eexists. exists (PB b (map Some l) :: PC c 0 :: R'), u'. split; [reflexivity|]. split; [exact Hsh|]. split; [exact K|exact S2].
      + specialize (K1 ltac:(lia)). do 2 eexists. exists R', u. split; [reflexivity|]. split; [exact Hsh|]. split; [exact K1|apply S1; lia].
    - destruct S as [N0 S]. replace (n <? 0) with false by lia. do 2 eexists. exists (PB (length (bufs m)) (repeat None (Z.to_nat n)) :: R), u.
      split; [reflexivity|]. split; [exact Hsh|]. split; [now apply hv_newb|apply S].
    - do 2 eexists. exists (PC (length (cnts m)) z :: R), u. split; [reflexivity|]. split; [exact Hsh|]. split; [now apply hv_newc|apply S].
    - destruct S as (x & Hr & S). destruct b as [b|]; cbn [readable] in Hr.
      + assert (exists l, nth_error (bufs m) b = Some (Some l) /\ znth l i = Some (Some x)) as (l & E1 & E2).
        { destruct Hr as [(c & l & I & E)|(l & I & E)].
          - assert (In (RF c b l) (R ++ F)) as I' by (apply in_app_or in I; apply in_or_app; destruct I; auto).
            destruct (h_pub _ _ _ H c b l (h_rf _ _ _ H _ _ _ I')) as (B & _). exists (map Some l). split; [exact B|]. rewrite znth_map, E. reflexivity.
          - exists l. split; [|exact E]. apply (h_pb _ _ _ H). apply in_or_app. auto. }
        rewrite E1. unfold aget. rewrite E2. cbn [bind]. do 2 eexists. exists R, u. split; [reflexivity|]. auto.
      + destruct Hr as [-> ->]. cbn [Z.eqb]. do 2 eexists. exists R, u. split; [reflexivity|]. auto.
    - destruct S as (l & R' & P & Hi & S). pose proof (hinv_perm _ _ _ _ (Permutation_app_tail F P) H) as H'. cbn [app] in H'.
      rewrite (h_pb _ _ _ H' b l (or_introl eq_refl)). unfold aset. replace ((0 <=? i) && (i <? zlen l)) with true by lia. cbn [bind].
      do 2 eexists. exists (PB b (upd l (Z.to_nat i) (Some x)) :: R'), u. split; [reflexivity|]. split; [exact Hsh|]. split; [|exact S]. cbn [app]. eapply hv_wr; eauto.
    - destruct S as (l & R' & P & S). pose proof (hinv_perm _ _ _ _ (Permutation_app_tail F P) H) as H'. cbn [app] in H'.
      rewrite (h_pb _ _ _ H' b l (or_introl eq_refl)). do 2 eexists. exists R', u. split; [reflexivity|]. split; [exact Hsh|]. split; [|exact S]. eapply hv_delb; eauto.
    - destruct S as (n & R' & P & S). pose proof (hinv_perm _ _ _ _ (Permutation_app_tail F P) H) as H'. cbn [app] in H'.
      rewrite (h_pc _ _ _ H' c n (or_introl eq_refl)). do 2 eexists. exists R', u. split; [reflexivity|]. split; [exact Hsh|]. split; [|exact S]. eapply hv_delc; eauto.
    - destruct S as (v & E & S). rewrite Hsh, E. do 2 eexists. exists R, u. split; [reflexivity|]. auto.
    - destruct S.
  Qed.

  (* a string variable shows a text; the chunks it owns *)
  Inductive var_ok : sv -> list Z -> list chunk -> Prop :=
  | vo_empty : var_ok empty_sv [] []
  | vo_ref b c i n real l : zlen l = real + 1 -> znth l real = Some 0 -> 0 <= i -> 0 <= n -> i + n <= real ->
      var_ok (mkSv (Some b) (Some c) i n real) (ztake n (zdrop i l)) [RF c b l].
  Definition sees (R : list chunk) (v : sv) (s : list Z) : Prop := exists r, var_ok v s r /\ incl r (R ++ SH).
  Lemma sees_mono R R' v s : incl R R' -> sees R v s -> sees R' v s.
  Proof.
    intros I (r & V & J). exists r. split; [exact V|]. intros x Hx. apply J in Hx. apply in_app_or in Hx. apply in_or_app. destruct Hx; auto.
  Qed.
  Lemma var_len v s r : var_ok v s r -> zlen s = slen v.
  Proof.
    intros [|b c i n real l L Z0 I N B]; [reflexivity|]. cbn [slen]. unfold ztake, zdrop, zlen in *. rewrite firstn_length, skipn_length. lia.
  Qed.
  Lemma sees_len R v s : sees R v s -> zlen s = slen v.
  Proof. intros (r & V & _). eapply var_len; eauto. Qed.
  (* its characters can be read through references *)
  Definition reads (R : list chunk) (b : option nat) (i : Z) (s : list Z) : Prop :=
    forall k x, nth_error s k = Some x -> readable R b (i + Z.of_nat k) x.
  Lemma readable_mono R R' b i x : incl R R' -> readable R b i x -> readable R' b i x.
  Proof.
    intros I. destruct b as [b|]; cbn; [|auto]. intros [(c & l & J & E)|(l & J & E)]; [left|right].
    - exists c, l. split; [|exact E]. apply in_app_or in J. apply in_or_app. destruct J; auto.
    - exists l. auto.
  Qed.
  Lemma reads_mono R R' b i s : incl R R' -> reads R b i s -> reads R' b i s.
  Proof. intros I H k x E. eapply readable_mono; eauto. Qed.
  Lemma sees_reads R v s : sees R v s -> reads R (sbuf v) (sstart v) s.
  Proof.
    intros (r & V & J) k x E. destruct V as [|b c i n real l L Z0 I N B]; [destruct k; discriminate|]. cbn [sbuf sstart readable].
    left. exists c, l. split; [apply J; now left|]. unfold ztake, zdrop in E. rewrite nth_error_firstn in E. destruct (Nat.ltb k (Z.to_nat n)); [|discriminate].
    rewrite nth_error_skipn in E. rewrite znth_z by lia. rewrite <- E. f_equal. lia.
  Qed.
  Lemma reads_app R b i s t : reads R b i (s ++ t) -> reads R b i s /\ reads R b (i + zlen s) t.
  Proof.
    intros H. split; intros k x E.
    - apply H. rewrite nth_error_app1; [exact E|]. now apply nth_error_lt in E.
    - replace (i + zlen s + Z.of_nat k) with (i + Z.of_nat (length s + k)) by (unfold zlen; lia). apply H. rewrite nth_error_app2 by lia. replace (length s + k - length s)%nat with k by lia. exact E.
  Qed.

  Section functions.
    Context {A : Type} (Q : list chunk -> A -> Prop).
    Notation sf := (safe Q).
    Lemma safe_inc R v s r k : var_ok v s r -> incl r (R ++ SH) -> sf (r ++ R) k -> sf R (inc v k).
    Proof.
      intros V I S. destruct V as [|b c i n real l L Z0 I0 N B]; cbn [inc scnt empty_sv]; [exact S|]. cbn [inc scnt safe]. exists b, l. split; [apply I; now left|exact S].
    Qed.
    Lemma safe_dec R v s r R' k : var_ok v s r -> Permutation R (r ++ R') -> (forall R1, Permutation R1 R' -> sf R1 k) -> sf R (dec v k).
    Proof.
      intros V P S. destruct V as [|b c i n real l L Z0 I0 N B]; cbn [dec scnt empty_sv sbuf]; [apply S; exact P|]. cbn [safe]. exists b, l, R'. split; [exact P|]. split.
      - intros z Hz. replace (z =? 0) with false by lia. apply S. reflexivity.
      - cbn [Z.eqb safe]. exists (map Some l), (PC c 0 :: R'). split; [reflexivity|]. exists 0, R'. split; [reflexivity|]. apply S. reflexivity.
    Qed.
    Lemma upd_mid {X} (a : list X) y z x : upd (a ++ y :: z) (Z.to_nat (zlen a)) x = a ++ x :: z.
    Proof. rewrite zlen_to_nat. apply upd_app2. Qed.
    Lemma safe_copy R' from to k : forall xs i j a mid z,
      reads R' from i xs -> zlen a = j -> length mid = length xs ->
      sf (PB to (a ++ map Some xs ++ z) :: R') k -> sf (PB to (a ++ mid ++ z) :: R') (copy (length xs) from i to j k).
    Proof.
      induction xs as [|x xs IH]; intros i j a mid z H La Lm S.
      - destruct mid; [|discriminate]. exact S.
      - destruct mid as [|y mid]; [discriminate|]. cbn [length copy safe]. exists x. split.
        { apply (readable_mono R'); [intros q; now right|]. pose proof (H 0%nat x eq_refl) as H0. now replace (i + Z.of_nat 0) with i in H0 by lia. }
        exists (a ++ (y :: mid) ++ z), R'. split; [reflexivity|]. split; [rewrite !zlen_app, zlen_cons; pose proof (zlen_nonneg a); pose proof (zlen_nonneg mid); pose proof (zlen_nonneg z); lia|].
        rewrite <- La. cbn [app]. rewrite upd_mid. replace (a ++ Some x :: mid ++ z) with ((a ++ [Some x]) ++ mid ++ z) by (now rewrite <- app_assoc).
        apply IH; [|rewrite zlen_app; cbn; reflexivity|cbn in Lm; lia|].
        + intros q w E. specialize (H (Datatypes.S q) w E). now replace (i + 1 + Z.of_nat q) with (i + Z.of_nat (Datatypes.S q)) by lia.
        + rewrite <- app_assoc. exact S.
    Qed.
    Lemma safe_write R' to k : forall xs j a mid z, zlen a = j -> length mid = length xs ->
      sf (PB to (a ++ map Some xs ++ z) :: R') k -> sf (PB to (a ++ mid ++ z) :: R') (write xs to j k).
    Proof.
      induction xs as [|x xs IH]; intros j a mid z La Lm S.
      - destruct mid; [|discriminate]. exact S.
      - destruct mid as [|y mid]; [discriminate|]. cbn [write safe].
        exists (a ++ (y :: mid) ++ z), R'. split; [reflexivity|]. split; [rewrite !zlen_app, zlen_cons; pose proof (zlen_nonneg a); pose proof (zlen_nonneg mid); pose proof (zlen_nonneg z); lia|].
        rewrite <- La. cbn [app]. rewrite upd_mid. replace (a ++ Some x :: mid ++ z) with ((a ++ [Some x]) ++ mid ++ z) by (now rewrite <- app_assoc).
        apply IH; [rewrite zlen_app; cbn; reflexivity|cbn in Lm; lia|]. rewrite <- app_assoc. exact S.
    Qed.
    (* a new string: its block and its counter belong to the thread *)
    Definition fresh (b c : nat) (s : list Z) : list chunk := [PB b (map Some (s ++ [0])); PC c 1].
    Lemma literal_eq l : literal l = before_zero l.
    Proof. induction l as [|c l IH]; [reflexivity|]. cbn. destruct (c =? 0); [reflexivity|now rewrite IH]. Qed.
    Lemma safe_make R l k : (forall b c, sf (fresh b c (before_zero l) ++ R) (k (mkSv (Some b) (Some c) 0 (zlen (before_zero l)) (zlen (before_zero l))))) -> sf R (make l k).
    Proof.
      intros H. unfold make. rewrite literal_eq. cbn [safe]. intros c. split; [pose proof (zlen_nonneg (before_zero l)); lia|]. intros b. set (s := before_zero l) in *.
      replace (repeat None (Z.to_nat (zlen s + 1))) with ([] ++ repeat (@None Z) (Z.to_nat (zlen s + 1)) ++ []) by (now rewrite app_nil_r).
      apply safe_write; [reflexivity|rewrite repeat_length, app_length; unfold zlen; cbn; lia|]. rewrite app_nil_r. cbn [app]. exact (H b c).
    Qed.
    Lemma safe_text R b : forall xs i k fuel, reads R b i (xs ++ [0]) -> (length xs < fuel)%nat -> sf R (k (before_zero xs)) -> sf R (text_at fuel b i k).
    Proof.
      induction xs as [|x xs IH]; intros i k fuel H F S; (destruct fuel as [|fuel]; [cbn in F; lia|]); cbn [text_at safe].
      - exists 0. split; [pose proof (H 0%nat 0 eq_refl) as H0; now replace (i + Z.of_nat 0) with i in H0 by lia|]. exact S.
      - exists x. split; [pose proof (H 0%nat x eq_refl) as H0; now replace (i + Z.of_nat 0) with i in H0 by lia|]. cbn [before_zero] in S. destruct (x =? 0); [exact S|].
        apply IH; [|cbn in F; lia|exact S]. intros q w E. specialize (H (Datatypes.S q) w E). now replace (i + 1 + Z.of_nat q) with (i + Z.of_nat (Datatypes.S q)) by lia.
    Qed.
    Lemma safe_compare_loop R a b (k : comparison -> code A) : forall n xs ys i j last, reads R a i xs -> reads R b j ys -> n = min (length xs) (length ys) ->
      last = (zlen xs ?= zlen ys) -> sf R (k (lexi xs ys)) -> sf R (compare_loop n a i b j k last).
    Proof.
      induction n as [|n IH]; intros xs ys i j last H1 H2 Hn -> S.
      - cbn [compare_loop]. replace (zlen xs ?= zlen ys) with (lexi xs ys); [exact S|]. destruct xs, ys; cbn in Hn; try lia; reflexivity.
      - destruct xs as [|x xs], ys as [|y ys]; cbn in Hn; try lia. cbn [compare_loop safe].
        exists x. split; [pose proof (H1 0%nat x eq_refl) as H0; now replace (i + Z.of_nat 0) with i in H0 by lia|].
        exists y. split; [pose proof (H2 0%nat y eq_refl) as H0; now replace (j + Z.of_nat 0) with j in H0 by lia|].
        cbn [lexi] in S. destruct (x ?= y); [|exact S|exact S].
        replace (zlen (x :: xs) ?= zlen (y :: ys)) with (zlen xs ?= zlen ys) by (rewrite !zlen_cons; destruct (Z.compare_spec (zlen xs) (zlen ys)); symmetry; [apply Z.compare_eq_iff|apply Z.compare_lt_iff|apply Z.compare_gt_iff]; lia).
        apply (IH xs ys); auto.
        + intros q w E. specialize (H1 (Datatypes.S q) w E). now replace (i + 1 + Z.of_nat q) with (i + Z.of_nat (Datatypes.S q)) by lia.
        + intros q w E. specialize (H2 (Datatypes.S q) w E). now replace (j + 1 + Z.of_nat q) with (j + Z.of_nat (Datatypes.S q)) by lia.
    Qed.
  End functions.
End safe.
