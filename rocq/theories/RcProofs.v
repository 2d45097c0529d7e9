From Coq Require Import ZifyBool ZifyNat.
From Verif Require Import Base BaseFacts RcModel RcSpec.
Open Scope nat_scope.

Lemma dies_rec w0 w (P : nat -> Prop) :
  (forall o, (exists u, refers w0 u o) ->
     (forall u, refers w u o -> exists h, wh w u = Some h /\ dies w0 w h /\ P h) -> P o) ->
  forall o, dies w0 w o -> P o.
Proof.
  intros HP. fix IH 2. intros o [o' R F]. apply HP; [exact R|].
  intros u Ru. destruct (F u Ru) as (h & H1 & H2). exists h. split; [exact H1|]. split; [exact H2|exact (IH h H2)].
Qed.

Definition ex (s : st) (u : nat) : option ptr := match nth_error (vs s) u with Some (p, _) => p | None => None end.
Definition home (s : st) (u : nat) : option nat := match nth_error (vs s) u with Some (_, h) => h | None => None end.
Definition ev {A} (E : list (option A)) (u : nat) : option A := match nth_error E u with Some x => x | None => None end.
Definition eff := list (option (option (nat * nat))).
Definition isc (c : nat) (x : option (option (nat * nat))) : bool :=
  match x with Some (Some (c', _)) => Nat.eqb c' c | _ => false end.
Definition cc (E : eff) (c : nat) : nat := length (filter (isc c) E).
Definition b2n (b : bool) : nat := if b then 1 else 0.

Lemma ev_upd {A} (E : list (option A)) v x u : v < length E -> ev (upd E v x) u = if Nat.eqb u v then x else ev E u.
Proof.
  intros H. unfold ev. destruct (Nat.eqb_spec u v) as [->|N].
  - now rewrite upd_same.
  - now rewrite upd_other by auto.
Qed.
Lemma ev_some {A} (E : list (option A)) v x : ev E v = Some x -> nth_error E v = Some (Some x).
Proof. unfold ev. destruct (nth_error E v); congruence. Qed.
Lemma ev_lt {A} (E : list (option A)) v x : ev E v = Some x -> v < length E.
Proof. intros H. apply ev_some in H. eapply nth_error_lt; eauto. Qed.
Lemma cc_upd (E : eff) v x y c : nth_error E v = Some x -> cc (upd E v y) c + b2n (isc c x) = cc E c + b2n (isc c y).
Proof.
  unfold cc. revert v. induction E as [|z E IH]; intros [|v] H; cbn in *; try discriminate.
  - inversion H; subst. destruct (isc c x), (isc c y); cbn; lia.
  - specialize (IH _ H). destruct (isc c z); cbn; lia.
Qed.
Lemma cc_zero (E : eff) c u o : cc E c = 0 -> ev E u = Some (Some (c, o)) -> False.
Proof.
  intros Z H. apply ev_some in H. apply nth_error_In in H.
  assert (In (Some (Some (c, o))) (filter (isc c) E)) as I.
  { apply filter_In. split; auto. cbn. apply Nat.eqb_refl. }
  unfold cc in Z. destruct (filter (isc c) E); [inversion I|discriminate].
Qed.
Lemma cc_pos (E : eff) c u o : ev E u = Some (Some (c, o)) -> 1 <= cc E c.
Proof. intros H. destruct (cc E c) eqn:Z; [exfalso; eapply cc_zero; eauto|lia]. Qed.

Lemma cc_ex (E : eff) c : 1 <= cc E c -> exists u o, ev E u = Some (Some (c, o)).
Proof.
  unfold cc. intros H. destruct (filter (isc c) E) as [|x l] eqn:F; cbn in H; [lia|].
  assert (In x (filter (isc c) E)) as I by (rewrite F; now left).
  apply filter_In in I. destruct I as [I Q]. apply In_nth_error in I. destruct I as [u Hu].
  destruct x as [[[c' o]|]|]; cbn in Q; try discriminate.
  exists u, o. unfold ev. rewrite Hu. apply Nat.eqb_eq in Q. congruence.
Qed.

(* replacing the contents of the storage of a variable *)
Definition sv (s : st) (v : nat) (x : option ptr) : st := mkSt (cn s) (ob s) (upd (vs s) v (x, home s v)).
Lemma ex_lt s v p : ex s v = Some p -> v < length (vs s).
Proof. unfold ex. destruct (nth_error (vs s) v) as [[q h]|] eqn:E; [|discriminate]. intros _. eapply nth_error_lt; eauto. Qed.
Lemma ex_sv s v x u : v < length (vs s) -> ex (sv s v x) u = if Nat.eqb u v then x else ex s u.
Proof.
  intros H. unfold ex, sv. cbn [vs]. destruct (Nat.eqb_spec u v) as [->|N].
  - now rewrite upd_same.
  - now rewrite upd_other by auto.
Qed.
Lemma home_sv s v x u : v < length (vs s) -> home (sv s v x) u = home s u.
Proof.
  intros H. unfold home at 1, sv. cbn [vs]. destruct (Nat.eq_dec u v) as [->|N].
  - now rewrite upd_same.
  - now rewrite upd_other by auto.
Qed.
Lemma pget_ok s v p : ex s v = Some p -> pget s v = Ok p.
Proof. unfold ex, pget. destruct (nth_error (vs s) v) as [[q h]|]; [|discriminate]. now intros ->. Qed.
Lemma pset_ok s v p q : ex s v = Some q -> pset s v p = Ok (sv s v (Some p)).
Proof. unfold ex, pset, sv, home. destruct (nth_error (vs s) v) as [[r h]|]; [|discriminate]. now intros ->. Qed.
Lemma pkill_ok s v q : ex s v = Some q -> pkill s v = Ok (sv s v None).
Proof. unfold ex, pkill, sv, home. destruct (nth_error (vs s) v) as [[r h]|]; [|discriminate]. now intros ->. Qed.
Lemma pinit_ok s v p : v < length (vs s) -> ex s v = None -> pinit s v p = Ok (sv s v (Some p)).
Proof.
  unfold ex, pinit, sv, home. intros L. destruct (nth_error (vs s) v) as [[r h]|] eqn:E.
  - now intros ->.
  - apply nth_error_None in E. lia.
Qed.

Record J (s : st) (E : eff) (X : list nat) : Prop := {
  j_len : length E = length (vs s);
  j_var : forall u, match ex s u with
                    | None => ev E u = None
                    | Some p => match ev E u with
                                | None => False
                                | Some None => True
                                | Some (Some (c, o)) => p = mkPtr (Some c) (Some o) (Some o) true
                                end
                    end;
  j_tight : forall u p, ~ In u X -> ex s u = Some p -> ev E u = Some None -> pc p = None /\ pr p = None;
  j_cnt : forall c n, nth_error (cn s) c = Some (Some n) -> n = Z.of_nat (cc E c);
  j_ref : forall u c o, ev E u = Some (Some (c, o)) -> (exists n, nth_error (cn s) c = Some (Some n)) /\ alive s o = true;
  j_inj : forall u1 u2 c1 c2 o1 o2, ev E u1 = Some (Some (c1, o1)) -> ev E u2 = Some (Some (c2, o2)) -> (c1 = c2 <-> o1 = o2);
  j_mem : forall u h, home s u = Some h -> alive s h = true -> ex s u <> None;
  j_new : forall u h, home s u = Some h -> h < length (ob s)
}.
Lemma j_live s E X u x : J s E X -> ev E u = Some x -> exists p, ex s u = Some p.
Proof. intros [_ V _ _ _ _ _ _] H. specialize (V u). destruct (ex s u); eauto. congruence. Qed.
Lemma j_lt s E X u x : J s E X -> ev E u = Some x -> u < length (vs s).
Proof. intros Q H. rewrite <- (j_len _ _ _ Q). eapply ev_lt; eauto. Qed.
Lemma j_ex s E X u p : J s E X -> ex s u = Some p -> exists x, ev E u = Some x.
Proof. intros Q H. pose proof (j_var _ _ _ Q u) as V. rewrite H in V. destruct (ev E u); eauto. contradiction. Qed.
Lemma j_more s E X Y : (forall x, In x X -> In x Y) -> J s E X -> J s E Y.
Proof. intros I [A B C D F G H K]. constructor; auto. intros. eapply C; eauto. Qed.

Lemma alive_upd l o o' : o < length l ->
  (match nth_error (upd l o false) o' with Some b => b | None => false end) =
  if Nat.eqb o' o then false else match nth_error l o' with Some b => b | None => false end.
Proof.
  intros H. destruct (Nat.eqb_spec o' o) as [->|N].
  - now rewrite upd_same.
  - now rewrite upd_other by auto.
Qed.

Definition count_true (l : list bool) := length (filter (fun b => b) l).
Lemma count_true_upd l o : nth_error l o = Some true -> S (count_true (upd l o false)) = count_true l.
Proof.
  unfold count_true. revert o; induction l as [|b l IH]; intros [|o] H; cbn in *; try discriminate.
  - inversion H; subst. reflexivity.
  - specialize (IH _ H). destruct b; cbn in *; lia.
Qed.
Lemma count_true_le l : count_true l <= length l.
Proof. unfold count_true. induction l as [|[] l IH]; cbn; lia. Qed.
Lemma count_true_mono l l' : length l = length l' ->
  (forall o, nth_error l' o = Some true -> nth_error l o = Some true) -> count_true l' <= count_true l.
Proof.
  unfold count_true. revert l'. induction l as [|b l IH]; intros [|b' l'] L H; cbn in *; try lia.
  assert (length (filter (fun b => b) l') <= length (filter (fun b => b) l)) as A.
  { apply IH; [lia|]. intros o. apply (H (S o)). }
  specialize (H 0). cbn in H. destruct b, b'; cbn; try lia. specialize (H eq_refl). congruence.
Qed.

Lemma alive_true s o : alive s o = true <-> nth_error (ob s) o = Some true.
Proof. unfold alive. destruct (nth_error (ob s) o) as [[]|]; split; congruence. Qed.

Definition each (f : nat) : list nat -> st -> res st :=
  fix each (ws : list nat) (s : st) : res st :=
  match ws with
  | [] => Ok s
  | w :: ws => do s <- dec f true w s; do s <- pkill s w; each ws s
  end.
Lemma dec_eq f del v s : dec (S f) del v s =
  do p <- pget s v;
  match pc p with
  | None => Ok s
  | Some c =>
      do n <- cget s c;
      let s := cset s c (Some (n - 1)%Z) in
      if (n - 1 =? 0)%Z then
        do s <-
          (if del then
             if pd p then
               let s := cset s c None in
               match po p with
               | None => Ok s
               | Some o =>
                   if alive s o then
                     let s := mkSt (cn s) (upd (ob s) o false) (vs s) in each f (members s o) s
                   else UB
               end
             else UB
           else Ok s);
        pset s v null
      else Ok s
  end.
Proof. reflexivity. Qed.

Lemma members_in s o w : In w (members s o) <-> home s w = Some o.
Proof.
  unfold members, home. rewrite <- in_rev, filter_In, in_seq. split.
  - intros [_ H]. destruct (nth_error (vs s) w) as [[p [h|]]|]; try discriminate. f_equal. lia.
  - intros H. destruct (nth_error (vs s) w) as [[p h]|] eqn:E; [|discriminate]. subst h.
    pose proof (nth_error_lt _ _ _ E). split; [lia|]. apply Nat.eqb_refl.
Qed.
Lemma members_nodup s o : NoDup (members s o).
Proof. unfold members. apply NoDup_rev, NoDup_filter, seq_NoDup. Qed.

(* ---- the cascade of deletions ------------------------------------------------------ *)
Section Cascade.
Variables w0 w1 : world.
Notation D := (dies w0 w1).

Record B (s : st) (E : eff) : Prop := {
  b_dead : forall o, wa w0 o = true -> alive s o = false -> D o;
  b_refs : forall u o, refers w1 u o -> (exists c, ev E u = Some (Some (c, o))) \/ exists h, wh w1 u = Some h /\ D h;
  b_old : forall u c o, ev E u = Some (Some (c, o)) -> refers w0 u o;
  b_home : forall u, home s u = wh w1 u;
  b_kept : forall o, (exists u, refers w0 u o) -> alive s o = true -> exists u c, ev E u = Some (Some (c, o))
}.
Inductive grip (s : st) (E : eff) (X : list nat) : nat -> Prop :=
| grip_by : forall h t c, ~ In t X -> ev E t = Some (Some (c, h)) -> (forall h', home s t = Some h' -> grip s E X h') -> grip s E X h.
Definition safe (s : st) (E : eff) (X : list nat) : Prop :=
  forall x h, In x X -> home s x = Some h -> alive s h = false \/ grip s E X h.
Lemma grip_mono s E X s' E' X' : (forall u, home s' u = home s u) ->
  (forall t c h, ~ In t X -> ev E t = Some (Some (c, h)) -> (forall h', home s t = Some h' -> grip s E X h') -> ~ In t X' /\ ev E' t = Some (Some (c, h))) ->
  forall h, grip s E X h -> grip s' E' X' h.
Proof.
  intros H K h G. induction G as [h t c N V C IH]. destruct (K t c h N V C) as [N' V'].
  apply (grip_by _ _ _ h t c); auto. intros h' Q. rewrite H in Q. auto.
Qed.
Lemma grip_alive s E Y X h : J s E Y -> grip s E X h -> alive s h = true.
Proof. intros HJ [h' t c _ V _]. apply (j_ref _ _ _ HJ _ _ _ V). Qed.
(* what the cascade changes: only variables of objects that go away *)
Record moved (ws : list nat) (s : st) (E : eff) (s' : st) (E' : eff) : Prop := {
  m_alive : forall o, alive s' o = true -> alive s o = true;
  m_ob : length (ob s') = length (ob s);
  m_vs : length (vs s') = length (vs s);
  m_cn : length (cn s') = length (cn s);
  m_home : forall u, home s' u = home s u;
  m_keep : forall u, ~ In u ws -> (forall h, home s u = Some h -> alive s h = true -> alive s' h = true) ->
             ev E' u = ev E u /\ ex s' u = ex s u;
  m_gone : forall u h, ~ In u ws -> home s u = Some h -> alive s h = true -> alive s' h = false -> ev E' u = None;
  m_leak : forall c n, nth_error (cn s') c = Some (Some n) -> exists m, nth_error (cn s) c = Some (Some m);
  m_none : forall u, ev E u = None -> ev E' u = None;
  m_stay : forall c, nth_error (cn s') c = Some (Some 0%Z) -> nth_error (cn s) c = Some (Some 0%Z)
}.

Lemma alive_dec s o : {alive s o = true} + {alive s o = false}.
Proof. destruct (alive s o); auto. Qed.

Lemma moved_refl ws s E : moved ws s E s E.
Proof. constructor; auto; try congruence; eauto. Qed.
Lemma moved_trans ws1 ws2 s1 E1 s2 E2 s3 E3 :
  moved ws1 s1 E1 s2 E2 -> moved ws2 s2 E2 s3 E3 -> moved (ws1 ++ ws2) s1 E1 s3 E3.
Proof.
  intros [A1 A2 A3 A4 A5 A6 A7 A8 A9 A10] [B1 B2 B3 B4 B5 B6 B7 B8 B9 B10].
  constructor; auto; try congruence.
  - intros u N K. rewrite in_app_iff in N.
    destruct (A6 u) as [P1 P2]; [tauto|auto|].
    destruct (B6 u) as [Q1 Q2]; [tauto| |split; congruence].
    intros h Hh Ha. rewrite A5 in Hh. auto.
  - intros u h N Hh Ha Hd. rewrite in_app_iff in N. destruct (alive_dec s2 h) as [L|L].
    + eapply B7; eauto. now rewrite A5.
    + apply B9. eapply A7; eauto.
  - intros c n H. destruct (B8 _ _ H) as [m H']. eauto.
Qed.
Lemma moved_drop ws v s E s' E' :
  (forall u, In u ws -> u = v \/ ev E' u = None /\ exists h, home s u = Some h /\ alive s h = true /\ alive s' h = false) ->
  moved ws s E s' E' -> moved [v] s E s' E'.
Proof.
  intros W [A1 A2 A3 A4 A5 A6 A7 A8 A9 A10]. constructor; auto.
  - intros u N K. apply A6; auto. intros I. destruct (W u I) as [->|(_ & h & H1 & H2 & H3)].
    + apply N. now left.
    + rewrite (K h H1 H2) in H3. discriminate.
  - intros u h N H1 H2 H3. destruct (in_dec Nat.eq_dec u ws) as [I|I]; [|eauto].
    destruct (W u I) as [->|[H _]]; auto. exfalso; apply N; now left.
Qed.

Lemma dec_ok : forall f s E X v e p,
  J s E X -> B s E -> ev E v = Some e -> ~ In v X -> ex s v = Some p ->
  safe s E (v :: X) -> count_true (ob s) < f ->
  (forall o, refers w1 v o -> exists h, wh w1 v = Some h /\ D h) ->
  (forall o, alive s o = true -> wa w0 o = true) ->
  exists s' E', dec f true v s = Ok s' /\ J s' E' (v :: X) /\ B s' E' /\ ev E' v = Some None /\
    moved [v] s E s' E' /\ safe s' E' (v :: X) /\ exists p', ex s' v = Some p'.
Proof.
  induction f as [|f IH]; intros s E X v e p HJ HB Hv Nv Hp Hs Hf Hr Ha; [lia|].
  rewrite dec_eq, (pget_ok _ _ _ Hp). cbn [bind].
  assert (v < length E) as Lv by (eapply ev_lt; eauto).
  assert (v < length (vs s)) as Lv' by (eapply ex_lt; eauto).
  pose proof (j_var _ _ _ HJ v) as Vv. rewrite Hp, Hv in Vv.
  destruct e as [[c o]|].
  2:{ destruct (j_tight _ _ _ HJ v p Nv Hp Hv) as [Pc _]. rewrite Pc.
      exists s, E. split; [reflexivity|]. split; [apply (j_more _ _ X); [cbn; auto|auto]|]. split; [auto|]. split; [auto|].
      split; [apply moved_refl|]. split; eauto. }
  subst p. cbn [pc pd po].
  destruct (j_ref _ _ _ HJ _ _ _ Hv) as [[n Hn] Hao].
  unfold cget. rewrite Hn. cbn [bind].
  pose proof (j_cnt _ _ _ HJ _ _ Hn) as En.
  pose proof (cc_upd E v _ (Some None) c (ev_some _ _ _ Hv)) as Ec.
  cbn [isc] in Ec. rewrite Nat.eqb_refl in Ec. cbn [b2n] in Ec.
  assert (c < length (cn s)) as Lc by (eapply nth_error_lt; eauto).
  set (E1 := upd E v (Some None)) in *.
  assert (forall u, ev E1 u = if Nat.eqb u v then Some None else ev E u) as EvE1 by (intros; now apply ev_upd).
  assert (forall u c' o', ev E1 u = Some (Some (c', o')) -> ev E u = Some (Some (c', o')) /\ u <> v) as EvE1'.
  { intros u c' o'. rewrite EvE1. destruct (Nat.eqb_spec u v); [discriminate|auto]. }
  assert (forall c', c' <> c -> cc E1 c' = cc E c') as Ec'.
  { intros c' N. pose proof (cc_upd E v _ (Some None) c' (ev_some _ _ _ Hv)) as Q. cbn [isc b2n] in Q.
    replace (c =? c') with false in Q by (symmetry; apply Nat.eqb_neq; congruence). cbn [b2n] in Q. fold E1 in Q. lia. }
  destruct (Z.eqb_spec (n - 1) 0) as [Z1|Z1].
  - (* the last reference *)
    cbv zeta. cbn [pc pd po].
    assert (cc E1 c = 0) as Cz by lia.
    set (s1 := cset (cset s c (Some (n - 1)%Z)) c None).
    assert (alive s1 o = true) as Hao1 by exact Hao. rewrite Hao1.
    set (s2 := mkSt (cn s1) (upd (ob s1) o false) (vs s1)).
    assert (o < length (ob s)) as Lo by (apply alive_true in Hao; eapply nth_error_lt; eauto).
    assert (forall o', alive s2 o' = if Nat.eqb o' o then false else alive s o') as Al2.
    { intros o'. unfold alive at 1, s2. cbn [ob]. apply alive_upd. exact Lo. }
    assert (forall u, ex s2 u = ex s u) as Ex2 by reflexivity.
    assert (forall u, home s2 u = home s u) as Ho2 by reflexivity.
    assert (forall c', nth_error (cn s2) c' = if Nat.eqb c' c then Some None else nth_error (cn s) c') as Cn2.
    { intros c'. unfold s2, s1, cset. cbn [cn ob vs]. destruct (Nat.eqb_spec c' c) as [->|N].
      - rewrite upd_same; auto. now rewrite upd_length.
      - rewrite !upd_other by auto. reflexivity. }
    assert (forall u c' o', ev E1 u = Some (Some (c', o')) -> c' <> c /\ o' <> o) as Nco.
    { intros u c' o' H. assert (c' <> c) as N by (intros ->; eapply cc_zero; eauto). split; auto.
      intros ->. apply EvE1' in H. destruct H as [H _]. apply N. eapply (j_inj _ _ _ HJ); eauto. }
    assert (D o) as Do.
    { constructor.
      - exists v. eapply b_old; eauto.
      - intros u R. destruct (b_refs _ _ HB u o R) as [[c' H]|]; auto.
        destruct (Nat.eq_dec u v) as [->|N]; [eauto|].
        exfalso. assert (ev E1 u = Some (Some (c', o))) as H1.
        { rewrite EvE1. apply Nat.eqb_neq in N. now rewrite N. }
        apply Nco in H1. tauto. }
    assert (J s2 E1 (v :: X)) as J2.
    { destruct HJ as [A1 A2 A3 A4 A5 A6 A7 A8]; constructor.
      - unfold E1. rewrite upd_length. exact A1.
      - intros u. rewrite Ex2, EvE1. destruct (Nat.eqb_spec u v) as [->|N]; [now rewrite Hp|apply A2].
      - intros u q N. rewrite Ex2, EvE1. destruct (Nat.eqb_spec u v) as [->|N']; [exfalso; apply N; now left|].
        apply A3. intros I. apply N. now right.
      - intros c' m. rewrite Cn2. destruct (Nat.eqb_spec c' c) as [->|N]; [discriminate|].
        intros H. rewrite (Ec' c' N). auto.
      - intros u c' o' H. destruct (Nco _ _ _ H) as [N1 N2]. apply EvE1' in H. destruct H as [H _].
        apply A5 in H. rewrite Cn2, Al2. apply Nat.eqb_neq in N1, N2. now rewrite N1, N2.
      - intros u1 u2 c1 c2 o1 o2 H1 H2. apply EvE1' in H1, H2. destruct H1, H2. eapply A6; eauto.
      - intros u h H1. rewrite Al2. destruct (Nat.eqb_spec h o); [discriminate|]. apply A7. exact H1.
      - intros u h H1. unfold s2. cbn [ob]. rewrite upd_length. apply (A8 u h H1). }
    assert (B s2 E1) as B2.
    { destruct HB as [A1 A2 A3 A4 A5]. constructor.
      - intros o' H1. rewrite Al2. destruct (Nat.eqb_spec o' o) as [->|N]; auto.
      - intros u o' R. destruct (Nat.eq_dec u v) as [->|N]; [right; eauto|].
        rewrite EvE1. apply Nat.eqb_neq in N. rewrite N. auto.
      - intros u c' o' H. apply EvE1' in H. destruct H. eauto.
      - exact A4.
      - intros o' H1. rewrite Al2. destruct (Nat.eqb_spec o' o) as [->|N]; [discriminate|]. intros H2.
        destruct (A5 o' H1 H2) as (u & c' & H3). exists u, c'. rewrite EvE1.
        destruct (Nat.eqb_spec u v) as [->|]; [congruence|auto]. }
    assert (safe s2 E1 (v :: X)) as S2.
    { intros x h I H. rewrite Ho2 in H. destruct (Hs x h I H) as [L|Gr].
      - left. rewrite Al2, L. now destruct (h =? o).
      - right. revert h Gr H. intros h Gr _. revert h Gr. apply grip_mono; [exact Ho2|]. intros t c' h N H2 _. split; auto. rewrite EvE1.
        destruct (Nat.eqb_spec t v) as [->|]; [exfalso; apply N; now left|auto]. }
    set (ms := members s2 o).
    assert (moved (v :: ms) s E s2 E1) as M2.
    { constructor; auto.
      - intros o'. rewrite Al2. destruct (o' =? o); [discriminate|auto].
      - unfold s2. cbn [ob]. now rewrite upd_length.
      - unfold s2, s1, cset. cbn [cn]. now rewrite !upd_length.
      - intros u N K. split; auto. rewrite EvE1. destruct (Nat.eqb_spec u v) as [->|]; auto. exfalso; apply N; now left.
      - intros u h N H1 H2 H3.
        rewrite Al2 in H3. destruct (Nat.eqb_spec h o) as [->|]; [|congruence].
        exfalso. apply N. right. now apply members_in.
      - intros c' m. rewrite Cn2. destruct (c' =? c); [discriminate|eauto].
      - intros u H. rewrite EvE1. destruct (Nat.eqb_spec u v) as [->|]; [congruence|auto].
      - intros c'. rewrite Cn2. destruct (c' =? c); [discriminate|auto]. }
    assert (count_true (ob s2) < f) as F2.
    { apply alive_true in Hao. pose proof (count_true_upd _ _ Hao). unfold s2, s1, cset. cbn [ob]. lia. }
    assert (forall w, In w ms -> ~ In w (v :: X)) as Nms.
    { intros w I I'. apply members_in in I. rewrite Ho2 in I.
      destruct (Hs w o I' I) as [L|Gr]; [congruence|]. destruct Gr as [o t c' N H2 _].
      assert (ev E1 t = Some (Some (c', o))) as H3.
      { rewrite EvE1. destruct (Nat.eqb_spec t v) as [->|]; auto. exfalso; apply N; now left. }
      apply Nco in H3. tauto. }
    assert (forall ws s E, J s E (v :: X) -> B s E -> safe s E (v :: X) -> count_true (ob s) < f -> NoDup ws ->
              (forall w, In w ws -> home s w = Some o /\ ~ In w (v :: X) /\ exists x, ev E w = Some x) ->
              alive s o = false -> (forall o', alive s o' = true -> wa w0 o' = true) ->
              exists s' E', each f ws s = Ok s' /\ J s' E' (v :: X) /\ B s' E' /\ safe s' E' (v :: X) /\
                moved ws s E s' E' /\ (forall w, In w ws -> ev E' w = None)) as LOOP.
    { clear - IH Do. induction ws as [|w ws IHw]; intros s E HJ HB Hs Hf ND Hw Hd Ha.
      - exists s, E. split; [reflexivity|]. split; [auto|]. split; [auto|]. split; [auto|]. split; [apply moved_refl|]. intros w [].
      - cbn [each]. fold (each f).
        destruct (Hw w (or_introl eq_refl)) as (Hh & Nw & x & Hx).
        destruct (j_live _ _ _ _ _ HJ Hx) as [p Hp].
        assert (safe s E (w :: v :: X)) as Hs'.
        { intros y h [<-|I] H.
          - left. congruence.
          - destruct (Hs y h I H) as [L|Gr]; auto.
            right. clear H. revert h Gr. apply grip_mono; [reflexivity|]. intros t c h N H2 H1. split; auto.
            intros [->|I']; [|auto]. pose proof (grip_alive _ _ _ _ _ HJ (H1 o Hh)). congruence. }
        destruct (IH s E (v :: X) w x p HJ HB Hx Nw Hp Hs' Hf) as (s1 & E1 & R1 & J1 & B1 & V1 & M1 & S1 & p1 & P1).
        { intros o' _. exists o. rewrite <- (b_home _ _ HB). auto. }
        { exact Ha. }
        rewrite R1. cbn [bind]. rewrite (pkill_ok _ _ _ P1). cbn [bind].
        pose proof (ex_lt _ _ _ P1) as L1.
        set (s2 := sv s1 w None). set (E2 := upd E1 w None).
        assert (w < length E1) as L1' by (eapply ev_lt; eauto).
        assert (forall u, ex s2 u = if Nat.eqb u w then None else ex s1 u) as X2 by (intros; apply ex_sv; auto).
        assert (forall u, home s2 u = home s1 u) as H2 by (intros; apply home_sv; auto).
        assert (forall u, ev E2 u = if Nat.eqb u w then None else ev E1 u) as V2 by (intros; apply ev_upd; auto).
        assert (forall u q, ev E2 u = Some (Some q) -> ev E1 u = Some (Some q)) as V2'.
        { intros u q. rewrite V2. destruct (u =? w); [discriminate|auto]. }
        assert (forall c, cc E2 c = cc E1 c) as C2.
        { intros c. pose proof (cc_upd E1 w _ None c (ev_some _ _ _ V1)) as Q. cbn [isc b2n] in Q. fold E2 in Q. lia. }
        assert (alive s1 o = false) as D1.
        { destruct (alive s1 o) eqn:A; auto. apply (m_alive _ _ _ _ _ M1) in A. congruence. }
        assert (J s2 E2 (v :: X)) as J2.
        { destruct J1 as [A1 A2 A3 A4 A5 A6 A7 A8]. constructor.
          - unfold E2, s2, sv. cbn [vs]. now rewrite !upd_length.
          - intros u. rewrite X2, V2. destruct (u =? w); [reflexivity|apply A2].
          - intros u q N. rewrite X2, V2. destruct (Nat.eqb_spec u w) as [->|N']; [discriminate|].
            apply A3. intros [->|I]; congruence.
          - intros c n H. rewrite C2. apply A4. exact H.
          - intros u c o' H. apply (A5 u c o'). auto.
          - intros u1 u2 c1 c2 o1 o2 Q1 Q2. eapply A6; eauto.
          - intros u h. rewrite H2, X2. destruct (Nat.eqb_spec u w) as [->|N].
            + rewrite (m_home _ _ _ _ _ M1). intros Q1 Q2. change (alive s1 h = true) in Q2. congruence.
            + apply A7.
          - intros u h. rewrite H2. apply A8. }
        assert (B s2 E2) as B2.
        { destruct B1 as [A1 A2 A3 A4 A5]. constructor.
          - exact A1.
          - intros u o' R. destruct (A2 u o' R) as [[c H]|]; auto. left. exists c. rewrite V2.
            destruct (Nat.eqb_spec u w) as [->|]; [congruence|auto].
          - intros u c o' H. eauto.
          - intros u. rewrite H2. apply A4.
          - intros o' Q1 Q2. destruct (A5 o' Q1 Q2) as (u & c & Q3). exists u, c. rewrite V2.
            destruct (Nat.eqb_spec u w) as [->|]; [congruence|auto]. }
        assert (moved [w] s1 E1 s2 E2) as M2.
        { constructor; auto.
          - unfold s2, sv. cbn [vs]. apply upd_length.
          - intros u N K. rewrite X2, V2. destruct (Nat.eqb_spec u w) as [->|]; auto. exfalso; apply N; now left.
          - intros u h N Q1 Q2 Q3. change (alive s1 h = false) in Q3. congruence.
          - intros c n H. exists n. exact H.
          - intros u H. rewrite V2. now destruct (u =? w). }
        assert (safe s2 E2 (v :: X)) as S2.
        { intros y h I H. rewrite H2 in H. destruct (S1 y h (or_intror I) H) as [L|Gr].
          - left. exact L.
          - right. clear H. revert h Gr. apply grip_mono; [exact H2|]. intros t c h N Q2 _. split; [intros I'; apply N; now right|].
            rewrite V2. destruct (Nat.eqb_spec t w) as [->|]; [exfalso; apply N; now left|auto]. }
        pose proof (moved_trans _ _ _ _ _ _ _ _ M1 M2) as M12. cbn [app] in M12.
        assert (NoDup ws /\ ~ In w ws) as [ND' Nin] by (inversion ND; auto).
        destruct (IHw s2 E2 J2 B2 S2) as (s3 & E3 & R3 & J3 & B3 & S3 & M3 & G3); auto.
        + assert (count_true (ob s2) <= count_true (ob s)); [|lia].
          apply count_true_mono; [symmetry; apply (m_ob _ _ _ _ _ M12)|].
          intros o' A. apply alive_true. apply (m_alive _ _ _ _ _ M12). now apply alive_true.
        + intros w' I. destruct (Hw w' (or_intror I)) as (Q1 & Q2 & y & Q3).
          rewrite (m_home _ _ _ _ _ M12). repeat split; auto. exists y.
          destruct (m_keep _ _ _ _ _ M12 w') as [Q4 _]; [cbn; intros [->|[->|[]]]; auto| |congruence].
          intros h Q5 Q6. congruence.
        + intros o' A. apply Ha. apply (m_alive _ _ _ _ _ M12). exact A.
        + exists s3, E3. split; [exact R3|]. repeat (split; [auto; fail|]). split.
          * pose proof (moved_trans _ _ _ _ _ _ _ _ M12 M3) as M. cbn [app] in M.
            destruct M as [A1 A2 A3 A4 A5 A6 A7 A8 A9 A10]. constructor; auto.
            -- intros u N K. apply A6; auto. intros [->|[->|I]]; apply N; cbn; auto.
            -- intros u h N. apply A7. intros [->|[->|I]]; apply N; cbn; auto.
          * intros w' [<-|I]; [|auto]. apply (m_none _ _ _ _ _ M3). rewrite V2. now rewrite Nat.eqb_refl. }
    destruct (LOOP ms s2 E1 J2 B2 S2 F2) as (s3 & E3 & R3 & J3 & B3 & S3 & M3 & G3).
    { apply members_nodup. }
    { intros w I. split; [now apply members_in|]. split; [now apply Nms|].
      apply members_in in I. rewrite Ho2 in I.
      assert (ex s w <> None) as Q by (eapply (j_mem _ _ _ HJ); eauto).
      destruct (ex s w) as [q|] eqn:Qe; [|congruence].
      eapply (j_ex _ _ _ _ _ J2). rewrite Ex2. exact Qe. }
    { rewrite Al2. now rewrite Nat.eqb_refl. }
    { intros o' A. apply Ha. apply (m_alive _ _ _ _ _ M2). exact A. }
    fold ms. rewrite R3. cbn [bind].
    assert (~ In v ms) as Nvm by (intros I; apply (Nms v I); now left).
    destruct (m_keep _ _ _ _ _ M3 v Nvm) as [Kv Kx].
    { intros h Hh Hal. rewrite Ho2 in Hh. destruct (Hs v h (or_introl eq_refl) Hh) as [L|Gr].
      - apply (m_alive _ _ _ _ _ M2) in Hal. congruence.
      - clear Hh Hal. induction Gr as [h t c' N H2 _ IHg].
        assert (ev E3 t = Some (Some (c', h))) as Q.
        { destruct (m_keep _ _ _ _ _ M3 t) as [Q _].
          - intros I. apply members_in in I. rewrite Ho2 in I. specialize (IHg o I).
            apply (m_alive _ _ _ _ _ M3) in IHg. rewrite Al2, Nat.eqb_refl in IHg. discriminate.
          - intros h' Q _. rewrite Ho2 in Q. auto.
          - rewrite Q, EvE1. destruct (Nat.eqb_spec t v) as [->|]; auto. exfalso; apply N; now left. }
        eapply (j_ref _ _ _ J3); eauto. }
    rewrite EvE1, Nat.eqb_refl in Kv. rewrite Ex2, Hp in Kx.
    rewrite (pset_ok _ _ _ _ Kx).
    pose proof (ex_lt _ _ _ Kx) as L3.
    assert (moved [v] s E s3 E3) as M.
    { eapply (moved_drop ((v :: ms) ++ ms)); [|eapply moved_trans; eauto].
      intros u I. assert (u = v \/ In u ms) as [->|I'] by (apply in_app_or in I; cbn [In] in I; destruct I as [[I|I]|I]; auto); [now left|].
      right. split; [auto|]. exists o. apply members_in in I'. split; [exact I'|]. split; [auto|].
      destruct (alive s3 o) eqn:Q; auto. apply (m_alive _ _ _ _ _ M3) in Q. rewrite Al2, Nat.eqb_refl in Q. discriminate. }
    set (s4 := sv s3 v (Some null)).
    assert (forall u, ex s4 u = if Nat.eqb u v then Some null else ex s3 u) as X4 by (intros; apply ex_sv; auto).
    assert (forall u, home s4 u = home s3 u) as H4 by (intros; apply home_sv; auto).
    exists s4, E3. split; [reflexivity|]. split; [|split; [|split; [|split; [|split]]]].
    + destruct J3 as [A1 A2 A3 A4 A5 A6 A7 A8]. constructor; auto.
      * unfold s4, sv. cbn [vs]. now rewrite upd_length.
      * intros u. rewrite X4. destruct (Nat.eqb_spec u v) as [->|N]; [now rewrite Kv|apply A2].
      * intros u q N. rewrite X4. destruct (Nat.eqb_spec u v) as [->|N']; [exfalso; apply N; now left|apply (A3 u q N)].
      * intros u h. rewrite H4, X4. destruct (u =? v); [congruence|apply A7].
      * intros u h. rewrite H4. apply A8.
    + destruct B3 as [A1 A2 A3 A4 A5]. constructor; auto. intros u. now rewrite H4.
    + exact Kv.
    + destruct M as [A1 A2 A3 A4 A5 A6 A7 A8 A9 A10]. constructor; auto.
      * unfold s4, sv. cbn [vs]. now rewrite upd_length.
      * intros u. now rewrite H4.
      * intros u N K. rewrite X4. destruct (Nat.eqb_spec u v) as [->|N']; [exfalso; apply N; now left|apply A6; auto].
    + intros y h I H. rewrite H4 in H. destruct (S3 y h I H) as [L|Gr]; [left; exact L|].
      right. clear H. revert h Gr. apply grip_mono; [exact H4|]. auto.
    + exists null. rewrite X4. now rewrite Nat.eqb_refl.
  - (* others remain *)
    pose proof HJ as HJ0.
    set (s1 := cset s c (Some (n - 1)%Z)).
    assert (forall c', nth_error (cn s1) c' = if Nat.eqb c' c then Some (Some (n - 1)%Z) else nth_error (cn s) c') as Cn1.
    { intros c'. unfold s1, cset. cbn [cn]. destruct (Nat.eqb_spec c' c) as [->|N]; [now rewrite upd_same|now rewrite upd_other by auto]. }
    exists s1, E1. split; [reflexivity|]. split; [|split; [|split; [|split; [|split]]]].
    + destruct HJ as [A1 A2 A3 A4 A5 A6 A7 A8]. constructor; auto.
      * unfold E1. now rewrite upd_length.
      * intros u. change (ex s1 u) with (ex s u). rewrite EvE1. destruct (Nat.eqb_spec u v) as [->|N]; [now rewrite Hp|apply A2].
      * intros u q N. change (ex s1 u) with (ex s u). rewrite EvE1. destruct (Nat.eqb_spec u v) as [->|N']; [exfalso; apply N; now left|].
        apply A3. intros I. apply N. now right.
      * intros c' m. rewrite Cn1. destruct (Nat.eqb_spec c' c) as [->|N].
        -- intros H. assert (m = n - 1)%Z by congruence. lia.
        -- intros H. rewrite (Ec' c' N). auto.
      * intros u c' o' H. apply EvE1' in H. destruct H as [H _]. apply A5 in H. destruct H as [H1 H2]. split; [|exact H2].
        rewrite Cn1. destruct (c' =? c); eauto.
      * intros u1 u2 c1 c2 o1 o2 H1 H2. apply EvE1' in H1, H2. destruct H1, H2. eapply A6; eauto.
    + destruct HB as [A1 A2 A3 A4 A5]. constructor; auto.
      * intros u o' R. destruct (Nat.eq_dec u v) as [->|N]; [right; eauto|].
        rewrite EvE1. apply Nat.eqb_neq in N. rewrite N. auto.
      * intros u c' o' H. apply EvE1' in H. destruct H. eauto.
      * intros o' H1 H2. destruct (A5 o' H1 H2) as (u & c' & H3).
        destruct (Nat.eq_dec u v) as [->|N].
        -- assert (c' = c /\ o' = o) as [-> ->] by (split; congruence).
           destruct (cc_ex E1 c) as (t & o1 & Ht); [lia|]. exists t, c.
           pose proof (EvE1' _ _ _ Ht) as [Ht' _].
           assert (o1 = o) by (apply (j_inj _ _ _ HJ0 t v c c o1 o Ht' Hv); reflexivity). congruence.
        -- exists u, c'. rewrite EvE1. apply Nat.eqb_neq in N. now rewrite N.
    + rewrite EvE1. now rewrite Nat.eqb_refl.
    + constructor; auto.
      * unfold s1, cset. cbn [cn]. now rewrite upd_length.
      * intros u N K. rewrite EvE1. destruct (Nat.eqb_spec u v) as [->|N']; [exfalso; apply N; now left|auto].
      * intros u h N H1 H2 H3. change (alive s h = false) in H3. congruence.
      * intros c' m. rewrite Cn1. destruct (Nat.eqb_spec c' c) as [->|]; eauto.
      * intros u H. rewrite EvE1. destruct (Nat.eqb_spec u v) as [->|]; [congruence|auto].
      * intros c'. rewrite Cn1. destruct (Nat.eqb_spec c' c) as [->|]; auto. intros H. exfalso. apply Z1. congruence.
    + intros x h I H. destruct (Hs x h I H) as [L|Gr]; [left; exact L|].
      right. clear H. revert h Gr. apply grip_mono; [reflexivity|]. intros t c' h N H2 _. split; auto. rewrite EvE1.
      destruct (Nat.eqb_spec t v) as [->|]; [exfalso; apply N; now left|auto].
    + exists (mkPtr (Some c) (Some o) (Some o) true). exact Hp.
Qed.
End Cascade.

(* ---- single operations on variables ------------------------------------------------- *)
Lemma alive_sv s v x o : alive (sv s v x) o = alive s o.
Proof. reflexivity. Qed.
Definition blank (E : eff) (v : nat) : Prop := ev E v = None \/ ev E v = Some None.
Lemma blank_isc E v : v < length E -> blank E v -> exists x, nth_error E v = Some x /\ forall c, isc c x = false.
Proof.
  intros L [H|H].
  - unfold ev in H. destruct (nth_error E v) eqn:Q; [|apply nth_error_None in Q; lia]. subst. exists None. auto.
  - exists (Some None). split; [now apply ev_some|auto].
Qed.

Lemma store_null s E v p : J s E [v] -> v < length (vs s) -> blank E v -> pc p = None -> pr p = None ->
  J (sv s v (Some p)) (upd E v (Some None)) [].
Proof.
  intros [A1 A2 A3 A4 A5 A6 A7 A8] L Bl Pc Pr.
  destruct (blank_isc E v) as (x & Hx & Ix); [lia|auto|].
  assert (forall u, ex (sv s v (Some p)) u = if Nat.eqb u v then Some p else ex s u) as X2 by (intros; apply ex_sv; auto).
  assert (forall u, home (sv s v (Some p)) u = home s u) as H2 by (intros; apply home_sv; auto).
  assert (forall u, ev (upd E v (Some None)) u = if Nat.eqb u v then Some None else ev E u) as V2 by (intros; apply ev_upd; lia).
  assert (forall u q, ev (upd E v (Some None)) u = Some (Some q) -> ev E u = Some (Some q)) as V2'.
  { intros u q. rewrite V2. destruct (u =? v); [discriminate|auto]. }
  constructor.
  - unfold sv. cbn [vs]. now rewrite !upd_length.
  - intros u. rewrite X2, V2. destruct (u =? v); [exact I|apply A2].
  - intros u q N. rewrite X2, V2. destruct (Nat.eqb_spec u v) as [->|N']; [intros Q; inversion Q; subst; auto|].
    apply A3. intros [->|[]]; congruence.
  - intros c n H. pose proof (cc_upd E v _ (Some None) c Hx) as Q. rewrite Ix in Q. cbn [isc b2n] in Q.
    rewrite (A4 c n H). f_equal. lia.
  - intros u c o H. apply (A5 u c o); auto.
  - intros u1 u2 c1 c2 o1 o2 Q1 Q2. eapply A6; eauto.
  - intros u h. rewrite H2, X2. destruct (u =? v); [congruence|apply A7].
  - intros u h. rewrite H2. apply A8.
Qed.
Lemma kill_var s E v : J s E [v] -> v < length (vs s) -> blank E v -> home s v = None ->
  J (sv s v None) (upd E v None) [].
Proof.
  intros [A1 A2 A3 A4 A5 A6 A7 A8] L Bl Hh.
  destruct (blank_isc E v) as (x & Hx & Ix); [lia|auto|].
  assert (forall u, ex (sv s v None) u = if Nat.eqb u v then None else ex s u) as X2 by (intros; apply ex_sv; auto).
  assert (forall u, home (sv s v None) u = home s u) as H2 by (intros; apply home_sv; auto).
  assert (forall u, ev (upd E v None) u = if Nat.eqb u v then None else ev E u) as V2 by (intros; apply ev_upd; lia).
  assert (forall u q, ev (upd E v None) u = Some (Some q) -> ev E u = Some (Some q)) as V2'.
  { intros u q. rewrite V2. destruct (u =? v); [discriminate|auto]. }
  constructor.
  - unfold sv. cbn [vs]. now rewrite !upd_length.
  - intros u. rewrite X2, V2. destruct (u =? v); [reflexivity|apply A2].
  - intros u q N. rewrite X2, V2. destruct (Nat.eqb_spec u v) as [->|N']; [discriminate|].
    apply A3. intros [->|[]]; congruence.
  - intros c n H. pose proof (cc_upd E v _ None c Hx) as Q. rewrite Ix in Q. cbn [isc b2n] in Q.
    rewrite (A4 c n H). f_equal. lia.
  - intros u c o H. apply (A5 u c o); auto.
  - intros u1 u2 c1 c2 o1 o2 Q1 Q2. eapply A6; eauto.
  - intros u h. rewrite H2, X2. destruct (Nat.eqb_spec u v) as [->|]; [congruence|apply A7].
  - intros u h. rewrite H2. apply A8.
Qed.
Lemma store_copy s E v u c o : J s E [v] -> v < length (vs s) -> blank E v -> ev E u = Some (Some (c, o)) ->
  let p := mkPtr (Some c) (Some o) (Some o) true in
  exists s', inc (sv s v (Some p)) p = Ok s' /\ J s' (upd E v (Some (Some (c, o)))) [] /\
    vs s' = vs (sv s v (Some p)) /\ ob s' = ob s /\
    (forall c', nth_error (cn s') c' = Some (Some 0%Z) -> nth_error (cn s) c' = Some (Some 0%Z)).
Proof.
  intros [A1 A2 A3 A4 A5 A6 A7 A8] L Bl Hu p.
  destruct (blank_isc E v) as (x & Hx & Ix); [lia|auto|].
  destruct (A5 _ _ _ Hu) as [[n Hn] Ha].
  pose proof (nth_error_lt _ _ _ Hn) as Lc. pose proof (A4 _ _ Hn) as En.
  unfold inc. cbn [pc p]. unfold cget. change (cn (sv s v (Some p))) with (cn s). rewrite Hn. cbn [bind].
  set (s' := cset (sv s v (Some p)) c (Some (n + 1)%Z)).
  assert (forall u, ex s' u = if Nat.eqb u v then Some p else ex s u) as X2 by (intros; apply ex_sv; auto).
  assert (forall u, home s' u = home s u) as H2 by (intros; apply home_sv; auto).
  set (E' := upd E v (Some (Some (c, o)))).
  assert (forall u, ev E' u = if Nat.eqb u v then Some (Some (c, o)) else ev E u) as V2 by (intros; apply ev_upd; lia).
  assert (forall c', nth_error (cn s') c' = if Nat.eqb c' c then Some (Some (n + 1)%Z) else nth_error (cn s) c') as C2.
  { intros c'. unfold s', cset. cbn [cn]. destruct (Nat.eqb_spec c' c) as [->|N]; [now rewrite upd_same|now rewrite upd_other by auto]. }
  assert (forall t c' o', ev E' t = Some (Some (c', o')) -> exists t', ev E t' = Some (Some (c', o'))) as V2'.
  { intros t c' o'. rewrite V2. destruct (t =? v); [|eauto]. intros Q. exists u. congruence. }
  exists s'. split; [reflexivity|]. split; [|split; [reflexivity|split; [reflexivity|]]].
  constructor.
  - unfold s', sv, E'. cbn [vs cset]. now rewrite !upd_length.
  - intros t. rewrite X2, V2. destruct (t =? v); [reflexivity|apply A2].
  - intros t q N. rewrite X2, V2. destruct (Nat.eqb_spec t v) as [->|N']; [discriminate|].
    apply A3. intros [->|[]]; congruence.
  - intros c' m. rewrite C2. pose proof (cc_upd E v _ (Some (Some (c, o))) c' Hx) as Q. rewrite Ix in Q. fold E' in Q.
    cbn [isc] in Q. rewrite Nat.eqb_sym in Q. destruct (Nat.eqb_spec c' c) as [->|N]; cbn [b2n] in Q.
    + intros H. assert (m = n + 1)%Z by congruence. lia.
    + intros H. rewrite (A4 c' m H). f_equal. lia.
  - intros t c' o' H. apply V2' in H. destruct H as [t' H]. apply A5 in H. destruct H as [[m H] H']. split; [|exact H'].
    rewrite C2. destruct (c' =? c); eauto.
  - intros u1 u2 c1 c2 o1 o2 Q1 Q2. apply V2' in Q1, Q2. destruct Q1 as [t1 Q1], Q2 as [t2 Q2]. eapply A6; eauto.
  - intros t h. rewrite H2, X2. destruct (t =? v); [congruence|apply A7].
  - intros t h. rewrite H2. apply A8.
  - intros c'. rewrite C2. destruct (Nat.eqb_spec c' c) as [->|]; auto. intros H. exfalso.
    assert (n + 1 = 0)%Z by congruence. lia.
Qed.
Lemma store_move s E v u p x : J s E [v] -> v < length (vs s) -> v <> u -> blank E v -> ex s u = Some p -> ev E u = Some x ->
  J (sv (sv s v (Some p)) u (Some null)) (upd (upd E v (Some x)) u (Some None)) [].
Proof.
  intros HJ L N Bl Hp Hu. pose proof (j_var _ _ _ HJ u) as Vu. rewrite Hp, Hu in Vu.
  pose proof (ex_lt _ _ _ Hp) as Lu.
  destruct HJ as [A1 A2 A3 A4 A5 A6 A7 A8].
  destruct (blank_isc E v) as (y & Hy & Iy); [lia|auto|].
  set (s1 := sv s v (Some p)). set (s' := sv s1 u (Some null)). set (E1 := upd E v (Some x)). set (E' := upd E1 u (Some None)).
  assert (length (vs s1) = length (vs s)) as L1 by (unfold s1, sv; cbn [vs]; apply upd_length).
  assert (length E1 = length E) as L1' by (unfold E1; apply upd_length).
  assert (forall t, ex s' t = if Nat.eqb t u then Some null else if Nat.eqb t v then Some p else ex s t) as X2.
  { intros t. unfold s'. rewrite ex_sv by lia. destruct (t =? u); auto. apply ex_sv; auto. }
  assert (forall t, home s' t = home s t) as H2.
  { intros t. unfold s'. rewrite home_sv by lia. apply home_sv; auto. }
  assert (forall t, ev E' t = if Nat.eqb t u then Some None else if Nat.eqb t v then Some x else ev E t) as V2.
  { intros t. unfold E'. rewrite ev_upd by lia. destruct (t =? u); auto. apply ev_upd; lia. }
  assert (forall c, cc E' c = cc E c) as C2.
  { intros c. pose proof (cc_upd E v _ (Some x) c Hy) as Q1. rewrite Iy in Q1. fold E1 in Q1.
    assert (nth_error E1 u = Some (Some x)) as Hu1.
    { unfold E1. rewrite upd_other by auto. now apply ev_some. }
    pose proof (cc_upd E1 u _ (Some None) c Hu1) as Q2. fold E' in Q2. cbn [isc b2n] in Q1, Q2. lia. }
  assert (forall t c' o', ev E' t = Some (Some (c', o')) -> exists t', ev E t' = Some (Some (c', o'))) as V2'.
  { intros t c' o'. rewrite V2. destruct (t =? u); [discriminate|]. destruct (t =? v); [|eauto]. intros Q. exists u. congruence. }
  constructor.
  - unfold s', E', s1, sv. cbn [vs]. rewrite !upd_length. lia.
  - intros t. rewrite X2, V2. destruct (t =? u); [exact I|]. destruct (t =? v); [|apply A2].
    destruct x as [[c o]|]; auto.
  - intros t q _. rewrite X2, V2. destruct (t =? u); [intros Q; inversion Q; now split|].
    destruct (Nat.eqb_spec t v) as [->|N'].
    + intros Q1 Q2. inversion Q1; subst q. inversion Q2; subst x. apply (A3 u); auto. intros [->|[]]; congruence.
    + apply A3. intros [->|[]]; congruence.
  - intros c n H. rewrite C2. auto.
  - intros t c o H. apply V2' in H. destruct H as [t' H]. apply (A5 _ _ _ H).
  - intros u1 u2 c1 c2 o1 o2 Q1 Q2. apply V2' in Q1, Q2. destruct Q1 as [t1 Q1], Q2 as [t2 Q2]. eapply A6; eauto.
  - intros t h. rewrite H2, X2. destruct (t =? u); [congruence|]. destruct (t =? v); [congruence|apply A7].
  - intros t h. rewrite H2. apply A8.
Qed.

(* ---- whole operations ------------------------------------------------------------------ *)
Definition good (s : st) : Prop := exists E, J s E [] /\
  (forall u h, home s u = Some h -> alive s h = false -> ex s u = None).
Definition no_leak (s : st) : Prop := forall c, nth_error (cn s) c <> Some (Some 0%Z).

Lemma wv_of s u : wv (world_of s) u = match ex s u with Some p => Some (pr p) | None => None end.
Proof. unfold world_of, ex. cbn [wv]. destruct (nth_error (vs s) u) as [[[p|] h]|]; reflexivity. Qed.
Lemma wh_of s u : wh (world_of s) u = home s u.
Proof. reflexivity. Qed.
Lemma wv_ev s E u : J s E [] -> wv (world_of s) u = option_map (option_map snd) (ev E u).
Proof.
  intros HJ. rewrite wv_of. pose proof (j_var _ _ _ HJ u) as V. destruct (ex s u) as [p|] eqn:X.
  - destruct (ev E u) as [[[c o]|]|] eqn:Q; [subst p; reflexivity| |contradiction].
    destruct (j_tight _ _ _ HJ u p) as [_ H]; auto. now rewrite H.
  - now rewrite V.
Qed.
Lemma refers_ev s E u o : J s E [] -> (refers (world_of s) u o <-> exists c, ev E u = Some (Some (c, o))).
Proof.
  intros HJ. unfold refers. rewrite (wv_ev _ _ _ HJ). destruct (ev E u) as [[[c o']|]|]; cbn; split;
    try discriminate; try (intros [c' H]; congruence).
  intros H. exists c. congruence.
Qed.

(* releasing what v refers to *)
Lemma release s E v p : J s E [] -> (forall u h, home s u = Some h -> alive s h = false -> ex s u = None) ->
  ex s v = Some p -> held (world_of s) v v ->
  let w0 := world_of s in let w1 := set_var w0 v (Some None) in
  exists s1 E1 p1, dec (fuel_of s) true v s = Ok s1 /\ J s1 E1 [v] /\ ev E1 v = Some None /\ ex s1 v = Some p1 /\
    moved [v] s E s1 E1 /\
    (forall u h, home s1 u = Some h -> alive s1 h = false -> ex s1 u = None) /\
    (forall o, (alive s1 o = true -> alive s o = true /\ ~ dies w0 w1 o) /\ (alive s o = true -> alive s1 o = true \/ dies w0 w1 o)) /\
    (forall u h, home s u = Some h -> dies w0 w1 h -> ex s1 u = None) /\
    (forall u, u <> v -> (forall h, home s u = Some h -> ~ dies w0 w1 h) -> ev E1 u = ev E u /\ ex s1 u = ex s u).
Proof.
  intros HJ HG Hp [Hx Hh] w0 w1.
  destruct (j_ex _ _ _ _ _ HJ Hp) as [e He].
  assert (B w0 w1 s E) as HB.
  { constructor.
    - intros o A1 A2. cbn in A1. congruence.
    - intros u o R. left. unfold refers, w1, set_var in R. cbn [wv] in R.
      destruct (Nat.eqb_spec u v); [discriminate|]. apply (refers_ev s E u o HJ). exact R.
    - intros u c o H. apply (refers_ev s E u o HJ). eauto.
    - reflexivity.
    - intros o [u R] _. apply (refers_ev s E u o HJ) in R. destruct R; eauto. }
  assert (safe s E [v]) as HS.
  { intros x h [<-|[]] Hhome. right. generalize (Hh h Hhome). clear Hhome. intros Rt. induction Rt as [h t N H2 _ IHr].
    apply (refers_ev s E t h HJ) in H2. destruct H2 as [c H2]. apply (grip_by _ _ _ h t c); auto.
    intros [->|[]]; auto. }
  destruct (dec_ok w0 w1 (fuel_of s) s E [] v e p HJ HB He (fun x => x) Hp HS) as (s1 & E1 & R & J1 & B1 & V1 & M & S1 & p1 & P1).
  { unfold fuel_of. pose proof (count_true_le (ob s)). lia. }
  { intros o Q. unfold refers, w1, set_var in Q. cbn [wv] in Q. rewrite Nat.eqb_refl in Q. discriminate. }
  { auto. }
  assert (forall u, ev E1 u = None -> ex s1 u = None) as NN.
  { intros u Q. pose proof (j_var _ _ _ J1 u) as V. destruct (ex s1 u); auto. rewrite Q in V. contradiction. }
  assert (forall h, home s v = Some h -> alive s1 h = true) as Hv1.
  { intros h Hhome. generalize (Hh h Hhome). clear Hhome. intros Rt. induction Rt as [h t N H2 _ IHr].
    apply (refers_ev s E t h HJ) in H2. destruct H2 as [c H3].
    destruct (m_keep _ _ _ _ _ M t) as [Q _].
    - intros [->|[]]; auto.
    - intros h' H4 _. apply IHr. exact H4.
    - rewrite <- Q in H3. apply (j_ref _ _ _ J1 _ _ _ H3). }
  assert (forall u h, home s u = Some h -> alive s h = true -> alive s1 h = false -> ex s1 u = None) as GG.
  { intros u h Q1 Q2 Q3. apply NN. eapply (m_gone _ _ _ _ _ M); eauto. intros [<-|[]]. rewrite (Hv1 h Q1) in Q3. discriminate. }
  assert (forall o, dies w0 w1 o -> alive s1 o = false) as DD.
  { apply dies_rec. intros o [u0 R0] IH. destruct (alive s1 o) eqn:A; auto. exfalso.
    destruct (b_kept _ _ _ _ B1 o) as (u & c & Q); eauto.
    assert (u <> v) as N by (intros ->; congruence).
    destruct (IH u) as (h & H1 & _ & H2).
    { unfold refers, w1, set_var. cbn [wv]. apply Nat.eqb_neq in N. rewrite N. exact (b_old _ _ _ _ B1 _ _ _ Q). }
    change (home s u = Some h) in H1.
    assert (ex s1 u = None) as X.
    { destruct (alive s h) eqn:Ah; [eapply GG; eauto|].
      pose proof (HG u h H1 Ah) as Q2. apply NN. apply (m_none _ _ _ _ _ M).
      pose proof (j_var _ _ _ HJ u) as V. now rewrite Q2 in V. }
    pose proof (j_var _ _ _ J1 u) as V. rewrite X in V. congruence. }
  assert (forall o, alive s o = true -> alive s1 o = false -> dies w0 w1 o) as DD'.
  { intros o A1 A2. eapply (b_dead _ _ _ _ B1); eauto. }
  exists s1, E1, p1. split; [exact R|]. split; [exact J1|]. split; [exact V1|]. split; [exact P1|]. split; [exact M|].
  split; [|split; [|split]].
  - intros u h H1 H2. rewrite (m_home _ _ _ _ _ M) in H1. destruct (alive s h) eqn:A; [eauto|].
    apply NN, (m_none _ _ _ _ _ M). pose proof (j_var _ _ _ HJ u) as V. now rewrite (HG u h H1 A) in V.
  - intros o. split.
    + intros A. split; [apply (m_alive _ _ _ _ _ M); auto|]. intros Q. apply DD in Q. congruence.
    + intros A. destruct (alive s1 o) eqn:A1; auto.
  - intros u h H1 H2. destruct (alive s h) eqn:A; [eapply GG; eauto|].
    apply NN, (m_none _ _ _ _ _ M). pose proof (j_var _ _ _ HJ u) as V. now rewrite (HG u h H1 A) in V.
  - intros u N K. apply (m_keep _ _ _ _ _ M).
    + intros [->|[]]; auto.
    + intros h H1 H2. destruct (alive s1 h) eqn:A; auto. exfalso. eapply K; eauto.
Qed.
