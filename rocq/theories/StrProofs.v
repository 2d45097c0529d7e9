(* Strings: memory invariant and refinement *)
From Coq Require Import ZifyBool ZifyNat Permutation.
From Verif Require Import Base BaseFacts StrModel StrSpec.
Open Scope Z_scope.

(* ------------------------------------------------------------------ *)
(* Cells                                                                *)

Lemma zlen_nonneg {A} (l : list A) : 0 <= zlen l.
Proof. unfold zlen. lia. Qed.
Lemma zlen_app {A} (a b : list A) : zlen (a ++ b) = zlen a + zlen b.
Proof. unfold zlen. rewrite app_length. lia. Qed.
Lemma zlen_cons {A} (x : A) l : zlen (x :: l) = 1 + zlen l.
Proof. unfold zlen. cbn [length]. lia. Qed.
Lemma zlen_nil {A} : zlen (@nil A) = 0. Proof. reflexivity. Qed.
Lemma zlen_map {A B} (f : A -> B) l : zlen (map f l) = zlen l.
Proof. unfold zlen. now rewrite map_length. Qed.

(* [slice cs i l]: cells i, i+1, ... of cs hold l *)
Definition slice (cs : list (option Z)) (i : Z) (l : list Z) : Prop :=
  exists a b, cs = a ++ map Some l ++ b /\ i = zlen a.

Lemma slice_cons cs i x l : slice cs i (x :: l) <->
  (nth_error cs (Z.to_nat i) = Some (Some x) /\ 0 <= i /\ slice cs (i + 1) l).
Proof.
  split.
  - intros (a & b & -> & ->). split; [|split].
    + unfold zlen. rewrite Nat2Z.id, nth_error_app2, Nat.sub_diag by lia. reflexivity.
    + apply zlen_nonneg.
    + exists (a ++ [Some x]), b. rewrite <- app_assoc. split; [reflexivity|]. rewrite zlen_app. reflexivity.
  - intros (H1 & H2 & a & b & -> & H3).
    destruct (List.rev a) as [|y a'] eqn:E.
    { assert (a = []) as -> by (rewrite <- (rev_involutive a), E; reflexivity). unfold zlen in H3; cbn in H3; lia. }
    assert (Ha : a = List.rev a' ++ [y]) by (rewrite <- (rev_involutive a), E; reflexivity).
    subst a. rewrite zlen_app in H3. change (zlen [y]) with 1 in H3.
    assert (Hi : Z.to_nat i = length (List.rev a')) by (unfold zlen in H3; lia).
    rewrite Hi, <- app_assoc, nth_error_app2, Nat.sub_diag in H1 by lia. cbn in H1. injection H1 as ->.
    exists (List.rev a'), b. rewrite <- app_assoc. split; [reflexivity|lia].
Qed.

Lemma slice_nil cs i : 0 <= i <= zlen cs -> slice cs i [].
Proof.
  intros H. exists (firstn (Z.to_nat i) cs), (skipn (Z.to_nat i) cs). cbn. rewrite firstn_skipn.
  split; [reflexivity|]. unfold zlen in *. rewrite firstn_length. lia.
Qed.

Lemma slice_bound cs i l : slice cs i l -> 0 <= i /\ i + zlen l <= zlen cs.
Proof.
  intros (a & b & -> & ->). rewrite !zlen_app, zlen_map.
  pose proof (zlen_nonneg a). pose proof (zlen_nonneg b). lia.
Qed.

Lemma slice_app cs i a b : slice cs i (a ++ b) <-> slice cs i a /\ slice cs (i + zlen a) b.
Proof.
  revert i. induction a as [|x a IH]; intros i; cbn [app].
  - rewrite zlen_nil, Z.add_0_r. split.
    + intros H. split; [|exact H]. pose proof (slice_bound _ _ _ H). pose proof (zlen_nonneg b).
      apply slice_nil. lia.
    + tauto.
  - rewrite !slice_cons, IH, zlen_cons. replace (i + (1 + zlen a)) with (i + 1 + zlen a) by lia. tauto.
Qed.

Lemma rdcell_ok cs i x : 0 <= i -> nth_error cs (Z.to_nat i) = Some (Some x) -> rdcell cs i = Ok x.
Proof.
  intros Hi H. unfold rdcell, aget, znth. replace (i <? 0) with false by lia. rewrite H. reflexivity.
Qed.

Lemma rdcells_slice cs l : forall i, slice cs i l -> rdcells cs i (length l) = Ok l.
Proof.
  induction l as [|x l IH]; intros i H; cbn [length rdcells]; [reflexivity|].
  apply slice_cons in H as (H1 & H2 & H3).
  rewrite (rdcell_ok _ _ _ H2 H1). cbn [bind]. rewrite IH by exact H3. reflexivity.
Qed.

Lemma mem_read_slice cs i l n : slice cs i l -> n = zlen l -> mem_read cs i n = Ok l.
Proof.
  intros H ->. unfold mem_read. replace (zlen l <? 0) with false by (pose proof (zlen_nonneg l); lia).
  unfold zlen. rewrite Nat2Z.id. now apply rdcells_slice.
Qed.

Lemma mem_write_app a l : forall g b, length g = length l ->
  mem_write (a ++ g ++ b) (zlen a) l = Ok (a ++ map Some l ++ b).
Proof.
  revert a. induction l as [|x l IH]; intros a g b Hg; cbn [mem_write map].
  - destruct g; [reflexivity|discriminate].
  - destruct g as [|g0 g]; [discriminate|]. cbn [app].
    unfold zlen at 1. rewrite aset_nat by (rewrite app_length; cbn; lia). cbn [bind].
    rewrite upd_app2.
    replace (a ++ Some x :: g ++ b) with ((a ++ [Some x]) ++ g ++ b) by (rewrite <- app_assoc; reflexivity).
    replace (zlen a + 1) with (zlen (a ++ [Some x])) by (rewrite zlen_app; reflexivity).
    rewrite IH by (cbn in Hg; lia). rewrite <- app_assoc. reflexivity.
Qed.

Lemma mem_write_at a l g b i : length g = length l -> i = zlen a ->
  mem_write (a ++ g ++ b) i l = Ok (a ++ map Some l ++ b).
Proof. intros H ->. now apply mem_write_app. Qed.

(* ------------------------------------------------------------------ *)
(* The memory invariant                                                 *)

(* Block of a string, its kind matching the counter pointer *)
Definition blk (h : heap) (s : str) (cs : list (option Z)) : Prop :=
  if managed s then exists n, nth_error h (buf s) = Some (Counted cs n)
  else nth_error h (buf s) = Some (Static cs).

Definition holds (h : heap) (s : str) (l : list Z) : Prop :=
  exists cs, blk h s cs /\ slice cs (start s) l /\ len s = zlen l /\
    start s + len s <= real s /\ nth_error cs (Z.to_nat (real s)) = Some (Some 0).

Definition cnt (b : nat) (ps : list (str * list Z)) : nat :=
  length (filter (fun p => managed (fst p) && Nat.eqb (buf (fst p)) b) ps).

Definition Inv (h : heap) (ps : list (str * list Z)) : Prop :=
  nth_error h 0 = Some (Static [Some 0]) /\
  Forall (fun p => holds h (fst p) (snd p)) ps /\
  forall b cs n, nth_error h b = Some (Counted cs n) -> n = Z.of_nat (cnt b ps) /\ 0 < n.

Lemma cnt_cons b p ps : cnt b (p :: ps) = ((if managed (fst p) && Nat.eqb (buf (fst p)) b then 1 else 0) + cnt b ps)%nat.
Proof. unfold cnt. cbn [filter]. destruct (_ && _); reflexivity. Qed.

Lemma cnt_perm b ps qs : Permutation ps qs -> cnt b ps = cnt b qs.
Proof.
  induction 1; rewrite ?cnt_cons in *; auto; lia.
Qed.

Lemma Inv_perm h ps qs : Permutation ps qs -> Inv h ps -> Inv h qs.
Proof.
  intros HP (H0 & H1 & H2). split; [exact H0|]. split.
  - rewrite Forall_forall in *. intros p Hp. apply H1. apply Permutation_sym in HP. eapply Permutation_in; eauto.
  - intros b cs n Hb. rewrite <- (cnt_perm b _ _ HP). eauto.
Qed.

Lemma Inv_in h ps s l : Inv h ps -> In (s, l) ps -> holds h s l.
Proof. intros (_ & H & _) Hin. rewrite Forall_forall in H. apply (H _ Hin). Qed.

(* Heap growth keeps what strings show *)
Definition keeps (h h' : heap) (s : str) : Prop :=
  forall cs, blk h s cs -> blk h' s cs.
Lemma holds_keeps h h' s l : keeps h h' s -> holds h s l -> holds h' s l.
Proof. intros K (cs & Hb & H). exists cs. split; [apply K, Hb|exact H]. Qed.

Lemma nth_error_lt {A} (l : list A) n x : nth_error l n = Some x -> (n < length l)%nat.
Proof. intros H. apply nth_error_Some. congruence. Qed.

Lemma upd_nth {A} (l : list A) n x m : (n < length l)%nat ->
  nth_error (upd l n x) m = if Nat.eqb m n then Some x else nth_error l m.
Proof.
  intros H. destruct (Nat.eqb_spec m n) as [->|Hne]; [now apply upd_same|].
  apply upd_other. lia.
Qed.

Lemma keeps_app h x s : keeps h (h ++ [x]) s.
Proof.
  intros cs. unfold blk. destruct (managed s).
  - intros [n Hn]. exists n. rewrite nth_error_app1; eauto using nth_error_lt.
  - intros Hn. rewrite nth_error_app1; eauto using nth_error_lt.
Qed.

Lemma keeps_count h b cs n m s : nth_error h b = Some (Counted cs n) ->
  keeps h (upd h b (Counted cs m)) s.
Proof.
  intros Hb cs'. unfold blk. pose proof (nth_error_lt _ _ _ Hb) as Hlt. destruct (managed s).
  - intros [k Hk]. rewrite upd_nth by exact Hlt. destruct (Nat.eqb_spec (buf s) b) as [E|E]; [|eauto].
    exists m. rewrite E in Hk. congruence.
  - intros Hk. rewrite upd_nth by exact Hlt. destruct (Nat.eqb_spec (buf s) b) as [E|E]; [|eauto].
    rewrite E in Hk. congruence.
Qed.

Lemma inc_inv h ps s l s' l' : Inv h ps -> In (s, l) ps -> buf s' = buf s -> managed s' = managed s ->
  holds h s' l' -> exists h', inc h s = Ok h' /\ Inv h' ((s', l') :: ps).
Proof.
  intros HI Hin Hb Hm Hs'. pose proof (Inv_in _ _ _ _ HI Hin) as Hs. destruct HI as (H0 & H1 & H2).
  unfold inc. destruct (managed s) eqn:Em.
  - destruct Hs as (cs & Hbl & _). unfold blk in Hbl. rewrite Em in Hbl. destruct Hbl as [n Hn].
    rewrite Hn. eexists. split; [reflexivity|].
    pose proof (nth_error_lt _ _ _ Hn) as Hlt.
    split; [|split].
    + rewrite upd_nth by exact Hlt. destruct (Nat.eqb_spec 0 (buf s)) as [E|E]; [congruence|exact H0].
    + constructor.
      * cbn [fst snd]. eapply holds_keeps; [|exact Hs']. eapply keeps_count; eauto.
      * eapply Forall_impl; [|exact H1]. intros p Hp. cbn beta in *. eapply holds_keeps; [|exact Hp]. eapply keeps_count; eauto.
    + intros b cs' m Hbm. rewrite upd_nth in Hbm by exact Hlt. rewrite cnt_cons. cbn [fst].
      rewrite Hm, Hb. cbn [andb]. destruct (Nat.eqb_spec b (buf s)) as [E|E].
      * injection Hbm as <- <-. subst b. rewrite Nat.eqb_refl. destruct (H2 _ _ _ Hn). lia.
      * destruct (Nat.eqb_spec (buf s) b); [congruence|]. apply H2 in Hbm. lia.
  - eexists. split; [reflexivity|]. split; [exact H0|]. split; [constructor; assumption|].
    intros b cs n Hbn. rewrite cnt_cons. cbn [fst]. rewrite Hm. cbn [andb Nat.add]. eauto.
Qed.

Lemma cnt_zero_holds (h : heap) ps b p : In p ps -> cnt b ps = 0%nat -> managed (fst p) && Nat.eqb (buf (fst p)) b = false.
Proof.
  intros Hin Hc. destruct (managed (fst p) && Nat.eqb (buf (fst p)) b) eqn:E; [|reflexivity].
  exfalso. unfold cnt in Hc. apply length_zero_iff_nil in Hc.
  assert (H : In p []); [|exact H]. rewrite <- Hc. apply filter_In. auto.
Qed.

Lemma dec_inv h ps s l : Inv h ((s, l) :: ps) -> exists h', dec h s = Ok h' /\ Inv h' ps.
Proof.
  intros (H0 & H1 & H2). inversion_clear H1 as [|? ? Hs H1']. cbn [fst snd] in Hs.
  unfold dec. destruct (managed s) eqn:Em.
  - destruct Hs as (cs & Hbl & _). unfold blk in Hbl. rewrite Em in Hbl. destruct Hbl as [n Hn].
    rewrite Hn. pose proof (nth_error_lt _ _ _ Hn) as Hlt.
    destruct (H2 _ _ _ Hn) as [Hc Hpos]. rewrite cnt_cons in Hc. cbn [fst] in Hc.
    rewrite Em, Nat.eqb_refl in Hc. cbn [andb] in Hc.
    eexists. split; [reflexivity|].
    destruct (Z.eqb_spec (n - 1) 0) as [E|E].
    + assert (Hz : cnt (buf s) ps = 0%nat) by lia.
      split; [|split].
      * rewrite upd_nth by exact Hlt. destruct (Nat.eqb_spec 0 (buf s)) as [E0|E0]; [congruence|exact H0].
      * rewrite Forall_forall in *. intros p Hp. specialize (H1' _ Hp).
        eapply holds_keeps; [|exact H1']. pose proof (cnt_zero_holds h _ _ _ Hp Hz) as Hf.
        intros cs'. unfold blk. rewrite upd_nth by exact Hlt.
        destruct (managed (fst p)); cbn [andb] in Hf.
        -- rewrite Hf. auto.
        -- intros Hk. destruct (Nat.eqb_spec (buf (fst p)) (buf s)) as [E1|E1]; [|exact Hk].
           rewrite E1 in Hk. congruence.
      * intros b cs' m Hbm. rewrite upd_nth in Hbm by exact Hlt.
        destruct (Nat.eqb_spec b (buf s)) as [E1|E1]; [discriminate|].
        apply H2 in Hbm. rewrite cnt_cons in Hbm. cbn [fst] in Hbm. 
        destruct (Nat.eqb_spec (buf s) b); [congruence|]. rewrite andb_false_r in Hbm. exact Hbm.
    + split; [|split].
      * rewrite upd_nth by exact Hlt. destruct (Nat.eqb_spec 0 (buf s)) as [E0|E0]; [congruence|exact H0].
      * eapply Forall_impl; [|exact H1']. intros p Hp. cbn beta in *. eapply holds_keeps; [|exact Hp]. eapply keeps_count; eauto.
      * intros b cs' m Hbm. rewrite upd_nth in Hbm by exact Hlt.
        destruct (Nat.eqb_spec b (buf s)) as [E1|E1].
        -- injection Hbm as <- <-. subst b. lia.
        -- apply H2 in Hbm. rewrite cnt_cons in Hbm. cbn [fst] in Hbm.
           destruct (Nat.eqb_spec (buf s) b); [congruence|]. rewrite andb_false_r in Hbm. exact Hbm.
  - eexists. split; [reflexivity|]. split; [exact H0|]. split; [exact H1'|].
    intros b cs n Hbn. apply H2 in Hbn. rewrite cnt_cons in Hbn. cbn [fst] in Hbn. rewrite Em in Hbn. exact Hbn.
Qed.

Lemma cnt_fresh h ps : Inv h ps -> cnt (length h) ps = 0%nat.
Proof.
  intros (_ & H1 & _). unfold cnt. apply length_zero_iff_nil.
  destruct (filter _ ps) as [|p r] eqn:E; [reflexivity|]. exfalso.
  assert (Hp : In p (filter (fun p => managed (fst p) && Nat.eqb (buf (fst p)) (length h)) ps)) by (rewrite E; now left).
  apply filter_In in Hp as [Hin Hc]. apply andb_true_iff in Hc as [Hm Hb]. apply Nat.eqb_eq in Hb.
  rewrite Forall_forall in H1. destruct (H1 _ Hin) as (cs & Hbl & _). unfold blk in Hbl. rewrite Hm in Hbl.
  destruct Hbl as [n Hn]. apply nth_error_lt in Hn. lia.
Qed.

Lemma own_inv h ps l junk n : Inv h ps -> n = zlen l ->
  Inv (h ++ [Counted (map Some l ++ Some 0 :: junk) 1]) ((mkStr (length h) true 0 n n, l) :: ps).
Proof.
  intros HI ->. pose proof (cnt_fresh _ _ HI) as Hc. destruct HI as (H0 & H1 & H2).
  split; [|split].
  - rewrite nth_error_app1; eauto using nth_error_lt.
  - constructor.
    + cbn [fst snd]. exists (map Some l ++ Some 0 :: junk). split; [|split; [|split; [|split]]].
      * unfold blk. cbn. exists 1. rewrite nth_error_app2, Nat.sub_diag by lia. reflexivity.
      * exists [], (Some 0 :: junk). auto.
      * reflexivity.
      * cbn. lia.
      * cbn. unfold zlen. rewrite Nat2Z.id, nth_error_app2 by (rewrite map_length; lia).
        rewrite map_length, Nat.sub_diag. reflexivity.
    + eapply Forall_impl; [|exact H1]. intros p Hp. cbn beta in *. eapply holds_keeps; [|exact Hp]. apply keeps_app.
  - intros b cs n Hb. rewrite cnt_cons. cbn [fst managed buf andb].
    destruct (Nat.lt_ge_cases b (length h)) as [Hlt|Hge].
    + rewrite nth_error_app1 in Hb by exact Hlt.
      destruct (Nat.eqb_spec (length h) b); [lia|]. apply H2 in Hb. exact Hb.
    + pose proof (nth_error_lt _ _ _ Hb) as Hlt. rewrite app_length in Hlt. cbn in Hlt.
      assert (b = length h) as -> by lia. rewrite Nat.eqb_refl.
      rewrite nth_error_app2, Nat.sub_diag in Hb by lia. cbn in Hb. injection Hb as _ <-. lia.
Qed.

Lemma static_inv h ps l junk n : Inv h ps -> n = zlen l ->
  Inv (h ++ [Static (map Some (l ++ 0 :: junk))]) ((mkStr (length h) false 0 n n, l) :: ps).
Proof.
  intros (H0 & H1 & H2) ->. split; [|split].
  - rewrite nth_error_app1; eauto using nth_error_lt.
  - constructor.
    + cbn [fst snd]. exists (map Some (l ++ 0 :: junk)). split; [|split; [|split; [|split]]].
      * unfold blk. cbn. rewrite nth_error_app2, Nat.sub_diag by lia. reflexivity.
      * exists [], (map Some (0 :: junk)). rewrite map_app. auto.
      * reflexivity.
      * cbn. lia.
      * cbn. unfold zlen. rewrite Nat2Z.id, map_app, nth_error_app2 by (rewrite map_length; lia).
        rewrite map_length, Nat.sub_diag. reflexivity.
    + eapply Forall_impl; [|exact H1]. intros p Hp. cbn beta in *. eapply holds_keeps; [|exact Hp]. apply keeps_app.
  - intros b cs n Hb. rewrite cnt_cons. cbn [fst managed andb].
    destruct (Nat.lt_ge_cases b (length h)) as [Hlt|Hge].
    + rewrite nth_error_app1 in Hb by exact Hlt. cbn. eauto.
    + pose proof (nth_error_lt _ _ _ Hb) as Hlt. rewrite app_length in Hlt. cbn in Hlt.
      assert (b = length h) as -> by lia.
      rewrite nth_error_app2, Nat.sub_diag in Hb by lia. discriminate.
Qed.

Lemma empty_holds h ps : Inv h ps -> holds h empty [].
Proof.
  intros (H0 & _). exists [Some 0]. split; [exact H0|]. split; [|split; [reflexivity|split; [cbn; lia|reflexivity]]].
  exists [], [Some 0]. auto.
Qed.
Lemma empty_inv h ps : Inv h ps -> Inv h ((empty, []) :: ps).
Proof.
  intros HI. pose proof (empty_holds _ _ HI). destruct HI as (H0 & H1 & H2).
  split; [exact H0|]. split; [constructor; assumption|].
  intros b cs n Hb. rewrite cnt_cons. cbn. eauto.
Qed.

(* ------------------------------------------------------------------ *)
(* Single operations                                                    *)

Definition meets (h : heap) (ps : list (str * list Z)) (r : res (heap * str)) (spec : res (list Z)) : Prop :=
  match spec with
  | Ok l => exists h' s', r = Ok (h', s') /\ Inv h' ((s', l) :: ps)
  | Err => r = Err
  | _ => True
  end.

Lemma calc_length_spec mem : forall l, c_string mem = Ok l ->
  calc_length mem = Ok (zlen l) /\ exists junk, mem = l ++ 0 :: junk.
Proof.
  induction mem as [|c mem IH]; cbn [c_string calc_length]; intros l H; [discriminate|].
  destruct (Z.eqb_spec c 0) as [->|Hc].
  - injection H as <-. split; [reflexivity|]. exists mem. reflexivity.
  - destruct (c_string mem) as [m| | |] eqn:E; try discriminate. cbn in H. injection H as <-.
    destruct (IH m eq_refl) as [-> (junk & ->)]. cbn [bind]. split; [rewrite zlen_cons; f_equal; lia|].
    exists junk. reflexivity.
Qed.

Lemma c_string_not_err mem : c_string mem <> Err.
Proof.
  induction mem as [|c mem IH]; cbn; [discriminate|].
  destruct (c =? 0); [discriminate|]. destruct (c_string mem); cbn; congruence.
Qed.

Lemma slice_self l rest : slice (map Some (l ++ rest)) 0 l.
Proof. exists [], (map Some rest). rewrite map_app. auto. Qed.

Lemma repeat_split {A} (x : A) n m k : n = (m + k)%nat -> repeat x n = repeat x m ++ repeat x k.
Proof. intros ->. apply repeat_app. Qed.

Lemma of_literal_meets h ps p : Inv h ps -> meets h ps (of_literal h p) (literal p).
Proof.
  intros HI. destruct p as [mem|]; cbn [literal of_literal]; [|reflexivity].
  destruct (c_string mem) as [l| | |] eqn:E; cbn [meets]; auto.
  2:{ exfalso. now apply (c_string_not_err mem). }
  destruct (calc_length_spec _ _ E) as [-> (junk & ->)]. cbn [bind].
  pose proof (zlen_nonneg l).
  unfold new_array. replace (zlen l + 1 <? 0) with false by lia. cbn [bind].
  rewrite (mem_read_slice _ 0 (l ++ [0])).
  2:{ replace (l ++ 0 :: junk) with ((l ++ [0]) ++ junk) by (rewrite <- app_assoc; reflexivity). apply slice_self. }
  2:{ rewrite zlen_app. reflexivity. }
  cbn [bind].
  replace (repeat (@None Z) (Z.to_nat (zlen l + 1))) with ([] ++ repeat (@None Z) (Z.to_nat (zlen l + 1)) ++ []) by (cbn; now rewrite app_nil_r).
  rewrite (mem_write_at [] (l ++ [0]) _ [] 0); [|rewrite repeat_length, app_length; unfold zlen; cbn; lia|reflexivity].
  cbn [bind app]. rewrite app_nil_r. eexists _, _. split; [reflexivity|].
  rewrite map_app. apply (own_inv h ps l []); auto.
Qed.

Lemma take_over_meets h ps mem n : Inv h ps ->
  meets h ps (take_over h mem n)
    (if n <? 0 then Err else do z <- aget mem n; if z =? 0 then Ok (take n mem) else Err).
Proof.
  intros HI. unfold take_over. destruct (n <? 0) eqn:E; [reflexivity|].
  unfold aget, znth. rewrite E. destruct (nth_error mem (Z.to_nat n)) as [z|] eqn:En; cbn [bind]; [|exact I].
  destruct (Z.eqb_spec z 0) as [->|Hz]; cbn [negb]; [|reflexivity].
  cbn [meets]. eexists _, _. split; [reflexivity|].
  apply nth_error_split in En as (a & b & -> & Ha). unfold take. rewrite <- Ha.
  rewrite firstn_app, Nat.sub_diag, firstn_all. cbn [firstn]. rewrite app_nil_r.
  replace (map Some (a ++ 0 :: b)) with (map Some a ++ Some 0 :: map Some b) by (rewrite map_app; reflexivity).
  apply own_inv; [exact HI|]. unfold zlen. lia.
Qed.

Lemma slice_take mem n : 0 <= n <= zlen mem -> slice (map Some mem) 0 (take n mem) /\ zlen (take n mem) = n.
Proof.
  intros H. split.
  - rewrite <- (firstn_skipn (Z.to_nat n) mem) at 1. apply slice_self.
  - unfold take, zlen in *. rewrite firstn_length. lia.
Qed.

Lemma build_copy h ps l n : Inv h ps -> n = zlen l ->
  exists b b', mem_write (repeat None (Z.to_nat (n + 1))) 0 l = Ok b /\ mem_write b n [0] = Ok b' /\
    Inv (h ++ [Counted b' 1]) ((mkStr (length h) true 0 n n, l) :: ps).
Proof.
  intros HI ->. pose proof (zlen_nonneg l).
  exists (map Some l ++ [None]), (map Some l ++ [Some 0]).
  assert (Hr : repeat (@None Z) (Z.to_nat (zlen l + 1)) = [] ++ repeat None (length l) ++ [None]).
  { rewrite (repeat_split None _ (length l) 1) by (unfold zlen; lia). reflexivity. }
  rewrite Hr. rewrite (mem_write_at [] l) by (rewrite ?repeat_length; reflexivity).
  split; [reflexivity|]. split; [|now apply own_inv].
  change [None] with ([@None Z] ++ []). rewrite (mem_write_at (map Some l) [0]).
  - reflexivity.
  - reflexivity.
  - now rewrite zlen_map.
Qed.

Lemma copy_from_meets h ps mem n : Inv h ps ->
  meets h ps (copy_from h mem n)
    (if n <? 0 then Err else if n <=? zlen mem then Ok (take n mem) else UB).
Proof.
  intros HI. unfold copy_from. destruct (n <? 0) eqn:E; [reflexivity|].
  destruct (n <=? zlen mem) eqn:El; [|exact I]. cbn [meets].
  destruct (slice_take mem n ltac:(lia)) as [Hs Hl].
  destruct (n >? 0) eqn:En.
  - unfold new_array. replace (n + 1 <? 0) with false by lia. cbn [bind].
    rewrite (mem_read_slice _ _ _ _ Hs) by lia. cbn [bind].
    destruct (build_copy h ps (take n mem) n HI ltac:(lia)) as (b & b' & -> & E2 & HI'). cbn [bind].
    rewrite E2. cbn [bind]. eexists _, _. split; [reflexivity|]. exact HI'.
  - assert (n = 0) as -> by lia. eexists _, _. split; [reflexivity|]. now apply empty_inv.
Qed.

Lemma unmanaged_meets h ps p : Inv h ps -> meets h ps (unmanaged h p) (literal p).
Proof.
  intros HI. destruct p as [mem|]; cbn [literal unmanaged]; [|reflexivity].
  destruct (c_string mem) as [l| | |] eqn:E; cbn [meets]; auto.
  2:{ exfalso. now apply (c_string_not_err mem). }
  destruct (calc_length_spec _ _ E) as [-> (junk & ->)]. cbn [bind].
  eexists _, _. split; [reflexivity|]. now apply static_inv.
Qed.

Lemma copy_static h ps s l : Inv h ps -> holds h s l -> managed s = false -> meets h ps (copy h s) (Ok l).
Proof.
  intros (H0 & H1 & H2) Hs Hm. unfold copy, inc. rewrite Hm. cbn [bind meets]. eexists _, _. split; [reflexivity|].
  split; [exact H0|]. split; [constructor; assumption|].
  intros b cs n Hb. rewrite cnt_cons. cbn [fst]. rewrite Hm. cbn. eauto.
Qed.

Lemma copy_meets h ps s l : Inv h ps -> In (s, l) ps -> meets h ps (copy h s) (Ok l).
Proof.
  intros HI Hin. unfold copy. cbn [meets].
  destruct (inc_inv h ps s l s l HI Hin eq_refl eq_refl (Inv_in _ _ _ _ HI Hin)) as (h' & -> & HI').
  cbn [bind]. eauto.
Qed.

Lemma holds_len h s l : holds h s l -> len s = zlen l.
Proof. intros (cs & _ & _ & H & _). exact H. Qed.

Lemma sub_meets h ps s l st n m : Inv h ps -> In (s, l) ps ->
  0 <= st -> st + n <= zlen l -> m = take n (drop st l) ->
  meets h ps (sub_unsafe h s st n) (Ok m).
Proof.
  intros HI Hin Hst Hn ->. unfold sub_unsafe. cbn [meets].
  destruct (n <=? 0) eqn:E.
  - eexists _, _. split; [reflexivity|]. replace (take n (drop st l)) with (@nil Z); [now apply empty_inv|].
    unfold take. replace (Z.to_nat n) with 0%nat by lia. reflexivity.
  - pose proof (Inv_in _ _ _ _ HI Hin) as (cs & Hb & Hs & Hl & Hr & Hz).
    set (s' := mkStr (buf s) (managed s) (start s + st) n (real s)).
    assert (H' : holds h s' (take n (drop st l))).
    { exists cs. split; [exact Hb|]. split; [|split; [|split; [|exact Hz]]].
      - cbn. unfold take, drop. rewrite <- (firstn_skipn (Z.to_nat st) l) in Hs.
        apply slice_app in Hs as [_ Hs].
        rewrite <- (firstn_skipn (Z.to_nat n) (skipn (Z.to_nat st) l)) in Hs. apply slice_app in Hs as [Hs _].
        replace (zlen (firstn (Z.to_nat st) l)) with st in Hs by (unfold zlen in *; rewrite firstn_length; lia).
        exact Hs.
      - cbn. unfold take, drop, zlen in *. rewrite firstn_length, skipn_length. lia.
      - cbn. lia. }
    destruct (inc_inv h ps s l s' _ HI Hin eq_refl eq_refl H') as (h' & -> & HI'). cbn [bind]. eauto.
Qed.

Lemma blk_cells h s cs : blk h s cs -> cells_of h (buf s) = Ok cs.
Proof.
  unfold blk, cells_of. destruct (managed s).
  - intros [n ->]. reflexivity.
  - intros ->. reflexivity.
Qed.

Lemma replace_meets h ps s l t m i n : Inv h ps -> In (s, l) ps -> holds h t m ->
  (managed t = false \/ In (t, m) ps) ->
  0 <= i <= zlen l -> 0 <= i + n <= zlen l -> 
  meets h ps (replace_unsafe h s t i n) (Ok (take i l ++ m ++ drop (i + n) l)).
Proof.
  intros HI Hin Ht Hor Hi Hn.
  pose proof (Inv_in _ _ _ _ HI Hin) as Hs. pose proof (holds_len _ _ _ Hs) as Hl.
  pose proof (holds_len _ _ _ Ht) as Hm. unfold replace_unsafe.
  destruct ((len t =? 0) && (n =? 0)) eqn:E1.
  { assert (m = []) as -> by (destruct m; [reflexivity|rewrite zlen_cons in Hm; pose proof (zlen_nonneg m); lia]).
    assert (n = 0) as -> by lia. rewrite Z.add_0_r. cbn [app]. unfold take, drop. rewrite firstn_skipn.
    now apply copy_meets. }
  destruct ((i =? 0) && (n =? len s)) eqn:E2.
  { assert (i = 0) as -> by lia. assert (n = zlen l) as -> by lia.
    unfold take, drop, zlen. cbn [Z.to_nat firstn app]. rewrite Z.add_0_l, Nat2Z.id, skipn_all, app_nil_r.
    destruct Hor as [Hor|Hor]; [now apply copy_static|now apply copy_meets]. }
  rewrite Hl, Hm.
  set (k := zlen l - n + zlen m).
  pose proof (zlen_nonneg l). pose proof (zlen_nonneg m).
  unfold new_array. replace (k + 1 <? 0) with false by lia. cbn [bind].
  destruct Hs as (cs & Hb & Hsl & _). destruct Ht as (ct & Hbt & Htl & _).
  rewrite (blk_cells _ _ _ Hb), (blk_cells _ _ _ Hbt). cbn [bind].
  set (p1 := take i l). set (p3 := drop (i + n) l).
  assert (Hl1 : zlen p1 = i) by (unfold p1, take, zlen in *; rewrite firstn_length; lia).
  assert (Hl3 : zlen p3 = zlen l - i - n) by (unfold p3, drop, zlen in *; rewrite skipn_length; lia).
  assert (Hs1 : slice cs (start s) p1).
  { unfold p1, take. rewrite <- (firstn_skipn (Z.to_nat i) l) in Hsl. now apply slice_app in Hsl as [Hsl _]. }
  assert (Hs3 : slice cs (start s + i + n) p3).
  { unfold p3, drop. rewrite <- (firstn_skipn (Z.to_nat (i + n)) l) in Hsl. apply slice_app in Hsl as [_ Hsl].
    replace (zlen (firstn (Z.to_nat (i + n)) l)) with (i + n) in Hsl by (unfold zlen in *; rewrite firstn_length; lia).
    now rewrite <- Z.add_assoc. }
  rewrite (mem_read_slice _ _ _ _ Hs1) by lia. cbn [bind].
  assert (Hk : repeat (@None Z) (Z.to_nat (k + 1))
           = [] ++ repeat None (length p1) ++ (repeat None (length m) ++ repeat None (length p3) ++ [None])).
  { cbn [app]. change [@None Z] with (repeat (@None Z) 1). rewrite <- !repeat_app. f_equal.
    unfold zlen in *. lia. }
  rewrite Hk. rewrite (mem_write_at [] p1) by (rewrite ?repeat_length; reflexivity). cbn [bind].
  cbn [app]. rewrite (mem_read_slice _ _ _ _ Htl) by lia. cbn [bind].
  rewrite (mem_write_at (map Some p1) m) by (rewrite ?repeat_length, ?zlen_map; lia). cbn [bind].
  rewrite (mem_read_slice _ _ _ _ Hs3) by lia. cbn [bind].
  rewrite app_assoc. rewrite (mem_write_at (map Some p1 ++ map Some m) p3)
    by (rewrite ?repeat_length, ?zlen_app, ?zlen_map; lia). cbn [bind].
  rewrite app_assoc. change [@None Z] with ([@None Z] ++ []).
  rewrite (mem_write_at ((map Some p1 ++ map Some m) ++ map Some p3) [0] _ [])
    by (rewrite ?zlen_app, ?zlen_map; cbn [length]; lia). cbn [bind].
  cbn [meets]. eexists _, _. split; [reflexivity|].
  replace (((map Some p1 ++ map Some m) ++ map Some p3) ++ map Some [0] ++ [])
    with (map Some (p1 ++ m ++ p3) ++ Some 0 :: []) by (rewrite !map_app, <- !app_assoc; reflexivity).
  apply own_inv; [exact HI|]. rewrite !zlen_app. lia.
Qed.

(* ------------------------------------------------------------------ *)
(* Observers                                                            *)

Lemma slice_nth cs st l i : slice cs st l -> 0 <= i < zlen l ->
  exists c, aget l i = Ok c /\ rdcell cs (st + i) = Ok c.
Proof.
  intros (a & b & -> & ->) Hi.
  destruct (nth_error l (Z.to_nat i)) as [c|] eqn:E.
  2:{ apply nth_error_None in E. unfold zlen in Hi. lia. }
  exists c. split.
  - unfold aget, znth. replace (i <? 0) with false by lia. now rewrite E.
  - apply rdcell_ok; [pose proof (zlen_nonneg a); lia|].
    replace (Z.to_nat (zlen a + i)) with (length a + Z.to_nat i)%nat by (unfold zlen; lia).
    rewrite nth_error_app2 by lia. replace (length a + Z.to_nat i - length a)%nat with (Z.to_nat i) by lia.
    rewrite nth_error_app1 by (rewrite map_length; unfold zlen in Hi; lia).
    rewrite nth_error_map, E. reflexivity.
Qed.

Lemma at_spec h s l i : holds h s l -> at_ h s i = if (0 <=? i) && (i <? zlen l) then aget l i else Err.
Proof.
  intros (cs & Hb & Hs & Hl & _). unfold at_. rewrite Hl.
  replace (i >=? 0) with (0 <=? i) by lia.
  destruct ((0 <=? i) && (i <? zlen l)) eqn:E; [|reflexivity].
  rewrite (blk_cells _ _ _ Hb). cbn [bind].
  destruct (slice_nth _ _ _ i Hs ltac:(lia)) as (c & -> & ->). reflexivity.
Qed.

Lemma first_pos_range c l : -1 <= first_pos c l < zlen l.
Proof.
  induction l as [|x l IH]; cbn [first_pos].
  - unfold zlen; cbn; lia.
  - rewrite zlen_cons. destruct (x =? c); [lia|]. cbv zeta. destruct (_ =? -1) eqn:E; lia.
Qed.

Lemma index_loop_spec cs base c l : forall i, slice cs (base + i) l ->
  index_loop cs base c i (length l) = Ok (if first_pos c l =? -1 then -1 else first_pos c l + i).
Proof.
  induction l as [|x l IH]; intros i H; cbn [length index_loop first_pos]; [reflexivity|].
  apply slice_cons in H as (H1 & H2 & H3). rewrite (rdcell_ok _ _ _ H2 H1). cbn [bind].
  destruct (x =? c); [f_equal; lia|].
  rewrite IH by (rewrite Z.add_assoc; exact H3). cbv zeta.
  pose proof (first_pos_range c l). destruct (first_pos c l =? -1) eqn:E; [reflexivity|].
  replace (first_pos c l + 1 =? -1) with false by lia. f_equal. lia.
Qed.

Lemma index_of_spec h s l c : holds h s l -> index_of h s c = Ok (first_pos c l).
Proof.
  intros (cs & Hb & Hs & Hl & _). unfold index_of. rewrite (blk_cells _ _ _ Hb). cbn [bind].
  rewrite Hl. unfold zlen. rewrite Nat2Z.id, index_loop_spec by (now rewrite Z.add_0_r).
  pose proof (first_pos_range c l). destruct (first_pos c l =? -1) eqn:E; f_equal; lia.
Qed.

Lemma cmp_loop_spec ca cb la lb : forall n a b i j,
  slice ca i a -> slice cb j b -> n = Nat.min (length a) (length b) ->
  la - lb = zlen a - zlen b ->
  cmp_loop ca cb i j n la lb = Ok (lex a b).
Proof.
  induction n as [|n IH]; intros a b i j Ha Hb Hn Hd; cbn [cmp_loop].
  - f_equal. destruct a as [|x a], b as [|y b]; cbn [lex]; cbn [length] in Hn; try lia;
      rewrite ?zlen_cons, ?zlen_nil in Hd.
    + apply Z.compare_eq_iff. lia.
    + pose proof (zlen_nonneg b). apply Z.compare_lt_iff. lia.
    + pose proof (zlen_nonneg a). apply Z.compare_gt_iff. lia.
  - destruct a as [|x a], b as [|y b]; cbn [length] in Hn; try lia.
    apply slice_cons in Ha as (H1 & H2 & H3). apply slice_cons in Hb as (H4 & H5 & H6).
    rewrite (rdcell_ok _ _ _ H2 H1), (rdcell_ok _ _ _ H5 H4). cbn [bind lex].
    destruct (x ?= y); [|reflexivity|reflexivity].
    rewrite !zlen_cons in Hd. apply IH; [exact H3|exact H6|lia|lia].
Qed.

Lemma lex_self_prefix a : forall b, lex a (a ++ b) = match b with [] => Eq | _ => Lt end.
Proof.
  induction a as [|x a IH]; intros b; cbn [lex app]; [now destruct b|].
  now rewrite Z.compare_refl, IH.
Qed.
Lemma lex_antisym a : forall b, lex b a = CompOpp (lex a b).
Proof.
  induction a as [|x a IH]; intros [|y b]; cbn [lex]; auto.
  rewrite (Z.compare_antisym x y). destruct (x ?= y); cbn; auto.
Qed.

Lemma slice_fun cs i a b : slice cs i a -> slice cs i b -> zlen a <= zlen b -> exists c, b = a ++ c.
Proof.
  revert i b. induction a as [|x a IH]; intros i b Ha Hb Hl; [exists b; reflexivity|].
  destruct b as [|y b]; [rewrite zlen_cons, zlen_nil in Hl; pose proof (zlen_nonneg a); lia|].
  apply slice_cons in Ha as (H1 & H2 & H3). apply slice_cons in Hb as (H4 & H5 & H6).
  assert (x = y) as -> by congruence. rewrite !zlen_cons in Hl.
  destruct (IH _ _ H3 H6 ltac:(lia)) as [c ->]. exists c. reflexivity.
Qed.

Lemma blk_same_buf h s t cs ct : blk h s cs -> blk h t ct -> buf s = buf t -> cs = ct.
Proof.
  intros H1 H2 E. apply blk_cells in H1, H2. rewrite E in H1. congruence.
Qed.

Lemma compare_spec h s l t m : holds h s l -> holds h t m -> compare h s t = Ok (lex l m).
Proof.
  intros (cs & Hb & Hs & Hl & _) (ct & Hbt & Ht & Hm & _). unfold compare.
  destruct (Nat.eqb (buf s) (buf t) && (start s =? start t)) eqn:E.
  - apply andb_true_iff in E as [E1 E2]. apply Nat.eqb_eq in E1. apply Z.eqb_eq in E2.
    rewrite (blk_same_buf _ _ _ _ _ Hb Hbt E1) in Hs. rewrite E2 in Hs. rewrite Hl, Hm. f_equal.
    destruct (Z.le_ge_cases (zlen l) (zlen m)) as [Hle|Hle].
    + destruct (slice_fun _ _ _ _ Hs Ht Hle) as [c ->]. rewrite lex_self_prefix, zlen_app.
      destruct c as [|x c]; [rewrite zlen_nil; apply Z.compare_eq_iff; lia|].
      rewrite zlen_cons. pose proof (zlen_nonneg c). apply Z.compare_lt_iff. lia.
    + destruct (slice_fun _ _ _ _ Ht Hs ltac:(lia)) as [c ->].
      rewrite lex_antisym, lex_self_prefix, zlen_app.
      destruct c as [|x c]; [rewrite zlen_nil; apply Z.compare_eq_iff; lia|].
      rewrite zlen_cons. pose proof (zlen_nonneg c). apply Z.compare_gt_iff. lia.
  - rewrite (blk_cells _ _ _ Hb), (blk_cells _ _ _ Hbt). cbn [bind]. rewrite Hl, Hm.
    apply cmp_loop_spec; auto.
    destruct (zlen l <? zlen m) eqn:E'; unfold zlen in *; lia.
Qed.

Lemma skipn_slice_zero cs st l : slice cs st l -> nth_error cs (Z.to_nat (st + zlen l)) = Some (Some 0) ->
  firstn (length l + 1) (skipn (Z.to_nat st) cs) = map Some l ++ [Some 0].
Proof.
  intros (a & b & -> & ->) H. unfold zlen in *. rewrite Nat2Z.id.
  rewrite skipn_app, skipn_all, Nat.sub_diag. cbn [skipn app].
  replace (Z.to_nat (Z.of_nat (length a) + Z.of_nat (length l))) with (length a + (length l))%nat in H by lia.
  rewrite nth_error_app2 in H by lia. replace (length a + length l - length a)%nat with (length l) in H by lia.
  rewrite nth_error_app2 in H by (rewrite map_length; lia). rewrite map_length, Nat.sub_diag in H.
  destruct b as [|x b]; [discriminate|]. cbn in H. injection H as ->.
  rewrite firstn_app, firstn_all2 by (rewrite map_length; lia). rewrite map_length.
  replace (length l + 1 - length l)%nat with 1%nat by lia. reflexivity.
Qed.

Lemma buffer_spec h ps s l : Inv h ((s, l) :: ps) ->
  exists h' s' mem, buffer h s = Ok (h', s', mem) /\ Inv h' ((s', l) :: ps) /\
    firstn (length l + 1) mem = map Some l ++ [Some 0].
Proof.
  intros HI. pose proof (Inv_in h _ s l HI (or_introl eq_refl)) as Hs.
  destruct Hs as (cs & Hb & Hsl & Hl & Hr & Hz). unfold buffer.
  destruct (Z.eqb_spec (start s + len s) (real s)) as [E|E]; cbn [negb bind].
  - rewrite (blk_cells _ _ _ Hb). cbn [bind]. eexists _, _, _. split; [reflexivity|]. split; [exact HI|].
    apply skipn_slice_zero; [exact Hsl|]. rewrite <- Hl, E. exact Hz.
  - pose proof (zlen_nonneg l).
    unfold new_array. replace (len s + 1 <? 0) with false by lia. cbn [bind].
    rewrite (blk_cells _ _ _ Hb). cbn [bind]. rewrite (mem_read_slice _ _ _ _ Hsl) by exact Hl. cbn [bind].
    destruct (dec_inv _ _ _ _ HI) as (h1 & Hd & HI1).
    destruct (build_copy h1 ps l (len s) HI1 Hl) as (b & b' & -> & E2 & HI2). cbn [bind].
    rewrite E2. cbn [bind]. rewrite Hd. cbn [bind].
    set (s' := mkStr (length h1) true 0 (len s) (len s)) in *.
    pose proof (Inv_in _ _ s' l HI2 (or_introl eq_refl)) as (cs' & Hb' & Hs' & Hl' & Hr' & Hz').
    unfold own. cbv zeta. cbn [bind]. fold s'.
    rewrite (blk_cells _ s' _ Hb'). cbn [bind]. eexists _, _, _. split; [reflexivity|]. split; [exact HI2|].
    apply skipn_slice_zero; [exact Hs'|]. cbn [s' start]. rewrite Z.add_0_l, <- Hl. exact Hz'.
Qed.

(* ------------------------------------------------------------------ *)
(* Expressions over variables                                           *)

Fixpoint pairs (xs : list (option str)) (vs : values) : list (str * list Z) :=
  match xs, vs with
  | Some s :: xs', Some l :: vs' => (s, l) :: pairs xs' vs'
  | _ :: xs', _ :: vs' => pairs xs' vs'
  | _, _ => []
  end.

Definition shape (xs : list (option str)) (vs : values) : Prop :=
  Forall2 (fun x v => match x, v with Some _, Some _ => True | None, None => True | _, _ => False end) xs vs.

Definition Rel (s : state) (vs : values) : Prop :=
  shape (vars s) vs /\ Inv (hp s) (pairs (vars s) vs).

Lemma shape_nth xs vs v : shape xs vs ->
  match nth_error xs v, nth_error vs v with
  | Some (Some _), Some (Some _) | Some None, Some None | None, None => True
  | _, _ => False
  end.
Proof.
  intros H. revert v. induction H as [|x y xs vs Hxy H IH]; intros [|v]; cbn; auto; try apply IH.
  all: destruct x, y; tauto.
Qed.

Lemma pairs_in xs vs v s l : nth_error xs v = Some (Some s) -> nth_error vs v = Some (Some l) -> In (s, l) (pairs xs vs).
Proof.
  revert vs v. induction xs as [|x xs IH]; intros [|y vs] [|v]; cbn; try discriminate.
  - intros H1 H2. injection H1 as ->. injection H2 as ->. now left.
  - intros H1 H2. specialize (IH _ _ H1 H2). destruct x, y; cbn; auto.
Qed.

Lemma shape_upd xs vs v s l : shape xs vs -> shape (upd xs v (Some s)) (upd vs v (Some l)).
Proof.
  intros H. revert v. induction H as [|x y xs vs Hxy H IH]; intros [|v]; cbn [upd]; constructor; auto; try apply IH.
Qed.
Lemma shape_upd_none xs vs v : shape xs vs -> shape (upd xs v None) (upd vs v None).
Proof.
  intros H. revert v. induction H as [|x y xs vs Hxy H IH]; intros [|v]; cbn [upd]; constructor; auto; try apply IH.
Qed.

(* removing the object at v *)
Lemma pairs_out xs vs v s l : nth_error xs v = Some (Some s) -> nth_error vs v = Some (Some l) ->
  Permutation (pairs xs vs) ((s, l) :: pairs (upd xs v None) (upd vs v None)).
Proof.
  revert vs v. induction xs as [|x xs IH]; intros [|y vs] [|v]; cbn [nth_error upd pairs]; try discriminate.
  - intros H1 H2. injection H1 as ->. injection H2 as ->. apply Permutation_refl.
  - intros H1 H2. specialize (IH _ _ H1 H2). destruct x, y; auto.
    rewrite IH. apply perm_swap.
Qed.
(* putting an object at v *)
Lemma pairs_in_upd xs vs v s l : (v < length xs)%nat -> (v < length vs)%nat ->
  Permutation (pairs (upd xs v (Some s)) (upd vs v (Some l))) ((s, l) :: pairs (upd xs v None) (upd vs v None)).
Proof.
  revert vs v. induction xs as [|x xs IH]; intros [|y vs] [|v]; cbn [length upd pairs]; try lia.
  - intros _ _. apply Permutation_refl.
  - intros H1 H2. specialize (IH vs v ltac:(lia) ltac:(lia)). destruct x, y; auto.
    rewrite IH. apply perm_swap.
Qed.
Lemma upd_id {A} (l : list A) v x : nth_error l v = Some x -> upd l v x = l.
Proof.
  revert v. induction l as [|y l IH]; intros [|v]; cbn; try discriminate.
  - congruence.
  - intros H. now rewrite IH.
Qed.
Lemma upd_upd {A} (l : list A) v x y : upd (upd l v x) v y = upd l v y.
Proof. revert v. induction l as [|z l IH]; intros [|v]; cbn; auto. now rewrite IH. Qed.
Lemma upd_comm {A} (l : list A) v w x y : v <> w -> upd (upd l v x) w y = upd (upd l w y) v x.
Proof.
  revert v w. induction l as [|z l IH]; intros [|v] [|w] H; cbn; auto; [congruence|].
  rewrite IH; auto.
Qed.

Lemma rel_var s vs v : Rel s vs ->
  match sread vs v with
  | Ok l => exists x, var s v = Ok x /\ nth_error (vars s) v = Some (Some x) /\ nth_error vs v = Some (Some l) /\ In (x, l) (pairs (vars s) vs)
  | UB => True
  | _ => False
  end.
Proof.
  intros [Hs _]. pose proof (shape_nth _ _ v Hs) as H. unfold sread, var.
  destruct (nth_error vs v) as [[l|]|] eqn:E2; auto.
  destruct (nth_error (vars s) v) as [[x|]|] eqn:E1; try tauto.
  exists x. repeat split; auto. eapply pairs_in; eauto.
Qed.

Ltac getvar v R x l :=
  let H := fresh "Hv" in
  pose proof (rel_var _ _ v R) as H;
  let E := fresh "Esr" in
  destruct (sread _ v) as [l| | |] eqn:E;
  [ let Hvar := fresh "Hvar" in let Hx := fresh "Hx" in let Hl := fresh "Hl" in let Hin := fresh "Hin" in
    destruct H as (x & Hvar & Hx & Hl & Hin); rewrite Hvar; cbn [bind]
  | contradiction | cbn [bind]; exact I | contradiction ].

(* The result of an expression *)
Definition evalspec (s : state) (r : res (state * str)) (sp : res (values * list Z)) : Prop :=
  match sp with
  | Ok (vs', l) => exists s' x, r = Ok (s', x) /\ shape (vars s') vs' /\ Inv (hp s') ((x, l) :: pairs (vars s') vs')
  | Err => r = Err
  | _ => True
  end.

Lemma keep_spec s vs r sp : Rel s vs -> meets (hp s) (pairs (vars s) vs) r sp ->
  evalspec s (do (h', x) <- r; Ok (mkState h' (vars s), x)) (do l <- sp; Ok (vs, l)).
Proof.
  intros [Hs HI] Hm. destruct sp as [l| | |]; cbn [bind meets evalspec] in *; auto.
  - destruct Hm as (h' & x & -> & HI'). cbn [bind]. eexists _, _. split; [reflexivity|]. auto.
  - now rewrite Hm.
Qed.

Lemma take_all l : take (zlen l) l = l.
Proof. unfold take, zlen. now rewrite Nat2Z.id, firstn_all. Qed.
Lemma drop_all l : drop (zlen l) l = [].
Proof. unfold drop, zlen. now rewrite Nat2Z.id, skipn_all. Qed.

Lemma concat_meets h ps s l t m : Inv h ps -> In (s, l) ps -> holds h t m -> (managed t = false \/ In (t, m) ps) ->
  meets h ps (concat h s t) (Ok (l ++ m)).
Proof.
  intros HI Hin Ht Hor. unfold concat. rewrite (holds_len _ _ _ (Inv_in _ _ _ _ HI Hin)).
  pose proof (zlen_nonneg l).
  assert (H' := replace_meets h ps s l t m (zlen l) 0 HI Hin Ht Hor ltac:(lia) ltac:(lia)).
  rewrite Z.add_0_r, take_all, drop_all, app_nil_r in H'. exact H'.
Qed.

Lemma concat_lit_meets h ps s l p : Inv h ps -> In (s, l) ps ->
  meets h ps (concat_lit h s p) (match p with None => Ok l | Some mem => do m <- c_string mem; Ok (l ++ m) end).
Proof.
  intros HI Hin. unfold concat_lit, replace_unsafe_lit. destruct p as [mem|]; cbn [bind].
  2:{ cbn [andb]. now apply copy_meets. }
  destruct (c_string mem) as [m| | |] eqn:E; cbn [bind]; try exact I.
  2:{ exfalso. now apply (c_string_not_err mem). }
  destruct mem as [|c mem']; [discriminate|]. change (aget (c :: mem') 0) with (@Ok Z c). cbn [bind].
  rewrite Z.eqb_refl, andb_true_r. destruct (Z.eqb_spec c 0) as [->|Hc].
  { cbn in E. injection E as <-. rewrite app_nil_r. now apply copy_meets. }
  rewrite (holds_len _ _ _ (Inv_in _ _ _ _ HI Hin)). pose proof (zlen_nonneg l).
  destruct ((zlen l =? 0) && (0 =? zlen l)) eqn:E0.
  { assert (l = []) as -> by (destruct l; [reflexivity|rewrite zlen_cons in *; pose proof (zlen_nonneg l); lia]).
    cbn [app]. pose proof (of_literal_meets h ps (Some (c :: mem')) HI) as H'.
    cbn [literal] in H'. rewrite E in H'. exact H'. }
  pose proof (unmanaged_meets h ps (Some (c :: mem')) HI) as H'. cbn [literal] in H'. rewrite E in H'.
  destruct H' as (h1 & t & -> & HI1). cbn [bind].
  pose proof (concat_meets h1 _ s l t m HI1 (or_intror Hin) (Inv_in _ _ t m HI1 (or_introl eq_refl)) (or_intror (or_introl eq_refl))) as H'.
  unfold concat in H'. rewrite (holds_len _ _ _ (Inv_in _ _ _ _ HI Hin)) in H'.
  destruct H' as (h2 & r & -> & HI2). cbn [bind].
  destruct (dec_inv h2 ((r, l ++ m) :: ps) t m) as (h3 & -> & HI3).
  { eapply Inv_perm; [apply perm_swap|exact HI2]. }
  cbn [bind meets]. eauto.
Qed.

Lemma lit_concat_meets h ps s l p : Inv h ps -> In (s, l) ps ->
  meets h ps (lit_concat h p s) (do m <- literal p; Ok (m ++ l)).
Proof.
  intros HI Hin. unfold lit_concat. rewrite (holds_len _ _ _ (Inv_in _ _ _ _ HI Hin)).
  destruct (Z.eqb_spec (zlen l) 0) as [E|E].
  - assert (l = []) as -> by (destruct l; [reflexivity|rewrite zlen_cons in *; pose proof (zlen_nonneg l); lia]).
    pose proof (of_literal_meets h ps p HI) as H'. destruct (literal p); cbn [bind]; auto. now rewrite app_nil_r.
  - pose proof (unmanaged_meets h ps p HI) as H'. destruct (literal p) as [m| | |]; cbn [bind]; try exact I.
    2:{ cbn in H'. cbn. rewrite H'. reflexivity. }
    destruct H' as (h1 & t & -> & HI1). cbn [bind].
    pose proof (concat_meets h1 _ t m s l HI1 (or_introl eq_refl) (Inv_in _ _ s l HI1 (or_intror Hin)) (or_intror (or_intror Hin))) as H'.
    destruct H' as (h2 & r & -> & HI2). cbn [bind].
    destruct (dec_inv h2 ((r, m ++ l) :: ps) t m) as (h3 & -> & HI3).
    { eapply Inv_perm; [apply perm_swap|exact HI2]. }
    cbn [bind meets]. eauto.
Qed.

Lemma eval_refines s vs e : Rel s vs -> evalspec s (eval s e) (seval vs e).
Proof.
  intros R. pose proof R as [Hs HI]. destruct e; cbn [eval seval].
  - (* EEmpty *) apply (keep_spec s vs (Ok (hp s, empty)) (Ok [])); [exact R|].
    cbn [meets]. eexists _, _. split; [reflexivity|]. now apply empty_inv.
  - apply (keep_spec s vs); [exact R|]. now apply of_literal_meets.
  - assert (H := keep_spec s vs _ _ R (take_over_meets (hp s) _ mem n HI)).
    destruct (n <? 0); [exact H|]. destruct (aget mem n) as [z| | |]; cbn [bind] in *; auto.
    destruct (z =? 0); exact H.
  - apply (keep_spec s vs _ (Ok (if c =? 0 then [] else [c]))); [exact R|].
    unfold from_char. pose proof (of_literal_meets (hp s) (pairs (vars s) vs) (Some [c; 0]) HI) as H.
    cbn [literal c_string] in H. rewrite Z.eqb_refl in H. cbn [bind] in H. destruct (c =? 0); exact H.
  - assert (H := keep_spec s vs _ _ R (copy_from_meets (hp s) _ mem n HI)).
    destruct (n <? 0); [exact H|]. destruct (n <=? zlen mem); exact H.
  - apply (keep_spec s vs); [exact R|]. now apply unmanaged_meets.
  - (* copy *) getvar w R x l. apply (keep_spec s vs _ (Ok l)); [exact R|]. now apply copy_meets.
  - (* move *) getvar w R x l. cbn [evalspec]. eexists _, _. split; [reflexivity|].
    cbn [setvar hp vars]. split; [now apply shape_upd|].
    eapply Inv_perm; [|apply empty_inv; exact HI].
    pose proof (nth_error_lt _ _ _ Hx). pose proof (nth_error_lt _ _ _ Hl).
    rewrite (pairs_in_upd (vars s) vs w empty []) by assumption.
    rewrite (pairs_out (vars s) vs w x l) by assumption. apply perm_swap.
  - (* left *) getvar w R x l. unfold left. rewrite (holds_len _ _ _ (Inv_in _ _ _ _ HI Hin)).
    replace (n >=? 0) with (0 <=? n) by lia.
    destruct ((0 <=? n) && (n <=? zlen l)) eqn:E; [|reflexivity].
    apply (keep_spec s vs _ (Ok (take n l))); [exact R|]. apply (sub_meets _ _ x l 0 n _ HI Hin); [lia|lia|reflexivity].
  - (* right *) getvar w R x l. unfold right. rewrite (holds_len _ _ _ (Inv_in _ _ _ _ HI Hin)).
    replace (n >=? 0) with (0 <=? n) by lia.
    destruct ((0 <=? n) && (n <=? zlen l)) eqn:E; [|reflexivity].
    apply (keep_spec s vs _ (Ok (drop (zlen l - n) l))); [exact R|]. apply (sub_meets _ _ x l (zlen l - n) n _ HI Hin); [lia|lia|].
    unfold take, drop. rewrite firstn_all2; [reflexivity|]. rewrite skipn_length. unfold zlen in *. lia.
  - (* sub *) getvar w R x l. unfold sub. rewrite (holds_len _ _ _ (Inv_in _ _ _ _ HI Hin)).
    replace (i >=? 0) with (0 <=? i) by lia.
    destruct ((0 <=? i) && (i <=? zlen l)) eqn:E; [|reflexivity].
    unfold vadd. fold (fits (i + n)). destruct (fits (i + n)); cbn [negb bind]; [|exact I].
    replace (i + n >=? 0) with (0 <=? i + n) by lia.
    destruct ((0 <=? i + n) && (i + n <=? zlen l)) eqn:E2; [|reflexivity].
    apply (keep_spec s vs _ (Ok (take n (drop i l)))); [exact R|]. apply (sub_meets _ _ x l i n _ HI Hin); [lia|lia|reflexivity].
  - (* remove *) getvar w R x l. unfold remove. rewrite (holds_len _ _ _ (Inv_in _ _ _ _ HI Hin)).
    replace (i >=? 0) with (0 <=? i) by lia.
    destruct ((0 <=? i) && (i <? zlen l)) eqn:E; [|reflexivity].
    unfold vadd. fold (fits (i + n)). destruct (fits (i + n)); cbn [negb bind]; [|exact I].
    replace (i + n >=? 0) with (0 <=? i + n) by lia.
    destruct ((0 <=? i + n) && (i + n <=? zlen l)) eqn:E2; [|reflexivity].
    apply (keep_spec s vs _ (Ok (take i l ++ drop (i + n) l))); [exact R|].
    apply (replace_meets (hp s) _ x l empty [] i n HI Hin (empty_holds _ _ HI) (or_introl eq_refl)); lia.
  - (* insert *) rename x into y. getvar w R x l. getvar y R t m. unfold insert. rewrite (holds_len _ _ _ (Inv_in _ _ _ _ HI Hin)).
    replace (i >=? 0) with (0 <=? i) by lia.
    destruct ((0 <=? i) && (i <=? zlen l)) eqn:E; [|reflexivity].
    apply (keep_spec s vs _ (Ok (take i l ++ m ++ drop i l))); [exact R|].
    pose proof (replace_meets (hp s) _ x l t m i 0 HI Hin (Inv_in _ _ _ _ HI Hin0) (or_intror Hin0) ltac:(lia) ltac:(lia)) as H.
    now rewrite Z.add_0_r in H.
  - (* concat *) rename x into y. getvar w R x l. getvar y R t m.
    apply (keep_spec s vs _ (Ok (l ++ m))); [exact R|]. apply concat_meets; auto. eapply Inv_in; eauto.
  - getvar w R x l. pose proof (keep_spec s vs _ _ R (concat_lit_meets (hp s) _ x l p HI Hin)) as H.
    destruct p as [mem|]; [|exact H]. destruct (c_string mem); exact H.
  - getvar w R x l. pose proof (keep_spec s vs _ _ R (lit_concat_meets (hp s) _ x l p HI Hin)) as H.
    destruct (literal p); exact H.
Qed.

(* ------------------------------------------------------------------ *)
(* Statements                                                           *)

Definition stepspec (r : res (state * out)) (sp : res (values * sout)) : Prop :=
  match sp with
  | Ok (vs', y) => exists s' x, r = Ok (s', x) /\ Rel s' vs' /\ out_ok x y
  | Err => r = Err
  | _ => True
  end.

Lemma seval_same_length vs e vs' l : seval vs e = Ok (vs', l) -> forall v, nth_error vs v = None \/
  (nth_error vs v = Some None -> nth_error vs' v = Some None).
Proof.
  intros H v. destruct (nth_error vs v) as [[m|]|] eqn:E; auto; right; [discriminate|intros _].
  destruct e; cbn [seval] in H;
    repeat match type of H with
    | (do _ <- ?m; _) = _ => destruct m eqn:?; cbn [bind] in H; try discriminate
    | (if ?b then _ else _) = _ => destruct b; try discriminate
    | match ?p with None => _ | Some _ => _ end = _ => destruct p; try discriminate
    end; try (injection H as <- <-; exact E).
  injection H as <- <-. destruct (Nat.eq_dec w v) as [->|Hne].
  - unfold sread in Heqr. rewrite E in Heqr. discriminate.
  - rewrite upd_other by auto. exact E.
Qed.

Lemma seval_alive vs e vs' l : seval vs e = Ok (vs', l) -> forall v m,
  nth_error vs v = Some (Some m) -> exists m', nth_error vs' v = Some (Some m').
Proof.
  intros H v m E.
  destruct e; cbn [seval] in H;
    repeat match type of H with
    | (do _ <- ?m; _) = _ => destruct m eqn:?; cbn [bind] in H; try discriminate
    | (if ?b then _ else _) = _ => destruct b; try discriminate
    | match ?p with None => _ | Some _ => _ end = _ => destruct p; try discriminate
    end; try (injection H as <- <-; eauto; fail).
  injection H as <- <-. pose proof (nth_error_lt _ _ _ E). destruct (Nat.eq_dec w v) as [->|Hne].
  - rewrite upd_same by assumption. eauto.
  - rewrite upd_other by auto. eauto.
Qed.

Lemma shape_length xs vs : shape xs vs -> length xs = length vs.
Proof. induction 1; cbn; auto. Qed.

Lemma put_rel h xs vs v x l : shape xs vs -> (v < length xs)%nat -> 
  Inv h ((x, l) :: pairs (upd xs v None) (upd vs v None)) ->
  Rel (mkState h (upd xs v (Some x))) (upd vs v (Some l)).
Proof.
  intros Hs Hv HI. split; cbn [vars hp]; [now apply shape_upd|].
  eapply Inv_perm; [|exact HI]. apply Permutation_sym, pairs_in_upd; [exact Hv|].
  apply shape_length in Hs. lia.
Qed.

Lemma shape_dead xs vs v : shape xs vs -> nth_error vs v = Some None -> nth_error xs v = Some None.
Proof.
  intros Hs H. pose proof (shape_nth _ _ v Hs) as H'. rewrite H in H'.
  destruct (nth_error xs v) as [[|]|]; tauto.
Qed.

Lemma shape_live xs vs v l : shape xs vs -> nth_error vs v = Some (Some l) -> exists x, nth_error xs v = Some (Some x).
Proof.
  intros Hs H. pose proof (shape_nth _ _ v Hs) as H'. rewrite H in H'.
  destruct (nth_error xs v) as [[|]|]; try tauto. eauto.
Qed.

Lemma step_raw_refines s vs o : Rel s vs -> stepspec (step_raw s o) (sstep_raw vs o).
Proof.
  intros R. pose proof R as [Hs HI]. destruct o; cbn [step_raw sstep_raw].
  - (* init *)
    destruct (nth_error vs v) as [[|]|] eqn:E; try exact I.
    rewrite (shape_dead _ _ _ Hs E).
    pose proof (eval_refines s vs e R) as H. destruct (seval vs e) as [[vs' l]| | |] eqn:Ee; cbn [bind]; try exact I.
    2:{ cbn in H. now rewrite H. }
    destruct H as (s' & x & -> & Hs' & HI'). cbn [bind stepspec].
    eexists _, _. split; [reflexivity|]. split; [|exact I].
    destruct (seval_same_length _ _ _ _ Ee v) as [H|H]; [congruence|]. specialize (H E).
    pose proof (shape_dead _ _ _ Hs' H) as Hx.
    apply put_rel; [exact Hs'|eapply nth_error_lt; eauto|].
    rewrite (upd_id _ _ _ H), (upd_id _ _ _ Hx). exact HI'.
  - (* set *)
    getvar v R x0 l0.
    pose proof (eval_refines s vs e R) as H. destruct (seval vs e) as [[vs' l]| | |] eqn:Ee; cbn [bind]; try exact I.
    2:{ cbn in H. now rewrite H. }
    destruct H as (s' & x & -> & Hs' & HI'). cbn [bind].
    destruct (seval_alive _ _ _ _ Ee _ _ Hl) as [m Hm].
    destruct (shape_live _ _ _ _ Hs' Hm) as [y Hy].
    unfold move_into. assert (Hvy : var s' v = Ok y) by (unfold var; now rewrite Hy). rewrite Hvy. cbn [bind].
    destruct (dec_inv (hp s') ((x, l) :: pairs (upd (vars s') v None) (upd vs' v None)) y m) as (h' & Hd & HI'').
    { eapply Inv_perm; [|exact HI']. rewrite (pairs_out _ _ _ _ _ Hy Hm). apply perm_swap. }
    rewrite Hd. cbn [bind setvar hp vars]. unfold dec. cbn [managed empty bind stepspec].
    eexists _, _. split; [reflexivity|]. split; [|exact I].
    apply put_rel; [exact Hs'|eapply nth_error_lt; eauto|exact HI''].
  - (* copy assignment *)
    getvar v R x l. getvar w R y m. cbn [stepspec].
    destruct (Nat.eqb_spec v w) as [->|Hne].
    { eexists _, _. split; [reflexivity|]. split; [|exact I]. rewrite (upd_id vs w); [exact R|congruence]. }
    destruct (dec_inv (hp s) (pairs (upd (vars s) v None) (upd vs v None)) x l) as (h' & -> & HI').
    { eapply Inv_perm; [|exact HI]. now apply pairs_out. }
    cbn [bind].
    assert (Hin' : In (y, m) (pairs (upd (vars s) v None) (upd vs v None))).
    { apply (pairs_in _ _ w); now rewrite upd_other by auto. }
    destruct (inc_inv h' _ y m y m HI' Hin' eq_refl eq_refl (Inv_in _ _ _ _ HI' Hin')) as (h2 & -> & HI2).
    cbn [bind]. eexists _, _. split; [reflexivity|]. split; [|exact I].
    apply put_rel; [exact Hs|eapply nth_error_lt; eauto|exact HI2].
  - (* move assignment *)
    getvar v R x l. getvar w R y m.
    destruct (Nat.eqb_spec v w) as [->|Hne].
    { cbn [stepspec]. eexists _, _. split; [reflexivity|]. split; [exact R|exact I]. }
    unfold move_into. rewrite Hvar. cbn [bind].
    destruct (dec_inv (hp s) (pairs (upd (vars s) v None) (upd vs v None)) x l) as (h' & -> & HI').
    { eapply Inv_perm; [|exact HI]. now apply pairs_out. }
    cbn [bind setvar hp vars stepspec]. eexists _, _. split; [reflexivity|]. split; [|exact I].
    pose proof (nth_error_lt _ _ _ Hx0) as Hwlt. pose proof (nth_error_lt _ _ _ Hx) as Hvlt.
    apply (put_rel h' (upd (vars s) v (Some y)) (upd vs v (Some m)) w empty []).
    + now apply shape_upd.
    + now rewrite upd_length.
    + apply empty_inv. rewrite (upd_comm (vars s) v w), (upd_comm vs v w) by exact Hne.
      eapply Inv_perm; [apply Permutation_sym, pairs_in_upd; rewrite upd_length; auto; eapply nth_error_lt; eauto|].
      rewrite <- (upd_comm (vars s) v w), <- (upd_comm vs v w) by exact Hne.
      eapply Inv_perm; [|exact HI'].
      apply pairs_out; rewrite upd_other; auto.
  - (* destroy *)
    getvar v R x l.
    destruct (dec_inv (hp s) (pairs (upd (vars s) v None) (upd vs v None)) x l) as (h' & -> & HI').
    { eapply Inv_perm; [|exact HI]. now apply pairs_out. }
    cbn [bind stepspec]. eexists _, _. split; [reflexivity|]. split; [|exact I].
    split; cbn [setvar vars hp]; [now apply shape_upd_none|exact HI'].
  - (* buffer *)
    getvar v R x l.
    destruct (buffer_spec (hp s) (pairs (upd (vars s) v None) (upd vs v None)) x l) as (h' & x' & mem & -> & HI' & Hmem).
    { eapply Inv_perm; [|exact HI]. now apply pairs_out. }
    cbn [bind stepspec]. eexists _, _. split; [reflexivity|]. split; [|exact Hmem].
    rewrite <- (upd_id vs v _ Hl). apply put_rel; [exact Hs|eapply nth_error_lt; eauto|exact HI'].
  - (* at *)
    getvar v R x l. rewrite (at_spec _ _ _ _ (Inv_in _ _ _ _ HI Hin)).
    destruct ((0 <=? i) && (i <? zlen l)); [|reflexivity].
    destruct (aget l i) as [c| | |]; cbn [bind stepspec]; auto.
    eexists _, _. split; [reflexivity|]. split; [exact R|reflexivity].
  - getvar v R x l. cbn [stepspec]. eexists _, _. split; [reflexivity|]. split; [exact R|].
    cbn. exact (holds_len _ _ _ (Inv_in _ _ _ _ HI Hin)).
  - getvar v R x l. rewrite (index_of_spec _ _ _ _ (Inv_in _ _ _ _ HI Hin)). cbn [bind stepspec].
    eexists _, _. split; [reflexivity|]. split; [exact R|reflexivity].
  - getvar v R x l. getvar w R y m.
    rewrite (compare_spec _ _ _ _ _ (Inv_in _ _ _ _ HI Hin) (Inv_in _ _ _ _ HI Hin0)). cbn [bind stepspec].
    eexists _, _. split; [reflexivity|]. split; [exact R|reflexivity].
Qed.

Lemma step_refines s vs o vs' y : Rel s vs -> sstep vs o = Ok (vs', y) ->
  exists s' x, step s o = Ok (s', x) /\ Rel s' vs' /\ out_ok x y.
Proof.
  intros R H. pose proof (step_raw_refines s vs o R) as Hr. unfold sstep in H. unfold step.
  destruct (sstep_raw vs o) as [[vs1 y1]| | |] eqn:E; try discriminate; cbn [stepspec] in Hr.
  - injection H as <- <-. destruct Hr as (s' & x & -> & HR & Ho). eauto.
  - injection H as <- <-. rewrite Hr. eexists _, _. split; [reflexivity|]. split; [exact R|exact I].
Qed.

Lemma run_refines ops : forall s vs vs' ys, Rel s vs -> srun vs ops = Ok (vs', ys) ->
  exists s' xs, run s ops = Ok (s', xs) /\ Rel s' vs' /\ Forall2 out_ok xs ys.
Proof.
  induction ops as [|o ops IH]; intros s vs vs' ys R H; cbn [srun run] in *.
  - injection H as <- <-. eexists _, _. split; [reflexivity|]. split; [exact R|constructor].
  - destruct (sstep vs o) as [[vs1 y]| | |] eqn:E; try discriminate. cbn [bind] in H.
    destruct (srun vs1 ops) as [[vs2 ys']| | |] eqn:E2; try discriminate. cbn [bind] in H. injection H as <- <-.
    destruct (step_refines _ _ _ _ _ R E) as (s1 & x & -> & R1 & Ho). cbn [bind].
    destruct (IH _ _ _ _ R1 E2) as (s2 & xs & -> & R2 & Hos). cbn [bind].
    eexists _, _. split; [reflexivity|]. split; [exact R2|]. constructor; assumption.
Qed.

Lemma rel_init n : Rel (init n) (repeat None n).
Proof.
  split; cbn [init hp vars].
  - induction n; cbn; constructor; auto.
  - assert (pairs (repeat None n) (repeat None n) = []) as -> by (induction n; auto).
    split; [reflexivity|]. split; [constructor|]. intros [|[|b]] cs m H; cbn in H; discriminate.
Qed.

Lemma holds_content h s l : holds h s l -> content h s = Ok l /\ len s = zlen l.
Proof.
  intros (cs & Hb & Hs & Hl & _). unfold content. rewrite (blk_cells _ _ _ Hb). cbn [bind].
  split; [|exact Hl]. now apply mem_read_slice.
Qed.

Lemma rel_shows s vs : Rel s vs -> shows s vs.
Proof.
  intros [Hs HI]. unfold shows. destruct HI as (_ & HI & _). revert HI.
  induction Hs as [|x y xs vs Hxy H IH]; intros HI; constructor.
  - destruct x, y; try tauto. cbn [pairs] in HI. inversion_clear HI. now apply holds_content.
  - apply IH. destruct x, y; try tauto. cbn [pairs] in HI. now inversion_clear HI.
Qed.

Lemma rel_counts s vs : Rel s vs -> forall b cs n, nth_error (hp s) b = Some (Counted cs n) ->
  n = Z.of_nat (refs b (vars s)) /\ 0 < n.
Proof.
  intros [Hs (_ & _ & H)] b cs n Hb. destruct (H _ _ _ Hb) as [-> Hpos]. split; [|exact Hpos]. f_equal.
  clear - Hs. induction Hs as [|x y xs vs Hxy Hs IH]; [reflexivity|].
  unfold refs, cnt in *. destruct x, y; try tauto; cbn [pairs filter fst]; try exact IH.
  destruct (_ && _); cbn [length]; congruence.
Qed.

(* every live variable points into a live block of the matching kind, inside it *)
Lemma rel_live s vs v x : Rel s vs -> nth_error (vars s) v = Some (Some x) ->
  exists cs, (if managed x then exists n, nth_error (hp s) (buf x) = Some (Counted cs n)
              else nth_error (hp s) (buf x) = Some (Static cs)) /\
    0 <= start x /\ 0 <= len x /\ start x + len x <= real x < zlen cs /\
    nth_error cs (Z.to_nat (real x)) = Some (Some 0).
Proof.
  intros [Hs HI] Hx. pose proof (shape_nth _ _ v Hs) as H. rewrite Hx in H.
  destruct (nth_error vs v) as [[l|]|] eqn:E; try tauto.
  destruct (Inv_in _ _ _ _ HI (pairs_in _ _ _ _ _ Hx E)) as (cs & Hb & Hsl & Hl & Hr & Hz).
  exists cs. split; [exact Hb|]. pose proof (slice_bound _ _ _ Hsl). pose proof (zlen_nonneg l).
  pose proof (nth_error_lt _ _ _ Hz). unfold zlen in *. repeat split; auto; lia.
Qed.

Lemma refs_none b xs : Forall (fun x => x = None) xs -> refs b xs = 0%nat.
Proof. unfold refs. induction 1 as [|x xs -> H IH]; [reflexivity|exact IH]. Qed.

Lemma no_leak s vs : Rel s vs -> Forall (fun x => x = None) (vars s) ->
  forall b cs n, nth_error (hp s) b <> Some (Counted cs n).
Proof.
  intros R Hn b cs n Hb. destruct (rel_counts _ _ R _ _ _ Hb) as [H1 H2].
  rewrite (refs_none _ _ Hn) in H1. lia.
Qed.

(* ------------------------------------------------------------------ *)
(* The order                                                            *)

Lemma lex_refl a : lex a a = Eq.
Proof. rewrite <- (app_nil_r a) at 2. apply lex_self_prefix. Qed.
Lemma lex_eq a : forall b, lex a b = Eq <-> a = b.
Proof.
  intros b; split; [|intros ->; apply lex_refl].
  revert b. induction a as [|x a IH]; intros [|y b]; cbn [lex]; try discriminate; auto.
  destruct (Z.compare_spec x y) as [->| |]; try discriminate. intros H. f_equal. auto.
Qed.
Lemma lex_trans a : forall b c, lex a b = Lt -> lex b c = Lt -> lex a c = Lt.
Proof.
  induction a as [|x a IH]; intros [|y b] [|z c]; cbn [lex]; try discriminate; auto.
  destruct (Z.compare_spec x y) as [->|H1|H1], (Z.compare_spec y z) as [<-|H2|H2]; try discriminate; intros Ha Hb.
  - destruct (Z.compare_spec y y); try lia. eauto.
  - destruct (Z.compare_spec y z); try lia; reflexivity.
  - destruct (Z.compare_spec x y); try lia; reflexivity.
  - destruct (Z.compare_spec x z); try lia; reflexivity.
Qed.
Lemma lex_lt a : forall b, lex a b = Lt <->
  (exists c r, b = a ++ c :: r) \/
  (exists p x y a' b', a = p ++ x :: a' /\ b = p ++ y :: b' /\ x < y).
Proof.
  induction a as [|x a IH]; intros [|y b]; cbn [lex].
  - split; [discriminate|]. intros [(c & r & H)|(p & x & y & a' & b' & H & _)]; [discriminate|destruct p; discriminate].
  - split; [intros _; left; exists y, b; reflexivity|reflexivity].
  - split; [discriminate|]. intros [(c & r & H)|(p & x' & y & a' & b' & _ & H & _)]; [discriminate|destruct p; discriminate].
  - destruct (Z.compare_spec x y) as [->|Hlt|Hgt].
    + rewrite IH. split; (intros [(c & r & H)|(p & x' & y' & a' & b' & H1 & H2 & H3)]; [left|right]).
      * exists c, r. cbn. now rewrite H.
      * exists (y :: p), x', y', a', b'. cbn. now rewrite H1, H2.
      * exists c, r. cbn in H. congruence.
      * destruct p as [|z p]; cbn in H1, H2; [exfalso; assert (y = x') by congruence; assert (y = y') by congruence; lia|].
        exists p, x', y', a', b'. split; [congruence|]. split; [congruence|exact H3].
    + split; [|reflexivity]. intros _. right. exists [], x, y, a, b. auto.
    + split; [discriminate|]. intros [(c & r & H)|(p & x' & y' & a' & b' & H1 & H2 & H3)].
      * cbn in H. assert (y = x) by congruence. lia.
      * destruct p as [|z p]; cbn in H1, H2; [assert (x = x') by congruence; assert (y = y') by congruence; lia|].
        assert (x = z) by congruence. assert (y = z) by congruence. lia.
Qed.

(* ------------------------------------------------------------------ *)
(* Consequences for reachable states                                    *)

(* s is what the program leaves when its plain-list meaning is vs *)
Lemma reached_rel n ops vs ys s xs :
  srun (repeat None n) ops = Ok (vs, ys) -> run (init n) ops = Ok (s, xs) -> Rel s vs.
Proof.
  intros H1 H2. destruct (run_refines _ _ _ _ _ (rel_init n) H1) as (s' & xs' & E & R & _). congruence.
Qed.

Lemma strings_refine n ops vs ys : srun (repeat None n) ops = Ok (vs, ys) ->
  exists s xs, run (init n) ops = Ok (s, xs) /\ shows s vs /\ Forall2 out_ok xs ys.
Proof.
  intros H. destruct (run_refines _ _ _ _ _ (rel_init n) H) as (s & xs & E & R & Ho).
  exists s, xs. split; [exact E|]. split; [now apply rel_shows|exact Ho].
Qed.

Lemma step_error_keeps s o s' : step s o = Ok (s', RError) -> s' = s.
Proof.
  unfold step. destruct (step_raw s o) as [[s1 r]| | |] eqn:E; try discriminate; [|congruence].
  intros H. injection H as -> ->. exfalso.
  destruct o; cbn [step_raw] in E;
    repeat match type of E with
    | (do _ <- ?m; _) = _ => destruct m; cbn [bind] in E; try discriminate
    | (if ?b then _ else _) = _ => destruct b; try discriminate
    | match ?p with _ => _ end = _ => destruct p; try discriminate
    | (do (_, _) <- ?m; _) = _ => destruct m; cbn [bind] in E; try discriminate
    end.
Qed.

Lemma sstep_frame vs o vs' y v : sstep vs o = Ok (vs', y) -> ~ In v (targets o) -> nth_error vs' v = nth_error vs v.
Proof.
  unfold sstep. destruct (sstep_raw vs o) as [[vs1 y1]| | |] eqn:E; try discriminate.
  2:{ intros H _. congruence. }
  intros H Hn. assert (vs' = vs1) as -> by congruence. clear H.
  destruct o as [u e|u e|u w|u w|u|u|u i|u|u c|u w]; cbn [sstep_raw] in E.
  - destruct (nth_error vs u) as [[|]|]; try discriminate.
    destruct (seval vs e) as [[vs2 l]| | |] eqn:Ee; try discriminate. cbn [bind] in E.
    assert (vs1 = upd vs2 u (Some l)) as -> by congruence.
    assert (Hu : u <> v) by (intros ->; apply Hn; destruct e; cbn; auto).
    rewrite upd_other by auto.
    destruct e; cbn [seval] in Ee;
    repeat match type of Ee with
    | (do _ <- ?m; _) = _ => destruct m eqn:?; cbn [bind] in Ee; try discriminate
    | (if ?b then _ else _) = _ => destruct b; try discriminate
    | match ?p with None => _ | Some _ => _ end = _ => destruct p; try discriminate
    end; try (assert (vs2 = vs) as -> by congruence; reflexivity).
    assert (vs2 = upd vs w (Some [])) as -> by congruence. apply upd_other. intros ->. apply Hn. cbn. auto.
  - destruct (sread vs u); try discriminate. cbn [bind] in E.
    destruct (seval vs e) as [[vs2 l]| | |] eqn:Ee; try discriminate. cbn [bind] in E.
    assert (vs1 = upd vs2 u (Some l)) as -> by congruence.
    assert (Hu : u <> v) by (intros ->; apply Hn; destruct e; cbn; auto).
    rewrite upd_other by auto.
    destruct e; cbn [seval] in Ee;
    repeat match type of Ee with
    | (do _ <- ?m; _) = _ => destruct m eqn:?; cbn [bind] in Ee; try discriminate
    | (if ?b then _ else _) = _ => destruct b; try discriminate
    | match ?p with None => _ | Some _ => _ end = _ => destruct p; try discriminate
    end; try (assert (vs2 = vs) as -> by congruence; reflexivity).
    assert (vs2 = upd vs w (Some [])) as -> by congruence. apply upd_other. intros ->. apply Hn. cbn. auto.
  - destruct (sread vs u); try discriminate. destruct (sread vs w) as [l| | |]; try discriminate. cbn [bind] in E.
    assert (vs1 = upd vs u (Some l)) as -> by congruence. apply upd_other. intros ->. apply Hn. cbn. auto.
  - destruct (sread vs u); try discriminate. destruct (sread vs w) as [l| | |]; try discriminate. cbn [bind] in E.
    destruct (Nat.eqb u w); [congruence|].
    assert (vs1 = upd (upd vs u (Some l)) w (Some [])) as -> by congruence.
    rewrite !upd_other; auto; intros ->; apply Hn; cbn; auto.
  - destruct (sread vs u); try discriminate. cbn [bind] in E.
    assert (vs1 = upd vs u None) as -> by congruence. apply upd_other. intros ->. apply Hn. cbn. auto.
  - destruct (sread vs u); try discriminate. cbn [bind] in E. congruence.
  - destruct (sread vs u) as [l| | |]; try discriminate. cbn [bind] in E. destruct (_ && _); [|discriminate].
    destruct (aget l i); try discriminate. cbn [bind] in E. congruence.
  - destruct (sread vs u); try discriminate. cbn [bind] in E. congruence.
  - destruct (sread vs u); try discriminate. cbn [bind] in E. congruence.
  - destruct (sread vs u); try discriminate. destruct (sread vs w); try discriminate. cbn [bind] in E. congruence.
Qed.

Lemma shows_nth s vs v x : shows s vs -> nth_error (vars s) v = Some (Some x) ->
  exists l, nth_error vs v = Some (Some l) /\ content (hp s) x = Ok l.
Proof.
  unfold shows. intros H. revert v. induction H as [|a b xs vs Hab H IH]; intros [|v]; cbn; try discriminate; auto.
  intros E. injection E as ->. destruct b as [l|]; [|tauto]. exists l. tauto.
Qed.

Lemma step_frame n ops vs ys s xs o vs' y s' r v x :
  srun (repeat None n) ops = Ok (vs, ys) -> run (init n) ops = Ok (s, xs) ->
  sstep vs o = Ok (vs', y) -> step s o = Ok (s', r) ->
  nth_error (vars s) v = Some (Some x) -> ~ In v (targets o) ->
  exists x' l, nth_error (vars s') v = Some (Some x') /\ content (hp s') x' = Ok l /\ content (hp s) x = Ok l.
Proof.
  intros H1 H2 E Hst Hx Hn. pose proof (reached_rel _ _ _ _ _ _ H1 H2) as R.
  destruct (shows_nth _ _ _ _ (rel_shows _ _ R) Hx) as (l & Hl & Hc).
  destruct (step_refines _ _ _ _ _ R E) as (s1 & r1 & E1 & R1 & _).
  assert (s1 = s') as -> by congruence.
  pose proof (sstep_frame _ _ _ _ v E Hn) as Hf. rewrite Hl in Hf.
  destruct (shape_live _ _ _ _ (proj1 R1) Hf) as [x' Hx']. exists x', l. split; [exact Hx'|].
  destruct (shows_nth _ _ _ _ (rel_shows _ _ R1) Hx') as (l' & Hl' & Hc').
  split; congruence.
Qed.

Lemma set_error_iff n ops vs ys s xs d e :
  srun (repeat None n) ops = Ok (vs, ys) -> run (init n) ops = Ok (s, xs) ->
  (exists m, nth_error vs d = Some (Some m)) ->
  seval vs e <> UB -> seval vs e <> NoFuel ->
  (step s (OSet d e) = Ok (s, RError) <-> seval vs e = Err).
Proof.
  intros H1 H2 (m & Hd) Hub Hnf. pose proof (reached_rel _ _ _ _ _ _ H1 H2) as R.
  assert (E : sstep vs (OSet d e) = match seval vs e with Ok (vs', l) => Ok (upd vs' d (Some l), SNone) | Err => Ok (vs, SError) | UB => UB | NoFuel => NoFuel end).
  { unfold sstep. cbn [sstep_raw]. unfold sread. rewrite Hd. cbn [bind]. now destruct (seval vs e) as [[]| | |]. }
  destruct (seval vs e) as [[vs' l]| | |]; try congruence.
  - destruct (step_refines _ _ _ _ _ R E) as (s1 & r1 & E1 & R1 & Ho). rewrite E1.
    split; [intros Hc; assert (r1 = RError) as -> by congruence; destruct Ho|discriminate].
  - destruct (step_refines _ _ _ _ _ R E) as (s1 & r1 & E1 & R1 & Ho). rewrite E1.
    destruct r1; try contradiction. apply step_error_keeps in E1. subst. tauto.
Qed.

Lemma range_checks n ops vs ys s xs d w l :
  srun (repeat None n) ops = Ok (vs, ys) -> run (init n) ops = Ok (s, xs) ->
  (exists m, nth_error vs d = Some (Some m)) -> nth_error vs w = Some (Some l) ->
  (forall k, step s (OSet d (ELeft w k)) = Ok (s, RError) <-> ~ (0 <= k <= zlen l)) /\
  (forall k, step s (OSet d (ERight w k)) = Ok (s, RError) <-> ~ (0 <= k <= zlen l)) /\
  (forall i x m, nth_error vs x = Some (Some m) ->
     (step s (OSet d (EInsert w i x)) = Ok (s, RError) <-> ~ (0 <= i <= zlen l))) /\
  (forall i k, - 2 ^ 63 <= i + k < 2 ^ 63 -> 0 <= k ->
     (step s (OSet d (ESub w i k)) = Ok (s, RError) <-> ~ (0 <= i /\ i + k <= zlen l))) /\
  (forall i k, - 2 ^ 63 <= i + k < 2 ^ 63 -> 0 < k ->
     (step s (OSet d (ERemove w i k)) = Ok (s, RError) <-> ~ (0 <= i /\ i + k <= zlen l))).
Proof.
  intros H1 H2 Hd Hw. pose proof (zlen_nonneg l) as Hl.
  assert (Hr : sread vs w = Ok l) by (unfold sread; now rewrite Hw).
  assert (K : forall e (P : Prop), seval vs e <> UB -> seval vs e <> NoFuel -> (seval vs e = Err <-> P) ->
              (step s (OSet d e) = Ok (s, RError) <-> P)).
  { intros e P Ha Hb HP. rewrite <- HP. now apply (set_error_iff _ _ _ _ _ _ _ _ H1 H2 Hd). }
  assert (K2 : forall e (b : bool) (P : Prop) r, seval vs e = (if b then Ok r else Err) -> (b = true <-> P) ->
              (step s (OSet d e) = Ok (s, RError) <-> ~ P)).
  { intros e b P r He HP. apply K; rewrite He; destruct b; try discriminate.
    - split; [discriminate|tauto].
    - split; [|reflexivity]. intros _ HPP. apply HP in HPP. discriminate. }
  split; [|split; [|split; [|split]]].
  - intros k. apply (K2 _ ((0 <=? k) && (k <=? zlen l)) _ (vs, take k l)); [|lia].
    cbn [seval]. rewrite Hr. reflexivity.
  - intros k. apply (K2 _ ((0 <=? k) && (k <=? zlen l)) _ (vs, drop (zlen l - k) l)); [|lia].
    cbn [seval]. rewrite Hr. reflexivity.
  - intros i x m Hx. apply (K2 _ ((0 <=? i) && (i <=? zlen l)) _ (vs, take i l ++ m ++ drop i l)); [|lia].
    cbn [seval]. rewrite Hr. unfold sread. rewrite Hx. reflexivity.
  - intros i k Hf Hk. apply (K2 _ (((0 <=? i) && (i <=? zlen l)) && ((0 <=? i + k) && (i + k <=? zlen l))) _ (vs, take k (drop i l))); [|lia].
    cbn [seval]. rewrite Hr. cbn [bind]. replace (fits (i + k)) with true by (unfold fits; lia). cbn [negb].
    destruct ((0 <=? i) && (i <=? zlen l)); reflexivity.
  - intros i k Hf Hk. apply (K2 _ (((0 <=? i) && (i <? zlen l)) && ((0 <=? i + k) && (i + k <=? zlen l))) _ (vs, take i l ++ drop (i + k) l)); [|lia].
    cbn [seval]. rewrite Hr. cbn [bind]. replace (fits (i + k)) with true by (unfold fits; lia). cbn [negb].
    destruct ((0 <=? i) && (i <? zlen l)); reflexivity.
Qed.

Lemma index_check n ops vs ys s xs v l i :
  srun (repeat None n) ops = Ok (vs, ys) -> run (init n) ops = Ok (s, xs) ->
  nth_error vs v = Some (Some l) ->
  step s (OAt v i) = Ok (s, match znth l i with Some c => RInt c | None => RError end).
Proof.
  intros H1 H2 Hv. pose proof (reached_rel _ _ _ _ _ _ H1 H2) as R.
  pose proof (rel_var _ _ v R) as H. unfold sread in H. rewrite Hv in H. destruct H as (x & Hx & _ & _ & Hin).
  unfold step. cbn [step_raw]. rewrite Hx. cbn [bind]. rewrite (at_spec _ _ _ _ (Inv_in _ _ _ _ (proj2 R) Hin)).
  unfold aget, znth. destruct (i <? 0) eqn:Ei.
  - replace (0 <=? i) with false by lia. reflexivity.
  - replace (0 <=? i) with true by lia. cbn [andb]. destruct (i <? zlen l) eqn:El.
    + destruct (nth_error l (Z.to_nat i)) eqn:En; [reflexivity|]. apply nth_error_None in En. unfold zlen in El. lia.
    + destruct (nth_error l (Z.to_nat i)) eqn:En; [|reflexivity]. apply nth_error_lt in En. unfold zlen in El. lia.
Qed.

Lemma compare_reached n ops vs ys s xs v w l m :
  srun (repeat None n) ops = Ok (vs, ys) -> run (init n) ops = Ok (s, xs) ->
  nth_error vs v = Some (Some l) -> nth_error vs w = Some (Some m) ->
  step s (OCompare v w) = Ok (s, RCmp (lex l m)).
Proof.
  intros H1 H2 Hv Hw. pose proof (reached_rel _ _ _ _ _ _ H1 H2) as R.
  pose proof (rel_var _ _ v R) as H. unfold sread in H. rewrite Hv in H. destruct H as (x & Hx & _ & _ & Hin).
  pose proof (rel_var _ _ w R) as H. unfold sread in H. rewrite Hw in H. destruct H as (y & Hy & _ & _ & Hin').
  unfold step. cbn [step_raw]. rewrite Hx, Hy. cbn [bind].
  rewrite (compare_spec _ _ _ _ _ (Inv_in _ _ _ _ (proj2 R) Hin) (Inv_in _ _ _ _ (proj2 R) Hin')). reflexivity.
Qed.

Lemma buffer_reached n ops vs ys s xs v l :
  srun (repeat None n) ops = Ok (vs, ys) -> run (init n) ops = Ok (s, xs) ->
  nth_error vs v = Some (Some l) ->
  exists s' mem, step s (OBuffer v) = Ok (s', RMem mem) /\
    firstn (length l + 1) mem = map Some l ++ [Some 0] /\ shows s' vs.
Proof.
  intros H1 H2 Hv. pose proof (reached_rel _ _ _ _ _ _ H1 H2) as R.
  assert (E : sstep vs (OBuffer v) = Ok (vs, SChars l)).
  { unfold sstep. cbn [sstep_raw]. unfold sread. now rewrite Hv. }
  destruct (step_refines _ _ _ _ _ R E) as (s1 & r1 & E1 & R1 & Ho).
  destruct r1; try contradiction. eexists _, _. split; [exact E1|]. split; [exact Ho|now apply rel_shows].
Qed.

Lemma counts_reached n ops vs ys s xs :
  srun (repeat None n) ops = Ok (vs, ys) -> run (init n) ops = Ok (s, xs) ->
  (forall b cs k, nth_error (hp s) b = Some (Counted cs k) -> k = Z.of_nat (refs b (vars s)) /\ 0 < k) /\
  (forall v x, nth_error (vars s) v = Some (Some x) -> managed x = true ->
     exists cs k, nth_error (hp s) (buf x) = Some (Counted cs k)).
Proof.
  intros H1 H2. pose proof (reached_rel _ _ _ _ _ _ H1 H2) as R. split; [now apply (rel_counts s vs)|].
  intros v x Hx Hm. destruct (rel_live _ _ _ _ R Hx) as (cs & Hb & _). rewrite Hm in Hb. destruct Hb as [k Hk]. eauto.
Qed.

Lemma no_leak_reached n ops vs ys s xs :
  srun (repeat None n) ops = Ok (vs, ys) -> run (init n) ops = Ok (s, xs) ->
  Forall (fun x => x = None) (vars s) -> forall b cs k, nth_error (hp s) b <> Some (Counted cs k).
Proof. intros H1 H2. apply no_leak with vs. eapply reached_rel; eauto. Qed.

Lemma live_reached n ops vs ys s xs v x :
  srun (repeat None n) ops = Ok (vs, ys) -> run (init n) ops = Ok (s, xs) ->
  nth_error (vars s) v = Some (Some x) ->
  exists cs, (if managed x then exists k, nth_error (hp s) (buf x) = Some (Counted cs k)
              else nth_error (hp s) (buf x) = Some (Static cs)) /\
    0 <= start x /\ 0 <= len x /\ start x + len x <= real x < zlen cs /\
    nth_error cs (Z.to_nat (real x)) = Some (Some 0).
Proof. intros H1 H2. apply rel_live with vs. eapply reached_rel; eauto. Qed.
