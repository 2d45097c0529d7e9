(* Readers and string conversion *)
From Coq Require Import ZifyBool ZifyNat.
From Verif Require Import Base BaseFacts UtfModel UtfSpec UtfProofs1.
Open Scope Z_scope.

(* ------------------------------------------------------------------ *)
(* To32 on a filled window                                             *)

Lemma window_length l r : length (window l r) = (length l + length r)%nat.
Proof. unfold window. now rewrite app_length, map_length. Qed.

Lemma to32_total u l rest :
  l <> [] -> zlen l <= buflen u -> Forall (in_range u) l ->
  exists r, to32 u (window l rest) (zlen l) = Ok r /\
            to32 u (window l []) (zlen l) = Ok r /\
            match r with None => True | Some (_, n) => 1 <= n <= zlen l end.
Proof.
  intros Hne Hlen Hr.
  assert (Hcases : u = U8 \/ u <> U8) by (destruct u; auto; right; discriminate).
  destruct Hcases as [->|Hu8].
  - unfold zlen in *. cbn [buflen] in Hlen. cbn [to32].
    unfold to32_u8.
    destruct l as [|c0 l]; [congruence|].
    rewrite !rd0. cbn [bind].
    replace (Z.of_nat (length (c0 :: l)) <=? 0) with false by (cbn [length]; lia).
    destruct (c0 <? 0x80). { eexists; repeat split; cbn [length]; lia. }
    destruct (c0 <? 0xE0).
    { destruct l as [|c1 l]; cbn [length].
      - replace (Z.of_nat 1 <? 2) with true by lia. eexists; repeat split.
      - replace (Z.of_nat _ <? 2) with false by lia. rewrite !rd1. cbn [bind].
        eexists; repeat split; lia. }
    destruct (c0 <? 0xF0).
    { destruct l as [|c1 [|c2 l]]; cbn [length];
        [replace (Z.of_nat 1 <? 3) with true by lia; eexists; repeat split
        |replace (Z.of_nat 2 <? 3) with true by lia; eexists; repeat split|].
      replace (Z.of_nat _ <? 3) with false by lia. rewrite !rd1, !rd2. cbn [bind].
        eexists; repeat split; lia. }
    destruct (c0 <? 0xF8).
    { destruct l as [|c1 [|c2 [|c3 l]]]; cbn [length];
        [replace (Z.of_nat 1 <? 4) with true by lia; eexists; repeat split
        |replace (Z.of_nat 2 <? 4) with true by lia; eexists; repeat split
        |replace (Z.of_nat 3 <? 4) with true by lia; eexists; repeat split|].
      replace (Z.of_nat _ <? 4) with false by lia. rewrite !rd1, !rd2, !rd3. cbn [bind].
        eexists; repeat split; lia. }
    destruct (c0 <? 0xFC).
    { destruct l as [|c1 [|c2 [|c3 [|c4 l]]]]; cbn [length];
        [replace (Z.of_nat 1 <? 5) with true by lia; eexists; repeat split
        |replace (Z.of_nat 2 <? 5) with true by lia; eexists; repeat split
        |replace (Z.of_nat 3 <? 5) with true by lia; eexists; repeat split
        |replace (Z.of_nat 4 <? 5) with true by lia; eexists; repeat split|].
      replace (Z.of_nat _ <? 5) with false by lia. rewrite !rd1, !rd2, !rd3, !rd4. cbn [bind].
        eexists; repeat split; lia. }
    destruct l as [|c1 [|c2 [|c3 [|c4 [|c5 l]]]]]; cbn [length];
        [replace (Z.of_nat 1 <? 6) with true by lia; eexists; repeat split
        |replace (Z.of_nat 2 <? 6) with true by lia; eexists; repeat split
        |replace (Z.of_nat 3 <? 6) with true by lia; eexists; repeat split
        |replace (Z.of_nat 4 <? 6) with true by lia; eexists; repeat split
        |replace (Z.of_nat 5 <? 6) with true by lia; eexists; repeat split|].
      replace (Z.of_nat _ <? 6) with false by lia. rewrite !rd1, !rd2, !rd3, !rd4, !rd5. cbn [bind].
        eexists; repeat split; lia.
  - assert (H16 : forall l r, l <> [] -> zlen l <= 2 ->
      exists o, to32_u16 (window l r) (zlen l) = Ok o /\ to32_u16 (window l []) (zlen l) = Ok o /\
                match o with None => True | Some (_, n) => 1 <= n <= zlen l end).
    { clear. intros l r Hne Hlen. unfold zlen in *. unfold to32_u16.
      destruct l as [|a l]; [congruence|].
      replace (Z.of_nat (length (a :: l)) <=? 0) with false by (cbn [length]; lia).
      rewrite !rd0. cbn [bind].
      destruct (Z.land a 0xFC00 =? 0xD800).
      - destruct l as [|b l]; cbn [length].
        + replace (Z.of_nat 1 <? 2) with true by lia. eexists; repeat split.
        + replace (Z.of_nat _ <? 2) with false by lia. rewrite !rd1. cbn [bind].
          destruct (Z.land b 0xFC00 =? 0xDC00); [|eexists; repeat split].
          destruct (is_invalid _); eexists; repeat split; lia.
      - destruct (is_invalid _); eexists; repeat split; cbn [length]; lia. }
    assert (HW : exists o, to32_w (window l rest) (zlen l) = Ok o /\ to32_w (window l []) (zlen l) = Ok o /\
                match o with None => True | Some (_, n) => 1 <= n <= zlen l end).
    { clear - Hne. unfold to32_w, zlen. destruct l as [|a l]; [congruence|].
      replace (Z.of_nat (length (a :: l)) <=? 0) with false by (cbn [length]; lia).
      rewrite !rd0. cbn [bind]. eexists; repeat split; cbn [length]; lia. }
    destruct u; try congruence; cbn [to32 buflen] in *.
    + exact HW.
    + apply H16; assumption.
    + rewrite !to32_u16be_swap by assumption.
      destruct (H16 (map byteswap l) []) as (o & H1 & H2 & H3).
      * destruct l; [congruence|discriminate].
      * unfold zlen. rewrite map_length. exact Hlen.
      * assert (Hz : zlen (map byteswap l) = zlen l) by (unfold zlen; now rewrite map_length).
        rewrite Hz in *. exists o. auto.
    + exact HW.
Qed.

(* The code point (and number of units) the code decodes at the front of [l] *)
Definition pstep (u : utf) (l : list Z) : option (Z * Z) :=
  match to32 u (window l []) (zlen l) with Ok r => r | _ => None end.

(* ------------------------------------------------------------------ *)
(* The shift loop                                                       *)

Lemma t_shift_spec n : forall (b : cells) (k i : nat),
  (i + k + n <= length b)%nat ->
  exists b', t_shift b (Z.of_nat k) (Z.of_nat i) n = Ok b' /\ length b' = length b /\
    (forall j, (i <= j < i + n)%nat -> nth_error b' j = nth_error b (j + k)%nat) /\
    (forall j, (j < i \/ i + n <= j)%nat -> nth_error b' j = nth_error b j).
Proof.
  induction n as [|n IH]; intros b k i Hlen.
  - exists b. cbn. repeat split; intros; auto. lia.
  - cbn [t_shift].
    assert (Hx : exists x, nth_error b (i + k) = Some x).
    { destruct (nth_error b (i + k)) eqn:E; eauto. apply nth_error_None in E. lia. }
    destruct Hx as [x Hx].
    rewrite <- Nat2Z.inj_add, (aget_nat _ _ _ Hx). cbn [bind].
    rewrite aset_nat by lia. cbn [bind].
    replace (Z.of_nat i + 1) with (Z.of_nat (S i)) by lia.
    destruct (IH (upd b i x) k (S i)) as (b' & H1 & H2 & H3 & H4).
    { rewrite upd_length. lia. }
    exists b'. repeat split.
    + exact H1.
    + now rewrite H2, upd_length.
    + intros j Hj. destruct (Nat.eq_dec j i) as [->|Hne].
      * rewrite H4 by lia. rewrite upd_same by lia. congruence.
      * rewrite H3 by lia. apply upd_other. lia.
    + intros j Hj. rewrite H4 by lia. apply upd_other. lia.
Qed.

Lemma t_shift_window a b r :
  exists r', t_shift (window (a ++ b) r) (zlen a) 0 (length b) = Ok (window b r') /\
             length r' = (length a + length r)%nat.
Proof.
  unfold zlen. change 0 with (Z.of_nat 0).
  destruct (t_shift_spec (length b) (window (a ++ b) r) (length a) 0%nat) as (b' & H1 & H2 & H3 & _).
  { rewrite window_length, app_length. lia. }
  rewrite H1. exists (skipn (length b) b'). split.
  - f_equal. rewrite <- (firstn_skipn (length b) b') at 1. unfold window. f_equal.
    apply nth_error_ext. intros i. rewrite nth_error_firstn, nth_error_map.
    destruct (Nat.ltb_spec i (length b)) as [Hi|Hi].
    + rewrite H3 by lia. unfold window.
      rewrite nth_error_app1 by (rewrite map_length, app_length; lia).
      rewrite nth_error_map, nth_error_app2 by lia. f_equal. f_equal. lia.
    + assert (E : nth_error b i = None) by (apply nth_error_None; lia). now rewrite E.
  - rewrite skipn_length, H2, window_length, app_length. lia.
Qed.

(* ------------------------------------------------------------------ *)
(* The To32 reader over a zero terminated string                        *)

Definition good_unit (u : utf) (x : Z) : Prop := 0 < x < unit_bound u.

Lemma good_in_range u x : good_unit u x -> in_range u x.
Proof. unfold good_unit, in_range. lia. Qed.

(* [Feeds k tail]: consumer k is about to deliver the units tail and then zeros *)
Definition Feeds (k : consumer) (tail : list Z) : Prop :=
  match k with
  | CStr mem pos => exists p junk, pos = Z.of_nat p /\ skipn p mem = tail ++ 0 :: junk
  | CRange mem ending pos =>
      exists p junk, pos = Z.of_nat p /\ ending = Z.of_nat (p + length tail) /\
        skipn p mem = tail ++ junk
  end.

Lemma skipn_cons {A} p (mem : list A) x l :
  skipn p mem = x :: l -> nth_error mem p = Some x /\ skipn (S p) mem = l.
Proof.
  intros H. split.
  - replace p with (p + 0)%nat by lia. rewrite <- nth_error_skipn, H. reflexivity.
  - apply nth_error_ext. intros i. rewrite nth_error_skipn.
    replace (S p + i)%nat with (p + S i)%nat by lia.
    rewrite <- nth_error_skipn, H. reflexivity.
Qed.

Lemma consume_cons k x tail :
  Feeds k (x :: tail) -> x <> 0 ->
  exists k', consume k = Ok (x, k') /\ Feeds k' tail.
Proof.
  intros H Hx. destruct k as [mem pos|mem ending pos]; cbn [Feeds] in H.
  - destruct H as (p & junk & -> & H). cbn [app] in H.
    apply skipn_cons in H as [Hn Hs]. unfold consume.
    rewrite (aget_nat _ _ _ Hn). cbn [bind]. replace (x =? 0) with false by lia.
    eexists. split; [reflexivity|]. exists (S p), junk. split; [lia|exact Hs].
  - destruct H as (p & junk & -> & -> & H). cbn [app] in H.
    apply skipn_cons in H as [Hn Hs]. unfold consume. cbn [length].
    replace (Z.of_nat p =? Z.of_nat (p + S (length tail))) with false by lia.
    rewrite (aget_nat _ _ _ Hn). cbn [bind].
    eexists. split; [reflexivity|]. exists (S p), junk.
    split; [lia|]. split; [lia|exact Hs].
Qed.

Lemma consume_nil k : Feeds k [] -> consume k = Ok (0, k).
Proof.
  intros H. destruct k as [mem pos|mem ending pos]; cbn [Feeds] in H.
  - destruct H as (p & junk & -> & H). apply skipn_cons in H as [Hn Hs]. unfold consume.
    rewrite (aget_nat _ _ _ Hn). reflexivity.
  - destruct H as (p & junk & -> & -> & H). unfold consume. cbn [length].
    replace (Z.of_nat p =? Z.of_nat (p + 0)) with true by lia. reflexivity.
Qed.

(* [rest]: the units not yet decoded (window content, then unread input) *)
Definition Rto (u : utf) (st : to32_reader) (rest : list Z) (idx size cnt : Z) : Prop :=
  exists win tail cr,
    t_available st = zlen win /\
    t_buffer st = window win cr /\
    zlen (t_buffer st) = buflen u /\
    rest = win ++ tail /\
    Feeds (t_cons st) tail /\
    Forall (good_unit u) rest /\
    t_index st = idx /\ t_size st = size /\ t_counter st = cnt.

(* Filling the window *)
Lemma t_fill_spec u fuel : forall st rest idx size cnt,
  Rto u st rest idx size cnt ->
  buflen u - t_available st < Z.of_nat fuel ->
  match rest with
  | [] => exists st', t_fill u fuel st = Ok (inr st') /\ t_available st' = -1 /\
            t_index st' = idx + size /\ t_size st' = 0 /\ t_counter st' = cnt + 1
  | _ => exists st', t_fill u fuel st = Ok (inl st') /\ Rto u st' rest idx size cnt /\
            t_available st' = zlen (firstn (Z.to_nat (buflen u)) rest)
  end.
Proof.
  induction fuel as [|fuel IH]; intros st rest idx size cnt HR Hf.
  - destruct HR as (win & tail & cr & Ha & Hb & Hl & _).
    rewrite Ha in *. unfold zlen in *. rewrite Hb, window_length in Hl. lia.
  - destruct HR as (win & tail & cr & Ha & Hb & Hl & Hrest & Hc & Hg & Hi & Hz & Hn).
    cbn [t_fill].
    destruct (t_available st <? buflen u) eqn:Hlt.
    + destruct tail as [|x tail].
      * rewrite (consume_nil _ Hc). cbn [bind]. cbn [Z.eqb negb].
        destruct (t_available st =? 0) eqn:Ha0.
        -- assert (win = []) as -> by (destruct win; [reflexivity|unfold zlen in Ha; cbn [length] in Ha; lia]).
           subst rest. cbn [app]. eexists. split; [reflexivity|]. cbn. subst. auto.
        -- destruct win as [|w win]; [unfold zlen in Ha; cbn in Ha; lia|].
           rewrite app_nil_r in Hrest. subst rest.
           eexists. split; [reflexivity|]. split.
           ++ exists (w :: win), [], cr. cbn [t_available t_buffer t_cons t_index t_size t_counter].
              rewrite app_nil_r. repeat split; auto.
           ++ cbn [t_available]. rewrite firstn_all2; [exact Ha|]. unfold zlen in *. lia.
      * assert (Hgx : good_unit u x).
        { subst rest. rewrite Forall_app in Hg. destruct Hg as [_ Hg]. now inversion Hg. }
        unfold good_unit in Hgx.
        destruct (consume_cons _ _ _ Hc ltac:(lia)) as (k' & -> & Hc'). cbn [bind].
        replace (x =? 0) with false by lia. cbn [negb].
        assert (Hcr : (length cr > 0)%nat).
        { unfold zlen in *. rewrite Hb, window_length in Hl. lia. }
        destruct cr as [|cr0 cr]; [cbn in Hcr; lia|].
        rewrite Ha, Hb.
        assert (Has : aset (window win (cr0 :: cr)) (zlen win) (Some x)
                      = Ok (upd (window win (cr0 :: cr)) (length win) (Some x))).
        { unfold zlen. apply aset_nat. rewrite window_length. cbn; lia. }
        rewrite Has. cbn [bind].
        assert (Hup : upd (window win (cr0 :: cr)) (length win) (Some x) = window (win ++ [x]) cr).
        { unfold window. rewrite map_app. cbn [map]. rewrite <- app_assoc. cbn [app].
          rewrite <- (map_length Some win). apply upd_app2. }
        rewrite Hup.
        specialize (IH (mkTo (zlen win + 1) (window (win ++ [x]) cr) (t_index st) (t_size st) (t_counter st)
                          k') rest idx size cnt).
        apply IH.
        -- exists (win ++ [x]), tail, cr.
           cbn [t_available t_buffer t_cons t_index t_size t_counter].
           rewrite <- app_assoc. cbn [app]. repeat split; auto.
           ++ unfold zlen. rewrite app_length. cbn. lia.
           ++ rewrite <- Hl, Hb. unfold zlen. rewrite !window_length, app_length. cbn. lia.
        -- cbn [t_available]. rewrite Ha in Hf. lia.
    + assert (Hwl : zlen win = buflen u).
      { unfold zlen in *. rewrite Hb, window_length in Hl. lia. }
      assert (Hb0 : 0 < buflen u) by (destruct u; cbn; lia).
      destruct win as [|w win]; [unfold zlen in Hwl; cbn in Hwl; lia|].
      subst rest. cbn [app].
      exists st. split; [reflexivity|]. split.
      * exists (w :: win), tail, cr. repeat split; auto.
      * rewrite Ha. change (w :: win ++ tail) with ((w :: win) ++ tail).
        rewrite firstn_app. unfold zlen in *.
        replace (Z.to_nat (buflen u) - length (w :: win))%nat with 0%nat by lia.
        rewrite firstn_all2 by lia. now rewrite app_nil_r.
Qed.

Lemma to32_read_spec u st rest idx size cnt :
  Rto u st rest idx size cnt ->
  match rest with
  | [] => exists st', to32_read u st = Ok (0, st') /\ t_available st' = -1 /\
            t_index st' = idx + size /\ t_size st' = 0 /\ t_counter st' = cnt + 1
  | _ =>
    match pstep u (firstn (Z.to_nat (buflen u)) rest) with
    | None => exists st', to32_read u st = Ok (0, st') /\ t_available st' = -1
    | Some (c, n) =>
        1 <= n <= zlen rest /\ n <= buflen u /\
        exists st', to32_read u st = Ok (c, st') /\
          Rto u st' (skipn (Z.to_nat n) rest) (idx + size) n (cnt + 1)
    end
  end.
Proof.
  intros HR.
  pose proof (t_fill_spec u (S (Z.to_nat (buflen u))) st rest idx size cnt HR) as Hfill.
  assert (Hav : 0 <= t_available st).
  { destruct HR as (win & tail & cr & Ha & _). unfold zlen in Ha. lia. }
  assert (Hbp : 0 < buflen u) by (destruct u; cbn; lia).
  specialize (Hfill ltac:(lia)).
  unfold to32_read. replace (t_available st =? -1) with false by lia.
  destruct rest as [|x rest].
  - destruct Hfill as (st' & -> & H). cbn [bind]. exists st'. tauto.
  - destruct Hfill as (st' & -> & HR' & Ha'). cbn [bind].
    set (l := x :: rest) in *.
    destruct HR' as (win & tail & cr & Ha & Hb & Hl & Hrest & Hc & Hg & Hi & Hz & Hn).
    assert (Hwin : win = firstn (Z.to_nat (buflen u)) l).
    { rewrite Ha in Ha'. unfold zlen in Ha'.
      apply Nat2Z.inj in Ha'. rewrite Hrest in Ha' |- *.
      rewrite firstn_app in Ha' |- *. rewrite app_length in Ha'.
      unfold zlen in Hl. rewrite Hb, window_length in Hl.
      rewrite firstn_all2 in Ha' |- * by lia.
      assert (Hz' : firstn (Z.to_nat (buflen u) - length win) tail = []).
      { apply length_zero_iff_nil. lia. }
      rewrite Hz'. now rewrite app_nil_r. }
    assert (Hb0 : 0 < buflen u) by (destruct u; cbn; lia).
    assert (Hwne : win <> []).
    { rewrite Hwin. unfold l. destruct (Z.to_nat (buflen u)) eqn:E; [lia|discriminate]. }
    assert (Hwr : Forall (in_range u) win).
    { rewrite Hrest in Hg. apply Forall_app in Hg. destruct Hg as [Hg _].
      eapply Forall_impl; [|exact Hg]. apply good_in_range. }
    assert (Hwl : zlen win <= buflen u).
    { unfold zlen in *. rewrite Hb, window_length in Hl. lia. }
    rewrite <- Hwin. unfold pstep.
    destruct (to32_total u win cr Hwne Hwl Hwr) as (r & H1 & H2 & H3).
    rewrite H2, Hb, Ha, H1. cbn [bind].
    destruct r as [[c n]|].
    + assert (Hzl : zlen l = zlen win + zlen tail).
      { rewrite Hrest. unfold zlen. rewrite app_length. lia. }
      split; [unfold zlen in *; lia|]. split; [lia|].
      set (a := firstn (Z.to_nat n) win). set (b := skipn (Z.to_nat n) win).
      assert (Hab : win = a ++ b) by (symmetry; apply firstn_skipn).
      assert (Hla : zlen a = n).
      { unfold a, zlen in *. rewrite firstn_length. lia. }
      assert (Hlb : length b = Z.to_nat (zlen win - n)).
      { unfold b, zlen in *. rewrite skipn_length. lia. }
      destruct (t_shift_window a b cr) as (r' & Hsh & Hr').
      rewrite Hlb, Hla, <- Hab in Hsh. rewrite Hsh. cbn [bind].
      eexists. split; [reflexivity|].
      exists b, tail, r'.
      cbn [t_available t_buffer t_cons t_index t_size t_counter].
      repeat split; auto; try congruence.
      * unfold zlen at 2. lia.
      * unfold zlen in *. rewrite window_length. rewrite Hb, window_length in Hl.
        rewrite Hab, app_length in Hl. lia.
      * rewrite Hrest, Hab, <- app_assoc.
        rewrite skipn_app. unfold zlen in Hla.
        rewrite skipn_all2 by lia.
        replace (Z.to_nat n - length a)%nat with 0%nat by lia. reflexivity.
      * rewrite Forall_forall in *. intros y Hy. apply Hg.
        rewrite <- (firstn_skipn (Z.to_nat n) l). apply in_or_app. now right.
    + eexists. split; [reflexivity|]. reflexivity.
Qed.
