(* Whole string conversion, traces and safety *)
From Coq Require Import ZifyBool ZifyNat.
From Verif Require Import Base BaseFacts UtfModel UtfSpec UtfProofs1 UtfProofs2 UtfProofs3.
Open Scope Z_scope.

(* ------------------------------------------------------------------ *)
(* Decoding well formed input                                           *)

Lemma firstn_app_le {A} n (a b : list A) : (length a <= n)%nat ->
  firstn n (a ++ b) = a ++ firstn (n - length a) b.
Proof. intros H. rewrite firstn_app, firstn_all2 by lia. reflexivity. Qed.

Lemma pstep_units u c rest :
  c <> 0 -> representable u c = true -> Forall (good_unit u) rest ->
  pstep u (firstn (blen u) (units u c ++ rest)) = Some (c, zlen (units u c)).
Proof.
  intros Hc Hrep Hg. destruct (units_len u c Hrep) as [Hl Hne].
  rewrite firstn_app_le by (unfold zlen, blen in *; lia).
  set (t := firstn _ rest). assert (Hgt : Forall (good_unit u) t) by (apply Forall_firstn, Hg).
  assert (Htl : zlen (units u c ++ t) <= buflen u).
  { unfold t, zlen, blen in *. rewrite app_length, firstn_length. lia. }
  clearbody t. unfold pstep.
  destruct u; cbn [to32 units] in *.
  - reflexivity.
  - rewrite to32_u8_enc by (assumption || lia). reflexivity.
  - rewrite to32_u16_enc by (assumption || lia). reflexivity.
  - pose proof (units_good U16BE c Hc Hrep) as Hug. cbn [units] in Hug.
    rewrite to32_u16be_swap.
    + rewrite map_app, map_map.
      assert (Hinv : map (fun x => byteswap (byteswap x)) (utf16_units c) = utf16_units c).
      { rewrite <- (map_id (utf16_units c)) at 2. apply map_ext_in. intros a Ha.
        apply byteswap_invol. pose proof (utf16_units_range c Hrep) as Hr.
        rewrite Forall_forall in Hr. apply Hr, Ha. }
      rewrite Hinv.
      rewrite to32_u16_enc.
      * unfold zlen. now rewrite map_length.
      * exact Hrep.
      * unfold zlen. rewrite !app_length, !map_length. lia.
    + destruct (utf16_units c); [cbn in Hne; congruence|discriminate].
    + exact Htl.
    + apply Forall_app. split; eapply Forall_impl; try (intros a; apply (good_in_range U16BE)); assumption.
  - reflexivity.
Qed.

Lemma usable_inv u c : usable u c = true -> c <> 0 /\ representable u c = true.
Proof. unfold usable. intros H. apply andb_true_iff in H as [H1 H2]. split; [lia|exact H2]. Qed.

Lemma flat_units_good u cps : Forall (fun c => usable u c = true) cps ->
  Forall (good_unit u) (flat_map (units u) cps).
Proof.
  induction 1 as [|c cps Hc H IH]; cbn [flat_map]; [constructor|].
  apply Forall_app. split; [|exact IH]. apply usable_inv in Hc. apply units_good; tauto.
Qed.

Definition sized (u : utf) (cps : list Z) : list (Z * Z) := map (fun c => (c, zlen (units u c))) cps.

Lemma Dec_units u cps : Forall (fun c => usable u c = true) cps ->
  Dec u (flat_map (units u) cps) (sized u cps) true.
Proof.
  induction 1 as [|c cps Hc H IH]; cbn [flat_map sized map]; [constructor|].
  apply usable_inv in Hc as [Hc0 Hc].
  destruct (units_len u c Hc) as [Hl Hne].
  eapply Dec_cons.
  - destruct (units u c); [congruence|discriminate].
  - apply pstep_units; [exact Hc0|exact Hc|]. now apply flat_units_good.
  - exact Hc0.
  - unfold zlen. rewrite app_length. destruct (units u c); [congruence|cbn [length]; lia].
  - unfold zlen. rewrite Nat2Z.id, skipn_app, skipn_all, Nat.sub_diag. exact IH.
Qed.

(* ------------------------------------------------------------------ *)
(* The sizing loop, the writing loop                                    *)

Lemma size_loop_out r k items fin : Out r k items fin ->
  forall fuel s, (length items < fuel)%nat -> size_loop fuel r s = Ok (s + zlen items + 1).
Proof.
  induction 1 as [r r' k E|r r' k cl E Hcl Hri|r r' k x cl items fin E Hx Hcl Hri HO IH];
    intros fuel s Hf; (destruct fuel as [|fuel]; [lia|]); cbn [size_loop]; rewrite E; cbn [bind].
  - cbn [Z.eqb]. unfold zlen. cbn. f_equal. lia.
  - cbn [Z.eqb]. unfold zlen. cbn. f_equal. lia.
  - replace (x =? 0) with false by lia. rewrite IH by (cbn in Hf; lia).
    f_equal. unfold zlen. cbn [length]. lia.
Qed.

(* d with the cells from i on replaced by l *)
Definition over (d : list Z) (i : nat) (l : list Z) : list Z :=
  firstn i d ++ l ++ skipn (i + length l) d.

Lemma over_upd d i x l : (i < length d)%nat ->
  over (upd d i x) (S i) l = over d i (x :: l).
Proof.
  intros Hi. unfold over. cbn [length app].
  assert (H1 : firstn (S i) (upd d i x) = firstn i d ++ [x]).
  { apply nth_error_ext. intros j. rewrite nth_error_firstn.
    destruct (Nat.ltb_spec j (S i)) as [Hj|Hj].
    - destruct (Nat.eq_dec j i) as [->|Hne].
      + rewrite upd_same by lia. rewrite nth_error_app2 by (rewrite firstn_length; lia).
        rewrite firstn_length. replace (i - Nat.min i (length d))%nat with 0%nat by lia. reflexivity.
      + rewrite upd_other by lia. rewrite nth_error_app1 by (rewrite firstn_length; lia).
        rewrite nth_error_firstn. destruct (Nat.ltb_spec j i); [reflexivity|lia].
    - symmetry. apply nth_error_None. rewrite app_length, firstn_length. cbn. lia. }
  assert (H2 : skipn (S i + length l) (upd d i x) = skipn (S i + length l) d).
  { apply nth_error_ext. intros j. rewrite !nth_error_skipn. apply upd_other. lia. }
  rewrite H1, H2, <- app_assoc. cbn [app]. do 3 f_equal. f_equal. lia.
Qed.

Lemma over_nil d i : over d i [] = d.
Proof. unfold over. cbn [length app]. rewrite Nat.add_0_r. apply firstn_skipn. Qed.

Lemma write_loop_out r k items fin : Out r k items fin ->
  forall fuel d i chars s, (length items < fuel)%nat -> 0 <= chars ->
  (i + Z.to_nat chars <= length d)%nat ->
  let l := firstn (Z.to_nat chars) (map fst items ++ [0]) in
  write_loop fuel r d (Z.of_nat i) chars s = Ok (over d i l, s + zlen l).
Proof.
  induction 1 as [r r' k E|r r' k cl E Hcl Hri|r r' k x cl items fin E Hx Hcl Hri HO IH];
    intros fuel d i chars s Hf Hch Hd; (destruct fuel as [|fuel]; [lia|]); cbn [write_loop map app fst].
  1,2: (destruct (Z.eqb_spec chars 0) as [->|Hne];
    [ cbn [Z.to_nat firstn]; rewrite over_nil; unfold zlen; cbn [length]; do 2 f_equal; lia
    | rewrite E; cbn [bind]; rewrite aset_nat by lia; cbn [bind Z.eqb];
      assert (Hl : firstn (Z.to_nat chars) [0] = [0])
        by (destruct (Z.to_nat chars) eqn:En; [lia|cbn; now rewrite firstn_nil]);
      rewrite Hl; rewrite <- over_upd by lia; rewrite over_nil; reflexivity ]).
  destruct (Z.eqb_spec chars 0) as [->|Hne].
  - cbn [Z.to_nat firstn]. rewrite over_nil. unfold zlen. cbn [length]. do 2 f_equal. lia.
  - rewrite E. cbn [bind]. rewrite aset_nat by lia. cbn [bind].
    replace (x =? 0) with false by lia.
    replace (Z.of_nat i + 1) with (Z.of_nat (S i)) by lia.
    specialize (IH fuel (upd d i x) (S i) (chars - 1) (s + 1) ltac:(cbn in Hf; lia) ltac:(lia)).
    rewrite upd_length in IH. specialize (IH ltac:(lia)). cbv zeta in IH. rewrite IH.
    replace (Z.to_nat chars) with (S (Z.to_nat (chars - 1))) by lia. cbn [firstn].
    rewrite over_upd by lia. f_equal. f_equal. unfold zlen. cbn [length]. lia.
Qed.

Lemma over_full l : forall d, length d = length l -> over d 0 l = l.
Proof.
  intros d H. unfold over. cbn [firstn app]. rewrite Nat.add_0_l, skipn_all2 by lia. apply app_nil_r.
Qed.

Lemma Feeds_str l junk : Feeds (CStr (l ++ 0 :: junk) 0) l.
Proof. exists 0%nat, junk. split; [reflexivity|reflexivity]. Qed.

Lemma Feeds_range l junk : Feeds (CRange (l ++ junk) (zlen l) 0) l.
Proof. exists 0%nat, junk. repeat split. Qed.

Lemma convert_out fuel from to l junk items fin :
  Out (mk_reader from to (CStr (l ++ 0 :: junk) 0)) 0 items fin ->
  (length items < fuel)%nat ->
  convert fuel from to (l ++ 0 :: junk) = Ok (map fst items ++ [0], zlen items).
Proof.
  intros HO Hf. unfold convert. rewrite (size_loop_out _ _ _ _ HO) by lia. cbn [bind].
  rewrite Z.add_0_l. assert (H0 : 0 <= zlen items) by (unfold zlen; lia).
  replace (zlen items + 1 <? 1) with false by lia.
  pose proof (write_loop_out _ _ _ _ HO fuel (repeat 0 (Z.to_nat (zlen items + 1))) 0%nat
                (zlen items + 1) 0 Hf ltac:(lia)) as Hw.
  rewrite repeat_length in Hw. specialize (Hw ltac:(lia)). cbv zeta in Hw.
  rewrite firstn_all2 in Hw by (rewrite app_length, map_length; unfold zlen; cbn; lia).
  change (Z.of_nat 0) with 0 in Hw. rewrite Hw. cbn [bind]. f_equal. f_equal; [|lia].
  apply over_full. rewrite repeat_length, app_length, map_length. unfold zlen. cbn. lia.
Qed.

Lemma emits_clusters to ds : forall off,
  map fst (emits to (clusters off ds))
  = flat_map (units to) (take_while (representable to) (map fst ds)).
Proof.
  induction ds as [|[c n] ds IH]; intros off; cbn [clusters emits map fst take_while flat_map]; auto.
  destruct (representable to c); [|reflexivity].
  cbn [flat_map]. rewrite map_app, map_map. cbn [fst]. rewrite map_id, IH. reflexivity.
Qed.

Lemma zlen_map {A B} (f : A -> B) l : zlen (map f l) = zlen l.
Proof. unfold zlen. now rewrite map_length. Qed.

Lemma zlen_app {A} (a b : list A) : zlen (a ++ b) = zlen a + zlen b.
Proof. unfold zlen. rewrite app_length. lia. Qed.

Lemma length_fst_eq {A B} (l : list (A * B)) m : map fst l = m -> length l = length m.
Proof. intros <-. now rewrite map_length. Qed.

Lemma convert_prefix fuel from to cps junk :
  Forall (fun c => usable from c = true) cps ->
  let out := flat_map (units to) (take_while (representable to) cps) in
  (length out < fuel)%nat ->
  convert fuel from to (flat_map (units from) cps ++ 0 :: junk) = Ok (out ++ [0], zlen out).
Proof.
  intros Hu out Hf.
  pose proof (reader_out from to _ _ _ _ (flat_units_good _ _ Hu)
                (Feeds_str _ junk) (Dec_units _ _ Hu)) as HO.
  set (items := emits to _) in HO.
  assert (Hi : map fst items = out).
  { unfold items. rewrite emits_clusters. unfold sized. rewrite map_map. cbn [fst]. now rewrite map_id. }
  rewrite (convert_out _ _ _ _ _ _ _ HO).
  - rewrite Hi. f_equal. f_equal. rewrite <- Hi. now rewrite zlen_map.
  - rewrite (length_fst_eq _ _ Hi). exact Hf.
Qed.

Lemma take_while_all p l : Forall (fun x => p x = true) l -> take_while p l = l.
Proof. induction 1 as [|x l Hx H IH]; cbn [take_while]; auto. now rewrite Hx, IH. Qed.

Lemma convert_spec fuel from to cps junk :
  Forall (fun c => usable from c = true) cps -> Forall (fun c => usable to c = true) cps ->
  let out := flat_map (units to) cps in
  (length out < fuel)%nat ->
  convert fuel from to (flat_map (units from) cps ++ 0 :: junk) = Ok (out ++ [0], zlen out).
Proof.
  intros H1 H2 out Hf.
  assert (Ht : take_while (representable to) cps = cps).
  { apply take_while_all. eapply Forall_impl; [|exact H2]. intros a Ha; now apply usable_inv in Ha. }
  pose proof (convert_prefix fuel from to cps junk H1) as H. rewrite Ht in H. now apply H.
Qed.

Lemma convert_roundtrip fuel from to cps junk :
  Forall (fun c => usable from c = true) cps -> Forall (fun c => usable to c = true) cps ->
  let src := flat_map (units from) cps in
  (length src < fuel)%nat -> (length (flat_map (units to) cps) < fuel)%nat ->
  exists block len, convert fuel from to (src ++ 0 :: junk) = Ok (block, len) /\
    convert fuel to from block = Ok (src ++ [0], zlen src).
Proof.
  intros H1 H2 src Hf1 Hf2. do 2 eexists. split; [apply convert_spec; assumption|].
  apply (convert_spec fuel to from cps []); assumption.
Qed.

Lemma scalar_usable u c : scalar c -> c <> 0 -> usable u c = true.
Proof. unfold scalar, usable. intros [H1 H2] H. destruct u; cbn [representable]; lia. Qed.

(* Arbitrary input *)
Lemma Dec_length u l ds b : Dec u l ds b -> total ds <= zlen l /\ Z.of_nat (length ds) <= total ds.
Proof.
  induction 1 as [|l Hne Hp|l n Hne Hp|l c n r b Hne Hp Hc Hn HD IH]; unfold total in *; cbn [fold_right snd length];
    try (unfold zlen; cbn; lia).
  unfold zlen in *. rewrite skipn_length in IH. lia.
Qed.

Lemma emits_length to : forall items, (length (emits to items) <= blen to * length items)%nat.
Proof.
  induction items as [|[c cl] items IH]; cbn [emits length]; [lia|].
  destruct (representable to c) eqn:E; [|cbn; lia].
  rewrite app_length, map_length.
  destruct (units_len to c E) as [Hl _]. unfold zlen in Hl.
  assert ((length (units to c) <= blen to)%nat) by (unfold blen; lia). lia.
Qed.

Lemma clusters_length ds : forall off, length (clusters off ds) = length ds.
Proof. induction ds as [|[c n] ds IH]; intros off; cbn [clusters length]; auto. Qed.

Lemma out_no_zero r k items fin : Out r k items fin -> Forall (fun x => x <> 0) (map fst items).
Proof. induction 1; cbn [map fst]; constructor; auto. Qed.

Lemma any_input from to l junk :
  Forall (good_unit from) l ->
  exists out, Forall (fun x => x <> 0) out /\
    zlen out <= buflen to * zlen l /\
    (forall fuel, (length out < fuel)%nat ->
      size_loop fuel (mk_reader from to (CStr (l ++ 0 :: junk) 0)) 0 = Ok (zlen out + 1) /\
      convert fuel from to (l ++ 0 :: junk) = Ok (out ++ [0], zlen out) /\
      forall d cap, 0 <= cap <= zlen d ->
        write_loop fuel (mk_reader from to (CStr (l ++ 0 :: junk) 0)) d 0 cap 0
        = Ok (firstn (Z.to_nat cap) (out ++ [0]) ++ skipn (length (firstn (Z.to_nat cap) (out ++ [0]))) d,
              Z.min cap (zlen out + 1))).
Proof.
  intros Hg.
  destruct (Dec_total from l) as (ds & b & HD).
  { eapply Forall_impl; [|exact Hg]. apply good_in_range. }
  pose proof (reader_out from to _ _ _ _ Hg (Feeds_str l junk) HD) as HO.
  set (items := emits to _) in HO.
  exists (map fst items). repeat split.
  - eapply out_no_zero, HO.
  - rewrite zlen_map. pose proof (emits_length to (clusters 0 ds)) as H.
    rewrite clusters_length in H. fold items in H.
    pose proof (Dec_length _ _ _ _ HD). unfold zlen in *. unfold blen in H.
    assert (0 < buflen to) by (destruct to; cbn; lia). nia.
  - rewrite (size_loop_out _ _ _ _ HO) by (rewrite map_length in H; lia). rewrite zlen_map. reflexivity.
  - rewrite map_length in H. rewrite (convert_out _ _ _ _ _ _ _ HO) by lia. now rewrite zlen_map.
  - rewrite map_length in H. intros d cap Hcap.
    pose proof (write_loop_out _ _ _ _ HO fuel d 0%nat cap 0 H ltac:(lia)) as Hw.
    unfold zlen in Hcap. specialize (Hw ltac:(lia)). cbv zeta in Hw.
    change (Z.of_nat 0) with 0 in Hw. rewrite Hw. unfold over. cbn [firstn app].
    rewrite Nat.add_0_l. f_equal. f_equal. unfold zlen. rewrite firstn_length, app_length, map_length. cbn. lia.
Qed.

(* ------------------------------------------------------------------ *)
(* Traces                                                               *)

Fixpoint numbered (k : Z) (items : list (Z * (Z * Z))) : list (Z * (Z * Z) * Z) :=
  match items with [] => [] | (x, cl) :: r => (x, cl, k) :: numbered (k + 1) r end.

Lemma trace_out r k items cl : Out r k items (Some cl) ->
  forall fuel, (length items < fuel)%nat ->
  trace fuel r = Ok (numbered k items ++ [(0, cl, k + zlen items)]).
Proof.
  intros H. remember (Some cl) as fin eqn:Hfin. revert Hfin.
  induction H as [r r' k E|r r' k cl' E Hcl Hri Hrd|r r' k x cl' items fin E Hx Hcl Hri HO IH];
    intros Hfin fuel Hf; (destruct fuel as [|fuel]; [lia|]); cbn [trace]; [discriminate| |].
  - injection Hfin as ->. rewrite E. cbn [bind Z.eqb]. rewrite Hcl, Hri.
    cbn. unfold zlen. cbn. do 3 f_equal. lia.
  - rewrite E. cbn [bind]. replace (x =? 0) with false by lia.
    rewrite (IH Hfin) by (cbn in Hf; lia). cbn [bind numbered app]. rewrite Hcl, Hri.
    do 4 f_equal. f_equal. unfold zlen. cbn [length]. lia.
Qed.

Lemma numbered_app a : forall k b, numbered k (a ++ b) = numbered k a ++ numbered (k + zlen a) b.
Proof.
  induction a as [|[x cl] a IH]; intros k b; cbn [app numbered].
  - unfold zlen. cbn. f_equal. lia.
  - rewrite IH. do 3 f_equal. unfold zlen. cbn [length]. lia.
Qed.

Lemma numbered_units l cl : forall k, numbered k (map (fun x => (x, cl)) l) = index_units l cl k.
Proof. induction l as [|x l IH]; intros k; cbn [map numbered index_units]; congruence. Qed.

Lemma expected_spec from to cps : Forall (fun c => representable to c = true) cps ->
  forall off k, let items := emits to (clusters off (sized from cps)) in
  numbered k items ++ [(0, (off + total (sized from cps), 0), k + zlen items)]
  = expected from to off k cps.
Proof.
  induction 1 as [|c cps Hc H IH]; intros off k; cbn [sized map clusters emits expected].
  - cbn. do 2 f_equal; [f_equal; f_equal; lia|unfold zlen; cbn; lia].
  - rewrite Hc. cbv zeta. rewrite numbered_app, numbered_units, <- app_assoc. f_equal.
    rewrite zlen_map. specialize (IH (off + zlen (units from c)) (k + zlen (units to c))).
    cbv zeta in IH. rewrite <- IH. f_equal. f_equal. unfold total. cbn [fold_right snd].
    f_equal; [f_equal; f_equal; unfold sized; lia|].
    fold (sized from cps). rewrite zlen_app, zlen_map. lia.
Qed.

Lemma trace_spec from to cps k fuel :
  Forall (fun c => usable from c = true) cps -> Forall (fun c => usable to c = true) cps ->
  Feeds k (flat_map (units from) cps) ->
  (length (flat_map (units to) cps) < fuel)%nat ->
  trace fuel (mk_reader from to k) = Ok (expected from to 0 0 cps).
Proof.
  intros H1 H2 Hf Hfuel.
  pose proof (reader_out from to _ _ _ _ (flat_units_good _ _ H1) Hf (Dec_units _ _ H1)) as HO.
  assert (H2' : Forall (fun c => representable to c = true) cps).
  { eapply Forall_impl; [|exact H2]. intros a Ha; now apply usable_inv in Ha. }
  assert (Hall : forall off, forallb (fun p => representable to (fst p)) (clusters off (sized from cps)) = true).
  { clear - H2'. induction H2' as [|c cps Hc H IH]; intros off; cbn [sized map clusters forallb fst]; auto.
    rewrite Hc. apply IH. }
  unfold emits_fin in HO. rewrite Hall in HO. cbn [fin_of] in HO.
  pose proof (emits_clusters to (sized from cps) 0) as Hm.
  unfold sized in Hm at 2. rewrite map_map in Hm. cbn [fst] in Hm. rewrite map_id in Hm.
  rewrite (take_while_all _ _ H2') in Hm.
  rewrite (trace_out _ _ _ _ HO) by (rewrite (length_fst_eq _ _ Hm); exact Hfuel).
  f_equal. apply (expected_spec from to cps H2' 0 0).
Qed.

(* reading on after the end *)
Lemma reads_zero r : read r = Ok (0, r) -> forall n, reads n r = Ok (repeat 0 n, r).
Proof. intros E. induction n as [|n IH]; cbn [reads repeat]; auto. rewrite E. cbn [bind]. rewrite IH. reflexivity. Qed.
Lemma reads_out r k items cl : Out r k items (Some cl) ->
  exists r', reads (S (length items)) r = Ok (map fst items ++ [0], r') /\
    source_cluster r' = cl /\ reading_index r' = k + zlen items /\ read r' = Ok (0, r').
Proof.
  intros H. remember (Some cl) as fin eqn:Hfin. revert Hfin.
  induction H as [r r' k E|r r' k cl' E Hcl Hri Hrd|r r' k x cl' items fin E Hx Hcl Hri HO IH]; intros Hfin; [discriminate| |].
  - injection Hfin as ->. exists r'. cbn. rewrite E. cbn. repeat split; auto. lia.
  - destruct (IH Hfin) as (r2 & E2 & H1 & H2 & H3). exists r2. cbn [length]. split; [|split; [auto|split; [|auto]]].
    + change (reads (S (S (length items))) r) with (do (c, r1) <- read r; do (l, r2) <- reads (S (length items)) r1; Ok (c :: l, r2)).
      rewrite E. cbn [bind]. rewrite E2. reflexivity.
    + rewrite H2. unfold zlen. cbn [length]. lia.
Qed.
Lemma end_final from to cps k n :
  Forall (fun c => usable from c = true) cps -> Forall (fun c => usable to c = true) cps ->
  Feeds k (flat_map (units from) cps) ->
  exists r, reads (S (length (flat_map (units to) cps))) (mk_reader from to k) = Ok (flat_map (units to) cps ++ [0], r) /\
    reads n r = Ok (repeat 0 n, r).
Proof.
  intros H1 H2 Hf.
  pose proof (reader_out from to _ _ _ _ (flat_units_good _ _ H1) Hf (Dec_units _ _ H1)) as HO.
  assert (H2' : Forall (fun c => representable to c = true) cps).
  { eapply Forall_impl; [|exact H2]. intros a Ha; now apply usable_inv in Ha. }
  assert (Hall : forall off, forallb (fun p => representable to (fst p)) (clusters off (sized from cps)) = true).
  { clear - H2'. induction H2' as [|c cps Hc H IH]; intros off; cbn [sized map clusters forallb fst]; auto.
    rewrite Hc. apply IH. }
  unfold emits_fin in HO. rewrite Hall in HO. cbn [fin_of] in HO.
  pose proof (emits_clusters to (sized from cps) 0) as Hm.
  unfold sized in Hm at 2. rewrite map_map in Hm. cbn [fst] in Hm. rewrite map_id in Hm.
  rewrite (take_while_all _ _ H2') in Hm.
  destruct (reads_out _ _ _ _ HO) as (r & E & _ & _ & Hr). exists r.
  rewrite <- Hm, map_length. split; [exact E|]. now apply reads_zero.
Qed.

(* ------------------------------------------------------------------ *)
(* UTF-16 decoding of arbitrary input                                   *)

Ltac Zify.zify_post_hook ::= Z.div_mod_to_equations.
Lemma surr_test a : 0 <= a < 0x10000 -> (Z.land a 0xFC00 =? 0xD800) = high_surrogate a.
Proof.
  intros H. rewrite land_fc00 by exact H. unfold high_surrogate.
  pose proof (Z.div_mod a 1024 ltac:(lia)). pose proof (Z.mod_pos_bound a 1024 ltac:(lia)).
  destruct (Z.eqb_spec (a / 1024 * 1024) 0xD800); lia.
Qed.
Lemma surr_test2 a : 0 <= a < 0x10000 -> (Z.land a 0xFC00 =? 0xDC00) = low_surrogate a.
Proof.
  intros H. rewrite land_fc00 by exact H. unfold low_surrogate.
  pose proof (Z.div_mod a 1024 ltac:(lia)). pose proof (Z.mod_pos_bound a 1024 ltac:(lia)).
  destruct (Z.eqb_spec (a / 1024 * 1024) 0xDC00); lia.
Qed.
Ltac Zify.zify_post_hook ::= idtac.

Lemma pstep16_one a l : 0 <= a < 0x10000 -> high_surrogate a = false ->
  pstep U16 (a :: l) = if low_surrogate a then None else Some (a, 1).
Proof.
  intros Ha Hh. unfold pstep. cbn [to32]. unfold to32_u16.
  replace (zlen (a :: l) <=? 0) with false by (unfold zlen; cbn [length]; lia).
  rewrite rd0. cbn [bind]. rewrite surr_test, Hh by exact Ha. unfold is_invalid.
  unfold high_surrogate, low_surrogate in *.
  destruct ((0xDC00 <=? a) && (a <=? 0xDFFF)) eqn:E.
  - replace ((0xD800 <=? a) && (a <=? 0xDFFF)) with true by lia. reflexivity.
  - replace ((0xD800 <=? a) && (a <=? 0xDFFF)) with false by lia. reflexivity.
Qed.

Lemma pstep16_high1 a : 0 <= a < 0x10000 -> high_surrogate a = true -> pstep U16 [a] = None.
Proof.
  intros Ha Hh. unfold pstep. cbn [to32]. unfold to32_u16.
  change (zlen [a]) with 1. change (1 <=? 0) with false. cbv iota.
  rewrite rd0. cbn [bind]. rewrite surr_test, Hh by exact Ha. reflexivity.
Qed.

Lemma pstep16_high a b l : 0 <= a < 0x10000 -> 0 <= b < 0x10000 -> high_surrogate a = true ->
  pstep U16 (a :: b :: l)
  = if low_surrogate b then Some (0x10000 + (a - 0xD800) * 0x400 + (b - 0xDC00), 2) else None.
Proof.
  intros Ha Hb Hh. unfold pstep. cbn [to32]. unfold to32_u16.
  replace (zlen (a :: b :: l) <=? 0) with false by (unfold zlen; cbn [length]; lia).
  replace (zlen (a :: b :: l) <? 2) with false by (unfold zlen; cbn [length]; lia).
  rewrite rd0, rd1. cbn [bind]. rewrite surr_test, Hh by exact Ha.
  rewrite surr_test2 by exact Hb. destruct (low_surrogate b) eqn:Hl; [|reflexivity].
  rewrite dec16. unfold high_surrogate, low_surrogate, is_invalid in *.
  assert (Hma : a mod 1024 = a - 0xD800).
  { symmetry. apply (Z.mod_unique a 1024 54); [left|]; lia. }
  assert (Hmb : b mod 1024 = b - 0xDC00).
  { symmetry. apply (Z.mod_unique b 1024 55); [left|]; lia. }
  rewrite Hma, Hmb.
  set (d := 0x10000 + ((a - 0xD800) * 1024 + (b - 0xDC00))).
  replace ((0xD800 <=? d) && (d <=? 0xDFFF)) with false by (unfold d; lia).
  f_equal. f_equal. unfold d. lia.
Qed.

Lemma Dec_u16 : forall n l, (length l <= n)%nat -> Forall (good_unit U16) l ->
  exists ds b, Dec U16 l ds b /\ map fst ds = utf16_prefix l.
Proof.
  induction n as [|n IH]; intros l Hn Hg.
  { destruct l; [|cbn in Hn; lia]. exists [], true. split; [constructor|reflexivity]. }
  destruct l as [|a l]; [exists [], true; split; [constructor|reflexivity]|].
  inversion_clear Hg as [|? ? Ha Hg']. unfold good_unit in Ha. cbn [unit_bound] in Ha.
  cbn [utf16_prefix].
  destruct (high_surrogate a) eqn:Hh.
  - destruct l as [|b l].
    + exists [], false. split; [|reflexivity]. apply Dec_bad; [discriminate|].
      apply pstep16_high1; [lia|exact Hh].
    + inversion_clear Hg' as [|? ? Hb Hg'']. unfold good_unit in Hb. cbn [unit_bound] in Hb.
      pose proof (pstep16_high a b [] ltac:(lia) ltac:(lia) Hh) as Hp.
      destruct (low_surrogate b) eqn:Hl.
      * destruct (IH l) as (ds & bb & HD & Hm); [cbn in Hn; lia|exact Hg''|].
        exists ((0x10000 + (a - 0xD800) * 0x400 + (b - 0xDC00), 2) :: ds), bb.
        split; [|cbn [map fst]; now rewrite Hm].
        eapply Dec_cons; [discriminate|exact Hp| | |exact HD].
        -- unfold high_surrogate, low_surrogate in *. lia.
        -- unfold zlen. cbn [length]. lia.
      * exists [], false. split; [|reflexivity]. apply Dec_bad; [discriminate|exact Hp].
  - assert (Hp : pstep U16 (firstn (blen U16) (a :: l)) = if low_surrogate a then None else Some (a, 1))
      by (apply pstep16_one; [lia|exact Hh]).
    destruct (low_surrogate a) eqn:Hl.
    + exists [], false. split; [|reflexivity]. apply Dec_bad; [discriminate|exact Hp].
    + destruct (IH l) as (ds & bb & HD & Hm); [cbn in Hn; lia|exact Hg'|].
      exists ((a, 1) :: ds), bb. split; [|cbn [map fst]; now rewrite Hm].
      eapply Dec_cons; [discriminate|exact Hp|lia| |exact HD]. unfold zlen. cbn [length]. lia.
Qed.

Lemma convert_u16_prefix fuel to l junk :
  Forall (good_unit U16) l ->
  let out := flat_map (units to) (take_while (representable to) (utf16_prefix l)) in
  (length out < fuel)%nat ->
  convert fuel U16 to (l ++ 0 :: junk) = Ok (out ++ [0], zlen out).
Proof.
  intros Hg out Hf.
  destruct (Dec_u16 (length l) l (Nat.le_refl _) Hg) as (ds & b & HD & Hm).
  pose proof (reader_out U16 to _ _ _ _ Hg (Feeds_str l junk) HD) as HO.
  set (items := emits to _) in HO.
  assert (Hi : map fst items = out) by (unfold items; now rewrite emits_clusters, Hm).
  rewrite (convert_out _ _ _ _ _ _ _ HO).
  - rewrite Hi. f_equal. f_equal. rewrite <- Hi. now rewrite zlen_map.
  - rewrite (length_fst_eq _ _ Hi). exact Hf.
Qed.

(* the prefix consists of scalar values: nothing malformed gets through *)
Lemma utf16_prefix_scalar : forall n l, (length l <= n)%nat -> Forall (good_unit U16) l ->
  Forall scalar (utf16_prefix l).
Proof.
  induction n as [|n IH]; intros l Hn Hg.
  { destruct l; [constructor|cbn in Hn; lia]. }
  destruct l as [|a l]; [constructor|]. cbn [utf16_prefix].
  inversion_clear Hg as [|? ? Ha Hg']. unfold good_unit in Ha. cbn [unit_bound] in Ha.
  destruct (high_surrogate a) eqn:Hh.
  - destruct l as [|b l]; [constructor|].
    inversion_clear Hg' as [|? ? Hb Hg'']. destruct (low_surrogate b) eqn:Hl; constructor.
    + unfold scalar, high_surrogate, low_surrogate in *. lia.
    + apply IH; [cbn in Hn; lia|exact Hg''].
  - destruct (low_surrogate a) eqn:Hl; constructor.
    + unfold scalar, high_surrogate, low_surrogate in *. lia.
    + apply IH; [cbn in Hn; lia|exact Hg'].
Qed.
