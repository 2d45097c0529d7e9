(* From the reader steps to whole strings *)
From Coq Require Import ZifyBool ZifyNat.
From Verif Require Import Base BaseFacts UtfModel UtfSpec UtfProofs1 UtfProofs2.
Open Scope Z_scope.

Definition blen (u : utf) : nat := Z.to_nat (buflen u).

(* What the decoder makes of a unit sequence: code points with the number of units
   each took, and whether it ended at the end of the input. *)
Inductive Dec (u : utf) : list Z -> list (Z * Z) -> bool -> Prop :=
| Dec_nil : Dec u [] [] true
| Dec_bad l : l <> [] -> pstep u (firstn (blen u) l) = None -> Dec u l [] false
| Dec_zero l n : l <> [] -> pstep u (firstn (blen u) l) = Some (0, n) -> Dec u l [] false
| Dec_cons l c n r b :
    l <> [] -> pstep u (firstn (blen u) l) = Some (c, n) -> c <> 0 -> 1 <= n <= zlen l ->
    Dec u (skipn (Z.to_nat n) l) r b -> Dec u l ((c, n) :: r) b.

Lemma blen_pos u : (0 < blen u)%nat.
Proof. unfold blen. destruct u; cbn; lia. Qed.

Lemma Forall_firstn {A} (P : A -> Prop) n l : Forall P l -> Forall P (firstn n l).
Proof. intros H. rewrite <- (firstn_skipn n l) in H. apply Forall_app in H. tauto. Qed.
Lemma Forall_skipn {A} (P : A -> Prop) n l : Forall P l -> Forall P (skipn n l).
Proof. intros H. rewrite <- (firstn_skipn n l) in H. apply Forall_app in H. tauto. Qed.

Lemma pstep_bounds u l c n :
  l <> [] -> Forall (in_range u) l -> pstep u (firstn (blen u) l) = Some (c, n) ->
  1 <= n <= zlen l /\ n <= buflen u.
Proof.
  intros Hne Hr H. unfold pstep in H.
  assert (Hf : firstn (blen u) l <> []).
  { destruct l; [congruence|]. pose proof (blen_pos u). destruct (blen u); [lia|discriminate]. }
  assert (Hl : zlen (firstn (blen u) l) <= buflen u).
  { unfold zlen. rewrite firstn_length. unfold blen. destruct u; cbn; lia. }
  destruct (to32_total u (firstn (blen u) l) [] Hf Hl (Forall_firstn _ _ _ Hr)) as (r & H1 & H2 & H3).
  rewrite H2 in H. subst r.
  assert (zlen (firstn (blen u) l) <= zlen l) by (unfold zlen; rewrite firstn_length; lia). lia.
Qed.

Lemma Dec_total u l : Forall (in_range u) l -> exists r b, Dec u l r b.
Proof.
  remember (length l) as k eqn:Hk. revert l Hk.
  induction k as [k IH] using lt_wf_ind. intros l Hk Hr.
  destruct l as [|x l']; [do 2 eexists; constructor|].
  set (l := x :: l') in *.
  assert (Hne : l <> []) by discriminate.
  destruct (pstep u (firstn (blen u) l)) as [[c n]|] eqn:E.
  - destruct (pstep_bounds _ _ _ _ Hne Hr E) as [Hn _].
    destruct (Z.eq_dec c 0) as [->|Hc].
    + do 2 eexists. eapply Dec_zero; eauto.
    + destruct (IH (length (skipn (Z.to_nat n) l))) with (l := skipn (Z.to_nat n) l) as (r & b & HD); auto.
      * rewrite skipn_length. unfold zlen in *. lia.
      * now apply Forall_skipn.
      * do 2 eexists. eapply Dec_cons; eauto.
  - do 2 eexists. eapply Dec_bad; eauto.
Qed.

Lemma spinj {A B : Type} (a a' : A) (b b' : B) : Some (a, b) = Some (a', b') -> a = a' /\ b = b'.
Proof. intros H. split; congruence. Qed.

(* Range of decoded values *)
Lemma pstep_range u l c n :
  l <> [] -> Forall (in_range u) l -> pstep u (firstn (blen u) l) = Some (c, n) ->
  0 <= c < 0x100000000.
Proof.
  intros Hne Hr H.
  assert (Hf : firstn (blen u) l <> []).
  { destruct l; [congruence|]. pose proof (blen_pos u). destruct (blen u); [lia|discriminate]. }
  assert (Hl : zlen (firstn (blen u) l) <= buflen u).
  { unfold zlen. rewrite firstn_length. unfold blen. destruct u; cbn; lia. }
  apply (Forall_firstn _ (blen u)) in Hr. revert Hf Hl Hr H.
  generalize (firstn (blen u) l). clear l Hne. intros l Hne Hl Hr H. unfold pstep in H.
  assert (H16 : forall l c n, l <> [] -> Forall (fun x => 0 <= x < 0x10000) l ->
      match to32_u16 (window l []) (zlen l) with Ok r => r | _ => None end = Some (c, n) ->
      0 <= c < 0x100000000).
  { clear. intros l c n Hne Hr. unfold to32_u16.
    destruct l as [|a l]; [congruence|]. inversion_clear Hr as [|? ? Ha Hr'].
    destruct (zlen _ <=? 0); [discriminate|]. rewrite rd0. cbn [bind].
    destruct (_ =? 0xD800).
    - destruct (zlen (a :: l) <? 2) eqn:E2; [discriminate|].
      destruct l as [|b l]; [cbn in E2; discriminate|]. rewrite rd1. cbn [bind].
      destruct (_ =? 0xDC00); [|discriminate]. destruct (is_invalid _); [discriminate|].
      intros H. apply spinj in H. destruct H as [<- <-]. rewrite dec16. 
      pose proof (Z.mod_pos_bound a 1024 ltac:(lia)). pose proof (Z.mod_pos_bound b 1024 ltac:(lia)). lia.
    - destruct (is_invalid _); [discriminate|]. intros H. apply spinj in H. destruct H as [<- <-]. lia. }
  assert (HW : forall bound, (bound <= 0x100000000) -> Forall (fun x => 0 <= x < bound) l ->
      match to32_w (window l []) (zlen l) with Ok r => r | _ => None end = Some (c, n) ->
      0 <= c < 0x100000000).
  { clear - Hne. intros bound Hb Hr. unfold to32_w.
    destruct l as [|a l]; [congruence|]. inversion_clear Hr as [|? ? Ha Hr'].
    destruct (zlen _ <=? 0); [discriminate|]. rewrite rd0. cbn [bind].
    intros H. apply spinj in H. destruct H as [<- <-]. lia. }
  destruct u; cbn [to32] in H; unfold in_range in Hr; cbn [unit_bound] in Hr.
  - eapply HW; [|exact Hr|exact H]. lia.
  - clear H16 HW. revert H. unfold to32_u8.
    destruct (zlen l <=? 0); [discriminate|].
    destruct l as [|c0 l]; [congruence|]. inversion_clear Hr as [|? ? H0 Hr'].
    rewrite rd0. cbn [bind].
    assert (M : forall k x, 0 < k -> 0 <= x mod k < k) by (intros; apply Z.mod_pos_bound; lia).
    destruct (c0 <? 0x80) eqn:E0; [intros H; apply spinj in H; destruct H as [<- <-]; lia|].
    destruct (c0 <? 0xE0).
    { destruct (_ <? 2) eqn:E; [discriminate|].
      destruct l as [|c1 l]; [unfold zlen in E; cbn [length] in E; lia|].
      rewrite rd1. cbn [bind]. intros H. apply spinj in H. destruct H as [<- <-]. rewrite dec2.
      pose proof (M 32 c0 ltac:(lia)). pose proof (M 64 c1 ltac:(lia)). lia. }
    destruct (c0 <? 0xF0).
    { destruct (_ <? 3) eqn:E; [discriminate|].
      destruct l as [|c1 [|c2 l]]; try (unfold zlen in E; cbn [length] in E; lia).
      rewrite rd1, rd2. cbn [bind]. intros H. apply spinj in H. destruct H as [<- <-]. rewrite dec3.
      pose proof (M 16 c0 ltac:(lia)). pose proof (M 64 c1 ltac:(lia)). pose proof (M 64 c2 ltac:(lia)). lia. }
    destruct (c0 <? 0xF8).
    { destruct (_ <? 4) eqn:E; [discriminate|].
      destruct l as [|c1 [|c2 [|c3 l]]]; try (unfold zlen in E; cbn [length] in E; lia).
      rewrite rd1, rd2, rd3. cbn [bind]. intros H. apply spinj in H. destruct H as [<- <-]. rewrite dec4.
      pose proof (M 8 c0 ltac:(lia)). pose proof (M 64 c1 ltac:(lia)). pose proof (M 64 c2 ltac:(lia)).
      pose proof (M 64 c3 ltac:(lia)). lia. }
    destruct (c0 <? 0xFC).
    { destruct (_ <? 5) eqn:E; [discriminate|].
      destruct l as [|c1 [|c2 [|c3 [|c4 l]]]]; try (unfold zlen in E; cbn [length] in E; lia).
      rewrite rd1, rd2, rd3, rd4. cbn [bind]. intros H. apply spinj in H. destruct H as [<- <-]. rewrite dec5.
      pose proof (M 4 c0 ltac:(lia)). pose proof (M 64 c1 ltac:(lia)). pose proof (M 64 c2 ltac:(lia)).
      pose proof (M 64 c3 ltac:(lia)). pose proof (M 64 c4 ltac:(lia)). lia. }
    destruct (_ <? 6) eqn:E; [discriminate|].
    destruct l as [|c1 [|c2 [|c3 [|c4 [|c5 l]]]]]; try (unfold zlen in E; cbn [length] in E; lia).
    rewrite rd1, rd2, rd3, rd4, rd5. cbn [bind]. intros H. apply spinj in H. destruct H as [<- <-]. rewrite dec6.
    pose proof (M 2 c0 ltac:(lia)). pose proof (M 64 c1 ltac:(lia)). pose proof (M 64 c2 ltac:(lia)).
    pose proof (M 64 c3 ltac:(lia)). pose proof (M 64 c4 ltac:(lia)). pose proof (M 64 c5 ltac:(lia)). lia.
  - eapply H16; eauto.
  - rewrite to32_u16be_swap in H by assumption.
    assert (Hz : zlen (map byteswap l) = zlen l) by (unfold zlen; now rewrite map_length).
    rewrite <- Hz in H. eapply H16; [| |exact H].
    + destruct l; [congruence|discriminate].
    + apply Forall_map. eapply Forall_impl; [|exact Hr]. intros x Hx. now apply byteswap_range.
  - eapply HW; [|exact Hr|exact H]. lia.
Qed.

(* ------------------------------------------------------------------ *)
(* Sources of char32_t                                                  *)

Definition clus (k size : Z) (s : source32) : Z * Z :=
  match s with SRaw _ => (k, size) | SRead _ t => (t_index t, t_size t) end.

(* [Src s k items fin]: s, of which k code points were consumed already, delivers the
   code points of items (each with the cluster reported after it) and then 0; if
   [fin] is [Some cl] the end is regular and reported with cluster cl. *)
Inductive Src : source32 -> Z -> list (Z * (Z * Z)) -> option (Z * Z) -> Prop :=
| Src_err s s' k : consume32 s = Ok (0, s') -> Src s k [] None
| Src_end s s' k : consume32 s = Ok (0, s') -> Src s k [] (Some (clus k 0 s'))
| Src_cons s s' k c items fin :
    consume32 s = Ok (c, s') -> c <> 0 -> 0 <= c < 0x100000000 ->
    Src s' (k + 1) items fin ->
    Src s k ((c, clus k 1 s') :: items) fin.

Fixpoint clusters (off : Z) (l : list (Z * Z)) : list (Z * (Z * Z)) :=
  match l with
  | [] => []
  | (c, n) :: l' => (c, (off, n)) :: clusters (off + n) l'
  end.

Definition total (l : list (Z * Z)) : Z := fold_right (fun p s => snd p + s) 0 l.

Definition fin_of (off : Z) (l : list (Z * Z)) (b : bool) : option (Z * Z) :=
  if b then Some (off + total l, 0) else None.

Lemma Src_to32 u : forall l ds b, Dec u l ds b -> Forall (good_unit u) l ->
  forall st idx size cnt k, Rto u st l idx size cnt ->
  Src (SRead u st) k (clusters (idx + size) ds) (fin_of (idx + size) ds b).
Proof.
  induction 1 as [|l Hne Hp|l n Hne Hp|l c n r b Hne Hp Hc Hn HD IH];
    intros Hg st idx size cnt k HR; pose proof (to32_read_spec _ _ _ _ _ _ HR) as Hs.
  - destruct Hs as (st' & E & Ha & Hi & Hz & _).
    assert (Hce : consume32 (SRead u st) = Ok (0, SRead u st')) by (cbn; now rewrite E).
    cbn [clusters fin_of total fold_right]. rewrite Z.add_0_r.
    replace (idx + size, 0) with (clus k 0 (SRead u st')) by (cbn; congruence).
    eapply Src_end; eauto.
  - destruct l as [|x l]; [congruence|]. fold (blen u) in Hs. rewrite Hp in Hs.
    destruct Hs as (st' & E & _).
    eapply Src_err. cbn. rewrite E. reflexivity.
  - destruct l as [|x l]; [congruence|]. fold (blen u) in Hs. rewrite Hp in Hs.
    destruct Hs as (_ & _ & st' & E & _).
    eapply Src_err. cbn. rewrite E. reflexivity.
  - assert (Hrange : 0 <= c < 0x100000000).
    { eapply pstep_range; [exact Hne| |exact Hp]. eapply Forall_impl; [|exact Hg]. apply good_in_range. }
    destruct l as [|x l]; [congruence|]. fold (blen u) in Hs. rewrite Hp in Hs.
    destruct Hs as (_ & _ & st' & E & HR').
    assert (Hcl : clus k 1 (SRead u st') = (idx + size, n)).
    { destruct HR' as (win & tail & cr & Ha & Hb & Hl & Hrest & Hcc & Hgg & Hi & Hz & Hnn).
      cbn. congruence. }
    cbn [clusters]. rewrite <- Hcl. unfold fin_of. cbn [total fold_right snd].
    eapply Src_cons.
    + cbn. rewrite E. reflexivity.
    + exact Hc.
    + exact Hrange.
    + specialize (IH (Forall_skipn _ _ _ Hg) st' (idx + size) n (cnt + 1) (k + 1) HR').
      unfold fin_of in IH. rewrite <- Z.add_assoc in IH |- *. 
      destruct b; [|exact IH]. unfold total in IH. rewrite !Z.add_assoc in *. exact IH.
Qed.

Lemma Src_raw : forall l k cons,
  Forall (good_unit U32) l -> Feeds cons l ->
  Src (SRaw cons) k (clusters k (map (fun c => (c, 1)) l))
      (fin_of k (map (fun c => (c, 1)) l) true).
Proof.
  induction l as [|x l IH]; intros k cons Hg Hf.
  - assert (E : consume32 (SRaw cons) = Ok (0, SRaw cons)) by (cbn; now rewrite (consume_nil _ Hf)).
    cbn [map clusters fin_of total fold_right]. rewrite Z.add_0_r.
    change (k, 0) with (clus k 0 (SRaw cons)). eapply Src_end; eauto.
  - inversion_clear Hg as [|? ? Hx Hg']. unfold good_unit in Hx. cbn [unit_bound] in Hx.
    destruct (consume_cons _ _ _ Hf ltac:(lia)) as (k' & E & Hf').
    cbn [map clusters]. change (k, 1) with (clus k 1 (SRaw k')).
    eapply Src_cons.
    + cbn. rewrite E. reflexivity.
    + lia.
    + lia.
    + specialize (IH (k + 1) k' Hg' Hf'). unfold fin_of in *. cbn [total fold_right snd].
      unfold total in IH. rewrite Z.add_assoc. exact IH.
Qed.

(* ------------------------------------------------------------------ *)
(* The From32 reader                                                    *)

Lemma units_len u c : representable u c = true -> zlen (units u c) <= buflen u /\ units u c <> [].
Proof.
  unfold zlen. destruct u; cbn [units buflen length].
  - split; [lia|discriminate].
  - intros _. unfold utf8_units.
    destruct (c <? _); [split; [cbn [length]; lia|discriminate]|].
    destruct (c <? _); [split; [cbn [length]; lia|discriminate]|].
    destruct (c <? _); [split; [cbn [length]; lia|discriminate]|].
    destruct (c <? _); [split; [cbn [length]; lia|discriminate]|].
    destruct (c <? _); split; try discriminate; cbn [length]; lia.
  - intros _. unfold utf16_units. destruct (c <? _); split; try discriminate; cbn [length]; lia.
  - intros _. unfold utf16_units. destruct (c <? _); split; try discriminate; cbn [length map]; lia.
  - split; [lia|discriminate].
Qed.

Ltac Zify.zify_post_hook ::= Z.div_mod_to_equations.
Lemma units_good u c : c <> 0 -> representable u c = true -> Forall (good_unit u) (units u c).
Proof.
  unfold good_unit. intros Hc. destruct u; cbn [units representable unit_bound]; intros H.
  - constructor; [lia|constructor].
  - unfold utf8_units, cont. rewrite Z.div_1_r.
    change (64^2) with 4096. change (64^3) with 262144. change (64^4) with 16777216.
    change (64^5) with 1073741824.
    destruct (c <? 0x80) eqn:H1; [repeat constructor; lia|].
    destruct (c <? 0x800) eqn:H2; [repeat constructor; lia|].
    destruct (c <? 0x10000) eqn:H3; [repeat constructor; lia|].
    destruct (c <? 0x200000) eqn:H4; [repeat constructor; lia|].
    destruct (c <? 0x4000000) eqn:H5; repeat constructor; lia.
  - unfold utf16_units. destruct (c <? 0x10000) eqn:H1; repeat constructor; lia.
  - unfold utf16_units, byteswap. destruct (c <? 0x10000) eqn:H1; cbn [map]; repeat constructor; lia.
  - constructor; [lia|constructor].
Qed.
Ltac Zify.zify_post_hook ::= idtac.

Lemma from32_spec u c : u <> U32 -> 0 <= c < 0x100000000 ->
  from32 u c = if representable u c then Some (units u c) else None.
Proof.
  intros Hu Hc. destruct u; cbn [from32 units].
  - unfold from32_w, representable. replace ((0 <=? c) && (c <? 0x100000000)) with true by lia.
    rewrite Z.mod_small by lia. reflexivity.
  - apply from32_u8_spec. lia.
  - apply from32_u16_spec. lia.
  - apply from32_u16be_spec. lia.
  - congruence.
Qed.

Lemma store_window l : forall a cr, (length l <= length cr)%nat ->
  store (window a cr) (zlen a) l = Ok (window (a ++ l) (skipn (length l) cr)).
Proof.
  induction l as [|x l IH]; intros a cr H; cbn [store].
  - rewrite app_nil_r. reflexivity.
  - destruct cr as [|c0 cr]; [cbn in H; lia|].
    unfold zlen at 1. rewrite aset_nat by (rewrite window_length; cbn; lia). cbn [bind].
    assert (Hup : upd (window a (c0 :: cr)) (length a) (Some x) = window (a ++ [x]) cr).
    { unfold window. rewrite map_app. cbn [map]. rewrite <- app_assoc. cbn [app].
      rewrite <- (map_length Some a). apply upd_app2. }
    rewrite Hup. replace (zlen a + 1) with (zlen (a ++ [x])) by (unfold zlen; rewrite app_length; cbn; lia).
    rewrite IH by (cbn in H; lia). rewrite <- app_assoc. reflexivity.
Qed.

Definition Rfrom (u : utf) (st : from32_reader) (pend : list Z) (k : Z) : Prop :=
  exists done cr,
    f_read st = zlen done /\ f_available st = zlen (done ++ pend) /\
    f_buffer st = window (done ++ pend) cr /\ zlen (f_buffer st) = buflen u /\
    f_index st + f_size st = k.

Lemma rd_window_app a x b cr : rd (window (a ++ x :: b) cr) (zlen a) = Ok x.
Proof.
  unfold rd, zlen. rewrite znth_nat. unfold window.
  rewrite nth_error_app1 by (rewrite map_length, app_length; cbn; lia).
  rewrite nth_error_map, nth_error_app2 by lia. rewrite Nat.sub_diag. reflexivity.
Qed.

Lemma f_emit_spec u st x pend k :
  Rfrom u st (x :: pend) k ->
  exists st', f_emit st = Ok (x, st') /\ Rfrom u st' pend k /\ f_src st' = f_src st /\
    f_index st' = f_index st /\ f_size st' = f_size st /\ f_counter st' = f_counter st + 1.
Proof.
  intros (done & cr & H1 & H2 & H3 & H4 & H5). unfold f_emit.
  rewrite H3, H1, rd_window_app. cbn [bind]. eexists. split; [reflexivity|].
  repeat split; cbn; auto. exists (done ++ [x]), cr. cbn. rewrite <- app_assoc. cbn [app].
  repeat split; auto.
  - unfold zlen. rewrite app_length. cbn. lia.
  - rewrite <- H4, H3. reflexivity.
Qed.

(* [Out r k items fin]: reader r, which returned k units already, returns the units of
   items, reporting for each the given cluster and reading indices k, k+1, ..., and
   then 0; a regular end is reported with the cluster in [fin] and the next index. *)
Inductive Out : reader -> Z -> list (Z * (Z * Z)) -> option (Z * Z) -> Prop :=
| Out_err r r' k : read r = Ok (0, r') -> Out r k [] None
| Out_end r r' k cl : read r = Ok (0, r') -> source_cluster r' = cl -> reading_index r' = k ->
    read r' = Ok (0, r') -> Out r k [] (Some cl)
| Out_cons r r' k x cl items fin :
    read r = Ok (x, r') -> x <> 0 -> source_cluster r' = cl -> reading_index r' = k ->
    Out r' (k + 1) items fin -> Out r k ((x, cl) :: items) fin.

Fixpoint emits (to : utf) (items : list (Z * (Z * Z))) : list (Z * (Z * Z)) :=
  match items with
  | [] => []
  | (c, cl) :: r =>
      if representable to c then map (fun x => (x, cl)) (units to c) ++ emits to r else []
  end.
Definition emits_fin (to : utf) (items : list (Z * (Z * Z))) (fin : option (Z * Z)) :=
  if forallb (fun p => representable to (fst p)) items then fin else None.

Lemma Out_emit u : forall pend st n k cl items fin,
  Rfrom u st pend k -> Forall (fun x => x <> 0) pend ->
  source_cluster (RFrom u st) = cl -> f_counter st + 1 = n ->
  (forall st', Rfrom u st' [] k -> f_src st' = f_src st -> 
      f_counter st' + 1 = n + zlen pend ->
      Out (RFrom u st') (n + zlen pend) items fin) ->
  Out (RFrom u st) n (map (fun x => (x, cl)) pend ++ items) fin.
Proof.
  induction pend as [|x pend IH]; intros st n k cl items fin HR Hnz Hcl Hcnt Hk.
  - cbn. unfold zlen in Hk. cbn in Hk. replace n with (n + 0) by lia. apply Hk; auto. lia.
  - cbn [map app]. inversion_clear Hnz as [|? ? Hx Hnz'].
    destruct (f_emit_spec _ _ _ _ _ HR) as (st' & E & HR' & Hs & Hi & Hz & Hc).
    assert (Eread : read (RFrom u st) = Ok (x, RFrom u st')).
    { cbn [read]. unfold from32_read.
      destruct HR as (done & cr & H1 & H2 & H3 & H4 & H5).
      replace (f_available st =? -1) with false by (unfold zlen in H2; lia).
      replace (f_read st =? f_available st) with false
        by (rewrite H1, H2; unfold zlen; rewrite app_length; cbn; lia).
      rewrite E. reflexivity. }
    assert (Ecl : source_cluster (RFrom u st') = cl).
    { cbn in *. rewrite Hs, Hi, Hz. exact Hcl. }
    eapply Out_cons; [exact Eread|exact Hx|exact Ecl|cbn; lia|].
    apply (IH st' (n + 1) k cl items fin HR' Hnz' Ecl); [lia|].
    intros st'' HR'' Hs'' Hc''.
    assert (Hz' : n + 1 + zlen pend = n + zlen (x :: pend)) by (unfold zlen; cbn [length]; lia).
    rewrite Hz' in *. apply Hk; auto. congruence.
Qed.

Lemma Out_from u s k items fin : u <> U32 ->
  Src s k items fin ->
  forall st n, Rfrom u st [] k -> f_src st = s -> f_counter st + 1 = n ->
  Out (RFrom u st) n (emits u items) (emits_fin u items fin).
Proof.
  intros Hu. induction 1 as [s s' k E|s s' k E|s s' k c items fin E Hc Hr HS IH];
    intros st n HR Hs Hn.
  - assert (Eread : exists r', read (RFrom u st) = Ok (0, r')).
    { cbn [read]. unfold from32_read. destruct HR as (done & cr & H1 & H2 & H3 & H4 & H5).
      rewrite app_nil_r in H2.
      replace (f_available st =? -1) with false by (unfold zlen in H2; lia).
      replace (f_read st =? f_available st) with true by lia.
      rewrite Hs, E. cbn [bind]. cbn [Z.eqb negb]. cbn [bind]. eexists. reflexivity. }
    destruct Eread as [r' Eread]. cbn. eapply Out_err; eauto.
  - cbn [read emits emits_fin forallb]. unfold from32_read.
    assert (Eread : read (RFrom u st) = Ok (0, RFrom u (mkFrom (f_read st) (-1) (f_buffer st)
             (f_index st + f_size st) 0 (f_counter st + 1) s'))).
    { cbn [read]. unfold from32_read. destruct HR as (done & cr & H1 & H2 & H3 & H4 & H5).
      rewrite app_nil_r in H2.
      replace (f_available st =? -1) with false by (unfold zlen in H2; lia).
      replace (f_read st =? f_available st) with true by lia.
      rewrite Hs, E. reflexivity. }
    eapply Out_end; [exact Eread| |cbn; lia|reflexivity].
    destruct HR as (done & cr & H1 & H2 & H3 & H4 & H5).
    cbn. destruct s' as [k'|u' t]; cbn; congruence.
  - pose proof (from32_spec u c Hu Hr) as Hf.
    destruct (representable u c) eqn:Hrep.
    + assert (Hef : emits_fin u ((c, clus k 1 s') :: items) fin = emits_fin u items fin).
      { unfold emits_fin. cbn [forallb fst]. rewrite Hrep. reflexivity. }
      rewrite Hef. cbn [emits]. rewrite Hrep. clear Hef.
      destruct (units_len u c Hrep) as [Hul Hune].
      pose proof (units_good u c Hc Hrep) as Hug.
      assert (Hpre : exists st0, read (RFrom u st) = (do (x, st') <- f_emit st0; Ok (x, RFrom u st')) /\
         Rfrom u st0 (units u c) (k + 1) /\ f_src st0 = s' /\ f_counter st0 = f_counter st /\
         source_cluster (RFrom u st0) = clus k 1 s').
      { cbn [read]. unfold from32_read. destruct HR as (done & cr & H1 & H2 & H3 & H4 & H5).
        rewrite app_nil_r in H2.
        replace (f_available st =? -1) with false by (unfold zlen in H2; lia).
        replace (f_read st =? f_available st) with true by lia.
        rewrite Hs, E. cbn [bind]. replace (c =? 0) with false by lia. cbn [negb].
        rewrite Hf.
        assert (Hst : store (f_buffer st) 0 (units u c)
                 = Ok (window (units u c) (skipn (length (units u c)) (f_buffer st)))).
        { change (f_buffer st) with (window [] (f_buffer st)) at 1.
          change 0 with (zlen (@nil Z)). rewrite store_window; [reflexivity|].
          unfold zlen in *. lia. }
        rewrite Hst. cbn [bind]. eexists. split; [reflexivity|]. cbn. repeat split.
        - exists [], (skipn (length (units u c)) (f_buffer st)). cbn. repeat split.
          + rewrite <- H4. unfold zlen in *. rewrite window_length, skipn_length. lia.
          + lia.
        - destruct s'; cbn; congruence. }
      destruct Hpre as (st0 & Eread & HR0 & Hs0 & Hc0 & Hcl0).
      destruct (units u c) as [|x us] eqn:Hus; [congruence|].
      inversion_clear Hug as [|? ? Hx Hug']. unfold good_unit in Hx.
      destruct (f_emit_spec _ _ _ _ _ HR0) as (st' & Ee & HR' & Hs' & Hi' & Hz' & Hc').
      rewrite Ee in Eread. cbn [bind] in Eread. cbn [map app].
      assert (Hcl' : source_cluster (RFrom u st') = clus k 1 s').
      { cbn in *. rewrite Hs', Hi', Hz'. exact Hcl0. }
      eapply Out_cons; [exact Eread|lia|exact Hcl'|cbn; lia|].
      apply (Out_emit u us st' (n + 1) (k + 1)); auto.
      * eapply Forall_impl; [|exact Hug']. unfold good_unit. intros; lia.
      * lia.
      * intros st'' HR'' Hs'' Hc''. apply IH; auto. congruence.
    + unfold emits_fin. cbn [emits forallb fst]. rewrite Hrep. cbn [andb].
      assert (Eread : exists r', read (RFrom u st) = Ok (0, r')).
      { cbn [read]. unfold from32_read. destruct HR as (done & cr & H1 & H2 & H3 & H4 & H5).
        rewrite app_nil_r in H2.
        replace (f_available st =? -1) with false by (unfold zlen in H2; lia).
        replace (f_read st =? f_available st) with true by lia.
        rewrite Hs, E. cbn [bind]. replace (c =? 0) with false by lia. cbn [negb].
        rewrite Hf. cbn [bind]. eexists. reflexivity. }
      destruct Eread as [r' Eread]. eapply Out_err; eauto.
Qed.

Lemma Rfrom_init u s : Rfrom u (from32_init u s) [] 0.
Proof.
  exists [], (repeat None (Z.to_nat (buflen u))). cbn. repeat split.
  unfold zlen. rewrite repeat_length. destruct u; cbn; lia.
Qed.

Lemma Rto_init u k l : Feeds k l -> Forall (good_unit u) l -> Rto u (to32_init u k) l 0 0 (-1).
Proof.
  intros Hf Hg. exists [], l, (repeat None (Z.to_nat (buflen u))). cbn. repeat split; auto.
  unfold zlen. rewrite repeat_length. destruct u; cbn; lia.
Qed.

(* To32 reader as the final reader *)
Lemma Out_to u : forall l ds b, Dec u l ds b -> Forall (good_unit u) l ->
  forall st idx size cnt n, Rto u st l idx size cnt -> cnt + 1 = n ->
  Out (RTo u st) n (clusters (idx + size) ds) (fin_of (idx + size) ds b).
Proof.
  induction 1 as [|l Hne Hp|l n0 Hne Hp|l c n0 r b Hne Hp Hc Hn0 HD IH];
    intros Hg st idx size cnt n HR Hcnt; pose proof (to32_read_spec _ _ _ _ _ _ HR) as Hs.
  - destruct Hs as (st' & E & Ha & Hi & Hz & Hc).
    cbn [clusters fin_of total fold_right]. rewrite Z.add_0_r.
    eapply Out_end; [cbn; rewrite E; reflexivity|cbn; congruence|cbn; lia|].
    cbn [read]. unfold to32_read. rewrite Ha. reflexivity.
  - destruct l as [|x l]; [congruence|]. fold (blen u) in Hs. rewrite Hp in Hs.
    destruct Hs as (st' & E & _). eapply Out_err. cbn. rewrite E. reflexivity.
  - destruct l as [|x l]; [congruence|]. fold (blen u) in Hs. rewrite Hp in Hs.
    destruct Hs as (_ & _ & st' & E & _). eapply Out_err. cbn. rewrite E. reflexivity.
  - destruct l as [|x l]; [congruence|]. fold (blen u) in Hs. rewrite Hp in Hs.
    destruct Hs as (_ & _ & st' & E & HR').
    pose proof HR' as HR2.
    destruct HR2 as (win & tail & cr & Ha & Hb & Hl & Hrest & Hcc & Hgg & Hi & Hz & Hnn).
    cbn [clusters].
    eapply Out_cons; [cbn; rewrite E; reflexivity|exact Hc|cbn; congruence|cbn; lia|].
    specialize (IH (Forall_skipn _ _ _ Hg) st' (idx + size) n0 (cnt + 1) (n + 1) HR' ltac:(lia)).
    unfold fin_of in *. cbn [total fold_right snd].
    unfold total in IH. destruct b; [|exact IH]. rewrite !Z.add_assoc in *. exact IH.
Qed.

Lemma Out_direct : forall l k n, Forall (good_unit U32) l -> Feeds k l -> 0 <= n ->
  forall st, st = mkDirect (n - 1) false k ->
  Out (RDirect st) n (clusters n (map (fun c => (c, 1)) l))
      (fin_of n (map (fun c => (c, 1)) l) true).
Proof.
  induction l as [|x l IH]; intros k n Hg Hf Hn st ->.
  - cbn [map clusters fin_of total fold_right]. rewrite Z.add_0_r.
    eapply Out_end.
    + cbn [read]. unfold direct_read. cbn [d_cons]. rewrite (consume_nil _ Hf). cbn. reflexivity.
    + cbn. replace (n - 1 + 1 =? -1) with false by lia. f_equal. lia.
    + cbn. lia.
    + cbn [read]. unfold direct_read. cbn [d_cons]. rewrite (consume_nil _ Hf). cbn. reflexivity.
  - inversion_clear Hg as [|? ? Hx Hg']. unfold good_unit in Hx. cbn [unit_bound] in Hx.
    destruct (consume_cons _ _ _ Hf ltac:(lia)) as (k' & E & Hf').
    cbn [map clusters].
    assert (Er : read (RDirect (mkDirect (n - 1) false k)) = Ok (x, RDirect (mkDirect n false k'))).
    { cbn [read]. unfold direct_read. cbn [d_cons d_ended d_counter]. rewrite E. cbn [bind].
      replace (x =? 0) with false by lia. cbn [negb orb]. repeat f_equal. lia. }
    eapply Out_cons; [exact Er|lia| |reflexivity|].
    + cbn. replace (n =? -1) with false by lia. reflexivity.
    + specialize (IH k' (n + 1) Hg' Hf' ltac:(lia) (mkDirect n false k')).
      unfold fin_of in *. cbn [total fold_right snd]. unfold total in IH.
      rewrite Z.add_assoc. apply IH. f_equal. lia.
Qed.

(* Decoding 32-bit units *)
Lemma Dec_w u l : u = W \/ u = U32 -> Forall (good_unit u) l ->
  Dec u l (map (fun c => (c, 1)) l) true.
Proof.
  intros Hu. induction l as [|x l IH]; intros Hg; cbn [map]; [constructor|].
  inversion_clear Hg as [|? ? Hx Hg'].
  assert (Hp : pstep u (firstn (blen u) (x :: l)) = Some (x, 1)).
  { destruct Hu as [-> | ->]; reflexivity. }
  eapply Dec_cons; [discriminate|exact Hp| | |].
  - unfold good_unit in Hx. lia.
  - unfold zlen. cbn [length]. lia.
  - apply IH, Hg'.
Qed.

Lemma Dec_fun u l r b : Dec u l r b -> forall r' b', Dec u l r' b' -> r = r' /\ b = b'.
Proof.
  induction 1 as [|l Hne Hp|l n Hne Hp|l c n r b Hne Hp Hc Hn HD IH]; intros r' b' H'.
  - inversion H'; subst; try congruence; auto.
  - inversion H'; subst; try congruence; auto.
  - inversion H'; subst; try congruence; auto.
  - inversion H' as [|l0 ? Hp'|l0 n0 ? Hp'|l0 c0 n0 r0 b0 ? Hp' ? ? HD']; subst; try congruence.
    rewrite Hp in Hp'. apply spinj in Hp'. destruct Hp' as [<- <-].
    destruct (IH _ _ HD') as [-> ->]. auto.
Qed.

Lemma emits_w u items : u = W \/ u = U32 ->
  Forall (fun p => 0 <= fst p < 0x100000000) items -> emits u items = items.
Proof.
  intros Hu. induction 1 as [|[c cl] items Hc Hg IH]; cbn [emits]; auto.
  assert (Hrep : representable u c = true).
  { cbn [fst] in Hc. destruct Hu as [-> | ->]; cbn [representable]; lia. }
  rewrite Hrep. rewrite IH. destruct Hu as [-> | ->]; reflexivity.
Qed.
Lemma emits_fin_w u items fin : u = W \/ u = U32 ->
  Forall (fun p => 0 <= fst p < 0x100000000) items -> emits_fin u items fin = fin.
Proof.
  intros Hu Hg. unfold emits_fin. 
  replace (forallb _ items) with true; [reflexivity|]. symmetry. apply forallb_forall.
  rewrite Forall_forall in Hg. intros p Hp. specialize (Hg p Hp).
  destruct Hu as [-> | ->]; cbn [representable]; lia.
Qed.

Lemma Dec_range u l ds b : Dec u l ds b -> Forall (good_unit u) l ->
  forall off, Forall (fun p => 0 <= fst p < 0x100000000) (clusters off ds).
Proof.
  induction 1 as [|l Hne Hp|l n Hne Hp|l c n r b Hne Hp Hc Hn HD IH]; intros Hg off; cbn [clusters];
    try constructor.
  - cbn [fst]. eapply pstep_range; [exact Hne| |exact Hp]. eapply Forall_impl; [|exact Hg]. apply good_in_range.
  - apply IH. now apply Forall_skipn.
Qed.

(* The main simulation: any pair of encodings, any zero-free input *)
Lemma reader_out from to k l ds b :
  Forall (good_unit from) l -> Feeds k l -> Dec from l ds b ->
  Out (mk_reader from to k) 0 (emits to (clusters 0 ds))
      (emits_fin to (clusters 0 ds) (fin_of 0 ds b)).
Proof.
  intros Hg Hf HD.
  assert (Hraw : from = U32 \/ from = W -> ds = map (fun c => (c, 1)) l /\ b = true).
  { intros Hu. eapply Dec_fun; [exact HD|]. apply Dec_w; [tauto|exact Hg]. }
  pose proof (Dec_range _ _ _ _ HD Hg 0) as Hrange.
  assert (Hdirect : from = U32 \/ from = W -> to = U32 \/ to = W ->
     Out (RDirect (mkDirect (-1) false k)) 0 (emits to (clusters 0 ds))
      (emits_fin to (clusters 0 ds) (fin_of 0 ds b))).
  { intros Hu Ht. destruct (Hraw Hu) as [-> ->].
    rewrite emits_w, emits_fin_w by (tauto || assumption).
    apply (Out_direct l k 0); auto; [|lia].
    destruct Hu as [-> | ->]; exact Hg. }
  assert (HSraw : from = U32 -> to <> U32 ->
     Out (RFrom to (from32_init to (SRaw k))) 0 (emits to (clusters 0 ds))
      (emits_fin to (clusters 0 ds) (fin_of 0 ds b))).
  { intros Hu Ht. destruct Hraw as [-> ->]; [tauto|]. subst from.
    eapply (Out_from to (SRaw k) 0); auto using Rfrom_init. now apply Src_raw. }
  assert (HTo : to = U32 -> 
     Out (RTo from (to32_init from k)) 0 (emits to (clusters 0 ds))
      (emits_fin to (clusters 0 ds) (fin_of 0 ds b))).
  { intros Ht. rewrite emits_w, emits_fin_w by (tauto || assumption).
    eapply (Out_to from l ds b HD Hg _ 0 0 (-1)); [|lia]. now apply Rto_init. }
  assert (HSread : to <> U32 ->
     Out (RFrom to (from32_init to (SRead from (to32_init from k)))) 0 (emits to (clusters 0 ds))
      (emits_fin to (clusters 0 ds) (fin_of 0 ds b))).
  { intros Ht. eapply (Out_from to _ 0); auto using Rfrom_init.
    eapply (Src_to32 from l ds b HD Hg _ 0 0 (-1)). now apply Rto_init. }
  destruct from, to; cbn [mk_reader]; auto;
    first [ apply HSread; discriminate | apply HSraw; [reflexivity|discriminate] ].
Qed.
