(* What conversion does to any units *)
From Coq Require Import ZifyBool ZifyNat.
From Verif Require Import Base BaseFacts UtfModel UtfSpec UtfProofs1 UtfProofs2 UtfProofs3 UtfProofs4.
Open Scope Z_scope.

Lemma pstep8 b r : Forall (in_range U8) (b :: r) ->
  pstep U8 (firstn 6 (b :: r)) =
  let k := Z.to_nat (announced b - 1) in
  if (length r <? k)%nat then None else Some (fold_left (fun v x => v * 64 + x mod 64) (firstn k r) (lead_value b), announced b).
Proof.
  intros H. unfold pstep. cbn [to32]. unfold to32_u8, announced, lead_value.
  assert (0 <= b < 0x100) as Hb by (inversion H; assumption). clear H.
  replace (zlen (firstn 6 (b :: r)) <=? 0) with false by (cbn [firstn]; unfold zlen; cbn [length]; lia). cbn [firstn]. rewrite rd0. cbn [bind].
  destruct (b <? 0x80); [reflexivity|].
  destruct (b <? 0xE0).
  { destruct r as [|c1 r]; [reflexivity|]. cbn [firstn]. rewrite rd1. cbn [bind]. rewrite dec2. 
    match goal with |- context [zlen ?l <? 2] => replace (zlen l <? 2) with false by (unfold zlen; cbn [length]; lia) end. reflexivity. }
  destruct (b <? 0xF0).
  { destruct r as [|c1 [|c2 r]]; try reflexivity. cbn [firstn]. rewrite rd1, rd2. cbn [bind]. rewrite dec3.
    match goal with |- context [zlen ?l <? 3] => replace (zlen l <? 3) with false by (unfold zlen; cbn [length]; lia) end.
    change (Z.to_nat (3 - 1)) with 2%nat. cbv zeta. cbn [length Nat.ltb Nat.leb firstn fold_left]. f_equal. f_equal. lia. }
  destruct (b <? 0xF8).
  { destruct r as [|c1 [|c2 [|c3 r]]]; try reflexivity. cbn [firstn]. rewrite rd1, rd2, rd3. cbn [bind]. rewrite dec4.
    match goal with |- context [zlen ?l <? 4] => replace (zlen l <? 4) with false by (unfold zlen; cbn [length]; lia) end.
    change (Z.to_nat (4 - 1)) with 3%nat. cbv zeta. cbn [length Nat.ltb Nat.leb firstn fold_left]. f_equal. f_equal. lia. }
  destruct (b <? 0xFC).
  { destruct r as [|c1 [|c2 [|c3 [|c4 r]]]]; try reflexivity. cbn [firstn]. rewrite rd1, rd2, rd3, rd4. cbn [bind]. rewrite dec5.
    match goal with |- context [zlen ?l <? 5] => replace (zlen l <? 5) with false by (unfold zlen; cbn [length]; lia) end.
    change (Z.to_nat (5 - 1)) with 4%nat. cbv zeta. cbn [length Nat.ltb Nat.leb firstn fold_left]. f_equal. f_equal. lia. }
  destruct r as [|c1 [|c2 [|c3 [|c4 [|c5 r]]]]]; try reflexivity. cbn [firstn]. rewrite rd1, rd2, rd3, rd4, rd5. cbn [bind]. rewrite dec6.
  match goal with |- context [zlen ?l <? 6] => replace (zlen l <? 6) with false by (unfold zlen; cbn [length]; lia) end.
    change (Z.to_nat (6 - 1)) with 5%nat. cbv zeta. cbn [length Nat.ltb Nat.leb firstn fold_left]. f_equal. f_equal. lia.
Qed.

Lemma take_while_take p q l : take_while p (take_while q l) = take_while (fun x => q x && p x) l.
Proof. induction l as [|x l IH]; [reflexivity|]. cbn. destruct (q x); cbn; [|reflexivity]. destruct (p x); [now rewrite IH|reflexivity]. Qed.
Definition nonzero (c : Z) : bool := negb (c =? 0).
Lemma Dec_u8 : forall n l, (length l <= n)%nat -> Forall (good_unit U8) l ->
  exists ds b, Dec U8 l ds b /\ map fst ds = take_while nonzero (utf8_decode n l).
Proof.
  induction n as [|n IH]; intros l Hn Hg.
  { destruct l; [|cbn in Hn; lia]. exists [], true. split; [constructor|reflexivity]. }
  destruct l as [|b r]; [exists [], true; split; [constructor|reflexivity]|].
  assert (Forall (in_range U8) (b :: r)) as Hr by (eapply Forall_impl; [apply good_in_range|exact Hg]).
  pose proof (pstep8 b r Hr) as P. cbv zeta in P. change 6%nat with (blen U8) in P. cbn [utf8_decode]. cbv zeta.
  set (k := Z.to_nat (announced b - 1)) in *. destruct (Nat.ltb_spec (length r) k) as [L|L].
  { exists [], false. split; [|reflexivity]. apply Dec_bad; [discriminate|exact P]. }
  set (v := fold_left _ _ _) in *. cbn [take_while]. unfold nonzero at 1. destruct (Z.eqb_spec v 0) as [V|V]; cbn [negb].
  { exists [], false. split; [|reflexivity]. rewrite V in P. eapply Dec_zero; [discriminate|exact P]. }
  assert (1 <= announced b) as A by (unfold announced; repeat (match goal with |- context [if ?c then _ else _] => destruct c end); lia).
  assert (skipn (Z.to_nat (announced b)) (b :: r) = skipn k r) as SK by (unfold k; replace (Z.to_nat (announced b)) with (S (Z.to_nat (announced b - 1))) by lia; reflexivity).
  destruct (IH (skipn k r)) as (ds & bb & HD & Hm).
  - rewrite skipn_length. cbn in Hn. lia.
  - apply Forall_skipn. now inversion Hg.
  - exists ((v, announced b) :: ds), bb. split; [|cbn [map fst]; now rewrite Hm].
    eapply Dec_cons; [discriminate|exact P|exact V| |now rewrite SK]. unfold zlen. cbn [length]. unfold k in L. lia.
Qed.
Lemma pstep_be l : l <> [] -> zlen l <= 2 -> Forall (in_range U16BE) l -> pstep U16BE l = pstep U16 (map byteswap l).
Proof.
  intros H1 H2 H3. unfold pstep. cbn [to32]. rewrite to32_u16be_swap by assumption. now rewrite zlen_map.
Qed.
Lemma Dec_be l ds b : Forall (good_unit U16BE) l -> Dec U16 (map byteswap l) ds b -> Dec U16BE l ds b.
Proof.
  intros Hg HD. remember (map byteswap l) as m eqn:E. revert l Hg E.
  induction HD as [|m N P|m n N P|m c n r bb N P C L D IH]; intros l Hg E; try subst m.
  - destruct l; [constructor|discriminate].
  - assert (l <> []) as NE by (intros ->; auto). apply Dec_bad; [exact NE|]. rewrite pstep_be; [rewrite <- firstn_map; exact P|destruct l; [congruence|discriminate]|unfold zlen; rewrite firstn_length; unfold blen; cbn; lia|].
    apply Forall_firstn. eapply Forall_impl; [apply good_in_range|exact Hg].
  - assert (l <> []) as NE by (intros ->; auto). eapply Dec_zero; [exact NE|]. rewrite pstep_be; [rewrite <- firstn_map; exact P|destruct l; [congruence|discriminate]|unfold zlen; rewrite firstn_length; unfold blen; cbn; lia|].
    apply Forall_firstn. eapply Forall_impl; [apply good_in_range|exact Hg].
  - assert (l <> []) as NE by (intros ->; auto). eapply Dec_cons; [exact NE| |exact C|rewrite zlen_map in L; exact L|].
    + rewrite pstep_be; [rewrite <- firstn_map; exact P|destruct l; [congruence|discriminate]|unfold zlen; rewrite firstn_length; unfold blen; cbn; lia|].
      apply Forall_firstn. eapply Forall_impl; [apply good_in_range|exact Hg].
    + apply IH; [now apply Forall_skipn|now rewrite skipn_map].
Qed.
Lemma byteswap_good x : good_unit U16BE x -> good_unit U16 (byteswap x).
Proof.
  unfold good_unit. cbn [unit_bound]. intros H. pose proof (byteswap_range x ltac:(lia)) as R. enough (byteswap x <> 0) by lia.
  intros E. pose proof (byteswap_invol x ltac:(lia)) as I. rewrite E in I. change (byteswap 0) with 0 in I. lia.
Qed.
Lemma Dec_any u l : Forall (good_unit u) l -> exists ds b, Dec u l ds b /\ map fst ds = take_while nonzero (code_points u l).
Proof.
  intros Hg.
  assert (forall m, Forall (fun x => x <> 0) m -> take_while nonzero m = m) as NZ.
  { intros m H. apply take_while_all. eapply Forall_impl; [|exact H]. intros x Hx. cbv beta. unfold nonzero. now destruct (Z.eqb_spec x 0). }
  assert (forall m, Forall (good_unit U16) m -> Forall (fun x => x <> 0) (utf16_prefix m)) as N16.
  { intros m H. destruct (Dec_u16 (length m) m (Nat.le_refl _) H) as (ds & b & HD & <-). clear -HD. induction HD; constructor; auto. }
  destruct u; cbn [code_points].
  - do 2 eexists. split; [apply Dec_w; [tauto|exact Hg]|]. rewrite map_map, map_id. symmetry. apply NZ. eapply Forall_impl; [|exact Hg]. unfold good_unit. cbn. intros; lia.
  - now apply Dec_u8.
  - destruct (Dec_u16 (length l) l (Nat.le_refl _) Hg) as (ds & b & HD & Hm). exists ds, b. split; [exact HD|]. now rewrite NZ by auto.
  - assert (Forall (good_unit U16) (map byteswap l)) as Hg' by (apply Forall_map; eapply Forall_impl; [apply byteswap_good|exact Hg]).
    destruct (Dec_u16 _ (map byteswap l) (Nat.le_refl _) Hg') as (ds & b & HD & Hm). exists ds, b. split; [now apply Dec_be|]. now rewrite NZ by auto.
  - do 2 eexists. split; [apply Dec_w; [tauto|exact Hg]|]. rewrite map_map, map_id. symmetry. apply NZ. eapply Forall_impl; [|exact Hg]. unfold good_unit. cbn. intros; lia.
Qed.
Lemma convert_any fuel from to l junk : Forall (good_unit from) l ->
  let out := flat_map (units to) (take_while (usable to) (code_points from l)) in
  (length out < fuel)%nat -> convert fuel from to (l ++ 0 :: junk) = Ok (out ++ [0], zlen out).
Proof.
  intros Hg out Hf. destruct (Dec_any from l Hg) as (ds & b & HD & Hm).
  pose proof (reader_out from to _ _ _ _ Hg (Feeds_str l junk) HD) as HO. set (items := emits to _) in HO.
  assert (map fst items = out) as Hi by (unfold items; rewrite emits_clusters, Hm, take_while_take; reflexivity).
  rewrite (convert_out _ _ _ _ _ _ _ HO).
  - rewrite Hi. f_equal. f_equal. rewrite <- Hi. now rewrite zlen_map.
  - rewrite (length_fst_eq _ _ Hi). exact Hf.
Qed.
(* texts that are well formed stand for the code points they encode *)
Lemma code_points_units u to cps : Forall (fun c => usable u c = true) cps ->
  take_while (usable to) (code_points u (flat_map (units u) cps)) = take_while (usable to) cps.
Proof.
  intros H. pose proof (Dec_units u cps H) as D. pose proof (flat_units_good u cps H) as G. destruct (Dec_any u _ G) as (ds & b & HD & Hm).
  destruct (Dec_fun _ _ _ _ HD _ _ D) as [E1 E2]. subst ds. unfold sized in Hm. rewrite map_map in Hm. cbn [fst] in Hm. rewrite map_id in Hm.
  change (usable to) with (fun x => nonzero x && representable to x). rewrite <- !(take_while_take (representable to) nonzero), <- Hm. f_equal. symmetry.
  apply take_while_all. eapply Forall_impl; [|exact H]. intros x Hx. apply usable_inv in Hx. cbv beta. unfold nonzero. destruct (Z.eqb_spec x 0); [tauto|reflexivity].
Qed.
