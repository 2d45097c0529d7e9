(* Source clusters for any units *)
From Coq Require Import ZifyBool ZifyNat.
From Verif Require Import Base BaseFacts UtfModel UtfSpec UtfProofs1 UtfProofs2 UtfProofs3 UtfProofs4 UtfProofs6.
Open Scope Z_scope.

Fixpoint before_zero_point (l : list (Z * Z)) : list (Z * Z) :=
  match l with [] => [] | (c, n) :: r => if c =? 0 then [] else (c, n) :: before_zero_point r end.

Lemma pts_u8 : forall n l, (length l <= n)%nat -> Forall (good_unit U8) l ->
  exists b, Dec U8 l (before_zero_point (utf8_points n l)) b.
Proof.
  induction n as [|n IH]; intros l Hn Hg.
  { destruct l; [|cbn in Hn; lia]. exists true. constructor. }
  destruct l as [|b r]; [exists true; constructor|].
  assert (Forall (in_range U8) (b :: r)) as Hr by (eapply Forall_impl; [apply good_in_range|exact Hg]).
  pose proof (pstep8 b r Hr) as P. cbv zeta in P. change 6%nat with (blen U8) in P. cbn [utf8_points]. cbv zeta.
  set (k := Z.to_nat (announced b - 1)) in *. destruct (Nat.ltb_spec (length r) k) as [L|L].
  { exists false. apply Dec_bad; [discriminate|exact P]. }
  set (v := fold_left _ _ _) in *. cbn [before_zero_point]. destruct (Z.eqb_spec v 0) as [V|V].
  { exists false. rewrite V in P. eapply Dec_zero; [discriminate|exact P]. }
  assert (1 <= announced b) as A by (unfold announced; repeat (match goal with |- context [if ?c then _ else _] => destruct c end); lia).
  assert (skipn (Z.to_nat (announced b)) (b :: r) = skipn k r) as SK by (unfold k; replace (Z.to_nat (announced b)) with (S (Z.to_nat (announced b - 1))) by lia; reflexivity).
  destruct (IH (skipn k r)) as (bb & HD).
  - rewrite skipn_length. cbn in Hn. lia.
  - apply Forall_skipn. now inversion Hg.
  - exists bb. eapply Dec_cons; [discriminate|exact P|exact V| |now rewrite SK]. unfold zlen. cbn [length]. unfold k in L. lia.
Qed.
Lemma pts_u16 : forall n l, (length l <= n)%nat -> Forall (good_unit U16) l ->
  exists b, Dec U16 l (before_zero_point (utf16_points l)) b.
Proof.
  induction n as [|n IH]; intros l Hn Hg.
  { destruct l; [|cbn in Hn; lia]. exists true. constructor. }
  destruct l as [|a l]; [exists true; constructor|].
  inversion_clear Hg as [|? ? Ha Hg']. unfold good_unit in Ha. cbn [unit_bound] in Ha. cbn [utf16_points].
  destruct (high_surrogate a) eqn:Hh.
  - destruct l as [|b l].
    + exists false. apply Dec_bad; [discriminate|]. apply pstep16_high1; [lia|exact Hh].
    + inversion_clear Hg' as [|? ? Hb Hg'']. unfold good_unit in Hb. cbn [unit_bound] in Hb.
      pose proof (pstep16_high a b [] ltac:(lia) ltac:(lia) Hh) as Hp. destruct (low_surrogate b) eqn:Hl.
      * destruct (IH l) as (bb & HD); [cbn in Hn; lia|exact Hg''|]. exists bb. cbn [before_zero_point].
        assert (0x10000 + (a - 0xD800) * 0x400 + (b - 0xDC00) <> 0) as V by (unfold high_surrogate, low_surrogate in *; lia).
        destruct (Z.eqb_spec (0x10000 + (a - 0xD800) * 0x400 + (b - 0xDC00)) 0) as [V'|_]; [contradiction|].
        eapply Dec_cons; [discriminate|exact Hp|exact V| |exact HD]. unfold zlen. cbn [length]. lia.
      * exists false. apply Dec_bad; [discriminate|exact Hp].
  - assert (Hp : pstep U16 (firstn (blen U16) (a :: l)) = if low_surrogate a then None else Some (a, 1)) by (apply pstep16_one; [lia|exact Hh]).
    destruct (low_surrogate a) eqn:Hl.
    + exists false. apply Dec_bad; [discriminate|exact Hp].
    + destruct (IH l) as (bb & HD); [cbn in Hn; lia|exact Hg'|]. exists bb. cbn [before_zero_point]. replace (a =? 0) with false by lia.
      eapply Dec_cons; [discriminate|exact Hp|lia| |exact HD]. unfold zlen. cbn [length]. lia.
Qed.
Lemma pts_any u l : Forall (good_unit u) l -> exists b, Dec u l (before_zero_point (points u l)) b.
Proof.
  intros Hg.
  assert (forall m, Forall (good_unit W) m -> before_zero_point (map (fun c => (c, 1)) m) = map (fun c => (c, 1)) m) as NW.
  { induction 1 as [|x m Hx _ IH]; [reflexivity|]. cbn [map before_zero_point]. unfold good_unit in Hx. cbn [unit_bound] in Hx. replace (x =? 0) with false by lia. now rewrite IH. }
  destruct u; cbn [points].
  - rewrite NW by exact Hg. eexists. apply Dec_w; [tauto|exact Hg].
  - now apply pts_u8.
  - now apply (pts_u16 (length l)).
  - assert (Forall (good_unit U16) (map byteswap l)) as Hg' by (apply Forall_map; eapply Forall_impl; [apply byteswap_good|exact Hg]).
    destruct (pts_u16 _ (map byteswap l) (Nat.le_refl _) Hg') as (b & HD). exists b. now apply Dec_be.
  - rewrite NW by exact Hg. eexists. apply Dec_w; [tauto|exact Hg].
Qed.
Lemma emits_any to ps : forall off k, numbered k (emits to (clusters off (before_zero_point ps))) = expected_any to off k ps.
Proof.
  induction ps as [|[c n] ps IH]; intros off k; [reflexivity|]. cbn [before_zero_point expected_any]. unfold usable. destruct (c =? 0); [reflexivity|]. cbn [negb andb clusters emits].
  destruct (representable to c); [|reflexivity]. rewrite numbered_app, numbered_units, IH. now rewrite zlen_map.
Qed.
Lemma trace_some r k items fin : Out r k items fin -> forall fuel, (length items < fuel)%nat ->
  exists cl j, trace fuel r = Ok (numbered k items ++ [(0, cl, j)]).
Proof.
  induction 1 as [r r' k E|r r' k cl' E Hcl Hri Hrd|r r' k x cl' items fin E Hx Hcl Hri HO IH]; intros fuel Hf; (destruct fuel as [|fuel]; [lia|]); cbn [trace].
  - rewrite E. cbn [bind Z.eqb numbered app]. eauto.
  - rewrite E. cbn [bind Z.eqb numbered app]. eauto.
  - rewrite E. cbn [bind]. replace (x =? 0) with false by lia. destruct (IH fuel) as (cl & j & ->); [cbn in Hf; lia|]. cbn [bind numbered app]. rewrite Hcl, Hri. eauto.
Qed.
Lemma trace_any from to k l fuel : Forall (good_unit from) l -> Feeds k l ->
  (length (expected_any to 0%Z 0%Z (points from l)) < fuel)%nat ->
  exists cl j, trace fuel (mk_reader from to k) = Ok (expected_any to 0 0 (points from l) ++ [(0, cl, j)]).
Proof.
  intros Hg Hk Hf. destruct (pts_any from l Hg) as (b & HD). pose proof (reader_out from to _ _ _ _ Hg Hk HD) as HO.
  rewrite <- emits_any in *. apply (trace_some _ _ _ _ HO).
  assert (forall m k, length (numbered k m) = length m) as LN by (induction m as [|[x cl] m IH]; intros; cbn [numbered length]; auto). now rewrite LN in Hf.
Qed.
Lemma trace_any_string from to l junk fuel : Forall (good_unit from) l ->
  (length (expected_any to 0%Z 0%Z (points from l)) < fuel)%nat ->
  exists cl j, trace fuel (mk_reader from to (CStr (l ++ 0 :: junk) 0)) = Ok (expected_any to 0 0 (points from l) ++ [(0, cl, j)]).
Proof. intros Hg. apply trace_any; [exact Hg|]. apply Feeds_str. Qed.
Lemma trace_any_range from to l junk fuel : Forall (good_unit from) l ->
  (length (expected_any to 0%Z 0%Z (points from l)) < fuel)%nat ->
  exists cl j, trace fuel (mk_reader from to (CRange (l ++ junk) (zlen l) 0)) = Ok (expected_any to 0 0 (points from l) ++ [(0, cl, j)]).
Proof. intros Hg. apply trace_any; [exact Hg|]. apply Feeds_range. Qed.
Lemma points_u8 : forall n l, map fst (utf8_points n l) = utf8_decode n l.
Proof. induction n as [|n IH]; intros [|b r]; cbn [utf8_points utf8_decode]; auto. cbv zeta. destruct (_ <? _)%nat; [reflexivity|]. cbn [map fst]. now rewrite IH. Qed.
Lemma points_u16 : forall n l, (length l <= n)%nat -> map fst (utf16_points l) = utf16_prefix l.
Proof.
  induction n as [|n IH]; intros [|a l] Hn; cbn [length] in Hn; try lia; [reflexivity|reflexivity|]. cbn [utf16_points utf16_prefix]. destruct (high_surrogate a).
  - destruct l as [|b l]; [reflexivity|]. cbn [length] in Hn. destruct (low_surrogate b); [|reflexivity]. cbn [map fst]. rewrite IH; [reflexivity|lia].
  - destruct (low_surrogate a); [reflexivity|]. cbn [map fst]. rewrite IH; [reflexivity|lia].
Qed.
Lemma points_fst u l : map fst (points u l) = code_points u l.
Proof.
  destruct u; cbn [points code_points]; [rewrite map_map; apply map_id|apply points_u8|now apply (points_u16 (length l))|now apply (points_u16 (length (map byteswap l)))|rewrite map_map; apply map_id].
Qed.
Definition sum (l : list Z) : Z := fold_right Z.add 0 l.
Lemma sizes_u8 : forall n l, Forall (fun s => 1 <= s) (map snd (utf8_points n l)) /\ sum (map snd (utf8_points n l)) <= zlen l.
Proof.
  induction n as [|n IH]; intros [|b r]; cbn [utf8_points map sum fold_right]; try (split; [constructor|unfold zlen; lia]). cbv zeta.
  assert (1 <= announced b) as A by (unfold announced; repeat (match goal with |- context [if ?c then _ else _] => destruct c end); lia).
  destruct (Nat.ltb_spec (length r) (Z.to_nat (announced b - 1))) as [L|L]; [split; [constructor|unfold zlen; cbn [map sum fold_right]; lia]|].
  destruct (IH (skipn (Z.to_nat (announced b - 1)) r)) as (I1 & I2). cbn [map snd]. split; [now constructor|]. unfold sum in *. cbn [fold_right].
  unfold zlen in *. rewrite skipn_length in I2. cbn [length]. lia.
Qed.
Lemma sizes_u16 : forall n l, (length l <= n)%nat -> Forall (fun s => 1 <= s) (map snd (utf16_points l)) /\ sum (map snd (utf16_points l)) <= zlen l.
Proof.
  induction n as [|n IH]; intros [|a l] Hn; cbn [length] in Hn; try lia; try (split; [constructor|unfold zlen; cbn; lia]). cbn [utf16_points]. destruct (high_surrogate a).
  - destruct l as [|b l]; [split; [constructor|unfold zlen; cbn; lia]|]. cbn [length] in Hn. destruct (low_surrogate b); [|split; [constructor|unfold zlen; cbn [map sum fold_right]; lia]].
    destruct (IH l ltac:(lia)) as (I1 & I2). cbn [map snd]. split; [constructor; [lia|auto]|]. unfold sum, zlen in *. cbn [fold_right length]. lia.
  - destruct (low_surrogate a); [split; [constructor|unfold zlen; cbn [map sum fold_right]; lia]|].
    destruct (IH l ltac:(lia)) as (I1 & I2). cbn [map snd]. split; [constructor; [lia|auto]|]. unfold sum, zlen in *. cbn [fold_right length]. lia.
Qed.
Lemma sizes_w : forall l, Forall (fun s => 1 <= s) (map snd (map (fun c : Z => (c, 1)) l)) /\ sum (map snd (map (fun c : Z => (c, 1)) l)) <= zlen l.
Proof. induction l as [|x l (I1 & I2)]; [split; [constructor|unfold zlen; cbn; lia]|]. cbn [map snd]. split; [constructor; [lia|auto]|]. unfold sum, zlen in *. cbn [fold_right length]. lia. Qed.
Lemma points_sizes u l : map fst (points u l) = code_points u l /\ Forall (fun p => 1 <= snd p) (points u l) /\ fold_right Z.add 0 (map snd (points u l)) <= zlen l.
Proof.
  split; [apply points_fst|]. rewrite <- (Forall_map snd (fun s => 1 <= s)). fold (sum (map snd (points u l))).
  destruct u; cbn [points]; [apply sizes_w|apply sizes_u8|now apply (sizes_u16 (length l))| |apply sizes_w].
  rewrite <- (zlen_map byteswap l). now apply (sizes_u16 (length (map byteswap l))).
Qed.
