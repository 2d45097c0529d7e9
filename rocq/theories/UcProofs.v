(* Proofs for conversions between string objects *)
From Coq Require Import ZifyBool ZifyNat.
From Verif Require Import Base BaseFacts UtfModel UtfSpec UtfProofs1 UtfProofs2 UtfProofs3 UtfProofs4 UtfProofs6
  StrModel StrSpec StrProofs UcModel UcSpec.
Open Scope Z_scope.

(* ---- the two ways to name encodings ----------------------------------- *)

Lemma enc_same cfg t : enc cfg t = encoding cfg t \/ (enc cfg t = W /\ encoding cfg t = U32).
Proof. destruct t, cfg; auto. Qed.
Lemma units_enc cfg t c : units (enc cfg t) c = units (encoding cfg t) c.
Proof. destruct (enc_same cfg t) as [->|[-> ->]]; reflexivity. Qed.
Lemma usable_enc cfg t c : usable (enc cfg t) c = usable (encoding cfg t) c.
Proof. destruct (enc_same cfg t) as [->|[-> ->]]; reflexivity. Qed.
Lemma points_enc cfg t l : code_points (enc cfg t) l = code_points (encoding cfg t) l.
Proof. destruct (enc_same cfg t) as [->|[-> ->]]; reflexivity. Qed.
Lemma bound_enc cfg t : unit_bound (enc cfg t) = unit_bound (encoding cfg t).
Proof. destruct (enc_same cfg t) as [->|[-> ->]]; reflexivity. Qed.
Lemma cast_iff cfg a b : a <> b -> is_cast cfg a b = same_encoding (encoding cfg a) (encoding cfg b).
Proof. intros H. destruct a, b, cfg; try reflexivity; congruence. Qed.
Lemma take_while_ext p q l : (forall x, p x = q x) -> take_while p l = take_while q l.
Proof. intros H. induction l as [|x l IH]; cbn; [reflexivity|]. now rewrite H, IH. Qed.

(* ---- the text the converter reads ------------------------------------- *)

Lemma known_some l r : known (map Some l ++ r) = l ++ known r.
Proof. induction l as [|x l IH]; cbn; [reflexivity|now rewrite IH]. Qed.
Lemma known_buffer l mem : firstn (length l + 1) mem = map Some l ++ [Some 0] -> exists junk, known mem = l ++ 0 :: junk.
Proof.
  intros H. rewrite <- (firstn_skipn (length l + 1) mem), H, <- app_assoc, known_some. cbn [app known]. eauto.
Qed.
Lemma before_zero_split l junk : exists junk', l ++ 0 :: junk = before_zero l ++ 0 :: junk'.
Proof.
  unfold before_zero. induction l as [|x l [j IH]]; cbn [app take_while]; [eauto|]. destruct (Z.eqb_spec x 0) as [->|N]; cbn [negb].
  - cbn [app]. eauto.
  - exists j. cbn [app]. now rewrite IH.
Qed.
Lemma before_zero_good cfg t l : chars_ok cfg t l = true -> Forall (good_unit (enc cfg t)) (before_zero l).
Proof.
  unfold chars_ok, before_zero. induction l as [|x l IH]; cbn [forallb take_while]; [constructor|]. intros H. apply andb_true_iff in H as [H1 H2].
  destruct (Z.eqb_spec x 0) as [->|N]; cbn [negb]; [constructor|]. constructor; [|auto].
  unfold good_unit. rewrite bound_enc. unfold char_ok in H1. lia.
Qed.
Lemma take_while_length p l : (length (take_while p l) <= length l)%nat.
Proof. induction l as [|x l IH]; cbn; [lia|]. destruct (p x); cbn; lia. Qed.
Lemma utf8_decode_length : forall n l, (length (utf8_decode n l) <= length l)%nat.
Proof.
  induction n as [|n IH]; intros [|b r]; cbn [utf8_decode]; try (cbn; lia). cbv zeta.
  destruct (_ <? _)%nat; [cbn; lia|]. cbn [length]. pose proof (IH (skipn (Z.to_nat (announced b - 1)) r)) as H. rewrite skipn_length in H. lia.
Qed.
Lemma utf16_prefix_length : forall n l, (length l <= n)%nat -> (length (utf16_prefix l) <= length l)%nat.
Proof.
  induction n as [|n IH]; intros [|a l] H; cbn [utf16_prefix]; try (cbn in *; lia). destruct (high_surrogate a).
  - destruct l as [|b l]; [cbn; lia|]. destruct (low_surrogate b); [|cbn; lia]. cbn [length] in *. specialize (IH l ltac:(lia)). lia.
  - destruct (low_surrogate a); [cbn; lia|]. cbn [length] in *. specialize (IH l ltac:(lia)). lia.
Qed.
Lemma code_points_length u l : (length (code_points u l) <= length l)%nat.
Proof.
  destruct u; cbn [code_points]; try lia.
  - apply utf8_decode_length.
  - now apply (utf16_prefix_length (length l)).
  - pose proof (utf16_prefix_length (length l) (map byteswap l)) as H. rewrite map_length in H. auto.
Qed.
Lemma units_length u c : (length (units u c) <= 6)%nat.
Proof.
  destruct u; cbn [units]; try (cbn; lia).
  - unfold utf8_units. repeat (match goal with |- context [if ?c then _ else _] => destruct c end); cbn; lia.
  - unfold utf16_units. destruct (_ <? _); cbn; lia.
  - rewrite map_length. unfold utf16_units. destruct (_ <? _); cbn; lia.
Qed.
Lemma flat_units_length u l : (length (flat_map (units u) l) <= 6 * length l)%nat.
Proof. induction l as [|c l IH]; cbn [flat_map length]; [lia|]. rewrite app_length. pose proof (units_length u c). lia. Qed.

(* what both passes of the converter compute *)
Definition result_of (cfg : bool) (from to : ty) (l : list Z) : list Z :=
  flat_map (units (encoding cfg to)) (take_while (usable (encoding cfg to)) (code_points (encoding cfg from) (before_zero l))).
Lemma convert_result_of cfg from to l junk fuel : chars_ok cfg from l = true -> (6 * length (l ++ 0%Z :: junk) + 7 <= fuel)%nat ->
  convert fuel (enc cfg from) (enc cfg to) (l ++ 0 :: junk) = Ok (result_of cfg from to l ++ [0], zlen (result_of cfg from to l)).
Proof.
  intros H F. destruct (before_zero_split l junk) as [j E].
  assert (result_of cfg from to l = flat_map (units (enc cfg to)) (take_while (usable (enc cfg to)) (code_points (enc cfg from) (before_zero l)))) as R.
  { unfold result_of. rewrite points_enc. rewrite (take_while_ext _ _ _ (usable_enc cfg to)). apply flat_map_ext. intros. symmetry. apply units_enc. }
  rewrite R. rewrite E. apply convert_any; [now apply before_zero_good|].
  rewrite app_length in F. pose proof (flat_units_length (enc cfg to) (take_while (usable (enc cfg to)) (code_points (enc cfg from) (before_zero l)))).
  pose proof (take_while_length (usable (enc cfg to)) (code_points (enc cfg from) (before_zero l))).
  pose proof (code_points_length (enc cfg from) (before_zero l)). pose proof (take_while_length (fun c => negb (c =? 0)) l). unfold before_zero in *. lia.
Qed.
Lemma size_positive : forall fuel r s k, size_loop fuel r s = Ok k -> s < k.
Proof.
  induction fuel as [|fuel IH]; intros r s k; cbn [size_loop]; [discriminate|]. destruct (read r) as [[c r']| | |]; cbn [bind]; try discriminate.
  destruct (c =? 0); [intros [= <-]; lia|]. intros H. apply IH in H. lia.
Qed.
Lemma convert_passes fuel from to mem d n : convert fuel from to mem = Ok (d, n) ->
  size_loop fuel (mk_reader from to (CStr mem 0)) 0 = Ok (n + 1) /\
  exists z, write_loop fuel (mk_reader from to (CStr mem 0)) (repeat 0 (Z.to_nat (n + 1))) 0 (n + 1) 0 = Ok (d, z).
Proof.
  unfold convert. destruct (size_loop fuel _ 0) as [k| | |] eqn:K; cbn [bind]; try discriminate. apply size_positive in K.
  replace (k <? 1) with false by lia. cbv zeta. destruct (write_loop _ _ _ _ _ _) as [[d' x]| | |] eqn:E; cbn [bind]; try discriminate.
  intros [= <- <-]. replace (k - 1 + 1) with k by lia. eauto.
Qed.

(* ---- one conversion ---------------------------------------------------- *)

Lemma call_buffer_spec s vs w l : Rel s vs -> nth_error vs w = Some (Some l) ->
  exists s1 junk, call_buffer s w = Ok (s1, l ++ 0 :: junk) /\ Rel s1 vs.
Proof.
  intros R Hw. assert (sstep vs (OBuffer w) = Ok (vs, SChars l)) as E by (unfold sstep; cbn [sstep_raw]; unfold sread; now rewrite Hw).
  destruct (step_refines _ _ _ _ _ R E) as (s1 & r & E1 & R1 & Ho). unfold step in E1. cbn [step_raw] in E1. unfold call_buffer.
  destruct (var s w) as [x| | |]; cbn [bind] in *; try discriminate; try (injection E1 as <- <-; contradiction).
  destruct (buffer (hp s) x) as [[[h x'] mem]| | |]; cbn [bind] in *; try discriminate; try (injection E1 as <- <-; contradiction).
  injection E1 as <- <-. cbn in Ho. destruct (known_buffer _ _ Ho) as [j J]. exists (setvar s h w (Some x')), j. now rewrite J.
Qed.
Lemma cast_left s x : cast (hp s) x = sub_unsafe (hp s) x 0 (len x) \/ len x < 0.
Proof.
  destruct (Z.ltb_spec (len x) 0) as [L|L]; [now right|left]. unfold cast, sub_unsafe. destruct (Z.eqb_spec (len x) 0) as [E|E].
  - rewrite E. reflexivity.
  - replace (len x <=? 0) with false by lia. cbv zeta. destruct x as [b m st n re]. cbn. now rewrite Z.add_0_r.
Qed.

Lemma conv_eval cfg from to s vs w l : from <> to -> Rel s vs -> nth_error vs w = Some (Some l) -> chars_ok cfg from l = true ->
  exists s2 e, Rel s2 vs /\ conv cfg from to s w = eval s2 e /\ seval vs e = Ok (vs, converted cfg from to l).
Proof.
  intros N R Hw Hc. unfold conv, converted. rewrite cast_iff by exact N. destruct (same_encoding _ _) eqn:SE.
  - exists s, (ELeft w (zlen l)). split; [exact R|]. split.
    + cbn [eval]. pose proof R as [Hs HI]. destruct (shape_live _ _ _ _ Hs Hw) as [x Hx]. unfold var. rewrite Hx. cbn [bind].
      pose proof (pairs_in _ _ _ _ _ Hx Hw) as P. pose proof (Inv_in _ _ _ _ HI P) as Hh. destruct (holds_content _ _ _ Hh) as [_ Hl].
      pose proof (zlen_nonneg l). unfold left. rewrite Hl. replace ((zlen l >=? 0) && (zlen l <=? zlen l)) with true by lia.
      destruct (cast_left s x) as [->|L]; [|lia]. now rewrite Hl.
    + cbn [seval]. unfold sread. rewrite Hw. cbn [bind]. pose proof (zlen_nonneg l). replace ((0 <=? zlen l) && (zlen l <=? zlen l)) with true by lia.
      cbn [bind]. now rewrite take_all.
  - unfold convert_direct. destruct (call_buffer_spec _ _ _ _ R Hw) as (s1 & j1 & -> & R1). cbn [bind].
    destruct (call_buffer_spec _ _ _ _ R1 Hw) as (s2 & j2 & E2 & R2).
    destruct (convert_passes _ _ _ _ _ _ (convert_result_of cfg from to l j1 (enough (l ++ 0 :: j1)) Hc (le_n _))) as [-> _]. cbn [bind].
    fold (result_of cfg from to l). set (out := result_of cfg from to l). pose proof (zlen_nonneg out). replace (zlen out + 1 <? 1) with false by lia.
    rewrite E2. cbn [bind].
    destruct (convert_passes _ _ _ _ _ _ (convert_result_of cfg from to l j2 (enough (l ++ 0 :: j2)) Hc (le_n _))) as [_ [z Ez]].
    fold out in Ez. rewrite Ez. cbn [bind]. replace (zlen out + 1 - 1) with (zlen out) by lia.
    exists s2, (ETakeOver (out ++ [0]) (zlen out)). split; [exact R2|]. split; [reflexivity|].
    cbn [seval]. replace (zlen out <? 0) with false by lia.
    rewrite (aget_app out 0 [] (zlen out)) by reflexivity.
    cbn [bind]. change (0 =? 0) with true. cbn [bind]. f_equal. f_equal. unfold take, zlen. rewrite Nat2Z.id, firstn_app, Nat.sub_diag, firstn_all. apply app_nil_r.
Qed.

(* ---- characters stay in the range of their type ------------------------ *)

Lemma ty_eqb_eq a b : ty_eqb a b = true <-> a = b.
Proof. destruct a, b; cbn; split; congruence. Qed.
Lemma chars_forall cfg t l : chars_ok cfg t l = true <-> Forall (fun c => char_ok cfg t c = true) l.
Proof. unfold chars_ok. rewrite forallb_forall, Forall_forall. reflexivity. Qed.
Lemma chars_app cfg t a b : chars_ok cfg t a = true -> chars_ok cfg t b = true -> chars_ok cfg t (a ++ b) = true.
Proof. rewrite !chars_forall. intros. apply Forall_app; auto. Qed.
Lemma chars_take cfg t i l : chars_ok cfg t l = true -> chars_ok cfg t (take i l) = true.
Proof. rewrite !chars_forall. apply Forall_firstn. Qed.
Lemma chars_drop cfg t i l : chars_ok cfg t l = true -> chars_ok cfg t (drop i l) = true.
Proof. rewrite !chars_forall. apply Forall_skipn. Qed.
Lemma chars_c_string cfg t : forall mem l, c_string mem = Ok l -> chars_ok cfg t mem = true -> chars_ok cfg t l = true.
Proof.
  induction mem as [|c mem IH]; cbn [c_string]; intros l H K; [discriminate|]. destruct (c =? 0); [injection H as <-; reflexivity|].
  destruct (c_string mem) as [m| | |]; cbn [bind] in H; try discriminate. injection H as <-.
  unfold chars_ok in *. cbn [forallb] in *. apply andb_true_iff in K as [K1 K2]. rewrite K1. cbn. now apply IH.
Qed.
Lemma chars_literal cfg t p l : literal p = Ok l -> ptr_ok cfg t p = true -> chars_ok cfg t l = true.
Proof. destruct p as [mem|]; cbn; [|discriminate]. apply chars_c_string. Qed.

Lemma in_type_nth cfg tys vs v t l : in_type cfg tys vs -> nth_error tys v = Some t -> nth_error vs v = Some (Some l) -> chars_ok cfg t l = true.
Proof.
  intros H. revert v. induction H as [|t' x tys vs K H IH]; intros [|v] E F; cbn in *; try discriminate; [|eauto].
  injection E as ->. injection F as ->. exact K.
Qed.
Lemma in_type_read cfg tys vs v t l : in_type cfg tys vs -> has tys t v = true -> sread vs v = Ok l -> chars_ok cfg t l = true.
Proof.
  intros H K E. unfold has in K. unfold sread in E. destruct (nth_error tys v) as [t'|] eqn:T; [|discriminate]. apply ty_eqb_eq in K as <-.
  destruct (nth_error vs v) as [[m|]|] eqn:V; try discriminate. injection E as ->. eapply in_type_nth; eauto.
Qed.
Lemma in_type_upd cfg tys vs v t l : in_type cfg tys vs -> nth_error tys v = Some t -> chars_ok cfg t l = true -> in_type cfg tys (upd vs v (Some l)).
Proof.
  intros H. revert v. induction H as [|t' x tys vs K H IH]; intros [|v] E F; cbn in *; try discriminate.
  - injection E as ->. constructor; auto.
  - constructor; [exact K|]. apply IH; auto.
Qed.
Lemma in_type_none cfg tys vs v : in_type cfg tys vs -> in_type cfg tys (upd vs v None).
Proof. intros H. revert v. induction H as [|t' x tys vs K H IH]; intros [|v]; cbn; constructor; auto. apply IH. Qed.

Ltac split_all :=
  repeat match goal with
  | H : (do _ <- ?m; _) = Ok _ |- _ => destruct m as [?| | |] eqn:?; cbn [bind] in H; try discriminate H
  | H : (if ?b then _ else _) = Ok _ |- _ => destruct b eqn:?; try discriminate H
  | H : _ && _ = true |- _ => apply andb_true_iff in H as [? ?]
  end.
Lemma seval_in_type cfg tys vs t e vs' l : in_type cfg tys vs -> expr_typed cfg tys t e = true -> seval vs e = Ok (vs', l) ->
  in_type cfg tys vs' /\ chars_ok cfg t l = true.
Proof.
  intros HT HE H.
  assert (forall w m, has tys t w = true -> sread vs w = Ok m -> chars_ok cfg t m = true) as RD by (intros; eapply in_type_read; eauto).
  destruct e; cbn [seval expr_typed] in *; split_all; try (match type of H with match ?p with _ => _ end = _ => destruct p; split_all end);
    try (injection H as <- <-); try (split; [exact HT|]).
  all: try match goal with K : Ok _ = Ok ?a |- _ => injection K as <- end.
  all: try (repeat first [apply chars_app | apply chars_take | apply chars_drop];
    first [eapply RD; eassumption | eapply chars_literal; eassumption | eapply chars_c_string; eassumption | exact HE]).
  - destruct (_ =? 0); [reflexivity|]. unfold chars_ok. cbn [forallb]. now rewrite HE.
  - split; [|eauto]. unfold has in HE. destruct (nth_error tys w) as [t'|] eqn:T; [|discriminate]. eapply in_type_upd; [exact HT|exact T|reflexivity].
  - repeat apply chars_app; try apply chars_take; try apply chars_drop; eauto.
  - apply chars_app; eauto.
Qed.
Lemma sstep_in_type cfg tys vs o vs' y : in_type cfg tys vs -> op_typed cfg tys o = true -> sstep vs o = Ok (vs', y) -> in_type cfg tys vs'.
Proof.
  intros HT HO H. unfold sstep in H. destruct (sstep_raw vs o) as [[vs1 y1]| | |] eqn:E; try discriminate; [|injection H as <- _; exact HT].
  injection H as <- <-. destruct o; cbn [sstep_raw op_typed] in *.
  - destruct (nth_error vs v) as [[|]|]; try discriminate. destruct (nth_error tys v) as [t|] eqn:T; [|discriminate].
    destruct (seval vs e) as [[vs2 l]| | |] eqn:S2; cbn [bind] in E; try discriminate. injection E as <- _.
    destruct (seval_in_type _ _ _ _ _ _ _ HT HO S2) as [H1 H2]. eapply in_type_upd; eauto.
  - destruct (sread vs v); cbn [bind] in E; try discriminate. destruct (nth_error tys v) as [t|] eqn:T; [|discriminate].
    destruct (seval vs e) as [[vs2 l]| | |] eqn:S2; cbn [bind] in E; try discriminate. injection E as <- _.
    destruct (seval_in_type _ _ _ _ _ _ _ HT HO S2) as [H1 H2]. eapply in_type_upd; eauto.
  - destruct (nth_error tys v) as [t|] eqn:T; [|discriminate]. split_all. injection E as <- _. eapply in_type_upd; [exact HT|exact T|]. eapply in_type_read; eauto.
  - destruct (nth_error tys v) as [t|] eqn:T; [|discriminate]. split_all; [injection E as <- _; exact HT|]. injection E as <- _.
    assert (in_type cfg tys (upd vs v (Some a0))) as H1 by (eapply in_type_upd; [exact HT|exact T|]; eapply in_type_read; eauto).
    unfold has in HO. destruct (nth_error tys w) as [t'|] eqn:T'; [|discriminate]. eapply in_type_upd; [exact H1|exact T'|reflexivity].
  - split_all. injection E as <- _. now apply in_type_none.
  - split_all. injection E as <- _. exact HT.
  - split_all. injection E as <- _. exact HT.
  - split_all. injection E as <- _. exact HT.
  - split_all. injection E as <- _. exact HT.
  - split_all. injection E as <- _. exact HT.
Qed.
(* the converted text is in the range of the target type *)
Lemma units_char cfg t c : usable (encoding cfg t) c = true -> Forall (fun x => char_ok cfg t x = true) (units (encoding cfg t) c).
Proof.
  intros H. pose proof (flat_units_good (encoding cfg t) [c]) as G. cbn [flat_map] in G. rewrite app_nil_r in G.
  eapply Forall_impl; [|apply G; auto]. intros x. unfold good_unit, char_ok. lia.
Qed.
Lemma take_while_forall p l : Forall (fun x => p x = true) (take_while p l).
Proof. induction l as [|x l IH]; cbn; [constructor|]. destruct (p x) eqn:E; [constructor; auto|constructor]. Qed.
Lemma converted_char cfg from to l : from <> to -> chars_ok cfg from l = true -> chars_ok cfg to (converted cfg from to l) = true.
Proof.
  intros N H. unfold converted. destruct (same_encoding _ _) eqn:E.
  - revert H. unfold chars_ok, char_ok. assert (encoding cfg from = encoding cfg to) as -> by (destruct cfg, from, to; cbn in *; congruence). auto.
  - apply chars_forall. apply Forall_flat_map. eapply Forall_impl; [|apply take_while_forall]. intros c Hc. now apply units_char.
Qed.
Lemma ne_ty a b : negb (ty_eqb a b) = true -> b <> a.
Proof. destruct a, b; cbn; congruence. Qed.

(* ---- programs ----------------------------------------------------------- *)

Lemma sread_nth vs v l : sread vs v = Ok l -> nth_error vs v = Some (Some l).
Proof. unfold sread. destruct (nth_error vs v) as [[m|]|]; try discriminate. now intros [= ->]. Qed.

Lemma ustep_refines cfg tys s vs o vs' y : Rel s vs -> in_type cfg tys vs -> uop_typed cfg tys o = true ->
  sustep cfg tys vs o = Ok (vs', y) -> exists s' r, ustep cfg tys s o = Ok (s', r) /\ Rel s' vs' /\ in_type cfg tys vs' /\ out_ok r y.
Proof.
  intros R HT HO H. destruct o as [o|d w|d w]; cbn [sustep ustep uop_typed] in *.
  - destruct (step_refines _ _ _ _ _ R H) as (s' & r & E & R' & Ho). exists s', r. split; [exact E|]. split; [exact R'|]. split; [|exact Ho]. eapply sstep_in_type; eauto.
  - unfold ty_of in *. destruct (nth_error tys d) as [to|] eqn:TD; [|discriminate]. destruct (nth_error tys w) as [from|] eqn:TW; [|discriminate].
    cbn [bind] in *. destruct (nth_error vs d) as [[|]|] eqn:D; try discriminate. destruct (sread vs w) as [l| | |] eqn:SW; cbn [bind] in H; try discriminate.
    injection H as <- <-. apply sread_nth in SW. pose proof (in_type_nth _ _ _ _ _ _ HT TW SW) as C. apply ne_ty in HO.
    destruct (conv_eval cfg from to s vs w l HO R SW C) as (s2 & e & R2 & -> & SE).
    pose proof R as [Hs _]. pose proof R2 as [Hs2 _]. rewrite (shape_dead _ _ _ Hs D).
    pose proof (step_raw_refines s2 vs (OInit d e) R2) as Q. cbn [step_raw sstep_raw] in Q. rewrite D, SE, (shape_dead _ _ _ Hs2 D) in Q. cbn [bind stepspec] in Q.
    destruct Q as (s' & r & E & R' & Ho). rewrite E. exists s', r. split; [reflexivity|]. split; [exact R'|]. split; [|exact Ho].
    eapply in_type_upd; [exact HT|exact TD|now apply converted_char].
  - unfold ty_of in *. destruct (nth_error tys d) as [to|] eqn:TD; [|discriminate]. destruct (nth_error tys w) as [from|] eqn:TW; [|discriminate].
    cbn [bind] in *. destruct (sread vs d) as [l0| | |] eqn:D; cbn [bind] in H; try discriminate. destruct (sread vs w) as [l| | |] eqn:SW; cbn [bind] in H; try discriminate.
    injection H as <- <-. pose proof (sread_nth _ _ _ SW) as SW'. pose proof (sread_nth _ _ _ D) as D'. pose proof (in_type_nth _ _ _ _ _ _ HT TW SW') as C. apply ne_ty in HO.
    destruct (conv_eval cfg from to s vs w l HO R SW' C) as (s2 & e & R2 & -> & SE).
    pose proof R as [Hs _]. pose proof R2 as [Hs2 _]. destruct (shape_live _ _ _ _ Hs D') as [x Hx]. destruct (shape_live _ _ _ _ Hs2 D') as [x2 Hx2].
    pose proof (step_raw_refines s2 vs (OSet d e) R2) as Q. cbn [step_raw sstep_raw] in Q. rewrite D, SE in Q. unfold var at 1 in Q. rewrite Hx2 in Q. cbn [bind stepspec] in Q.
    unfold var at 1. rewrite Hx. cbn [bind].
    destruct Q as (s' & r & E & R' & Ho). rewrite E. exists s', r. split; [reflexivity|]. split; [exact R'|]. split; [|exact Ho].
    eapply in_type_upd; [exact HT|exact TD|now apply converted_char].
Qed.
Lemma urun_refines cfg tys ops : forall s vs vs' ys, Rel s vs -> in_type cfg tys vs -> forallb (uop_typed cfg tys) ops = true ->
  surun cfg tys vs ops = Ok (vs', ys) ->
  exists s' xs, urun cfg tys s ops = Ok (s', xs) /\ Rel s' vs' /\ in_type cfg tys vs' /\ Forall2 out_ok xs ys.
Proof.
  induction ops as [|o ops IH]; intros s vs vs' ys R HT HO H; cbn [surun urun forallb] in *.
  - injection H as <- <-. eexists _, _. split; [reflexivity|]. split; [exact R|]. split; [exact HT|constructor].
  - apply andb_true_iff in HO as [HO1 HO2]. destruct (sustep cfg tys vs o) as [[vs1 y]| | |] eqn:E; try discriminate. cbn [bind] in H.
    destruct (surun cfg tys vs1 ops) as [[vs2 ys']| | |] eqn:E2; try discriminate. cbn [bind] in H. injection H as <- <-.
    destruct (ustep_refines _ _ _ _ _ _ _ R HT HO1 E) as (s1 & x & -> & R1 & HT1 & Ho). cbn [bind].
    destruct (IH _ _ _ _ R1 HT1 HO2 E2) as (s2 & xs & -> & R2 & HT2 & Hos). cbn [bind].
    eexists _, _. split; [reflexivity|]. split; [exact R2|]. split; [exact HT2|]. constructor; assumption.
Qed.
Lemma in_type_init cfg tys : in_type cfg tys (repeat None (length tys)).
Proof. induction tys as [|t tys IH]; constructor; auto. Qed.

Lemma programs_refine cfg tys ops vs ys : forallb (uop_typed cfg tys) ops = true ->
  surun cfg tys (repeat None (length tys)) ops = Ok (vs, ys) ->
  exists s xs, urun cfg tys (init (length tys)) ops = Ok (s, xs) /\ shows s vs /\ Forall2 out_ok xs ys /\
    (forall b cs k, nth_error (hp s) b = Some (Counted cs k) -> k = Z.of_nat (refs b (vars s)) /\ 0 < k) /\
    (forall v x, nth_error (vars s) v = Some (Some x) -> managed x = true -> exists cs k, nth_error (hp s) (buf x) = Some (Counted cs k)).
Proof.
  intros HO H. destruct (urun_refines cfg tys ops _ _ _ _ (rel_init (length tys)) (in_type_init cfg tys) HO H) as (s & xs & E & R & _ & Ho).
  exists s, xs. split; [exact E|]. split; [now apply rel_shows|]. split; [exact Ho|]. split; [now apply (rel_counts s vs)|].
  intros v x Hx Hm. destruct (rel_live _ _ _ _ R Hx) as (cs & Hb & _). rewrite Hm in Hb. destruct Hb as [k Hk]. eauto.
Qed.

(* ---- paths --------------------------------------------------------------- *)

Lemma before_zero_all l : Forall (fun x => x <> 0) l -> before_zero l = l.
Proof. intros H. apply take_while_all. eapply Forall_impl; [|exact H]. intros x Hx. cbv beta. destruct (Z.eqb_spec x 0); [congruence|reflexivity]. Qed.
Lemma scalar_usable u c : scalar c -> c <> 0 -> usable u c = true.
Proof. unfold scalar, usable. intros. destruct u; cbn [representable]; lia. Qed.
Lemma converted_text cfg from to cps : Forall scalar cps -> Forall (fun c => c <> 0) cps ->
  converted cfg from to (text cfg from cps) = text cfg to cps.
Proof.
  intros H1 H2. unfold converted, text.
  assert (forall u, Forall (fun c => usable u c = true) cps) as US.
  { intros u. rewrite Forall_forall in *. intros c Hc. apply scalar_usable; auto. }
  destruct (same_encoding _ _) eqn:E.
  - assert (encoding cfg from = encoding cfg to) as -> by (destruct cfg, from, to; cbn in *; congruence). reflexivity.
  - rewrite before_zero_all by (eapply Forall_impl; [|apply flat_units_good; auto]; unfold good_unit; intros; lia).
    rewrite code_points_units by auto. now rewrite take_while_all by auto.
Qed.
Lemma last_cons_ty : forall (p : list ty) x d, last (x :: p) d = last p x.
Proof. induction p as [|y p IH]; intros x d; [reflexivity|]. change (last (x :: y :: p) d) with (last (y :: p) d). now rewrite !IH. Qed.
Lemma through_text cfg : forall path from cps, Forall scalar cps -> Forall (fun c => c <> 0) cps ->
  through cfg from path (text cfg from cps) = text cfg (last path from) cps.
Proof.
  induction path as [|t path IH]; intros from cps H1 H2; cbn [through]; [reflexivity|]. rewrite converted_text by assumption. rewrite IH by assumption.
  now rewrite last_cons_ty.
Qed.
