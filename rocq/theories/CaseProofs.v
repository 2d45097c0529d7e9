From Coq Require Import ZifyBool ZifyNat.
From Verif Require Import Base BaseFacts StrModel MbSpec CaseModel CaseSpec.
Open Scope Z_scope.

Lemma to_char_id c : -128 <= c < 128 -> to_char c = c.
Proof. intros H. unfold to_char. rewrite Z.mod_small; lia. Qed.
Lemma conv_loop_ok conv : forall l a junk i fuel, i = zlen a -> (length l < fuel)%nat -> Forall (fun c => c <> 0) l ->
  conv_loop conv (a ++ l ++ 0 :: junk) i fuel = Ok (a ++ map (fun c => to_char (conv c)) l ++ 0 :: junk).
Proof.
  induction l as [|c l IH]; intros a junk i fuel Hi Hf H; (destruct fuel as [|fuel]; [lia|]); cbn [conv_loop app map].
  - rewrite aget_app by exact Hi. reflexivity.
  - inversion H; subst. rewrite aget_app by reflexivity. cbn [bind]. replace (c =? 0) with false by lia.
    rewrite aset_app by reflexivity. cbn [bind].
    specialize (IH (a ++ [to_char (conv c)]) junk (zlen a + 1) fuel).
    rewrite <- !app_assoc in IH. cbn [app] in IH. apply IH; auto.
    + rewrite zlen_app, zlen_cons, zlen_nil. lia.
    + cbn [length] in Hf. lia.
Qed.
Lemma calc_length_app l junk : Forall (fun c => c <> 0) l -> calc_length (l ++ 0 :: junk) = Ok (zlen l).
Proof.
  induction 1 as [|c l Hc _ IH]; cbn [app calc_length]; auto. replace (c =? 0) with false by lia. rewrite IH. cbn [bind].
  rewrite zlen_cons. f_equal. lia.
Qed.
Lemma convert_ok conv l : Forall (fun c => c <> 0) l -> convert conv l = Ok (map (fun c => to_char (conv c)) l).
Proof.
  intros H. unfold convert. cbv zeta. rewrite calc_length_app by exact H. cbn [bind].
  rewrite firstn_all2 by (rewrite app_length; unfold zlen; cbn; lia).
  pose proof (conv_loop_ok conv l [] [] 0 (length (l ++ [0]))) as K. cbn [app] in K. rewrite K; auto.
  - cbn [bind]. f_equal. rewrite zlen_to_nat.
    rewrite <- (map_length (fun c => to_char (conv c)) l) at 1.
    rewrite firstn_app, Nat.sub_diag, firstn_all. cbn. apply app_nil_r.
  - rewrite app_length. cbn. lia.
Qed.
Lemma convert_letters lo hi letter conv l :
  (forall c, lo <= c < hi -> -128 <= letter c < 128) ->
  (forall c, lo <= c < hi -> conv c = letter c) ->
  Forall (fun c => lo <= c < hi /\ c <> 0) l -> convert conv l = Ok (map letter l).
Proof.
  intros R C H. rewrite convert_ok by (eapply Forall_impl; [|exact H]; cbn; tauto).
  f_equal. apply map_ext_in. intros c Hc. rewrite Forall_forall in H. specialize (H c Hc).
  rewrite C by tauto. apply to_char_id. apply R. tauto.
Qed.
Lemma lower_range c : -128 <= c < 128 -> -128 <= lower_letter c < 128.
Proof. unfold lower_letter. destruct (_ && _) eqn:E; lia. Qed.
Lemma upper_range c : -128 <= c < 128 -> -128 <= upper_letter c < 128.
Proof. unfold upper_letter. destruct (_ && _) eqn:E; lia. Qed.
Lemma alower_ok conv l : narrow_conv lower_letter conv -> Forall (fun c => -128 <= c < 128 /\ c <> 0) l ->
  convert conv l = Ok (map lower_letter l).
Proof. intros C H. apply (convert_letters (-128) 128); auto. apply lower_range. Qed.
Lemma aupper_ok conv l : narrow_conv upper_letter conv -> Forall (fun c => -128 <= c < 128 /\ c <> 0) l ->
  convert conv l = Ok (map upper_letter l).
Proof. intros C H. apply (convert_letters (-128) 128); auto. apply upper_range. Qed.
Lemma wlower_ok conv l : ascii_conv lower_letter conv -> Forall (fun c => 0 <= c < 128 /\ c <> 0) l ->
  convert conv l = Ok (map lower_letter l).
Proof. intros C H. apply (convert_letters 0 128); auto. intros c Hc. apply lower_range. lia. Qed.
Lemma wupper_ok conv l : ascii_conv upper_letter conv -> Forall (fun c => 0 <= c < 128 /\ c <> 0) l ->
  convert conv l = Ok (map upper_letter l).
Proof. intros C H. apply (convert_letters 0 128); auto. intros c Hc. apply upper_range. lia. Qed.
Lemma wide_changed conv c : 128 <= c -> c < 2 ^ 21 -> conv c = c ->
  exists d, convert conv [c] = Ok [d] /\ d <> c.
Proof.
  intros H1 H2 E. exists (to_char c). rewrite convert_ok by (repeat constructor; lia). cbn [map]. rewrite E.
  split; [reflexivity|]. unfold to_char. pose proof (Z.mod_pos_bound (c + 128) 256). lia.
Qed.
Lemma zero_truncates conv l rest : Forall (fun c => c <> 0) l ->
  exists r, convert conv (l ++ 0 :: rest) = Ok r /\ length r = length l.
Proof.
  intros H. unfold convert. cbv zeta. rewrite <- app_assoc. cbn [app].
  rewrite calc_length_app by exact H. cbn [bind].
  replace (firstn (Z.to_nat (zlen l + 1)) (l ++ 0 :: rest ++ [0])) with (l ++ [0]).
  2:{ rewrite firstn_app. rewrite firstn_all2 by (unfold zlen; lia).
      replace (Z.to_nat (zlen l + 1) - length l)%nat with 1%nat by (unfold zlen; lia). reflexivity. }
  pose proof (conv_loop_ok conv l [] [] 0 (length (l ++ [0]))) as K. cbn [app] in K. rewrite K; auto.
  - cbn [bind]. eexists. split; [reflexivity|]. rewrite firstn_length, app_length, map_length. unfold zlen. cbn. lia.
  - rewrite app_length. cbn. lia.
Qed.

Lemma convert_any conv l : convert conv l = Ok (map (fun c => to_char (conv c)) (MbSpec.before_zero l)).
Proof.
  assert (exists junk, l ++ [0] = MbSpec.before_zero l ++ 0 :: junk /\ Forall (fun c => c <> 0) (MbSpec.before_zero l)) as (junk & E & F).
  { induction l as [|c l (junk & E & F)]; [exists []; split; [reflexivity|constructor]|]. cbn [MbSpec.before_zero]. destruct (Z.eqb_spec c 0) as [->|N].
    - exists (l ++ [0]). split; [reflexivity|constructor].
    - exists junk. cbn [app]. rewrite E. split; [reflexivity|constructor; auto]. }
  set (b := MbSpec.before_zero l) in *. unfold convert. cbv zeta. rewrite E, calc_length_app by exact F. cbn [bind].
  replace (firstn (Z.to_nat (zlen b + 1)) (b ++ 0 :: junk)) with (b ++ [0]).
  2:{ replace (b ++ 0 :: junk) with ((b ++ [0]) ++ junk) by (now rewrite <- app_assoc). rewrite firstn_app. replace (Z.to_nat (zlen b + 1)) with (length (b ++ [0])) by (rewrite app_length; unfold zlen; cbn; lia).
      rewrite firstn_all, Nat.sub_diag. cbn [firstn]. now rewrite app_nil_r. }
  pose proof (conv_loop_ok conv b [] [] 0 (length (b ++ [0]))) as K. cbn [app] in K. rewrite K; auto; [|rewrite app_length; cbn; lia].
  cbn [bind]. f_equal. rewrite zlen_to_nat. rewrite <- (map_length (fun c => to_char (conv c)) b) at 1. rewrite firstn_app, Nat.sub_diag, firstn_all. cbn [firstn]. apply app_nil_r.
Qed.
