(* Console *)
From Coq Require Import ZifyBool ZifyNat.
From Verif Require Import Base BaseFacts MbModel ConModel ConSpec.
Open Scope Z_scope.

Lemma span_ok mem n : 0 <= n <= zlen mem -> span mem n = Ok (firstn (Z.to_nat n) mem).
Proof. intros H. unfold span. now replace ((0 <=? n) && (n <=? zlen mem)) with true by lia. Qed.

Lemma c_text_in mem : In 0 mem -> c_text mem = Ok (upto_zero mem) /\ firstn (length (upto_zero mem)) mem = upto_zero mem /\
  (length (upto_zero mem) < length mem)%nat.
Proof.
  induction mem as [|c mem IH]; [intros []|]. cbn [c_text upto_zero]. destruct (Z.eqb_spec c 0) as [->|Hc].
  - intros _. cbn. split; [reflexivity|]. split; [reflexivity|lia].
  - intros [H|H]; [congruence|]. destruct (IH H) as (-> & H1 & H2). cbn [bind length firstn].
    split; [reflexivity|]. split; [now rewrite H1|lia].
Qed.

Lemma upto_app s r : upto_zero (s ++ 0 :: r) = upto_zero s.
Proof. induction s as [|c s IH]; [reflexivity|]. cbn [app upto_zero]. now rewrite IH. Qed.

(* Windows console *)
Lemma window_step o c : valid o -> writes o ->
  con_step Window o c = Ok ([], mkCon (con_in c) (con_out c ++ text o) (con_bad c)).
Proof.
  assert (HN : forall mem n, 0 <= n <= zlen mem -> n < 2 ^ 32 ->
    write_n Window mem n c = Ok (mkCon (con_in c) (con_out c ++ firstn (Z.to_nat n) mem) (con_bad c))).
  { intros mem n H1 H2. unfold write_n. rewrite Z.mod_small by lia. rewrite span_ok by exact H1. reflexivity. }
  assert (HS : forall s, zlen s < 2 ^ 32 -> write_s Window s c = Ok (mkCon (con_in c) (con_out c ++ s) (con_bad c))).
  { intros s H. unfold write_s. rewrite HN; [|unfold zlen; rewrite app_length; cbn [length]; lia|exact H].
    unfold zlen. rewrite Nat2Z.id, firstn_app, Nat.sub_diag, firstn_all. cbn [firstn]. now rewrite app_nil_r. }
  destruct c as [i o0 b]. destruct o as [mem n|mem|s|s| |r g bl l|s]; cbn [valid writes con_step text]; intros V W.
  - rewrite HN by tauto. reflexivity.
  - destruct (c_text_in mem (proj1 V)) as (E & E1 & E2). unfold write_z. rewrite E. cbn [bind].
    rewrite HN; [|unfold zlen; lia|unfold zlen in *; lia]. cbn [bind]. unfold zlen. rewrite Nat2Z.id, E1. reflexivity.
  - rewrite HS by exact V. reflexivity.
  - unfold write_line. rewrite HS by exact V. cbn [bind con_in con_out con_bad].
    change (write_z Window [13; 10; 0] ?c) with (Ok (mkCon (con_in c) (con_out c ++ [13; 10]) (con_bad c))).
    cbn [bind con_in con_out con_bad]. now rewrite <- app_assoc.
  - destruct W.
  - rewrite app_nil_r. reflexivity.
  - rewrite app_nil_r. reflexivity.
Qed.
Lemma window_run os : forall c, Forall valid os -> Forall writes os ->
  con_run Window os c = Ok (map (fun _ => []) os, mkCon (con_in c) (con_out c ++ flat_map text os) (con_bad c)).
Proof.
  induction os as [|o os IH]; intros c V W; cbn [con_run map flat_map].
  - rewrite app_nil_r. now destruct c.
  - inversion_clear V as [|? ? V1 V2]. inversion_clear W as [|? ? W1 W2]. rewrite window_step by assumption.
    cbn [bind]. rewrite IH by assumption. cbn [bind con_in con_out con_bad]. now rewrite <- app_assoc.
Qed.

(* Linux *)
Lemma put_ok can l : forall c, con_bad c = false -> Forall (fun x => can x = true) l ->
  put_chars can l c = mkCon (con_in c) (con_out c ++ l) false.
Proof.
  induction l as [|x l IH]; intros c Hb Hl; cbn [put_chars]; rewrite Hb.
  - rewrite app_nil_r, <- Hb. now destruct c.
  - inversion_clear Hl as [|? ? Hx Hl']. rewrite Hx, IH; [|reflexivity|exact Hl'].
    cbn [con_in con_out]. now rewrite <- app_assoc.
Qed.
Lemma put_bad can l c : con_bad c = true -> put_chars can l c = c.
Proof. intros H. destruct l; cbn [put_chars]; now rewrite H. Qed.

Section linux.
  Context (can : Z -> bool) (can0 : can 0 = true).
  Lemma linux_n mem n c : 0 <= n <= zlen mem -> con_bad c = false -> Forall (fun x => can x = true) (firstn (Z.to_nat n) mem) ->
    write_n (Linux can) mem n c = Ok (mkCon (con_in c) (con_out c ++ firstn (Z.to_nat n) mem ++ [0]) false).
  Proof.
    intros H Hb Hc. unfold write_n. rewrite span_ok by exact H. cbn [bind].
    rewrite (put_ok _ _ c Hb Hc). rewrite put_ok; [|reflexivity|now constructor]. cbn [con_in con_out]. now rewrite <- app_assoc.
  Qed.
  Lemma linux_s s c : con_bad c = false -> Forall (fun x => can x = true) s ->
    write_s (Linux can) s c = Ok (mkCon (con_in c) (con_out c ++ s ++ [0]) false).
  Proof.
    intros Hb Hc. unfold write_s.
    assert (E : firstn (Z.to_nat (zlen s)) (s ++ [0]) = s).
    { unfold zlen. rewrite Nat2Z.id, firstn_app, Nat.sub_diag, firstn_all. cbn [firstn]. now rewrite app_nil_r. }
    rewrite linux_n; [now rewrite E|unfold zlen; rewrite app_length; cbn [length]; lia|exact Hb|now rewrite E].
  Qed.
  Lemma linux_step o c : valid o -> writes o -> con_bad c = false -> Forall (fun x => can x = true) (text o) ->
    con_step (Linux can) o c = Ok ([], mkCon (con_in c) (con_out c ++ linux_text o) false).
  Proof.
    intros V W Hb Ht. destruct o as [mem n|mem|s|s| |r g bl l|s]; cbn [valid writes con_step text linux_text] in *.
    - rewrite linux_n by tauto. reflexivity.
    - destruct (c_text_in mem (proj1 V)) as (E & E1 & E2). unfold write_z. rewrite E. cbn [bind].
      assert (E3 : firstn (Z.to_nat (zlen (upto_zero mem))) mem = upto_zero mem) by (unfold zlen; now rewrite Nat2Z.id).
      rewrite linux_n; [rewrite E3; reflexivity|unfold zlen; lia|exact Hb|now rewrite E3].
    - rewrite linux_s by assumption. reflexivity.
    - apply Forall_app in Ht. destruct Ht as [Hs Hn]. unfold write_line. rewrite linux_s by assumption. cbn [bind].
      unfold write_z. change (c_text [13; 10; 0]) with (Ok [13; 10]). cbn [bind].
      rewrite linux_n; [|unfold zlen; cbn [length]; lia|reflexivity|exact Hn].
      change (firstn (Z.to_nat (zlen [13; 10])) [13; 10; 0]) with [13; 10].
      cbn [bind con_in con_out]. now rewrite <- !app_assoc.
    - destruct W.
    - unfold set_color, escape. rewrite Hb. do 6 f_equal. 
      destruct r, g, bl; reflexivity.
    - cbn [escape]. rewrite app_nil_r, <- Hb. now destruct c.
  Qed.
  Lemma linux_run os : forall c, Forall valid os -> Forall writes os -> con_bad c = false -> Forall (fun x => can x = true) (flat_map text os) ->
    con_run (Linux can) os c = Ok (map (fun _ => []) os, mkCon (con_in c) (con_out c ++ flat_map linux_text os) false).
  Proof.
    induction os as [|o os IH]; intros c V W Hb Ht; cbn [con_run map flat_map].
    - rewrite app_nil_r, <- Hb. now destruct c.
    - inversion_clear V as [|? ? V1 V2]. inversion_clear W as [|? ? W1 W2]. cbn [flat_map] in Ht. apply Forall_app in Ht.
      rewrite linux_step by tauto. cbn [bind]. rewrite IH; [|assumption|assumption|reflexivity|tauto].
      cbn [bind con_in con_out]. now rewrite <- app_assoc.
  Qed.
End linux.

Lemma put_lost can l x r : forall c, con_bad c = false -> Forall (fun y => can y = true) l -> can x = false ->
  put_chars can (l ++ x :: r) c = mkCon (con_in c) (con_out c ++ l) true.
Proof.
  induction l as [|y l IH]; intros c Hb Hl Hx; cbn [app put_chars]; rewrite Hb.
  - now rewrite Hx, app_nil_r.
  - inversion_clear Hl as [|? ? Hy Hl']. rewrite Hy, IH; [|reflexivity|exact Hl'|exact Hx]. cbn [con_in con_out]. now rewrite <- app_assoc.
Qed.
Lemma lost_n can mem n c : 0 <= n <= zlen mem -> con_bad c = true -> write_n (Linux can) mem n c = Ok c.
Proof. intros H Hb. unfold write_n. rewrite span_ok by exact H. cbn [bind]. now rewrite !(put_bad can _ c Hb). Qed.
Lemma lost_step can o c : valid o -> writes o -> con_bad c = true ->
  con_step (Linux can) o c = Ok ([], mkCon (con_in c) (con_out c ++ escape o) true).
Proof.
  intros V W Hb.
  assert (E : Ok ([] : list Z, c) = Ok ([], mkCon (con_in c) (con_out c ++ []) true)).
  { rewrite app_nil_r, <- Hb. now destruct c. }
  assert (HS : forall s, write_s (Linux can) s c = Ok c).
  { intros s. apply lost_n; [|exact Hb]. unfold zlen. rewrite app_length. lia. }
  destruct o as [mem n|mem|s|s| |r g bl l|s]; cbn [valid writes con_step escape] in *.
  - rewrite lost_n by tauto. exact E.
  - destruct (c_text_in mem (proj1 V)) as (E0 & E1 & E2). unfold write_z. rewrite E0. cbn [bind].
    rewrite lost_n; [exact E|unfold zlen; lia|exact Hb].
  - rewrite HS. exact E.
  - unfold write_line. rewrite HS. cbn [bind]. unfold write_z. change (c_text [13; 10; 0]) with (Ok [13; 10]). cbn [bind].
    rewrite lost_n; [exact E|unfold zlen; cbn [length]; lia|exact Hb].
  - destruct W.
  - unfold set_color. rewrite Hb. do 6 f_equal. destruct r, g, bl; reflexivity.
  - exact E.
Qed.
Lemma lost_run can os : forall c, Forall valid os -> Forall writes os -> con_bad c = true ->
  con_run (Linux can) os c = Ok (map (fun _ => []) os, mkCon (con_in c) (con_out c ++ flat_map escape os) true).
Proof.
  induction os as [|o os IH]; intros c V W Hb; cbn [con_run map flat_map].
  - rewrite app_nil_r, <- Hb. now destruct c.
  - inversion_clear V as [|? ? V1 V2]. inversion_clear W as [|? ? W1 W2]. rewrite lost_step by assumption.
    cbn [bind]. rewrite IH; [|assumption|assumption|reflexivity]. cbn [bind con_in con_out]. now rewrite <- app_assoc.
Qed.
(* a write with a character that cannot be represented, then anything *)
Lemma lost can l x r os c : con_bad c = false -> Forall (fun y => can y = true) l -> can x = false ->
  Forall valid os -> Forall writes os ->
  con_run (Linux can) (WriteS (l ++ x :: r) :: os) c
  = Ok ([] :: map (fun _ => []) os, mkCon (con_in c) (con_out c ++ l ++ flat_map escape os) true).
Proof.
  intros Hb Hl Hx V W. cbn [con_run con_step]. unfold write_s, write_n.
  rewrite span_ok by (unfold zlen; rewrite !app_length; lia). cbn [bind].
  assert (E : firstn (Z.to_nat (zlen (l ++ x :: r))) ((l ++ x :: r) ++ [0]) = l ++ x :: r).
  { unfold zlen. rewrite Nat2Z.id, firstn_app, Nat.sub_diag, firstn_all. cbn [firstn]. now rewrite app_nil_r. }
  rewrite E, put_lost by assumption. rewrite put_bad by reflexivity. cbn [bind]. rewrite lost_run by (assumption || reflexivity).
  cbn [bind con_in con_out]. now rewrite <- app_assoc.
Qed.

(* Reading on Linux *)
Lemma get_line_nl s r : ~ In 10 s -> get_line (s ++ 10 :: r) = (s, r).
Proof.
  induction s as [|x s IH]; intros H; cbn [app get_line]; [reflexivity|].
  destruct (Z.eqb_spec x 10) as [->|Hx]; [destruct H; now left|]. rewrite IH by (intros Hi; apply H; now right). reflexivity.
Qed.
Lemma get_line_end s : ~ In 10 s -> get_line s = (s, []).
Proof.
  induction s as [|x s IH]; intros H; cbn [get_line]; [reflexivity|].
  destruct (Z.eqb_spec x 10) as [->|Hx]; [destruct H; now left|]. rewrite IH by (intros Hi; apply H; now right). reflexivity.
Qed.
Lemma text_of s : c_text (s ++ [0]) = Ok (upto_zero s).
Proof.
  destruct (c_text_in (s ++ [0])) as (E & _); [apply in_or_app; right; now left|]. rewrite E. now rewrite upto_app.
Qed.
Lemma linux_read_end can m c : con_in c = [] -> con_run (Linux can) (repeat Read m) c = Ok (repeat [] m, c).
Proof.
  intros H. induction m as [|m IH]; [reflexivity|]. cbn [repeat con_run con_step]. unfold read_line. rewrite H. cbn [get_line app c_text Z.eqb bind].
  replace (mkCon [] (con_out c) (con_bad c)) with c by (rewrite <- H; now destruct c). rewrite IH. reflexivity.
Qed.
Lemma linux_read can ls s m : forall c, Forall (fun l => ~ In 10 l) ls -> ~ In 10 s -> con_in c = flat_map lf ls ++ s ->
  con_run (Linux can) (repeat Read (length ls + S m)) c
  = Ok (map upto_zero ls ++ upto_zero s :: repeat [] m, mkCon [] (con_out c) (con_bad c)).
Proof.
  induction ls as [|l ls IH]; intros c Hl Hs H; cbn [length Nat.add repeat con_run con_step map app].
  - unfold read_line. rewrite H. cbn [flat_map app]. rewrite get_line_end by exact Hs. rewrite text_of. cbn [bind].
    rewrite linux_read_end by reflexivity. reflexivity.
  - inversion_clear Hl as [|? ? Hl1 Hl2]. unfold read_line. rewrite H. cbn [flat_map]. unfold lf at 1.
    rewrite <- !app_assoc. cbn [app]. rewrite get_line_nl by exact Hl1. rewrite text_of. cbn [bind].
    rewrite IH; [reflexivity|exact Hl2|exact Hs|reflexivity].
Qed.

(* Reading on Windows *)
Lemma read_chars_line s e r : ~ In 10 s -> ~ In 13 s -> Forall (fun x => x <> 0) s ->
  read_chars (ended (s, e) ++ r) = Ok (s, r).
Proof.
  unfold ended. cbn [fst snd]. rewrite <- app_assoc. induction s as [|x s IH]; intros H1 H2 H3; cbn [app read_chars].
  - destruct e; reflexivity.
  - inversion_clear H3 as [|? ? Hx H3'].
    destruct (Z.eqb_spec x 13) as [->|Ha]; [destruct H2; now left|].
    destruct (Z.eqb_spec x 10) as [->|Hb]; [destruct H1; now left|].
    rewrite IH; [|intros Hi; apply H1; now right|intros Hi; apply H2; now right|exact H3'].
    cbn [bind]. now replace (x =? 0) with false by lia.
Qed.
Lemma windows_read t ls r : forall c, match t with Linux _ => False | _ => True end ->
  Forall (fun p => ~ In 10 (fst p) /\ ~ In 13 (fst p) /\ Forall (fun x => x <> 0) (fst p)) ls ->
  con_in c = flat_map ended ls ++ r ->
  con_run t (repeat Read (length ls)) c = Ok (map fst ls, mkCon r (con_out c) (con_bad c)).
Proof.
  induction ls as [|[l e] ls IH]; intros c Ht Hl H; cbn [length repeat con_run con_step map fst].
  - cbn in H. rewrite <- H. now destruct c.
  - inversion_clear Hl as [|? ? Hl1 Hl2]. cbn [fst] in Hl1.
    assert (E : read_line t c = Ok (l, mkCon (flat_map ended ls ++ r) (con_out c) (con_bad c))).
    { unfold read_line. destruct t; [destruct Ht| |]; rewrite H; cbn [flat_map]; rewrite <- app_assoc, read_chars_line by tauto; reflexivity. }
    rewrite E. cbn [bind]. rewrite IH; [reflexivity|exact Ht|exact Hl2|reflexivity].
Qed.

(* Windows file *)
Lemma file_step enc e o c : (forall s, enc s = Some (e s)) -> valid o -> writes o -> terminated o ->
  con_step (File enc) o c = Ok ([], mkCon (con_in c) (con_out c ++ flat_map e (pieces o)) (con_bad c)).
Proof.
  intros He V W [Hz HN].
  assert (HS : forall s c, Forall (fun x => x <> 0) s ->
             write_s (File enc) s c = Ok (mkCon (con_in c) (con_out c ++ e s) (con_bad c))).
  { intros s c0 Hs. unfold write_s, write_n. rewrite text_of. cbn [bind].
    replace (upto_zero s) with s; [now rewrite He|]. clear - Hs. induction s as [|x s IH]; [reflexivity|].
    inversion_clear Hs as [|? ? Hx Hs']. cbn [upto_zero]. replace (x =? 0) with false by lia. now rewrite <- IH. }
  destruct o as [mem n|mem|s|s| |r g bl l|s]; cbn [valid writes con_step text pieces flat_map] in *.
  - unfold write_n.
    assert (E : c_text mem = Ok (firstn (Z.to_nat n) mem)).
    { destruct V as [V _]. unfold znth in HN. destruct (n <? 0) eqn:En; [lia|]. clear - HN Hz. revert mem HN Hz.
      generalize (Z.to_nat n) as k. induction k as [|k IH]; intros mem HN Hz.
      - destruct mem as [|x mem]; [discriminate|]. cbn in HN. injection HN as ->. reflexivity.
      - destruct mem as [|x mem]; [discriminate|]. cbn [firstn] in *. inversion_clear Hz as [|? ? Hx Hz']. cbn [c_text].
        replace (x =? 0) with false by lia. rewrite IH by (assumption || exact HN). reflexivity. }
    rewrite E. cbn [bind]. rewrite He, app_nil_r. reflexivity.
  - destruct (c_text_in mem (proj1 V)) as (E0 & E1 & E2). unfold write_z, write_n. rewrite E0. cbn [bind]. rewrite He, app_nil_r. reflexivity.
  - rewrite HS, app_nil_r by assumption. reflexivity.
  - apply Forall_app in Hz. destruct Hz as [Hs _]. 
    unfold write_line. rewrite HS by assumption. cbn [bind]. unfold write_z, write_n.
    change (c_text [13; 10; 0]) with (Ok [13; 10]). cbn [bind]. rewrite He, app_nil_r. cbn [bind con_in con_out con_bad]. now rewrite <- app_assoc.
  - destruct W.
  - rewrite app_nil_r. now destruct c.
  - rewrite app_nil_r. now destruct c.
Qed.
Lemma file_run enc e os : (forall s, enc s = Some (e s)) -> forall c, Forall valid os -> Forall writes os -> Forall terminated os ->
  con_run (File enc) os c = Ok (map (fun _ => []) os, mkCon (con_in c) (con_out c ++ flat_map e (flat_map pieces os)) (con_bad c)).
Proof.
  intros He. induction os as [|o os IH]; intros c V W T; cbn [con_run map flat_map].
  - rewrite app_nil_r. now destruct c.
  - inversion_clear V as [|? ? V1 V2]. inversion_clear W as [|? ? W1 W2]. inversion_clear T as [|? ? T1 T2].
    rewrite (file_step enc e) by assumption.
    cbn [bind]. rewrite IH by assumption. cbn [bind con_in con_out con_bad]. rewrite flat_map_app. now rewrite <- app_assoc.
Qed.

(* the sixteen colours *)
Lemma colours can r g b l r' g' b' l' c :
  con_step (Linux can) (SetColor r g b l) c = con_step (Linux can) (SetColor r' g' b' l') c -> (r, g, b, l) = (r', g', b', l').
Proof.
  cbn [con_step]. unfold set_color. intros H.
  assert (H1 : forall x y : list Z, con_out c ++ x = con_out c ++ y -> x = y) by (intros x y; apply app_inv_head).
  injection H as H. apply H1 in H. revert H. destruct r, g, b, l, r', g', b', l'; vm_compute; intros H; try reflexivity; discriminate.
Qed.

(* ---- a length that does not fit in 32 bits -------------------------------------------- *)
Lemma window_long mem n c : 0 <= n <= zlen mem ->
  con_run Window [WriteN mem n] c = Ok ([[]], mkCon (con_in c) (con_out c ++ firstn (Z.to_nat (n mod 2 ^ 32)) mem) (con_bad c)).
Proof.
  intros H. assert (M : 0 <= n mod 2 ^ 32 <= n) by (split; [apply Z.mod_pos_bound; lia|apply Z.mod_le; lia]).
  unfold con_run, con_step, write_n, span. replace ((0 <=? n mod 2 ^ 32) && (n mod 2 ^ 32 <=? zlen mem)) with true by lia. reflexivity.
Qed.
Lemma window_lost mem n c : 2 ^ 32 <= n <= zlen mem -> exists kept,
  con_run Window [WriteN mem n] c = Ok ([[]], mkCon (con_in c) (con_out c ++ kept) (con_bad c)) /\ zlen kept <= n - 2 ^ 32.
Proof.
  intros H. exists (firstn (Z.to_nat (n mod 2 ^ 32)) mem). split; [apply window_long; lia|]. unfold zlen. rewrite firstn_length.
  pose proof (Z.div_mod n (2 ^ 32) ltac:(lia)) as D. assert (1 <= n / 2 ^ 32) by (apply Z.div_le_lower_bound; lia). pose proof (Z.mod_pos_bound n (2 ^ 32) ltac:(lia)). nia.
Qed.
