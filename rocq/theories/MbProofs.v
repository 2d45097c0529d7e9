From Coq Require Import ZifyBool ZifyNat.
From Verif Require Import Base BaseFacts MbModel MbSpec.
Open Scope Z_scope.

Lemma c_text_ok s : c_text (s ++ [0]) = Ok (before_zero s).
Proof. induction s as [|c s IH]; [reflexivity|]. cbn [app c_text before_zero]. destruct (c =? 0); [reflexivity|]. now rewrite IH. Qed.
Lemma c_text_junk s junk : c_text (s ++ 0 :: junk) = Ok (before_zero s).
Proof. induction s as [|c s IH]; [reflexivity|]. cbn [app c_text before_zero]. destruct (c =? 0); [reflexivity|]. now rewrite IH. Qed.
Lemma put_ok l : forall a b, (length l <= length b)%nat -> put (a ++ b) (zlen a) l = Ok (a ++ l ++ skipn (length l) b).
Proof.
  induction l as [|x l IH]; intros a b L; [reflexivity|]. destruct b as [|y b]; cbn [length] in L; [lia|]. cbn [put]. rewrite aset_app by reflexivity. cbn [bind].
  replace (a ++ x :: b) with ((a ++ [x]) ++ b) by (now rewrite <- app_assoc). replace (zlen a + 1) with (zlen (a ++ [x])) by (unfold zlen; rewrite app_length; cbn; lia).
  rewrite IH by lia. rewrite <- !app_assoc. reflexivity.
Qed.
Lemma fitting_len ls : forall n, 0 <= n -> zlen (fitting n ls) <= n.
Proof.
  induction ls as [|l ls IH]; intros n N; cbn [fitting]; [unfold zlen; cbn; lia|]. destruct (Z.leb_spec (zlen l) n) as [L|L]; [|unfold zlen; cbn; lia].
  rewrite zlen_app. specialize (IH (n - zlen l) ltac:(lia)). lia.
Qed.
Lemma fitting_all ls : forall n, zlen (concat ls) <= n -> fitting n ls = concat ls.
Proof.
  induction ls as [|l ls IH]; intros n N; cbn [fitting concat] in *; [reflexivity|]. rewrite zlen_app in N. pose proof (zlen_nonneg (concat ls)).
  replace (zlen l <=? n) with true by lia. rewrite IH by lia. reflexivity.
Qed.
(* writing characters into a destination of at least n units *)
Lemma c_write_ok ls ok : forall a b n, n <= zlen a + zlen b -> zlen a <= n ->
  exists d k, c_write (a ++ b) (zlen a) n ls ok = Ok (a ++ d, k) /\ length d = length b /\
    (exists rest, d = fitting (n - zlen a) ls ++ rest /\
       (rest = skipn (length (fitting (n - zlen a) ls)) b \/
        ok = true /\ fitting (n - zlen a) ls = concat ls /\ zlen (concat ls) < n - zlen a /\ rest = 0 :: skipn (S (length (concat ls))) b)).
Proof.
  induction ls as [|l ls IH]; intros a b n B A; cbn [c_write fitting concat].
  - destruct ok.
    + destruct (Z.ltb_spec (zlen a) n) as [L|L].
      * destruct b as [|y b]; [unfold zlen in *; cbn in *; lia|]. rewrite aset_app by reflexivity. cbn [bind]. do 2 eexists. split; [reflexivity|]. split; [reflexivity|].
        eexists. split; [reflexivity|]. right. split; [reflexivity|]. split; [reflexivity|]. split; [unfold zlen at 1; cbn; lia|reflexivity].
      * do 2 eexists. split; [reflexivity|]. split; [reflexivity|]. exists b. split; [reflexivity|now left].
    + do 2 eexists. split; [reflexivity|]. split; [reflexivity|]. exists b. split; [reflexivity|now left].
  - destruct (Z.leb_spec (zlen a + zlen l) n) as [L|L].
    + rewrite put_ok by (unfold zlen in *; lia). cbn [bind]. rewrite app_assoc. replace (zlen a + zlen l) with (zlen (a ++ l)) by (now rewrite zlen_app).
      destruct (IH (a ++ l) (skipn (length l) b) n) as (d & k & E & Ld & rest & Er & Hr).
      * unfold zlen in *. rewrite app_length, skipn_length. lia.
      * rewrite zlen_app. lia.
      * rewrite E. exists (l ++ d), k. rewrite <- app_assoc. split; [reflexivity|]. rewrite app_length, Ld, skipn_length. split; [unfold zlen in *; lia|].
        replace (zlen l <=? n - zlen a) with true by lia. rewrite zlen_app in *. replace (n - zlen a - zlen l) with (n - (zlen a + zlen l)) by lia. exists rest. split.
        -- rewrite Er. now rewrite <- app_assoc.
        -- destruct Hr as [Hr|(H1 & H2 & H3 & H4)].
           ++ left. rewrite Hr, skipn_skipn, app_length. reflexivity.
           ++ right. split; [auto|]. rewrite H2. split; [reflexivity|]. rewrite ?zlen_app. split; [lia|]. rewrite H4, skipn_skipn, app_length. f_equal. f_equal. lia.
    + replace (zlen l <=? n - zlen a) with false by lia. do 2 eexists. split; [reflexivity|]. split; [reflexivity|]. exists b. split; [reflexivity|now left].
Qed.

Section conversion.
  Context (tr : list Z -> list (list Z) * bool).
  Lemma skipn_repeat {A} (x : A) n m : skipn n (repeat x m) = repeat x (m - n).
  Proof. revert m. induction n as [|n IH]; intros [|m]; cbn [skipn repeat Nat.sub]; auto. Qed.
  Lemma linux_ok s : zlen (translated tr s) < 2 ^ 64 - 1 -> convert_direct (linux tr) (s ++ [0]) = Ok (translated tr s ++ [0], zlen (translated tr s)).
  Proof.
    intros B. unfold convert_direct, linux, c_convert. rewrite c_text_ok. cbn [bind]. unfold translated in *. destruct (tr (before_zero s)) as [ls ok]. cbn [bind].
    destruct ok.
    - pose proof (zlen_nonneg (concat ls)) as P. unfold size_t. rewrite (Z.mod_small (zlen (concat ls) + 1)) by lia.
      replace (zlen (concat ls) + 1 <? 1) with false by lia. replace (zlen (concat ls) + 1 - 1) with (zlen (concat ls)) by lia. rewrite (Z.mod_small (zlen (concat ls))) by lia.
      set (b := repeat 0 (Z.to_nat (zlen (concat ls) + 1))).
      assert (zlen b = zlen (concat ls) + 1) as Lb by (unfold b; rewrite zlen_repeat; lia).
      destruct (c_write_ok ls true [] b (zlen (concat ls))) as (d & k & E & Ld & rest & Er & Hr); [change (zlen (@nil Z)) with 0; lia|change (zlen (@nil Z)) with 0; lia|].
      cbn [app] in E. change (zlen (@nil Z)) with 0 in *. rewrite E. cbn [bind]. rewrite Z.sub_0_r in *. rewrite fitting_all in * by lia.
      destruct Hr as [Hr|(_ & _ & H & _)]; [|lia]. rewrite Er, Hr. unfold b. rewrite skipn_repeat. replace (Z.to_nat (zlen (concat ls) + 1) - length (concat ls))%nat with 1%nat by (unfold zlen; lia). reflexivity.
    - reflexivity.
  Qed.
  Lemma windows_ok s : zlen (translated tr s) < 2 ^ 31 - 1 -> convert_direct (windows tr) (s ++ [0]) = Ok (translated tr s ++ [0], zlen (translated tr s)).
  Proof.
    intros B. unfold convert_direct, windows, w_convert. rewrite c_text_ok. cbn [bind]. unfold translated in *. destruct (tr (before_zero s)) as [ls ok]. cbn [bind].
    destruct ok; cbn [negb].
    - pose proof (zlen_nonneg (concat ls)) as P. change (0 =? 0) with true. cbv iota. cbn [bind]. rewrite zlen_app. change (zlen [0]) with 1.
      assert (to_int (zlen (concat ls) + 1) = zlen (concat ls) + 1) as -> by (unfold to_int; rewrite Z.mod_small by lia; lia).
      replace (zlen (concat ls) + 1 <? 1) with false by lia. replace (zlen (concat ls) + 1 =? 0) with false by lia. replace (zlen (concat ls) + 1 <? zlen (concat ls) + 1) with false by lia.
      set (b := repeat 0 (Z.to_nat (zlen (concat ls) + 1))).
      assert (length b = S (length (concat ls))) as Lb by (unfold b; rewrite repeat_length; unfold zlen; lia).
      pose proof (put_ok (concat ls ++ [0]) [] b) as Hp. cbn [app] in Hp. change (zlen (@nil Z)) with 0 in Hp. rewrite Hp by (rewrite app_length; cbn [length]; lia). cbn [bind].
      rewrite skipn_all2 by (rewrite app_length; cbn [length]; lia). rewrite app_nil_r. f_equal. f_equal. lia.
    - reflexivity.
  Qed.
  (* a caller's own buffer *)
  Lemma linux_dst s junk b chars ls ok : tr (before_zero s) = (ls, ok) -> 1 <= chars <= zlen b -> zlen b < 2 ^ 63 ->
    exists d k, linux tr (s ++ 0 :: junk) (Some b) chars = Ok (Some d, k) /\ length d = length b /\
      exists rest, d = fitting (chars - 1) ls ++ rest /\
        (rest = skipn (length (fitting (chars - 1) ls)) b \/
         ok = true /\ fitting (chars - 1) ls = concat ls /\ zlen (concat ls) < chars - 1 /\ rest = 0 :: skipn (S (length (concat ls))) b).
  Proof.
    intros T C Bd. unfold linux, c_convert. rewrite c_text_junk. cbn [bind]. rewrite T. unfold size_t. rewrite (Z.mod_small (chars - 1)) by lia.
    destruct (c_write_ok ls ok [] b (chars - 1)) as (d & k & E & Ld & rest & Er & Hr); [change (zlen (@nil Z)) with 0; lia|change (zlen (@nil Z)) with 0; lia|].
    cbn [app] in E. change (zlen (@nil Z)) with 0 in *. rewrite E. cbn [bind]. rewrite Z.sub_0_r in *. do 2 eexists. split; [reflexivity|]. split; [exact Ld|]. exists rest. auto.
  Qed.
End conversion.

Lemma c_write_result ls ok : forall d i n d' k, c_write d i n ls ok = Ok (d', k) -> i <= n ->
  k = if i + zlen (concat ls) <=? n then (if ok then i + zlen (concat ls) else size_t (-1)) else i + zlen (fitting (n - i) ls).
Proof.
  induction ls as [|l ls IH]; intros d i n d' k; cbn [c_write concat fitting].
  - change (zlen (@nil Z)) with 0. intros E L. replace (i + 0 <=? n) with true by lia. destruct ok; [|congruence]. rewrite Z.add_0_r. destruct (i <? n); [|congruence].
    destruct (aset d i 0); cbn [bind] in E; congruence.
  - rewrite zlen_app. pose proof (zlen_nonneg (concat ls)) as P. destruct (Z.leb_spec (i + zlen l) n) as [L|L]; intros E Li.
    + destruct (put d i l) as [d1| | |]; cbn [bind] in E; try discriminate. apply IH in E; [|exact L]. rewrite E. rewrite !Z.add_assoc. replace (zlen l <=? n - i) with true by lia.
      rewrite zlen_app. replace (n - i - zlen l) with (n - (i + zlen l)) by lia. rewrite !Z.add_assoc. reflexivity.
    + replace (i + (zlen l + zlen (concat ls)) <=? n) with false by lia. replace (zlen l <=? n - i) with false by lia. change (zlen (@nil Z)) with 0. injection E as _ <-. lia.
Qed.
Lemma linux_result tr s junk dst chars ls ok d k : tr (before_zero s) = (ls, ok) -> zlen (concat ls) < 2 ^ 63 ->
  match dst with Some b => 1 <= chars <= zlen b | None => True end -> chars < 2 ^ 63 ->
  linux tr (s ++ 0 :: junk) dst chars = Ok (d, k) ->
  k = match dst with
      | Some _ => if zlen (concat ls) <=? chars - 1 then (if ok then zlen (concat ls) + 1 else 0) else zlen (fitting (chars - 1) ls) + 1
      | None => if ok then zlen (concat ls) + 1 else 0
      end.
Proof.
  intros T B C C2. unfold linux, c_convert. rewrite c_text_junk. cbn [bind]. rewrite T. pose proof (zlen_nonneg (concat ls)) as P. destruct dst as [b|].
  - unfold size_t at 1. rewrite (Z.mod_small (chars - 1)) by lia. destruct (c_write b 0 (chars - 1) ls ok) as [[d1 k1]| | |] eqn:E; cbn [bind]; try discriminate.
    intros H. injection H as _ <-. apply c_write_result in E; [|lia]. rewrite E, Z.sub_0_r, !Z.add_0_l. destruct (Z.leb_spec (zlen (concat ls)) (chars - 1)) as [L|L].
    + destruct ok; [|reflexivity]. unfold size_t. apply Z.mod_small. lia.
    + unfold size_t. apply Z.mod_small. pose proof (fitting_len ls (chars - 1) ltac:(lia)). pose proof (zlen_nonneg (fitting (chars - 1) ls)). lia.
  - cbn [bind]. intros H. injection H as _ <-. destruct ok; [|reflexivity]. unfold size_t. apply Z.mod_small. lia.
Qed.

Section encoding.
  Context (enc : Z -> option (list Z)) (dec : list Z -> option (Z * nat)).
  Lemma before_zero_id s : ~ In 0 s -> before_zero s = s.
  Proof. induction s as [|c s IH]; intros H; [reflexivity|]. cbn [before_zero]. destruct (Z.eqb_spec c 0) as [E|E]; [exfalso; apply H; now left|]. rewrite IH; [reflexivity|]. intros I. apply H. now right. Qed.
  Lemma bytes_all s : (forall c, In c s -> enc c <> None) -> exists ls, to_bytes enc s = (ls, true).
  Proof.
    induction s as [|c s IH]; intros H; [eexists; reflexivity|]. cbn [to_bytes]. destruct (enc c) eqn:E; [|exfalso; apply (H c); [now left|auto]].
    destruct IH as [ls ->]; [intros x I; apply H; now right|]. eexists. reflexivity.
  Qed.
  Lemma bytes_back : faithful enc dec -> forall s ls, to_bytes enc s = (ls, true) ->
    ~ In 0 (concat ls) /\ forall fuel, (length (concat ls) <= fuel)%nat -> to_wide dec fuel (concat ls) = (map (fun c => [c]) s, true).
  Proof.
    intros F. induction s as [|c s IH]; intros ls E; cbn [to_bytes] in E.
    - injection E as <-. split; [intros []|]. intros fuel _. destruct fuel; reflexivity.
    - destruct (enc c) as [b|] eqn:Ec; [|discriminate]. destruct (to_bytes enc s) as [l1 ok1]. injection E as <- ->. destruct (F c b Ec) as (Nb & Zb & D). destruct (IH l1 eq_refl) as [Z1 W1].
      cbn [concat]. split; [rewrite in_app_iff; tauto|]. intros fuel L. rewrite app_length in L. destruct b as [|x b]; [congruence|]. cbn [length] in L. destruct fuel as [|fuel]; [lia|].
      cbn [app to_wide]. change (x :: b ++ concat l1) with ((x :: b) ++ concat l1). rewrite D. rewrite skipn_app, skipn_all, Nat.sub_diag. cbn [app skipn]. rewrite W1 by lia. reflexivity.
  Qed.
  Lemma round_trip s : faithful enc dec -> ~ In 0 s -> (forall c, In c s -> enc c <> None) -> (forall ls, to_bytes enc s = (ls, true) -> zlen (concat ls) < 2 ^ 64 - 1) -> zlen s < 2 ^ 64 - 1 ->
    exists bytes, wtoa enc s = Ok (bytes ++ [0], zlen bytes) /\ ~ In 0 bytes /\ atow dec bytes = Ok (s ++ [0], zlen s).
  Proof.
    intros F Z0 E B Bs. destruct (bytes_all s E) as [ls T]. destruct (bytes_back F s ls T) as [Zl W]. exists (concat ls).
    assert (translated (to_bytes enc) s = concat ls) as T1 by (unfold translated; rewrite before_zero_id, T; auto).
    assert (translated (fun s => to_wide dec (length s) s) (concat ls) = s) as T2.
    { unfold translated. rewrite before_zero_id by auto. rewrite W by lia. clear. induction s; [reflexivity|]. cbn [map concat app]. f_equal. auto. }
    split; [|split; [exact Zl|]].
    - unfold wtoa. rewrite linux_ok by (rewrite T1; auto). now rewrite T1.
    - unfold atow. rewrite linux_ok by (rewrite T2; auto). now rewrite T2.
  Qed.
End encoding.
Lemma reads_fun dec s cs : reads dec s cs -> forall cs', reads dec s cs' -> cs' = cs.
Proof.
  induction 1 as [|s c k cs N E H IH]; intros cs' H'; inversion H' as [|? c' k' cs2 N' E' H2]; subst; try congruence; try contradiction.
  assert (c' = c /\ k' = k) as [-> ->] by (split; congruence). f_equal. auto.
Qed.
Lemma to_wide_reads dec : progressing dec -> forall fuel s, (length s <= fuel)%nat -> 
  (exists cs, reads dec s cs /\ to_wide dec fuel s = (map (fun c => [c]) cs, true)) \/ ((forall cs, ~ reads dec s cs) /\ snd (to_wide dec fuel s) = false).
Proof.
  intros P. induction fuel as [|fuel IH]; intros s L; (destruct s as [|b s]; [left; exists []; split; [constructor|reflexivity]|]); [cbn [length] in L; lia|].
  cbn [to_wide]. destruct (dec (b :: s)) as [[c k]|] eqn:E.
  - pose proof (P _ _ _ E) as Hk. destruct (IH (skipn k (b :: s))) as [(cs & R & ->)|(N & F)].
    + rewrite skipn_length. cbn [length] in *. lia.
    + left. exists (c :: cs). split; [eapply reads_char; eauto; discriminate|reflexivity].
    + right. destruct (to_wide dec fuel (skipn k (b :: s))) as [ls ok]. split; [|exact F]. intros cs R. inversion R as [|? c' k' cs2 N' E' H2]; subst. rewrite E in E'. injection E' as <- <-. exact (N _ H2).
  - right. split; [|reflexivity]. intros cs R. inversion R; congruence.
Qed.
Lemma concat_single (cs : list Z) : concat (map (fun c => [c]) cs) = cs.
Proof. induction cs as [|c cs IH]; [reflexivity|]. cbn [map concat app]. now rewrite IH. Qed.
Lemma reads_short dec : progressing dec -> forall s cs, reads dec s cs -> zlen cs <= zlen s.
Proof.
  intros P s cs R. unfold zlen. induction R as [|s c k cs N E R IH]; [lia|]. pose proof (P _ _ _ E). rewrite skipn_length in IH. destruct s; [congruence|]. cbn [length] in *. lia.
Qed.
Lemma atow_ok dec s : progressing dec -> ~ In 0 s -> zlen s < 2 ^ 64 - 1 ->
  (forall cs, reads dec s cs -> atow dec s = Ok (cs ++ [0], zlen cs)) /\ ((forall cs, ~ reads dec s cs) -> atow dec s = Ok ([0], 0)).
Proof.
  intros P Z0 B. destruct (to_wide_reads dec P (length s) s (le_n _)) as [(cs & R & E)|(N & E)].
  - assert (translated (fun s => to_wide dec (length s) s) s = cs) as T by (unfold translated; rewrite before_zero_id, E by auto; apply concat_single).
    assert (atow dec s = Ok (cs ++ [0], zlen cs)) as A.
    { pose proof (reads_short dec P s cs R). unfold atow. rewrite linux_ok by (rewrite T; lia). now rewrite T. }
    split; [intros cs' R'; now rewrite (reads_fun dec s cs R cs' R')|intros N; exfalso; eapply N; eauto].
  - assert (translated (fun s => to_wide dec (length s) s) s = []) as T by (unfold translated; rewrite before_zero_id by auto; destruct (to_wide dec (length s) s); cbn [snd] in E; now subst).
    split; [intros cs R; exfalso; eapply N; eauto|]. intros _. unfold atow. rewrite linux_ok by (rewrite T; change (zlen (@nil Z)) with 0; lia). now rewrite T.
Qed.
Lemma wtoa_fails enc s c : ~ In 0 s -> In c s -> enc c = None -> wtoa enc s = Ok ([0], 0).
Proof.
  intros Z0 I E. assert (snd (to_bytes enc s) = false) as F.
  { clear Z0. induction s as [|b s IH]; [contradiction|]. cbn [to_bytes]. destruct I as [->|I]; [now rewrite E|]. destruct (enc b); [|reflexivity]. destruct (to_bytes enc s). cbn [snd] in *. auto. }
  assert (translated (to_bytes enc) s = []) as T by (unfold translated; rewrite before_zero_id by auto; destruct (to_bytes enc s); cbn [snd] in F; now subst).
  unfold wtoa. rewrite linux_ok by (rewrite T; change (zlen (@nil Z)) with 0; lia). now rewrite T.
Qed.
(* Latin text: characters below 256 are one byte *)
Definition latin_enc (c : Z) : option (list Z) := if (0 <? c) && (c <? 256) then Some [c] else None.
Definition latin_dec (s : list Z) : option (Z * nat) := match s with c :: _ => Some (c, 1%nat) | [] => None end.
Lemma latin_faithful : faithful latin_enc latin_dec.
Proof.
  intros c bs H. unfold latin_enc in H. destruct ((0 <? c) && (c <? 256)) eqn:E; [|discriminate]. injection H as <-. split; [discriminate|]. split; [|reflexivity].
  intros [->|[]]. discriminate.
Qed.
Definition ascii_dec (s : list Z) : option (Z * nat) := match s with c :: _ => if c <? 128 then Some (c, 1%nat) else None | [] => None end.
Lemma ascii_progressing : progressing ascii_dec.
Proof. intros [|b s] c k; cbn; [discriminate|]. destruct (b <? 128); [|discriminate]. intros H. injection H as _ <-. lia. Qed.
Lemma ascii_reads : reads ascii_dec [72; 105] [72; 105].
Proof. repeat (eapply reads_char; [discriminate|reflexivity|]). constructor. Qed.
