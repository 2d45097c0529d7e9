(* Per-code-point converters against the specification *)
From Coq Require Import ZifyBool.
From Verif Require Import Base UtfModel UtfSpec.
Open Scope Z_scope.
Ltac Zify.zify_post_hook ::= Z.div_mod_to_equations.

Lemma lor_add a b k : 0 <= k -> 0 <= a < 2 ^ k -> Z.lor a (b * 2 ^ k) = a + b * 2 ^ k.
Proof.
  intros Hk Ha.
  assert (Hl : Z.land a (b * 2 ^ k) = 0).
  { apply Z.bits_inj'. intros n Hn. rewrite Z.land_spec, Z.bits_0.
    destruct (Z.ltb_spec n k) as [H|H].
    - rewrite Z.mul_pow2_bits_low by lia. apply andb_false_r.
    - destruct (Z.eq_dec a 0) as [->|Hz]; [now rewrite Z.bits_0|].
      rewrite (Z.bits_above_log2 a n); [reflexivity|lia|].
      enough (Z.log2 a < k) by lia.
      apply Z.log2_lt_pow2; lia. }
  rewrite Z.add_nocarry_lxor by exact Hl. symmetry. now apply Z.lxor_lor.
Qed.

Lemma lor_tag a t b k : t = b * 2 ^ k -> 0 <= k -> 0 <= a < 2 ^ k -> Z.lor a t = a + t.
Proof. intros -> Hk Ha. now apply lor_add. Qed.

Lemma lor_join a b k : 0 <= k -> 0 <= b < 2 ^ k -> Z.lor (a * 2 ^ k) b = a * 2 ^ k + b.
Proof. intros. rewrite Z.lor_comm, lor_add by assumption. lia. Qed.

Lemma land_mask a m k : m = Z.ones k -> 0 <= k -> Z.land a m = a mod 2 ^ k.
Proof. intros -> Hk. now apply Z.land_ones. Qed.

Lemma land63 a : Z.land a 0x3F = a mod 64.
Proof. rewrite (land_mask a 0x3F 6) by (reflexivity || lia). reflexivity. Qed.

Lemma cont_byte a : u8 (Z.lor (Z.land a 0x3F) 0x80) = 0x80 + a mod 64.
Proof.
  rewrite land63, (lor_tag _ 0x80 1 7) by (reflexivity || lia || (split; lia)).
  unfold u8. rewrite Z.mod_small by lia. lia.
Qed.

Lemma lead_byte a t b k :
  t = b * 2 ^ k -> 0 <= k -> 0 <= a < 2 ^ k -> 0 <= t -> a + t < 256 ->
  u8 (Z.lor a t) = t + a.
Proof.
  intros Ht Hk Ha H1 H2. rewrite (lor_tag a t b k) by assumption.
  unfold u8. rewrite Z.mod_small by lia. lia.
Qed.

Lemma shiftr_div a k : 0 <= k -> Z.shiftr a k = a / 2 ^ k.
Proof. intros. now apply Z.shiftr_div_pow2. Qed.

Lemma from32_u8_spec c :
  0 <= c ->
  from32_u8 c = if representable U8 c then Some (utf8_units c) else None.
Proof.
  intros Hc. unfold from32_u8, is_invalid.
  destruct ((0xD800 <=? c) && (c <=? 0xDFFF)) eqn:Hinv.
  { unfold representable. rewrite Hinv. cbn [negb]. rewrite andb_false_r. reflexivity. }
  unfold representable. rewrite Hinv.
  replace (0 <=? c) with true by lia. cbn [negb andb]. rewrite andb_true_r.
  unfold utf8_units, cont. rewrite !cont_byte, !shiftr_div by lia.
  destruct (c <=? 0x7F) eqn:H1.
  { replace (c <? 0x80000000) with true by lia. replace (c <? 0x80) with true by lia.
    unfold u8. rewrite Z.mod_small by lia. reflexivity. }
  replace (c <? 0x80) with false by lia.
  destruct (c <=? 0x7FF) eqn:H2.
  { replace (c <? 0x80000000) with true by lia. replace (c <? 0x800) with true by lia.
    change (2^6) with 64.
    rewrite (lead_byte _ 0xC0 3 6) by (try reflexivity; try change (2^6) with 64; lia).
    rewrite Z.div_1_r. reflexivity. }
  replace (c <? 0x800) with false by lia.
  destruct (c <=? 0xFFFF) eqn:H3.
  { replace (c <? 0x80000000) with true by lia. replace (c <? 0x10000) with true by lia.
    change (2^6) with 64. change (2^12) with 4096. change (64^2) with 4096.
    rewrite (lead_byte _ 0xE0 7 5) by (try reflexivity; try change (2^5) with 32; lia).
    rewrite Z.div_1_r. reflexivity. }
  replace (c <? 0x10000) with false by lia.
  destruct (c <=? 0x1FFFFF) eqn:H4.
  { replace (c <? 0x80000000) with true by lia. replace (c <? 0x200000) with true by lia.
    change (2^6) with 64. change (2^12) with 4096. change (64^2) with 4096.
    change (2^18) with 262144. change (64^3) with 262144.
    rewrite (lead_byte _ 0xF0 15 4) by (try reflexivity; try change (2^4) with 16; lia).
    rewrite Z.div_1_r. reflexivity. }
  replace (c <? 0x200000) with false by lia.
  destruct (c <=? 0x3FFFFFF) eqn:H5.
  { replace (c <? 0x80000000) with true by lia. replace (c <? 0x4000000) with true by lia.
    change (2^6) with 64. change (2^12) with 4096. change (64^2) with 4096.
    change (2^18) with 262144. change (64^3) with 262144.
    change (2^24) with 16777216. change (64^4) with 16777216.
    rewrite (lead_byte _ 0xF8 31 3) by (try reflexivity; try change (2^3) with 8; lia).
    rewrite Z.div_1_r. reflexivity. }
  replace (c <? 0x4000000) with false by lia.
  destruct (c <=? 0x7FFFFFFF) eqn:H6.
  { replace (c <? 0x80000000) with true by lia.
    change (2^6) with 64. change (2^12) with 4096. change (64^2) with 4096.
    change (2^18) with 262144. change (64^3) with 262144.
    change (2^24) with 16777216. change (64^4) with 16777216.
    change (2^30) with 1073741824. change (64^5) with 1073741824.
    rewrite (lead_byte _ 0xFC 63 2) by (try reflexivity; try change (2^2) with 4; lia).
    rewrite Z.div_1_r. reflexivity. }
  replace (c <? 0x80000000) with false by lia. reflexivity.
Qed.

(* Values of the joined decoder expressions *)
Lemma shl a k : 0 <= k -> Z.shiftl a k = a * 2 ^ k.
Proof. intros. now apply Z.shiftl_mul_pow2. Qed.

Lemma dec2 a b : Z.lor (Z.shiftl (Z.land a 0x1F) 6) (Z.land b 0x3F) = (a mod 32) * 64 + b mod 64.
Proof.
  rewrite (land_mask a 0x1F 5), (land_mask b 0x3F 6), shl by (reflexivity || lia).
  change (2^5) with 32. rewrite lor_join; change (2^6) with 64; lia.
Qed.
Lemma dec3 a b c :
  Z.lor (Z.lor (Z.shiftl (Z.land a 0x0F) 12) (Z.shiftl (Z.land b 0x3F) 6)) (Z.land c 0x3F)
  = (a mod 16) * 4096 + (b mod 64) * 64 + c mod 64.
Proof.
  rewrite (land_mask a 0x0F 4), !land63, !shl by (reflexivity || lia).
  change (2^4) with 16.
  rewrite lor_join by (change (2^12) with 4096; change (2^6) with 64; lia).
  change (2^12) with (64 * 2^6).
  replace (a mod 16 * (64 * 2 ^ 6) + b mod 64 * 2 ^ 6) with ((a mod 16 * 64 + b mod 64) * 2^6) by ring.
  rewrite lor_join by (change (2^6) with 64; lia). change (2^6) with 64. lia.
Qed.
Lemma dec4 a b c d :
  Z.lor (Z.lor (Z.lor (Z.shiftl (Z.land a 0x07) 18) (Z.shiftl (Z.land b 0x3F) 12))
               (Z.shiftl (Z.land c 0x3F) 6)) (Z.land d 0x3F)
  = (a mod 8) * 262144 + (b mod 64) * 4096 + (c mod 64) * 64 + d mod 64.
Proof.
  rewrite (land_mask a 0x07 3), !land63, !shl by (reflexivity || lia).
  change (2^3) with 8.
  rewrite lor_join by (change (2^18) with 262144; change (2^12) with 4096; lia).
  replace (a mod 8 * 2^18 + b mod 64 * 2^12) with ((a mod 8 * 64 + b mod 64) * 2^12) by ring.
  rewrite lor_join by (change (2^12) with 4096; change (2^6) with 64; lia).
  replace ((a mod 8 * 64 + b mod 64) * 2^12 + c mod 64 * 2 ^ 6)
    with (((a mod 8 * 64 + b mod 64) * 64 + c mod 64) * 2^6) by ring.
  rewrite lor_join by (change (2^6) with 64; lia). change (2^6) with 64. lia.
Qed.
Lemma dec5 a b c d e :
  Z.lor (Z.lor (Z.lor (Z.lor (Z.shiftl (Z.land a 0x03) 24) (Z.shiftl (Z.land b 0x3F) 18))
               (Z.shiftl (Z.land c 0x3F) 12)) (Z.shiftl (Z.land d 0x3F) 6)) (Z.land e 0x3F)
  = (a mod 4) * 16777216 + (b mod 64) * 262144 + (c mod 64) * 4096 + (d mod 64) * 64 + e mod 64.
Proof.
  rewrite (land_mask a 0x03 2), !land63, !shl by (reflexivity || lia).
  change (2^2) with 4.
  rewrite lor_join by (change (2^24) with 16777216; change (2^18) with 262144; lia).
  replace (a mod 4 * 2^24 + b mod 64 * 2^18) with ((a mod 4 * 64 + b mod 64) * 2^18) by ring.
  rewrite lor_join by (change (2^18) with 262144; change (2^12) with 4096; lia).
  replace ((a mod 4 * 64 + b mod 64) * 2^18 + c mod 64 * 2 ^ 12)
    with (((a mod 4 * 64 + b mod 64) * 64 + c mod 64) * 2^12) by ring.
  rewrite lor_join by (change (2^12) with 4096; change (2^6) with 64; lia).
  replace (((a mod 4 * 64 + b mod 64) * 64 + c mod 64) * 2^12 + d mod 64 * 2 ^ 6)
    with ((((a mod 4 * 64 + b mod 64) * 64 + c mod 64) * 64 + d mod 64) * 2^6) by ring.
  rewrite lor_join by (change (2^6) with 64; lia). change (2^6) with 64. lia.
Qed.
Lemma dec6 a b c d e f :
  Z.lor (Z.lor (Z.lor (Z.lor (Z.lor (Z.shiftl (Z.land a 0x01) 30) (Z.shiftl (Z.land b 0x3F) 24))
               (Z.shiftl (Z.land c 0x3F) 18)) (Z.shiftl (Z.land d 0x3F) 12))
               (Z.shiftl (Z.land e 0x3F) 6)) (Z.land f 0x3F)
  = (a mod 2) * 1073741824 + (b mod 64) * 16777216 + (c mod 64) * 262144
    + (d mod 64) * 4096 + (e mod 64) * 64 + f mod 64.
Proof.
  rewrite (land_mask a 0x01 1), !land63, !shl by (reflexivity || lia).
  change (2^1) with 2.
  rewrite lor_join by (change (2^30) with 1073741824; change (2^24) with 16777216; lia).
  replace (a mod 2 * 2^30 + b mod 64 * 2^24) with ((a mod 2 * 64 + b mod 64) * 2^24) by ring.
  rewrite lor_join by (change (2^18) with 262144; change (2^24) with 16777216; lia).
  replace ((a mod 2 * 64 + b mod 64) * 2^24 + c mod 64 * 2 ^ 18)
    with (((a mod 2 * 64 + b mod 64) * 64 + c mod 64) * 2^18) by ring.
  rewrite lor_join by (change (2^18) with 262144; change (2^12) with 4096; lia).
  replace (((a mod 2 * 64 + b mod 64) * 64 + c mod 64) * 2^18 + d mod 64 * 2 ^ 12)
    with ((((a mod 2 * 64 + b mod 64) * 64 + c mod 64) * 64 + d mod 64) * 2^12) by ring.
  rewrite lor_join by (change (2^12) with 4096; change (2^6) with 64; lia).
  replace ((((a mod 2 * 64 + b mod 64) * 64 + c mod 64) * 64 + d mod 64) * 2^12 + e mod 64 * 2 ^ 6)
    with (((((a mod 2 * 64 + b mod 64) * 64 + c mod 64) * 64 + d mod 64) * 64 + e mod 64) * 2^6) by ring.
  rewrite lor_join by (change (2^6) with 64; lia). change (2^6) with 64. lia.
Qed.

(* A filled window: the cells hold exactly the given units first *)
Definition window (l : list Z) (rest : cells) : cells := map Some l ++ rest.

Lemma rd0 a l r : rd (window (a :: l) r) 0 = Ok a. Proof. reflexivity. Qed.
Lemma rd1 a b l r : rd (window (a :: b :: l) r) 1 = Ok b. Proof. reflexivity. Qed.
Lemma rd2 a b c l r : rd (window (a :: b :: c :: l) r) 2 = Ok c. Proof. reflexivity. Qed.
Lemma rd3 a b c d l r : rd (window (a :: b :: c :: d :: l) r) 3 = Ok d. Proof. reflexivity. Qed.
Lemma rd4 a b c d e l r : rd (window (a :: b :: c :: d :: e :: l) r) 4 = Ok e.
Proof. reflexivity. Qed.
Lemma rd5 a b c d e f l r : rd (window (a :: b :: c :: d :: e :: f :: l) r) 5 = Ok f.
Proof. reflexivity. Qed.

(* Decoding the encoding of c, with anything after it in the window *)
Lemma to32_u8_enc c l rest n :
  representable U8 c = true -> zlen (utf8_units c ++ l) <= n ->
  to32_u8 (window (utf8_units c ++ l) rest) n
  = Ok (Some (c, zlen (utf8_units c))).
Proof.
  unfold representable. intros Hc Hn.
  assert (Hn' : zlen (utf8_units c) <= n).
  { unfold zlen in *. rewrite app_length in Hn. lia. }
  clear Hn. revert Hn'.
  unfold utf8_units, cont, to32_u8. rewrite Z.div_1_r.
  destruct (c <? 0x80) eqn:H1; [|destruct (c <? 0x800) eqn:H2; [|destruct (c <? 0x10000) eqn:H3;
    [|destruct (c <? 0x200000) eqn:H4; [|destruct (c <? 0x4000000) eqn:H5]]]];
  unfold zlen; cbn [length app]; intros Hn.
  - replace (n <=? 0) with false by lia.
    rewrite rd0. cbn [bind].
    rewrite H1. reflexivity.
  - replace (n <=? 0) with false by lia. replace (n <? 2) with false by lia.
    rewrite rd0. cbn [bind].
    replace (0xC0 + c / 64 <? 0x80) with false by lia.
    replace (0xC0 + c / 64 <? 0xE0) with true by lia.
    rewrite rd1. cbn [bind].
    rewrite dec2. do 3 f_equal. lia.
  - change (64^2) with 4096 in *.
    replace (n <=? 0) with false by lia. replace (n <? 3) with false by lia.
    rewrite rd0. cbn [bind].
    replace (0xE0 + c / 4096 <? 0x80) with false by lia.
    replace (0xE0 + c / 4096 <? 0xE0) with false by lia.
    replace (0xE0 + c / 4096 <? 0xF0) with true by lia.
    rewrite rd1. cbn [bind].
    rewrite rd2. cbn [bind].
    rewrite dec3. do 3 f_equal. lia.
  - change (64^2) with 4096 in *. change (64^3) with 262144 in *.
    replace (n <=? 0) with false by lia. replace (n <? 4) with false by lia.
    rewrite rd0. cbn [bind].
    replace (0xF0 + c / 262144 <? 0x80) with false by lia.
    replace (0xF0 + c / 262144 <? 0xE0) with false by lia.
    replace (0xF0 + c / 262144 <? 0xF0) with false by lia.
    replace (0xF0 + c / 262144 <? 0xF8) with true by lia.
    rewrite rd1. cbn [bind].
    rewrite rd2. cbn [bind].
    rewrite rd3. cbn [bind].
    rewrite dec4. do 3 f_equal. lia.
  - change (64^2) with 4096 in *. change (64^3) with 262144 in *. change (64^4) with 16777216 in *.
    replace (n <=? 0) with false by lia. replace (n <? 5) with false by lia.
    rewrite rd0. cbn [bind].
    replace (0xF8 + c / 16777216 <? 0x80) with false by lia.
    replace (0xF8 + c / 16777216 <? 0xE0) with false by lia.
    replace (0xF8 + c / 16777216 <? 0xF0) with false by lia.
    replace (0xF8 + c / 16777216 <? 0xF8) with false by lia.
    replace (0xF8 + c / 16777216 <? 0xFC) with true by lia.
    rewrite rd1. cbn [bind].
    rewrite rd2. cbn [bind].
    rewrite rd3. cbn [bind].
    rewrite rd4. cbn [bind].
    rewrite dec5. do 3 f_equal. lia.
  - change (64^2) with 4096 in *. change (64^3) with 262144 in *. change (64^4) with 16777216 in *.
    change (64^5) with 1073741824 in *.
    replace (n <=? 0) with false by lia. replace (n <? 6) with false by lia.
    rewrite rd0. cbn [bind].
    replace (0xFC + c / 1073741824 <? 0x80) with false by lia.
    replace (0xFC + c / 1073741824 <? 0xE0) with false by lia.
    replace (0xFC + c / 1073741824 <? 0xF0) with false by lia.
    replace (0xFC + c / 1073741824 <? 0xF8) with false by lia.
    replace (0xFC + c / 1073741824 <? 0xFC) with false by lia.
    rewrite rd1. cbn [bind].
    rewrite rd2. cbn [bind].
    rewrite rd3. cbn [bind].
    rewrite rd4. cbn [bind].
    rewrite rd5. cbn [bind].
    rewrite dec6. do 3 f_equal. lia.
Qed.

Lemma land_high a b k : 0 <= k -> Z.land a (b * 2 ^ k) = Z.land (a / 2 ^ k) b * 2 ^ k.
Proof.
  intros Hk. apply Z.bits_inj'. intros n Hn. rewrite Z.land_spec.
  destruct (Z.ltb_spec n k) as [H|H].
  - rewrite !Z.mul_pow2_bits_low by lia. apply andb_false_r.
  - replace n with (k + (n - k)) by ring.
    rewrite <- (Z.shiftl_mul_pow2 b) , <- (Z.shiftl_mul_pow2 (Z.land _ _)) by lia.
    rewrite !Z.shiftl_spec by lia.
    replace (k + (n - k) - k) with (n - k) by ring.
    rewrite Z.land_spec, <- Z.shiftr_div_pow2, Z.shiftr_spec by lia.
    f_equal. f_equal. ring.
Qed.

Lemma land_fc00 a : 0 <= a < 0x10000 -> Z.land a 0xFC00 = a / 1024 * 1024.
Proof.
  intros Ha. change 0xFC00 with (63 * 2 ^ 10). rewrite land_high by lia.
  change (2^10) with 1024. rewrite land63. rewrite Z.mod_small by lia. reflexivity.
Qed.

Lemma is_high_fc00 a : 0 <= a < 0x10000 ->
  (Z.land a 0xFC00 =? 0xD800) = high_surrogate a.
Proof. intros Ha. rewrite land_fc00 by assumption. unfold high_surrogate. lia. Qed.
Lemma is_low_fc00 a : 0 <= a < 0x10000 ->
  (Z.land a 0xFC00 =? 0xDC00) = low_surrogate a.
Proof. intros Ha. rewrite land_fc00 by assumption. unfold low_surrogate. lia. Qed.

Lemma dec16 a b :
  Z.lor (Z.shiftl (Z.land a 0x3FF) 10) (Z.land b 0x3FF) = (a mod 1024) * 1024 + b mod 1024.
Proof.
  rewrite (land_mask a 0x3FF 10), (land_mask b 0x3FF 10), shl by (reflexivity || lia).
  change (2^10) with 1024. change 1024 with (2^10) at 2. rewrite lor_join.
  - reflexivity.
  - lia.
  - change (2^10) with 1024. lia.
Qed.

Lemma from32_u16_spec c :
  0 <= c ->
  from32_u16 c = if representable U16 c then Some (utf16_units c) else None.
Proof.
  intros Hc. unfold from32_u16, is_invalid, representable, utf16_units.
  destruct ((0xD800 <=? c) && (c <=? 0xDFFF)) eqn:Hi.
  { cbn [negb]. rewrite andb_false_r. reflexivity. }
  replace (0 <=? c) with true by lia. cbn [negb andb]. rewrite andb_true_r.
  unfold u16.
  destruct (c <=? 0xD7FF) eqn:H1.
  { replace (c <=? 0x10FFFF) with true by lia. replace (c <? 0x10000) with true by lia.
    rewrite Z.mod_small by lia. reflexivity. }
  destruct ((0xE000 <=? c) && (c <=? 0xFFFF)) eqn:H2.
  { replace (c <=? 0x10FFFF) with true by lia. replace (c <? 0x10000) with true by lia.
    rewrite Z.mod_small by lia. reflexivity. }
  replace (0x10000 <=? c) with true by lia. cbn [andb].
  replace (c <? 0x10000) with false by lia.
  destruct (c <=? 0x10FFFF) eqn:H3; [|reflexivity].
  rewrite shiftr_div by lia. change (2^10) with 1024. change 0x400 with 1024.
  rewrite (lor_tag _ 0xD800 54 10) by (try reflexivity; try change (2^10) with 1024; lia).
  rewrite (land_mask _ 0x3FF 10) by (reflexivity || lia). change (2^10) with 1024.
  rewrite (lor_tag _ 0xDC00 55 10) by (try reflexivity; try change (2^10) with 1024; lia).
  rewrite !Z.mod_small by lia. f_equal. f_equal; [lia|]. f_equal. lia.
Qed.

Lemma to32_u16_enc c l rest n :
  representable U16 c = true -> zlen (utf16_units c ++ l) <= n ->
  to32_u16 (window (utf16_units c ++ l) rest) n
  = Ok (Some (c, zlen (utf16_units c))).
Proof.
  unfold representable. intros Hc Hn.
  assert (Hn' : zlen (utf16_units c) <= n).
  { unfold zlen in *. rewrite app_length in Hn. lia. }
  clear Hn. revert Hn'. unfold utf16_units, to32_u16, is_invalid.
  destruct (c <? 0x10000) eqn:H1; unfold zlen; cbn [length app]; intros Hn.
  - replace (n <=? 0) with false by lia. rewrite rd0. cbn [bind].
    rewrite is_high_fc00 by lia. unfold high_surrogate.
    replace ((0xD800 <=? c) && (c <=? 0xDBFF)) with false by lia.
    replace ((0xD800 <=? c) && (c <=? 0xDFFF)) with false by lia. reflexivity.
  - change 0x400 with 1024. replace (n <=? 0) with false by lia. replace (n <? 2) with false by lia.
    rewrite rd0. cbn [bind]. rewrite is_high_fc00 by lia. unfold high_surrogate.
    match goal with |- context [if ?b then _ else _] => replace b with true by lia end.
    rewrite rd1. cbn [bind]. rewrite is_low_fc00 by lia. unfold low_surrogate.
    match goal with |- context [if ?b then _ else _] => replace b with true by lia end.
    rewrite dec16.
    match goal with |- context [(?a + ?b, 2)] => replace (a + b) with c by lia end.
    match goal with |- context [if ?b then _ else _] => replace b with false by lia end.
    reflexivity.
Qed.

(* byte swap *)
Lemma swap16_byteswap x : 0 <= x < 0x10000 -> swap16 x = byteswap x.
Proof.
  intros Hx. unfold swap16, byteswap.
  rewrite (land_mask x 0xFF 8), shl, shiftr_div by (reflexivity || lia).
  rewrite lor_join by (change (2^8) with 256; lia). reflexivity.
Qed.

Lemma byteswap_range x : 0 <= x < 0x10000 -> 0 <= byteswap x < 0x10000.
Proof. unfold byteswap. lia. Qed.
Lemma byteswap_invol x : 0 <= x < 0x10000 -> byteswap (byteswap x) = x.
Proof. unfold byteswap. lia. Qed.
Lemma swap16_invol x : 0 <= x < 0x10000 -> swap16 (swap16 x) = x.
Proof.
  intros H. rewrite (swap16_byteswap x), swap16_byteswap by (try apply byteswap_range; lia).
  now apply byteswap_invol.
Qed.

Lemma utf16_units_range c : representable U16 c = true ->
  Forall (fun x => 0 <= x < 0x10000) (utf16_units c).
Proof.
  unfold representable, utf16_units. intros H.
  destruct (c <? 0x10000) eqn:E; repeat constructor; try lia.
Qed.

Lemma from32_u16be_spec g0 g1 c :
  0 <= c ->
  from32_u16be g0 g1 c
  = if representable U16BE c then Some (map byteswap (utf16_units c)) else None.
Proof.
  intros Hc. unfold from32_u16be, from32_u16be_raw. rewrite from32_u16_spec by assumption.
  change (representable U16BE c) with (representable U16 c).
  destruct (representable U16 c) eqn:E; [|reflexivity].
  pose proof (utf16_units_range c E) as Hr. unfold utf16_units in *.
  destruct (c <? 0x10000); cbn [map].
  - inversion_clear Hr. rewrite swap16_byteswap by assumption. reflexivity.
  - revert Hr.
    generalize (0xD800 + (c - 0x10000) / 0x400), (0xDC00 + (c - 0x10000) mod 0x400).
    intros a b Hr. inversion_clear Hr as [|? ? Ha Hb]. inversion_clear Hb.
    rewrite !swap16_byteswap by assumption. reflexivity.
Qed.

Definition in_range (u : utf) (x : Z) : Prop := 0 <= x < unit_bound u.

(* Decoding through the big-endian converter = decoding the swapped units; the
   indeterminate locals are never looked at. *)
Lemma to32_u16be_swap g0 g1 l rest :
  l <> [] -> zlen l <= 2 -> Forall (in_range U16BE) l ->
  to32_u16be g0 g1 (window l rest) (zlen l)
  = to32_u16 (window (map byteswap l) []) (zlen l).
Proof.
  intros Hne Hlen Hr. unfold zlen, in_range in *. cbn [unit_bound] in Hr.
  destruct l as [|a [|b [|c l]]]; [congruence| | |cbn [length] in Hlen; lia]; clear Hne Hlen.
  - inversion_clear Hr. unfold to32_u16be. cbn [length]. cbn [Z.of_nat Pos.of_succ_nat].
    change (1 >=? 1) with true. change (1 >=? 2) with false. cbn [map].
    rewrite rd0. cbn [bind]. unfold to32_u16. change (1 <=? 0) with false. cbn [rd znth].
    rewrite rd0. rewrite <- swap16_byteswap by assumption.
    change (1 <? 2) with true. reflexivity.
  - inversion_clear Hr as [|? ? Ha Hb]. inversion_clear Hb. unfold to32_u16be. cbn [length].
    change (Z.of_nat 2) with 2.
    change (2 >=? 1) with true. change (2 >=? 2) with true.
    rewrite rd0, rd1. cbn [bind]. cbn [map].
    rewrite <- !swap16_byteswap by assumption. reflexivity.
Qed.

Lemma to32_u16be_enc g0 g1 c rest :
  representable U16BE c = true ->
  to32_u16be g0 g1 (window (map byteswap (utf16_units c)) rest) (zlen (utf16_units c))
  = Ok (Some (c, zlen (utf16_units c))).
Proof.
  intros Hc. change (representable U16 c = true) in Hc.
  pose proof (utf16_units_range c Hc) as Hr.
  assert (Hlen : zlen (map byteswap (utf16_units c)) = zlen (utf16_units c)).
  { unfold zlen. now rewrite map_length. }
  rewrite <- Hlen at 1.
  rewrite to32_u16be_swap.
  - assert (Hm : map byteswap (map byteswap (utf16_units c)) = utf16_units c).
    { rewrite map_map. rewrite <- (map_id (utf16_units c)) at 2.
      apply map_ext_in. intros x Hx. rewrite Forall_forall in Hr. apply byteswap_invol, Hr, Hx. }
    rewrite Hm, Hlen. rewrite <- (app_nil_r (utf16_units c)) at 1.
    apply to32_u16_enc; [assumption|]. rewrite app_nil_r. lia.
  - unfold utf16_units. destruct (c <? 0x10000); discriminate.
  - rewrite Hlen. unfold utf16_units, zlen. destruct (c <? 0x10000); cbn; lia.
  - apply Forall_map. eapply Forall_impl; [|exact Hr]. intros x Hx.
    unfold in_range. cbn [unit_bound]. apply byteswap_range, Hx.
Qed.
