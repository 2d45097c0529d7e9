(* Property C14: integers to text and back. *)
From Coq Require Import ZifyBool.
From Verif Require Import Base NumModel NumSpec NumProofs.
Open Scope Z_scope.

(* the C locale's isspace *)
Definition c_space (c : Z) : bool := ((9 <=? c) && (c <=? 13) || (c =? 32))%Z.
Example c_space_sane : sane c_space.
Proof. split; [reflexivity|]. unfold digit, c_space. intros c H. lia. Qed.

(* Printing gives the canonical numeral, which fits the 100 character buffer. *)
Theorem C14_printing : forall z,
  (- 2 ^ 63 <= z < 2 ^ 63 -> numeral (i64toa z) z) /\ (0 <= z < 2 ^ 64 -> numeral (u64toa z) z).
Proof. exact prints. Qed.
Print Assumptions C14_printing.
Example C14_printing_case : i64toa (- 2 ^ 63) = [45; 57; 50; 50; 51; 51; 55; 50; 48; 51; 54; 56; 53; 52; 55; 55; 53; 56; 48; 56].
Proof. vm_compute. reflexivity. Qed.
Theorem C14_buffer_suffices : forall z,
  (- 2 ^ 63 <= z < 2 ^ 63 -> (length (i64toa z) < 99)%nat) /\
  (0 <= z < 2 ^ 64 -> (length (u64toa z) < 99)%nat).
Proof. exact print_fits. Qed.
Print Assumptions C14_buffer_suffices.

(* Parsing: for every character string and whatever counts as a blank. *)
Theorem C14_parsing : forall space, sane space ->
  parser_ok (atoi_test space) (atoi space) (- 2 ^ 31) (2 ^ 31) /\
  parser_ok (atoi64_test space) (atoi64 space) (- 2 ^ 63) (2 ^ 63) /\
  parser_ok (atou_test space) (atou space) 0 (2 ^ 32) /\
  parser_ok (atou64_test space) (atou64 space) 0 (2 ^ 64).
Proof. exact parsers. Qed.
Print Assumptions C14_parsing.
Example C14_parsing_cases :
  atoi_test c_space [45; 49; 50] = (-12, true) /\ snd (atoi_test c_space [32; 49]) = false /\
  snd (atoi_test c_space [43; 49]) = false /\ snd (atoi_test c_space [48; 49]) = false /\
  snd (atoi_test c_space []) = false /\ snd (atoi_test c_space [49; 0]) = false /\
  snd (atou_test c_space [45; 49]) = false.
Proof. vm_compute. repeat split; reflexivity. Qed.

Theorem C14_round_trip_i64 : forall space z, sane space -> - 2 ^ 63 <= z < 2 ^ 63 ->
  atoi64_test space (i64toa z) = (z, true) /\ atoi64 space (i64toa z) = z.
Proof. exact round_trip_i64. Qed.
Print Assumptions C14_round_trip_i64.
Theorem C14_round_trip_u64 : forall space z, sane space -> 0 <= z < 2 ^ 64 ->
  atou64_test space (u64toa z) = (z, true) /\ atou64 space (u64toa z) = z.
Proof. exact round_trip_u64. Qed.
Print Assumptions C14_round_trip_u64.

(* itoa and utoa take a 64-bit vint / vuint, but atoi and atou accept 32-bit values only *)
Theorem C14_round_trip_i32_partial : forall space z, sane space -> - 2 ^ 31 <= z < 2 ^ 31 ->
  atoi_test space (i64toa z) = (z, true) /\ atoi space (i64toa z) = z.
Proof. exact round_trip_i32. Qed.
Print Assumptions C14_round_trip_i32_partial.
Theorem C14_round_trip_u32_partial : forall space z, sane space -> 0 <= z < 2 ^ 32 ->
  atou_test space (u64toa z) = (z, true) /\ atou space (u64toa z) = z.
Proof. exact round_trip_u32. Qed.
Print Assumptions C14_round_trip_u32_partial.
(* so atoi(itoa(n)) is 0 for every other vint *)
Theorem C14_vint_round_trip_refuted : forall space z, sane space ->
  - 2 ^ 63 <= z < 2 ^ 63 -> ~ (- 2 ^ 31 <= z < 2 ^ 31) -> atoi space (i64toa z) = 0.
Proof. exact itoa_atoi_fails. Qed.
Print Assumptions C14_vint_round_trip_refuted.

Theorem C14_numeral_unique : forall s z z', numeral s z -> numeral s z' -> z = z'.
Proof. exact numeral_unique. Qed.
Print Assumptions C14_numeral_unique.

(* What the functions that report success return besides: the number the text begins with, behind blanks and a sign,
   whether the text is accepted or not.  It saturates for the signed functions (at 64 bits, also for 32 bits); the
   unsigned functions take a negative number modulo 2^64. *)
Theorem C14_value_read : forall space blanks g ds rest, sane space -> space 43 = false ->
  Forall (fun c => space c = true /\ c <> 0) blanks -> ds <> [] -> Forall digit ds -> stops rest ->
  let s := blanks ++ sign_chars g ++ ds ++ rest in
  fst (atoi_test space s) = saturated g (value ds) (- 2 ^ 63) (2 ^ 63 - 1) /\
  fst (atoi64_test space s) = saturated g (value ds) (- 2 ^ 63) (2 ^ 63 - 1) /\
  (value ds < 2 ^ 64 -> fst (atou_test space s) = (match g with Minus => - value ds | _ => value ds end) mod 2 ^ 64) /\
  (value ds < 2 ^ 64 -> fst (atou64_test space s) = (match g with Minus => - value ds | _ => value ds end) mod 2 ^ 64) /\
  (2 ^ 64 <= value ds -> fst (atou_test space s) = 2 ^ 64 - 1 /\ fst (atou64_test space s) = 2 ^ 64 - 1).
Proof. exact read_value. Qed.
Print Assumptions C14_value_read.
(* A text that does not begin with a number gives 0 and no success. *)
Theorem C14_nothing_read : forall space blanks g rest, sane space -> space 43 = false -> Forall (fun c => space c = true /\ c <> 0) blanks ->
  (forall c r, rest = c :: r -> ~ digit c /\ space c = false /\ c <> 45 /\ c <> 43) ->
  let s := blanks ++ sign_chars g ++ rest in
  atoi_test space s = (0, false) /\ atoi64_test space s = (0, false) /\ atou_test space s = (0, false) /\ atou64_test space s = (0, false).
Proof. exact read_nothing. Qed.
Print Assumptions C14_nothing_read.
Example C14_value_read_case : atoi_test c_space [32; 43; 52; 50; 120] = (42, false) /\ atou_test c_space [45; 49] = (2 ^ 64 - 1, false) /\
  atoi_test c_space [32; 45; 120] = (0, false).
Proof. vm_compute. repeat split; reflexivity. Qed.
