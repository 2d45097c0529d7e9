(* C59: floating point numbers as text (Source/Strings/String.cpp: ftoa, ftow, atof_test, wtof_test, atof, wtof), Linux *)
From Verif Require Import Base NumModel NumSpec FltModel FltSpec FltProofs.
Open Scope Z_scope.

(* ftoa never leaves its buffer of 320 and gives the shortest decimal form of the closest multiple of a millionth *)
Theorem C59_text : forall b x, is_double x -> length b = 320%nat ->
  match x with
  | Fin neg v => exists t n, ftoa 46 b x = Ok t /\ decimal t neg n /\ closest n v
  | Inf neg => ftoa 46 b x = Ok ((if neg then [45] else []) ++ [105; 110; 102])
  | Nan neg => ftoa 46 b x = Ok ((if neg then [45] else []) ++ [110; 97; 110])
  end.
Proof. exact text. Qed.
Print Assumptions C59_text.
(* the form says which number is meant, and there is one form for each number *)
Theorem C59_form : (forall t neg n neg' n', decimal t neg n -> decimal t neg' n' -> neg = neg' /\ n = n') /\
  (forall t t' neg n, decimal t neg n -> decimal t' neg n -> t = t').
Proof. exact (conj decimal_unique decimal_determined). Qed.
Print Assumptions C59_form.
(* numbers more than a millionth apart, or of different sign, have different texts *)
Theorem C59_resolution : forall b b' neg v neg' v' t, magnitude v -> magnitude v' -> length b = 320%nat -> length b' = 320%nat ->
  ftoa 46 b (Fin neg v) = Ok t -> ftoa 46 b' (Fin neg' v') = Ok t -> neg = neg' /\ Z.abs (v - v') * 10 ^ 6 <= unit.
Proof. exact same_text. Qed.
Print Assumptions C59_resolution.
Theorem C59_monotone : forall b b' neg v v', magnitude v -> magnitude v' -> v <= v' -> length b = 320%nat -> length b' = 320%nat ->
  exists t n t' n', ftoa 46 b (Fin neg v) = Ok t /\ decimal t neg n /\ ftoa 46 b' (Fin neg v') = Ok t' /\ decimal t' neg n' /\ n <= n'.
Proof. exact monotone. Qed.
Print Assumptions C59_monotone.
(* an integral number looks like the integer *)
Theorem C59_integers : forall b z, - 2 ^ 63 <= z < 2 ^ 63 -> magnitude (Z.abs z * unit) -> length b = 320%nat ->
  ftoa 46 b (Fin (z <? 0) (Z.abs z * unit)) = Ok (i64toa z).
Proof. exact integers. Qed.
Print Assumptions C59_integers.
(* atof(ftoa(x)) = x exactly for the numbers that can be written with six digits after the point (up to ties), among them all
   multiples of a millionth and everything from 2^33 on *)
Theorem C59_round_trip : forall strtod b x, is_double x -> writable x -> length b = 320%nat -> reads_decimals strtod -> reads_infinity strtod ->
  exists t, ftoa 46 b x = Ok t /\ atof_test strtod t = (x, true) /\ atof strtod t = x.
Proof. exact flt_round_trip. Qed.
Print Assumptions C59_round_trip.
Theorem C59_round_trip_only : forall strtod b neg v t, magnitude v -> length b = 320%nat -> reads_decimals strtod ->
  ftoa 46 b (Fin neg v) = Ok t -> atof strtod t = Fin neg v ->
  exists n, 0 <= n /\ forall w, magnitude w -> Z.abs (n * unit - v * 10 ^ 6) <= Z.abs (n * unit - w * 10 ^ 6).
Proof. exact flt_only. Qed.
Print Assumptions C59_round_trip_only.
Theorem C59_writable : forall neg v, magnitude v -> ((exists n, n * unit = v * 10 ^ 6) \/ 2 ^ 33 * unit <= v) -> writable (Fin neg v).
Proof. exact many_writable. Qed.
Print Assumptions C59_writable.
(* ftoa(atof(t)) = t for shortest decimal forms below 2^33 *)
Theorem C59_text_round_trip : forall strtod b t neg n, decimal t neg n -> n < 2 ^ 33 * 10 ^ 6 -> length b = 320%nat -> reads_decimals strtod ->
  ftoa 46 b (atof strtod t) = Ok t.
Proof. exact flt_text_round_trip. Qed.
Print Assumptions C59_text_round_trip.
(* the bound is sharp: two numbers between 2^32 and 2^33 with one text *)
Theorem C59_round_trip_refuted :
  magnitude (4503599627370506 * 2 ^ 1054) /\ magnitude (4503599627370507 * 2 ^ 1054) /\ 2 ^ 32 * unit <= 4503599627370506 * 2 ^ 1054 /\
  ftoa 46 (repeat 7 320) (Fin false (4503599627370506 * 2 ^ 1054)) = ftoa 46 (repeat 7 320) (Fin false (4503599627370507 * 2 ^ 1054)).
Proof. exact two_numbers. Qed.
Print Assumptions C59_round_trip_refuted.
(* and small numbers vanish: 1e-7 and -1e-7 *)
Theorem C59_small_refuted : magnitude (7555786372591432 * 2 ^ 998) /\
  ftoa 46 (repeat 7 320) (Fin false (7555786372591432 * 2 ^ 998)) = Ok [48] /\ ftoa 46 (repeat 7 320) (Fin true (7555786372591432 * 2 ^ 998)) = Ok [45; 48].
Proof. exact small_number. Qed.
Print Assumptions C59_small_refuted.
(* where the decimal point is a comma nothing is shortened: 1.5 gives "1,500000" *)
Theorem C59_comma_refuted : ftoa 44 (repeat 7 320) (Fin false (3 * 2 ^ 1073)) = Ok [49; 44; 53; 48; 48; 48; 48; 48].
Proof. exact comma. Qed.
Print Assumptions C59_comma_refuted.
(* parsing: all of the text must be consumed, otherwise the result is 0 *)
Theorem C59_parse : forall strtod s r e, strtod (c_str s) = (r, e) ->
  (atof_test strtod s = (r, true) <-> e = zlen s) /\ atof strtod s = if e =? zlen s then r else Fin false 0.
Proof. exact flt_parse. Qed.
Print Assumptions C59_parse.
Theorem C59_embedded_zero : forall strtod s, In 0 s -> (forall t, 0 <= snd (strtod t) <= zlen t) ->
  snd (atof_test strtod s) = false /\ atof strtod s = Fin false 0.
Proof. exact flt_zero. Qed.
Print Assumptions C59_embedded_zero.
(* the empty text is accepted, unlike by atoi_test *)
Theorem C59_empty_refuted : forall strtod, (forall t, 0 <= snd (strtod t) <= zlen t) -> snd (atof_test strtod []) = true.
Proof. exact flt_empty. Qed.
Print Assumptions C59_empty_refuted.
Theorem C59_wide : forall dec b x, is_double x -> length b = 320%nat -> (forall c rest, 0 < c < 128 -> dec (c :: rest) = Some (c, 1%nat)) ->
  ftow dec 46 b x = ftoa 46 b x.
Proof. exact wide. Qed.
Print Assumptions C59_wide.

(* -1.5, 0.1, 2^1023 * (2 - 2^-52) *)
Example C59_case : is_double (Fin true (3 * 2 ^ 1073)) /\ ftoa 46 (repeat 7 320) (Fin true (3 * 2 ^ 1073)) = Ok [45; 49; 46; 53] /\
  magnitude (7205759403792794 * 2 ^ 1018) /\ ftoa 46 (repeat 7 320) (Fin false (7205759403792794 * 2 ^ 1018)) = Ok [48; 46; 49] /\
  magnitude largest /\ exists t, ftoa 46 (repeat 7 320) (Fin true largest) = Ok t /\ zlen t = 310.
Proof. exact cases. Qed.
(* the buffer of 320 is big enough, one of 317 is not *)
Example C59_buffer : ftoa 46 (repeat 7 318) (Fin true largest) = ftoa 46 (repeat 7 320) (Fin true largest) /\ ftoa 46 (repeat 7 317) (Fin true largest) = UB.
Proof. exact sizes. Qed.
(* a strtod that reads decimals as required exists *)
Example C59_strtod : reads_decimals simple_strtod /\ reads_infinity simple_strtod /\ writable (Fin true (3 * 2 ^ 1073)) /\
  (forall t, 0 <= snd (simple_strtod t) <= zlen t).
Proof. exact simple_ok. Qed.
