(* Integers to text and back: Source/Strings/String.cpp, 64-bit non-Windows build *)
From Verif Require Import Base.
Open Scope Z_scope.

(* The characters of sprintf("%lu", n): most significant digit first.  [fuel] bounds the
   number of digits; 20 are enough for every 64-bit value (NumProofs.udigits_enough). *)
Fixpoint udigits (fuel : nat) (n : Z) : list Z :=
  match fuel with
  | O => []
  | S f => (if n <? 10 then [] else udigits f (n / 10)) ++ [48 + n mod 10]
  end.

(* _i64toa_s / _i64tow_s with "%ld" : String.cpp:39-47; ITOA_S and I64TOA_S are both
   _i64toa_s in a 64-bit build (Basic.h:138-156), so itoa, itow, i64toa, i64tow
   (String.cpp:279-305) are this function.  The 100 character buffer is checked in
   NumProofs.print_length. *)
Definition i64toa (z : Z) : list Z :=
  if z <? 0 then 45 :: udigits 20 (- z) else udigits 20 z.

(* _ui64toa_s / _ui64tow_s with "%lu" : String.cpp:59-67; utoa, utow, u64toa, u64tow
   (String.cpp:307-333) *)
Definition u64toa (z : Z) : list Z := udigits 20 z.

Section Locale.
  (* isspace / iswspace of the C library *)
  Variable space : Z -> bool.

  (* C library strtol/strtoll/wcstol/wcstoll/strtoul/... in base 10 on the characters
     before the first zero: the number of leading blanks, a sign, the digits; the
     result of reading the digits is the exact integer, to be clamped by the caller;
     the position returned is that of endptr, 0 if there are no digits. *)
  Fixpoint skip_spaces (s : list Z) : Z * list Z :=
    match s with
    | c :: s' => if space c then let '(k, r) := skip_spaces s' in (k + 1, r) else (0, s)
    | [] => (0, [])
    end.
  Definition isdigit (c : Z) : bool := (48 <=? c) && (c <=? 57).
  Fixpoint read_digits (acc : Z) (s : list Z) : Z * Z :=
    match s with
    | c :: s' => if isdigit c then let '(v, k) := read_digits (10 * acc + (c - 48)) s' in (v, k + 1)
                 else (acc, 0)
    | [] => (acc, 0)
    end.
  Definition read_sign (s : list Z) : bool * Z * list Z :=
    match s with
    | 45 :: s' => (true, 1, s')
    | 43 :: s' => (false, 1, s')
    | _ => (false, 0, s)
    end.
  Definition strto (clamp : bool -> Z -> Z) (s : list Z) : Z * Z :=
    let '(k1, s1) := skip_spaces s in
    let '(neg, k2, s2) := read_sign s1 in
    let '(v, k3) := read_digits 0 s2 in
    if k3 =? 0 then (0, 0) else (clamp neg v, k1 + k2 + k3).

  (* strtol and friends saturate; strtoul saturates, then negates modulo 2^64 *)
  Definition clamp_signed (neg : bool) (v : Z) : Z :=
    if neg then Z.max (- v) (- 2 ^ 63) else Z.min v (2 ^ 63 - 1).
  Definition clamp_unsigned (neg : bool) (v : Z) : Z :=
    if v >? 2 ^ 64 - 1 then 2 ^ 64 - 1 else if neg then (- v) mod 2 ^ 64 else v.

  (* the C string at Buffer(): the characters up to the first zero *)
  Fixpoint c_str (s : list Z) : list Z :=
    match s with c :: s' => if c =? 0 then [] else c :: c_str s' | [] => [] end.

  Fixpoint str_eqb (a b : list Z) : bool :=
    match a, b with
    | [], [] => true
    | x :: a', y :: b' => (x =? y) && str_eqb a' b'
    | _, _ => false
    end.

  (* atoi_test, wtoi_test : String.cpp:125-141 *)
  Definition atoi_test (s : list Z) : Z * bool :=
    let '(r, e) := strto clamp_signed (c_str s) in
    let success := (e =? zlen s) && str_eqb (i64toa r) s in
    (r, if success then (- 2 ^ 31 <=? r) && (r <=? 2 ^ 31 - 1) else false).
  (* atoi64_test, wtoi64_test : String.cpp:143-157 *)
  Definition atoi64_test (s : list Z) : Z * bool :=
    let '(r, e) := strto clamp_signed (c_str s) in
    (r, (e =? zlen s) && str_eqb (i64toa r) s).
  (* atou_test, wtou_test : String.cpp:159-175 *)
  Definition atou_test (s : list Z) : Z * bool :=
    let '(r, e) := strto clamp_unsigned (c_str s) in
    let success := (e =? zlen s) && str_eqb (u64toa r) s in
    (r, if success then r <=? 2 ^ 32 - 1 else false).
  (* atou64_test, wtou64_test : String.cpp:177-191 *)
  Definition atou64_test (s : list Z) : Z * bool :=
    let '(r, e) := strto clamp_unsigned (c_str s) in
    (r, (e =? zlen s) && str_eqb (u64toa r) s).

  (* atoi ... wtou64 : String.cpp:209-263 *)
  Definition orzero (r : Z * bool) : Z := if snd r then fst r else 0.
  Definition atoi s := orzero (atoi_test s).
  Definition atoi64 s := orzero (atoi64_test s).
  Definition atou s := orzero (atou_test s).
  Definition atou64 s := orzero (atou64_test s).
End Locale.
