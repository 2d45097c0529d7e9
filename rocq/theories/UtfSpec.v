(* What the Unicode standard / RFC 3629 say, written with div and mod only and
   without reference to the model's functions (only the names of the encodings are
   shared); then drivers that run a reader and collect what it reports. *)
From Coq Require Import ZArith List Bool.
From Verif Require Import Base UtfModel.
Import ListNotations.
Open Scope Z_scope.

(* Unicode scalar value *)
Definition scalar (c : Z) : Prop :=
  0 <= c <= 0x10FFFF /\ ~ (0xD800 <= c <= 0xDFFF).

(* Continuation byte carrying the six bits of c starting at weight w *)
Definition cont (c w : Z) : Z := 0x80 + (c / w) mod 64.

(* RFC 3629 section 3 (rows 1-4); rows 5-6 are the original RFC 2279 forms *)
Definition utf8_units (c : Z) : list Z :=
  if c <? 0x80 then [c]
  else if c <? 0x800 then [0xC0 + c / 64; cont c 1]
  else if c <? 0x10000 then [0xE0 + c / 64^2; cont c 64; cont c 1]
  else if c <? 0x200000 then [0xF0 + c / 64^3; cont c (64^2); cont c 64; cont c 1]
  else if c <? 0x4000000 then
    [0xF8 + c / 64^4; cont c (64^3); cont c (64^2); cont c 64; cont c 1]
  else
    [0xFC + c / 64^5; cont c (64^4); cont c (64^3); cont c (64^2); cont c 64; cont c 1].

(* The Unicode standard, table 3-5 *)
Definition utf16_units (c : Z) : list Z :=
  if c <? 0x10000 then [c]
  else [0xD800 + (c - 0x10000) / 0x400; 0xDC00 + (c - 0x10000) mod 0x400].

Definition byteswap (x : Z) : Z := (x mod 256) * 256 + x / 256.

(* The units of code point c in encoding u *)
Definition units (u : utf) (c : Z) : list Z :=
  match u with
  | W | U32 => [c]
  | U8 => utf8_units c
  | U16 => utf16_units c
  | U16BE => map byteswap (utf16_units c)
  end.

(* The values each encoding can carry: 32 bits in a wchar_t/char32_t, the 31-bit
   range without surrogates in the six-byte UTF-8 scheme, scalar values in UTF-16 *)
Definition representable (u : utf) (c : Z) : bool :=
  match u with
  | W | U32 => (0 <=? c) && (c <? 0x100000000)
  | U8 => (0 <=? c) && (c <? 0x80000000) && negb ((0xD800 <=? c) && (c <=? 0xDFFF))
  | U16 | U16BE =>
      (0 <=? c) && (c <=? 0x10FFFF) && negb ((0xD800 <=? c) && (c <=? 0xDFFF))
  end.

(* The number of values of one unit *)
Definition unit_bound (u : utf) : Z :=
  match u with W | U32 => 0x100000000 | U8 => 0x100 | U16 | U16BE => 0x10000 end.

(* Longest prefix of l all of whose elements satisfy p *)
Fixpoint take_while (p : Z -> bool) (l : list Z) : list Z :=
  match l with
  | [] => []
  | x :: l' => if p x then x :: take_while p l' else []
  end.

Definition high_surrogate (x : Z) : bool := (0xD800 <=? x) && (x <=? 0xDBFF).
Definition low_surrogate (x : Z) : bool := (0xDC00 <=? x) && (x <=? 0xDFFF).

(* The code points of the longest well formed UTF-16 prefix of a unit sequence *)
Fixpoint utf16_prefix (l : list Z) : list Z :=
  match l with
  | [] => []
  | a :: l' =>
      if high_surrogate a then
        match l' with
        | b :: l'' =>
            if low_surrogate b
            then (0x10000 + (a - 0xD800) * 0x400 + (b - 0xDC00)) :: utf16_prefix l''
            else []
        | [] => []
        end
      else if low_surrogate a then []
      else a :: utf16_prefix l'
  end.

(* Well formed UTF-8 sequence (the Unicode standard, D92): the encoding of some
   sequence of scalar values *)
Definition utf8_well_formed (l : list Z) : Prop :=
  exists cps, Forall scalar cps /\ l = flat_map utf8_units cps.

(* A code point that can occur inside a zero terminated string of encoding u *)
Definition usable (u : utf) (c : Z) : bool := negb (c =? 0) && representable u c.


(* The number of bytes a UTF-8 lead byte announces (the decoder's reading of RFC 2279:
   every byte below 0xE0 that is not ASCII announces two) *)
Definition announced (b : Z) : Z :=
  if b <? 0x80 then 1 else if b <? 0xE0 then 2 else if b <? 0xF0 then 3
  else if b <? 0xF8 then 4 else if b <? 0xFC then 5 else 6.

(* What the UTF-8 decoder makes of any bytes, well formed or not: the lead byte announces how many bytes follow; each gives
   its low six bits, whatever its high bits are; a sequence that is too short ends the text. *)
Definition lead_value (b : Z) : Z :=
  if b <? 0x80 then b else if b <? 0xE0 then b mod 32 else if b <? 0xF0 then b mod 16
  else if b <? 0xF8 then b mod 8 else if b <? 0xFC then b mod 4 else b mod 2.
Fixpoint utf8_decode (n : nat) (l : list Z) : list Z :=
  match n, l with
  | S n, b :: r =>
      let k := Z.to_nat (announced b - 1) in
      if (length r <? k)%nat then []
      else fold_left (fun v x => v * 64 + x mod 64) (firstn k r) (lead_value b) :: utf8_decode n (skipn k r)
  | _, _ => []
  end.
(* The code points a text of any units stands for *)
Definition code_points (u : utf) (l : list Z) : list Z :=
  match u with
  | W | U32 => l
  | U8 => utf8_decode (length l) l
  | U16 => utf16_prefix l
  | U16BE => utf16_prefix (map byteswap l)
  end.

(* ------------------------------------------------------------------ *)
(* Drivers: what a client of a reader sees                              *)

(* All reads up to and including the first one that returns 0: the value, the source
   cluster and the reading index after it *)
Fixpoint trace (fuel : nat) (r : reader) : res (list (Z * (Z * Z) * Z)) :=
  match fuel with
  | O => NoFuel
  | S fuel' =>
      do (c, r') <- read r;
      let e := (c, source_cluster r', reading_index r') in
      if c =? 0 then Ok [e] else do t <- trace fuel' r'; Ok (e :: t)
  end.

(* n reads in a row *)
Fixpoint reads (n : nat) (r : reader) : res (list Z * reader) :=
  match n with
  | O => Ok ([], r)
  | S n' => do (c, r') <- read r; do (l, r'') <- reads n' r'; Ok (c :: l, r'')
  end.

(* The expected trace, code point by code point: [off] source units and [k] target
   units come before. *)
Fixpoint index_units (l : list Z) (cl : Z * Z) (k : Z) : list (Z * (Z * Z) * Z) :=
  match l with [] => [] | x :: r => (x, cl, k) :: index_units r cl (k + 1) end.
Fixpoint expected (from to : utf) (off k : Z) (cps : list Z) : list (Z * (Z * Z) * Z) :=
  match cps with
  | [] => [(0, (off, 0), k)]
  | c :: r =>
      index_units (units to c) (off, zlen (units from c)) k
      ++ expected from to (off + zlen (units from c)) (k + zlen (units to c)) r
  end.

(* The same for any units: every code point of [code_points] with the number of source units
   it took *)
Fixpoint utf16_points (l : list Z) : list (Z * Z) :=
  match l with
  | [] => []
  | a :: l' =>
      if high_surrogate a then
        match l' with
        | b :: l'' =>
            if low_surrogate b
            then (0x10000 + (a - 0xD800) * 0x400 + (b - 0xDC00), 2) :: utf16_points l''
            else []
        | [] => []
        end
      else if low_surrogate a then []
      else (a, 1) :: utf16_points l'
  end.
Fixpoint utf8_points (n : nat) (l : list Z) : list (Z * Z) :=
  match n, l with
  | S n, b :: r =>
      let k := Z.to_nat (announced b - 1) in
      if (length r <? k)%nat then []
      else (fold_left (fun v x => v * 64 + x mod 64) (firstn k r) (lead_value b), announced b) :: utf8_points n (skipn k r)
  | _, _ => []
  end.
Definition points (u : utf) (l : list Z) : list (Z * Z) :=
  match u with
  | W | U32 => map (fun c => (c, 1)) l
  | U8 => utf8_points (length l) l
  | U16 => utf16_points l
  | U16BE => utf16_points (map byteswap l)
  end.
(* the reads before the first that returns 0, [off] source units and [k] target units
   before: up to the first code point that is zero or that the target cannot carry *)
Fixpoint expected_any (to : utf) (off k : Z) (ps : list (Z * Z)) : list (Z * (Z * Z) * Z) :=
  match ps with
  | [] => []
  | (c, n) :: r =>
      if usable to c then index_units (units to c) (off, n) k ++ expected_any to (off + n) (k + zlen (units to c)) r else []
  end.
