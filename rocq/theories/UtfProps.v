(* Property theorems C01-C07: UTF conversion.  Model: UtfModel.v, specification:
   UtfSpec.v. *)
From Verif Require Import Base UtfModel UtfSpec UtfProofs1 UtfProofs2 UtfProofs3 UtfProofs4 UtfProofs5 UtfProofs6 UtfProofs7 UtfProofs8.
Open Scope Z_scope.

(* ---- C01 / C02: single code points ---------------------------------- *)

(* The encoder writes exactly the standard's units and rejects exactly the values the
   encoding cannot carry. *)
Theorem C01_C02_encode_exact :
  forall u c, u <> U32 -> 0 <= c < 0x100000000 ->
  from32 u c = if representable u c then Some (units u c) else None.
Proof. exact from_units. Qed.
Print Assumptions C01_C02_encode_exact.

(* Decoding a window that starts with the units of c gives back c and consumes exactly
   its units, whatever follows them in the window ([more]) and whatever the unused
   cells of the window buffer hold ([rest]). *)
Theorem C01_C02_decode_encode :
  forall u c more rest,
  representable u c = true -> Forall (in_range u) more ->
  zlen (units u c ++ more) <= buflen u ->
  to32 u (window (units u c ++ more) rest) (zlen (units u c ++ more))
  = Ok (Some (c, zlen (units u c))).
Proof. exact to_units. Qed.
Print Assumptions C01_C02_decode_encode.

(* Unicode scalar values take one to four bytes. *)
Theorem C01_scalar_length : forall c, scalar c -> (1 <= length (utf8_units c) <= 4)%nat.
Proof. exact utf8_scalar_len. Qed.
Print Assumptions C01_scalar_length.

Example C01_ex : representable U8 0x1F600 = true /\
  units U8 0x1F600 = [0xF0; 0x9F; 0x98; 0x80] /\
  zlen (units U8 0x1F600 ++ [0x41; 0x42]) <= buflen U8 /\
  Forall (in_range U8) [0x41; 0x42] /\
  from32 U8 0x80000000 = None /\ from32 U8 0xD800 = None.
Proof.
  repeat split; try (vm_compute; congruence). unfold in_range. cbn [unit_bound].
  repeat constructor; lia.
Qed.

(* The big-endian converter reads uninitialised locals (g0, g1); no result depends on
   them. *)
Theorem C02_big_endian_deterministic :
  (forall g0 g1 h0 h1 c, 0 <= c -> from32_u16be g0 g1 c = from32_u16be h0 h1 c) /\
  (forall g0 g1 h0 h1 l rest, l <> [] -> zlen l <= 2 -> Forall (in_range U16BE) l ->
     to32_u16be g0 g1 (window l rest) (zlen l) = to32_u16be h0 h1 (window l rest) (zlen l)).
Proof. exact (conj be_garbage be_garbage_to). Qed.
Print Assumptions C02_big_endian_deterministic.

Example C02_ex : units U16 0x1F600 = [0xD83D; 0xDE00] /\ units U16BE 0x1F600 = [0x3DD8; 0x00DE] /\
  from32_u16be 7 9 0x1F600 = Some [0x3DD8; 0x00DE] /\
  to32_u16be 7 9 (window [0x3DD8; 0x00DE] []) 2 = Ok (Some (0x1F600, 2)) /\
  from32 U16 0x110000 = None /\ from32 U16 0xDFFF = None.
Proof. vm_compute. intuition congruence. Qed.

(* ---- C03: whole strings --------------------------------------------- *)

(* Converting a string whose code points both encodings can carry gives exactly the
   concatenation of the per-code-point encodings, terminated; the length handed to
   the string is right.  [fuel] only bounds the modelled loops. *)
Theorem C03_convert_exact :
  forall fuel from to cps junk,
  Forall (fun c => usable from c = true) cps -> Forall (fun c => usable to c = true) cps ->
  let out := flat_map (units to) cps in
  (length out < fuel)%nat ->
  convert fuel from to (flat_map (units from) cps ++ 0 :: junk) = Ok (out ++ [0], zlen out).
Proof. exact convert_spec. Qed.
Print Assumptions C03_convert_exact.

(* Converting there and back is the identity. *)
Theorem C03_convert_roundtrip :
  forall fuel from to cps junk,
  Forall (fun c => usable from c = true) cps -> Forall (fun c => usable to c = true) cps ->
  let src := flat_map (units from) cps in
  (length src < fuel)%nat -> (length (flat_map (units to) cps) < fuel)%nat ->
  exists block len, convert fuel from to (src ++ 0 :: junk) = Ok (block, len) /\
    convert fuel to from block = Ok (src ++ [0], zlen src).
Proof. exact convert_roundtrip. Qed.
Print Assumptions C03_convert_roundtrip.

(* Every non-zero scalar value meets the hypotheses, in every encoding. *)
Theorem C03_scalars_are_usable : forall u c, scalar c -> c <> 0 -> usable u c = true.
Proof. exact scalar_usable. Qed.
Print Assumptions C03_scalars_are_usable.

(* If the target cannot carry some code point, the result is the longest prefix it can
   carry: the string is silently truncated there. *)
Theorem C03_convert_prefix :
  forall fuel from to cps junk,
  Forall (fun c => usable from c = true) cps ->
  let out := flat_map (units to) (take_while (representable to) cps) in
  (length out < fuel)%nat ->
  convert fuel from to (flat_map (units from) cps ++ 0 :: junk) = Ok (out ++ [0], zlen out).
Proof. exact convert_prefix. Qed.
Print Assumptions C03_convert_prefix.

Example C03_ex :
  let cps := [0x41; 0x20AC; 0x1F600; 0x7FF] in
  forallb (usable U8) cps && forallb (usable U16BE) cps = true /\
  convert 20 U8 U16BE (flat_map (units U8) cps ++ [0])
  = Ok (flat_map (units U16BE) cps ++ [0], 5).
Proof. vm_compute. auto. Qed.

(* ---- C04: readers stay in bounds on any input ------------------------ *)

(* Any number m of reads over a zero terminated string of arbitrary units: never UB
   (no out-of-bounds window or string access, no uninitialised unit read), and a zero
   is returned within buflen*length reads. *)
Theorem C04_reads_string_safe :
  forall from to l junk m,
  Forall (good_unit from) l ->
  exists out r', reads m (mk_reader from to (CStr (l ++ 0 :: junk) 0)) = Ok (out, r') /\
    length out = m /\
    (buflen to * zlen l < Z.of_nat m ->
     exists i, Z.of_nat i <= buflen to * zlen l /\ nth_error out i = Some 0).
Proof. exact reads_str. Qed.
Print Assumptions C04_reads_string_safe.

(* The same for an explicit range, which may contain zeros. *)
Theorem C04_reads_range_safe :
  forall from to l junk m,
  Forall (in_range from) l ->
  exists out r', reads m (mk_reader from to (CRange (l ++ junk) (zlen l) 0)) = Ok (out, r') /\
    length out = m /\
    (buflen to * zlen l < Z.of_nat m ->
     exists i, Z.of_nat i <= buflen to * zlen l /\ nth_error out i = Some 0).
Proof. exact reads_range. Qed.
Print Assumptions C04_reads_range_safe.

Example C04_ex : Forall (good_unit U8) [0xFF; 0x80; 0xC0; 0xE0; 0x41] /\
  exists r, reads 4 (mk_reader U8 U16 (CStr [0xC3; 0x28; 0xFF; 0; 7] 0)) = Ok ([0xE8; 0; 0; 0], r).
Proof.
  split; [unfold good_unit; cbn [unit_bound]; repeat constructor; lia|]. vm_compute. eauto.
Qed.

(* ---- C05: the two passes agree --------------------------------------- *)

(* For any source there is one output (zero-free, at most buflen units per source unit)
   such that the sizing pass returns its length + 1, the conversion returns it
   terminated, and the writing pass into a destination d of any capacity writes its
   first cap units (terminator included), touches nothing beyond them and returns the
   number of units written. *)
Theorem C05_passes_agree :
  forall from to l junk,
  Forall (good_unit from) l ->
  exists out, Forall (fun x => x <> 0) out /\
    zlen out <= buflen to * zlen l /\
    (forall fuel, (length out < fuel)%nat ->
      size_loop fuel (mk_reader from to (CStr (l ++ 0 :: junk) 0)) 0 = Ok (zlen out + 1) /\
      convert fuel from to (l ++ 0 :: junk) = Ok (out ++ [0], zlen out) /\
      forall d cap, 0 <= cap <= zlen d ->
        write_loop fuel (mk_reader from to (CStr (l ++ 0 :: junk) 0)) d 0 cap 0
        = Ok (firstn (Z.to_nat cap) (out ++ [0])
                ++ skipn (length (firstn (Z.to_nat cap) (out ++ [0]))) d,
              Z.min cap (zlen out + 1))).
Proof. exact any_input. Qed.
Print Assumptions C05_passes_agree.

Example C05_ex :
  size_loop 9 (mk_reader U16 U8 (CStr [0x20AC; 0x41; 0] 0)) 0 = Ok 5 /\
  write_loop 9 (mk_reader U16 U8 (CStr [0x20AC; 0x41; 0] 0)) [9; 9; 9; 9] 0 3 0
  = Ok ([0xE2; 0x82; 0xAC; 9], 3).
Proof. vm_compute. auto. Qed.

(* ---- C06: source clusters -------------------------------------------- *)

(* Reading a string to its end reports, for every unit, the interval of source units
   of its code point and its running number; the end is reported at the end of the
   source.  [expected] lays the clusters out one after another, so they tile the
   source. *)
Theorem C06_clusters_string :
  forall from to cps junk fuel,
  Forall (fun c => usable from c = true) cps -> Forall (fun c => usable to c = true) cps ->
  (length (flat_map (units to) cps) < fuel)%nat ->
  trace fuel (mk_reader from to (CStr (flat_map (units from) cps ++ 0 :: junk) 0))
  = Ok (expected from to 0 0 cps).
Proof. exact (fun from to cps junk fuel H1 H2 => trace_spec from to cps _ fuel H1 H2 (Feeds_str _ junk)). Qed.
Print Assumptions C06_clusters_string.

Theorem C06_clusters_range :
  forall from to cps junk fuel,
  Forall (fun c => usable from c = true) cps -> Forall (fun c => usable to c = true) cps ->
  (length (flat_map (units to) cps) < fuel)%nat ->
  let src := flat_map (units from) cps in
  trace fuel (mk_reader from to (CRange (src ++ junk) (zlen src) 0))
  = Ok (expected from to 0 0 cps).
Proof. exact (fun from to cps junk fuel H1 H2 H3 => trace_spec from to cps _ fuel H1 H2 (Feeds_range _ junk) H3). Qed.
Print Assumptions C06_clusters_range.

(* Any units, well formed or not: until the first read that returns zero every unit is
   reported with the interval of source units of its code point and its running number.
   [points] gives the code points any units stand for (C07) with the number of units each
   took; [expected_any] lays them out one after another. *)
Theorem C06_any_units_string :
  forall from to l junk fuel,
  Forall (good_unit from) l -> (length (expected_any to 0%Z 0%Z (points from l)) < fuel)%nat ->
  exists cl j, trace fuel (mk_reader from to (CStr (l ++ 0 :: junk) 0)) = Ok (expected_any to 0 0 (points from l) ++ [(0, cl, j)]).
Proof. exact trace_any_string. Qed.
Print Assumptions C06_any_units_string.
Theorem C06_any_units_range :
  forall from to l junk fuel,
  Forall (good_unit from) l -> (length (expected_any to 0%Z 0%Z (points from l)) < fuel)%nat ->
  exists cl j, trace fuel (mk_reader from to (CRange (l ++ junk) (zlen l) 0)) = Ok (expected_any to 0 0 (points from l) ++ [(0, cl, j)]).
Proof. exact trace_any_range. Qed.
Print Assumptions C06_any_units_range.
(* these are the code points of C07, none is empty and together they fit into the source *)
Theorem C06_any_units_points :
  forall u l, map fst (points u l) = code_points u l /\ Forall (fun p => 1 <= snd p) (points u l) /\
    fold_right Z.add 0 (map snd (points u l)) <= zlen l.
Proof. exact points_sizes. Qed.
Print Assumptions C06_any_units_points.
Example C06_any_units_ex :
  points U8 [0x41; 0xC3; 0x28; 0xF0; 0x9F; 0x98; 0x80; 0xE2; 0x82] = [(0x41, 1); (0xE8, 2); (0x1F600, 4)] /\
  expected_any U16 0 0 [(0x41, 1); (0xE8, 2); (0x1F600, 4)] =
    [(0x41, (0, 1), 0); (0xE8, (1, 2), 1); (0xD83D, (3, 4), 2); (0xDE00, (3, 4), 3)].
Proof. split; reflexivity. Qed.

(* After the end every further read returns zero and changes nothing: neither the reading
   index nor the reported cluster moves. *)
Theorem C06_end_is_final_string :
  forall from to cps junk n,
  Forall (fun c => usable from c = true) cps -> Forall (fun c => usable to c = true) cps ->
  let out := flat_map (units to) cps in
  exists r, reads (S (length out)) (mk_reader from to (CStr (flat_map (units from) cps ++ 0 :: junk) 0)) = Ok (out ++ [0], r) /\
    reads n r = Ok (repeat 0 n, r).
Proof. exact (fun from to cps junk n H1 H2 => end_final from to cps _ n H1 H2 (Feeds_str _ junk)). Qed.
Print Assumptions C06_end_is_final_string.

Theorem C06_end_is_final_range :
  forall from to cps junk n,
  Forall (fun c => usable from c = true) cps -> Forall (fun c => usable to c = true) cps ->
  let src := flat_map (units from) cps in
  let out := flat_map (units to) cps in
  exists r, reads (S (length out)) (mk_reader from to (CRange (src ++ junk) (zlen src) 0)) = Ok (out ++ [0], r) /\
    reads n r = Ok (repeat 0 n, r).
Proof. exact (fun from to cps junk n H1 H2 => end_final from to cps _ n H1 H2 (Feeds_range _ junk)). Qed.
Print Assumptions C06_end_is_final_range.

Example C06_ex :
  trace 9 (mk_reader U8 U16 (CStr [0xF0; 0x9F; 0x98; 0x80; 0x41; 0] 0))
  = Ok [(0xD83D, (0, 4), 0); (0xDE00, (0, 4), 1); (0x41, (4, 1), 2); (0, (5, 0), 3)].
Proof. vm_compute. auto. Qed.

(* ---- C07: malformed input -------------------------------------------- *)

(* UTF-16, any unit sequence: exactly the longest well formed prefix is converted. *)
Theorem C07_utf16_malformed_stops :
  forall fuel to l junk,
  Forall (good_unit U16) l ->
  let out := flat_map (units to) (take_while (representable to) (utf16_prefix l)) in
  (length out < fuel)%nat ->
  convert fuel U16 to (l ++ 0 :: junk) = Ok (out ++ [0], zlen out).
Proof. exact convert_u16_prefix. Qed.
Print Assumptions C07_utf16_malformed_stops.

(* and that prefix has only scalar values. *)
Theorem C07_utf16_prefix_scalar :
  forall n l, (length l <= n)%nat -> Forall (good_unit U16) l -> Forall scalar (utf16_prefix l).
Proof. exact utf16_prefix_scalar. Qed.
Print Assumptions C07_utf16_prefix_scalar.

Example C07_utf16_ex : utf16_prefix [0x41; 0xDE00; 0x42] = [0x41] /\
  convert 9 U16 U8 [0x41; 0xD83D; 0x42; 0] = Ok ([0x41; 0], 1).
Proof. vm_compute. auto. Qed.

(* UTF-8: the full claim (only well formed sequences are decoded) is false of the
   code; the proved part is what exactly it does reject: a sequence shorter than its
   lead byte announces. *)
Theorem C07_utf8_rejects_exactly_truncated_partial :
  forall x l rest, Forall (in_range U8) (x :: l) ->
  (to32 U8 (window (x :: l) rest) (zlen (x :: l)) = Ok None <-> zlen (x :: l) < announced x).
Proof. exact utf8_reject_iff. Qed.
Print Assumptions C07_utf8_rejects_exactly_truncated_partial.

(* In particular every proper prefix of an encoded code point is rejected. *)
Theorem C07_utf8_truncated_rejected_partial :
  forall c n rest,
  c <> 0 -> representable U8 c = true -> (0 < n < length (utf8_units c))%nat ->
  to32 U8 (window (firstn n (utf8_units c)) rest) (Z.of_nat n) = Ok None.
Proof. exact utf8_truncated. Qed.
Print Assumptions C07_utf8_truncated_rejected_partial.

Example C07_utf8_ex : to32 U8 (window (firstn 2 (utf8_units 0x20AC)) []) 2 = Ok None.
Proof. vm_compute. reflexivity. Qed.

(* Any units of any encoding, well formed or not: the conversion reads the code points [code_points] says (for UTF-8 the
   lead byte announces the length and every following byte gives its low six bits) up to the first that is zero or that
   the target cannot carry, and writes their encoding. *)
Theorem C07_any_units_exact :
  forall fuel from to l junk,
  Forall (good_unit from) l ->
  let out := flat_map (units to) (take_while (usable to) (code_points from l)) in
  (length out < fuel)%nat ->
  convert fuel from to (l ++ 0 :: junk) = Ok (out ++ [0], zlen out).
Proof. exact convert_any. Qed.
Print Assumptions C07_any_units_exact.

(* On well formed text these are the code points the text encodes. *)
Theorem C07_any_units_well_formed :
  forall u to cps, Forall (fun c => usable u c = true) cps ->
  take_while (usable to) (code_points u (flat_map (units u) cps)) = take_while (usable to) cps.
Proof. exact code_points_units. Qed.
Print Assumptions C07_any_units_well_formed.

Example C07_any_units_ex :
  code_points U8 [0x41; 0xC3; 0x28; 0xE2; 0x82; 0xAC; 0xE2; 0x82] = [0x41; 0xE8; 0x20AC] /\
  convert 9 U8 U16 ([0x41; 0xC3; 0x28; 0xE2; 0x82; 0xAC; 0xE2; 0x82] ++ 0 :: []) = Ok ([0x41; 0xE8; 0x20AC; 0], 3).
Proof. vm_compute. auto. Qed.

(* The first read that returns zero - the end of the source, malformed units, or a code point
   the target cannot carry - is final: every later read returns zero and changes nothing.  Any
   pair of encodings but UTF-8 to UTF-32. *)
Theorem C07_stop_is_final_string :
  forall from to l junk n out r m, (from, to) <> (U8, U32) -> Forall (good_unit from) l ->
  reads n (mk_reader from to (CStr (l ++ 0 :: junk) 0)) = Ok (out ++ [0], r) ->
  reads m r = Ok (repeat 0 m, r).
Proof. exact stop_final_string. Qed.
Print Assumptions C07_stop_is_final_string.
Theorem C07_stop_is_final_range :
  forall from to l junk n out r m, (from, to) <> (U8, U32) -> Forall (good_unit from) l ->
  reads n (mk_reader from to (CRange (l ++ junk) (zlen l) 0)) = Ok (out ++ [0], r) ->
  reads m r = Ok (repeat 0 m, r).
Proof. exact stop_final_range. Qed.
Print Assumptions C07_stop_is_final_range.
(* an unpaired surrogate before more text *)
Example C07_stop_is_final_ex :
  Forall (good_unit U16) [0x41; 0xDC00; 0x42] /\
  exists r, reads 2 (mk_reader U16 U32 (CStr ([0x41; 0xDC00; 0x42] ++ 0 :: []) 0)) = Ok ([0x41] ++ [0], r).
Proof.
  split; [unfold good_unit; cbn [unit_bound]; repeat constructor; lia|]. vm_compute. eauto.
Qed.
(* From UTF-8 to UTF-32 an overlong zero is returned as a zero in the middle: the next read
   goes on after it. *)
Theorem C07_stop_is_final_refuted :
  exists r, reads 4 (mk_reader U8 U32 (CStr [0x41; 0xC0; 0x80; 0x42; 0] 0)) = Ok ([0x41; 0; 0x42; 0], r).
Proof. vm_compute. eauto. Qed.
Print Assumptions C07_stop_is_final_refuted.

(* Witnesses: overlong form, bad continuation byte, encoded surrogate, stray
   continuation byte as lead, value above 0x10FFFF, byte FF: all are decoded. *)
Theorem C07_utf8_malformed_refuted :
  to32 U8 (window [0xC0; 0xAF] []) 2 = Ok (Some (0x2F, 2)) /\
  to32 U8 (window [0xC3; 0x28] []) 2 = Ok (Some (0xE8, 2)) /\
  to32 U8 (window [0xED; 0xA0; 0x80] []) 3 = Ok (Some (0xD800, 3)) /\
  to32 U8 (window [0x80; 0x41] []) 2 = Ok (Some (0x01, 2)) /\
  to32 U8 (window [0xF7; 0xBF; 0xBF; 0xBF] []) 4 = Ok (Some (0x1FFFFF, 4)) /\
  to32 U8 (window [0xFF; 0xFF; 0xFF; 0xFF; 0xFF; 0xFF] []) 6 = Ok (Some (0x7FFFFFFF, 6)).
Proof. vm_compute. auto 10. Qed.
Print Assumptions C07_utf8_malformed_refuted.

(* An overlong zero silently ends the string. *)
Theorem C07_utf8_overlong_zero_refuted :
  convert 9 U8 U32 [0x41; 0xC0; 0x80; 0x42; 0] = Ok ([0x41; 0], 1).
Proof. vm_compute. reflexivity. Qed.
Print Assumptions C07_utf8_overlong_zero_refuted.

(* A zero inside an explicit range is dropped by the UTF-8 reader (the two windows
   around it are decoded as if adjacent) but passed on by the direct reader. *)
Theorem C07_range_zero_dropped_refuted :
  (exists r, reads 3 (mk_reader U8 U32 (CRange [0x41; 0; 0x42] 3 0)) = Ok ([0x41; 0x42; 0], r)) /\
  (exists r, reads 3 (mk_reader W U32 (CRange [0x41; 0; 0x42] 3 0)) = Ok ([0x41; 0; 0x42], r)).
Proof. vm_compute. eauto. Qed.
Print Assumptions C07_range_zero_dropped_refuted.
