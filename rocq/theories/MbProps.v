(* C58: conversion between wide and multi-byte strings (Source/Strings/Conversion.Linux.cpp, Conversion.Windows.cpp) *)
From Verif Require Import Base MbModel MbSpec MbProofs.
Open Scope Z_scope.

(* atow and wtoa, whatever the C library's encoding is: the translated text with a terminator, in a block of exactly that
   size; nothing outside a block is touched.  The text ends at the first zero; if a character cannot be translated the
   result is empty. *)
Theorem C58_linux : forall tr s, zlen (translated tr s) < 2 ^ 64 - 1 ->
  convert_direct (linux tr) (s ++ [0]) = Ok (translated tr s ++ [0], zlen (translated tr s)).
Proof. exact linux_ok. Qed.
Print Assumptions C58_linux.
Theorem C58_windows : forall tr s, zlen (translated tr s) < 2 ^ 31 - 1 -> convert_direct (windows tr) (s ++ [0]) = Ok (translated tr s ++ [0], zlen (translated tr s)).
Proof. exact windows_ok. Qed.
Print Assumptions C58_windows.
(* text that the encoding can represent survives wtoa followed by atow *)
Theorem C58_round_trip : forall enc dec s, faithful enc dec -> ~ In 0 s -> (forall c, In c s -> enc c <> None) ->
  (forall ls, to_bytes enc s = (ls, true) -> zlen (concat ls) < 2 ^ 64 - 1) -> zlen s < 2 ^ 64 - 1 ->
  exists bytes, wtoa enc s = Ok (bytes ++ [0], zlen bytes) /\ ~ In 0 bytes /\ atow dec bytes = Ok (s ++ [0], zlen s).
Proof. exact round_trip. Qed.
Print Assumptions C58_round_trip.
(* atow: the characters the bytes stand for, or nothing if some bytes stand for none *)
Theorem C58_decoding : forall dec s, progressing dec -> ~ In 0 s -> zlen s < 2 ^ 64 - 1 ->
  (forall cs, reads dec s cs -> atow dec s = Ok (cs ++ [0], zlen cs)) /\ ((forall cs, ~ reads dec s cs) -> atow dec s = Ok ([0], 0)).
Proof. exact atow_ok. Qed.
Print Assumptions C58_decoding.
(* wtoa: one character without bytes empties the result *)
Theorem C58_not_encodable : forall enc s c, ~ In 0 s -> In c s -> enc c = None -> wtoa enc s = Ok ([0], 0).
Proof. exact wtoa_fails. Qed.
Print Assumptions C58_not_encodable.
(* what _wtoa and _atow return: the number of units needed or written, with the terminator; 0 if a character that cannot be
   translated was reached *)
Theorem C58_returned : forall tr s junk dst chars ls ok d k, tr (before_zero s) = (ls, ok) -> zlen (concat ls) < 2 ^ 63 ->
  match dst with Some b => 1 <= chars <= zlen b | None => True end -> chars < 2 ^ 63 ->
  linux tr (s ++ 0 :: junk) dst chars = Ok (d, k) ->
  k = match dst with
      | Some _ => if zlen (concat ls) <=? chars - 1 then (if ok then zlen (concat ls) + 1 else 0) else zlen (fitting (chars - 1) ls) + 1
      | None => if ok then zlen (concat ls) + 1 else 0
      end.
Proof. exact linux_result. Qed.
Print Assumptions C58_returned.
(* _wtoa and _atow into a caller's buffer: whole characters that fit in chars - 1 units, nothing else changes, except for
   a terminator if it fits in chars - 1 units too *)
Theorem C58_destination : forall tr s junk b chars ls ok, tr (before_zero s) = (ls, ok) -> 1 <= chars <= zlen b -> zlen b < 2 ^ 63 ->
  exists d k, linux tr (s ++ 0 :: junk) (Some b) chars = Ok (Some d, k) /\ length d = length b /\
    exists rest, d = fitting (chars - 1) ls ++ rest /\
      (rest = skipn (length (fitting (chars - 1) ls)) b \/
       ok = true /\ fitting (chars - 1) ls = concat ls /\ zlen (concat ls) < chars - 1 /\ rest = 0 :: skipn (S (length (concat ls))) b).
Proof. exact linux_dst. Qed.
Print Assumptions C58_destination.
(* a buffer that just holds the text and its terminator is left without the terminator *)
Theorem C58_terminator_refuted : linux (to_bytes latin_enc) [97; 0] (Some [7; 7]) 2 = Ok (Some [97; 7], 2).
Proof. exact eq_refl. Qed.
Print Assumptions C58_terminator_refuted.
(* a capacity of 0 is taken as unlimited *)
Theorem C58_capacity_zero_refuted : linux (to_bytes latin_enc) [97; 98; 0] (Some [7]) 0 = UB.
Proof. exact eq_refl. Qed.
Print Assumptions C58_capacity_zero_refuted.

Example C58_case : faithful latin_enc latin_dec /\ wtoa latin_enc [72; 228] = Ok ([72; 228; 0], 2) /\ atow latin_dec [72; 228] = Ok ([72; 228; 0], 2) /\
  wtoa latin_enc [72; 1000; 73] = Ok ([0], 0) /\ wtoa latin_enc [72; 0; 73] = Ok ([72; 0], 1).
Proof. split; [exact latin_faithful|]. repeat split; reflexivity. Qed.
(* an encoding with characters of two bytes, cut at the capacity *)
Example C58_cut : linux (fun s => (map (fun c => [c; c + 1]) s, true)) [10; 20; 0] (Some [7; 7; 7; 7]) 4 = Ok (Some [10; 11; 7; 7], 3).
Proof. reflexivity. Qed.
Example C58_decoding_case : progressing ascii_dec /\ reads ascii_dec [72; 105] [72; 105] /\ atow ascii_dec [72; 228] = Ok ([0], 0) /\
  linux (fun s => to_wide ascii_dec (length s) s) [72; 228; 0] (Some [7; 7; 7; 7]) 4 = Ok (Some [72; 7; 7; 7], 0).
Proof. split; [exact ascii_progressing|]. split; [exact ascii_reads|]. split; reflexivity. Qed.
