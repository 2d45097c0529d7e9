(* C53: case conversion (Source/Strings/String.cpp) *)
From Verif Require Import Base MbSpec CaseModel CaseSpec CaseProofs.
Open Scope Z_scope.

(* Full statement: for every string, same length and only letters change.  Proved for
   narrow strings without embedded zeros and for wide ASCII strings without them; the rest
   is false, see the refutations. *)
Theorem C53_alower_partial : forall conv l, narrow_conv lower_letter conv ->
  Forall (fun c => -128 <= c < 128 /\ c <> 0) l -> convert conv l = Ok (map lower_letter l).
Proof. exact alower_ok. Qed.
Print Assumptions C53_alower_partial.
Theorem C53_aupper_partial : forall conv l, narrow_conv upper_letter conv ->
  Forall (fun c => -128 <= c < 128 /\ c <> 0) l -> convert conv l = Ok (map upper_letter l).
Proof. exact aupper_ok. Qed.
Print Assumptions C53_aupper_partial.
Theorem C53_wlower_partial : forall conv l, ascii_conv lower_letter conv ->
  Forall (fun c => 0 <= c < 128 /\ c <> 0) l -> convert conv l = Ok (map lower_letter l).
Proof. exact wlower_ok. Qed.
Print Assumptions C53_wlower_partial.
Theorem C53_wupper_partial : forall conv l, ascii_conv upper_letter conv ->
  Forall (fun c => 0 <= c < 128 /\ c <> 0) l -> convert conv l = Ok (map upper_letter l).
Proof. exact wupper_ok. Qed.
Print Assumptions C53_wupper_partial.

Example C53_nonvacuous :
  narrow_conv lower_letter lower_letter /\
  convert lower_letter [72; 105; -61; 33] = Ok [104; 105; -61; 33] /\
  convert upper_letter [72; 105; -61; 33] = Ok [72; 73; -61; 33].
Proof. repeat split; reflexivity. Qed.

(* every wide character from U+0080 on that has no other case is changed: the loop
   narrows it to char *)
Theorem C53_wide_refuted : forall conv c, 128 <= c -> c < 2 ^ 21 -> conv c = c ->
  exists d, convert conv [c] = Ok [d] /\ d <> c.
Proof. exact wide_changed. Qed.
Print Assumptions C53_wide_refuted.

(* U+4E2D becomes '-' *)
Example C53_wide_witness : convert lower_letter [20013] = Ok [45].
Proof. reflexivity. Qed.

(* a string with an embedded zero character loses everything from there on *)
Theorem C53_zero_refuted : forall conv l rest, Forall (fun c => c <> 0) l ->
  exists r, convert conv (l ++ 0 :: rest) = Ok r /\ length r = length l.
Proof. exact zero_truncates. Qed.
Print Assumptions C53_zero_refuted.

Example C53_zero_witness : convert lower_letter [65; 0; 66] = Ok [97].
Proof. reflexivity. Qed.

(* what the four functions do to any string and with any case function of the C library *)
Theorem C53_exact : forall conv l, convert conv l = Ok (map (fun c => to_char (conv c)) (before_zero l)).
Proof. exact convert_any. Qed.
Print Assumptions C53_exact.

Example C53_exact_case : convert upper_letter [97; 20013; 98; 0; 99] = Ok [65; 45; 66].
Proof. reflexivity. Qed.
