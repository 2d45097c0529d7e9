(* Property theorems: C61, conversions between string objects.  Model: UcModel.v, specification: UcSpec.v. *)
From Verif Require Import Base UtfModel UtfSpec StrModel StrSpec UcModel UcSpec UcProofs.
Open Scope Z_scope.

(* Programs that mix string statements and conversions, in both configurations: whenever the plain-list meaning is
   defined the program runs without undefined behaviour, every variable shows the specified characters, every statement
   returned the specified result, and the counter of every block is the number of strings sharing it (a cast string
   shares the block of its source across types). *)
Theorem C61_programs_of_conversions : forall utf16 tys ops vs ys,
  forallb (uop_typed utf16 tys) ops = true ->
  surun utf16 tys (repeat None (length tys)) ops = Ok (vs, ys) ->
  exists s xs, urun utf16 tys (init (length tys)) ops = Ok (s, xs) /\ shows s vs /\ Forall2 out_ok xs ys /\
    (forall b cs k, nth_error (hp s) b = Some (Counted cs k) -> k = Z.of_nat (refs b (vars s)) /\ 0 < k) /\
    (forall v x, nth_error (vars s) v = Some (Some x) -> managed x = true ->
       exists cs k, nth_error (hp s) (buf x) = Some (Counted cs k)).
Proof. exact programs_refine. Qed.
Print Assumptions C61_programs_of_conversions.

(* U+1F600, U+20AC: a slice of a WString, converted to all types and back; the source is assigned after the cast *)
Definition demo : list uop :=
  [ UStr (OInit 0 (ELit (Some [0x41; 0x20AC; 0x1F600; 0x42; 0]))); UStr (OSet 0 (ESub 0 1 2)); UInit 1 0; UInit 2 0; UInit 3 0;
    UStr (OSet 0 EEmpty); USet 0 1; UStr (OSet 3 (ELeft 3 1)); USet 2 3; USet 0 3; UStr (OBuffer 0) ].
Example C61_programs_case :
  forallb (uop_typed false [TW; T8; T16; T32]) demo = true /\
  surun false [TW; T8; T16; T32] (repeat None 4) demo =
  Ok ([Some [0x20AC]; Some [0xE2; 0x82; 0xAC; 0xF0; 0x9F; 0x98; 0x80]; Some [0x20AC]; Some [0x20AC]],
      [SNone; SNone; SNone; SNone; SNone; SNone; SNone; SNone; SNone; SNone; SChars [0x20AC]]).
Proof. split; vm_compute; reflexivity. Qed.

(* Text of scalar values without zeros survives every sequence of conversions: the result depends only on the type the
   sequence ends in, so all paths between two types agree and every round trip is the identity; this is so in both
   configurations. *)
Theorem C61_paths_agree : forall utf16 path from cps,
  Forall scalar cps -> Forall (fun c => c <> 0) cps ->
  through utf16 from path (text utf16 from cps) = text utf16 (last path from) cps.
Proof. exact through_text. Qed.
Print Assumptions C61_paths_agree.
Example C61_paths_case :
  through true TW [T8; T32; T16; TW] [0xD83D; 0xDE00; 0x41] = [0xD83D; 0xDE00; 0x41] /\
  through false TW [T16; T8; T32] [0x1F600; 0x41] = [0x1F600; 0x41].
Proof. split; vm_compute; reflexivity. Qed.

(* With a zero inside, what a conversion keeps depends on the configuration and on the path: a cast keeps the zero and
   what follows, a converter stops in front of it. *)
Theorem C61_zero_inside_refuted :
  converted false TW T32 [0x41; 0; 0x42] = [0x41; 0; 0x42] /\ converted true TW T32 [0x41; 0; 0x42] = [0x41] /\
  through false TW [T32] [0x41; 0; 0x42] <> through false TW [T8; T32] [0x41; 0; 0x42] /\
  exists s xs, urun false [TW; T32; T8] (init 3)
      [UStr (OInit 0 (ECopyFrom [0x41; 0; 0x42] 3)); UInit 1 0; UInit 2 0; UStr (OLength 1); UStr (OLength 2)] = Ok (s, xs) /\
    xs = [RNone; RNone; RNone; RInt 3; RInt 1].
Proof.
  split; [vm_compute; reflexivity|]. split; [vm_compute; reflexivity|]. split; [vm_compute; discriminate|].
  eexists _, _. split; [vm_compute; reflexivity|reflexivity].
Qed.
Print Assumptions C61_zero_inside_refuted.

(* So does a surrogate that is not part of a pair. *)
Theorem C61_lone_surrogate_refuted :
  converted true TW T16 [0x41; 0xD800; 0x42] = [0x41; 0xD800; 0x42] /\
  converted false TW T16 [0x41; 0xD800; 0x42] = [0x41] /\
  through true TW [T16] [0x41; 0xD800; 0x42] <> through true TW [T8; T16] [0x41; 0xD800; 0x42].
Proof. split; [vm_compute; reflexivity|]. split; [vm_compute; reflexivity|vm_compute; discriminate]. Qed.
Print Assumptions C61_lone_surrogate_refuted.
