(* Property theorems C68: the console.  Model: ConModel.v, specification: ConSpec.v. *)
From Verif Require Import Base ConModel ConSpec ConProofs.
Open Scope Z_scope.

(* ---- Output ------------------------------------------------------------ *)

(* A Windows console receives exactly the text of the calls, in order. *)
Theorem C68_window_output :
  forall os c, Forall valid os -> Forall writes os ->
  con_run Window os c = Ok (map (fun _ => []) os, mkCon (con_in c) (con_out c ++ flat_map text os) (con_bad c)).
Proof. exact window_run. Qed.
Print Assumptions C68_window_output.

(* Only for texts of less than 2^32 units: the length is cut to 32 bits, 2^32 units or more are lost. *)
Theorem C68_window_length_refuted :
  forall mem n c, 2 ^ 32 <= n <= zlen mem -> exists kept,
  con_run Window [WriteN mem n] c = Ok ([[]], mkCon (con_in c) (con_out c ++ kept) (con_bad c)) /\ zlen kept <= n - 2 ^ 32.
Proof. exact window_lost. Qed.
Print Assumptions C68_window_length_refuted.

(* On Linux every Write is followed by a zero (two for WriteLine).  This is all there is, as long as the locale
   of the stream can represent the text. *)
Theorem C68_linux_output_partial :
  forall can, can 0 = true -> forall os c, Forall valid os -> Forall writes os -> con_bad c = false ->
  Forall (fun x => can x = true) (flat_map text os) ->
  con_run (Linux can) os c = Ok (map (fun _ => []) os, mkCon (con_in c) (con_out c ++ flat_map linux_text os) false).
Proof. exact linux_run. Qed.
Print Assumptions C68_linux_output_partial.

Example C68_output_ex :
  let os := [WriteN [72; 105; 33] 2; SetColor true false false true; WriteLine [97; 98]; WriteZ [99; 0; 100]] in
  Forall valid os /\ Forall writes os /\
  flat_map text os = [72; 105; 97; 98; 13; 10; 99] /\
  flat_map linux_text os = [72; 105; 0; 27; 91; 48; 48; 59; 51; 49; 109; 97; 98; 0; 13; 10; 0; 99; 0].
Proof. cbv zeta. split; [|split; [|split; reflexivity]]; repeat constructor; cbn; lia. Qed.

(* So the claim is false on Linux: writing one letter writes two characters. *)
Theorem C68_linux_output_refuted :
  con_run (Linux (fun _ => true)) [WriteS [97]] (mkCon [] [] false) = Ok ([[]], mkCon [] [97; 0] false).
Proof. reflexivity. Qed.
Print Assumptions C68_linux_output_refuted.

(* A character that the locale cannot represent ends all output of the program: the rest of that text and all text
   after it is lost, only colours still arrive. *)
Theorem C68_linux_output_lost :
  forall can l x r os c, con_bad c = false -> Forall (fun y => can y = true) l -> can x = false ->
  Forall valid os -> Forall writes os ->
  con_run (Linux can) (WriteS (l ++ x :: r) :: os) c
  = Ok ([] :: map (fun _ => []) os, mkCon (con_in c) (con_out c ++ l ++ flat_map escape os) true).
Proof. exact lost. Qed.
Print Assumptions C68_linux_output_lost.
Example C68_linux_output_lost_ex :
  con_run (Linux (fun c => c <? 128)) [WriteS [97; 0x4E2D; 98]; WriteS [99]] (mkCon [] [] false)
  = Ok ([[]; []], mkCon [] [97] true).
Proof. reflexivity. Qed.

(* A Windows file or pipe receives the text in the output code page, if every text is zero terminated and has no zero
   before its end. *)
Theorem C68_file_output_partial :
  forall enc e os, (forall s, enc s = Some (e s)) -> forall c, Forall valid os -> Forall writes os -> Forall terminated os ->
  con_run (File enc) os c = Ok (map (fun _ => []) os, mkCon (con_in c) (con_out c ++ flat_map e (flat_map pieces os)) (con_bad c)).
Proof. exact file_run. Qed.
Print Assumptions C68_file_output_partial.
Example C68_file_output_ex :
  let os := [WriteN [72; 105; 0; 33] 2; WriteLine [97; 98]] in
  Forall valid os /\ Forall writes os /\ Forall terminated os /\ flat_map pieces os = [[72; 105]; [97; 98]; [13; 10]].
Proof.
  cbv zeta. split; [|split; [|split; [|reflexivity]]]; repeat constructor; cbn; lia.
Qed.
(* Otherwise the length is ignored: too much is written, up to outside of the block; a string with a zero is cut. *)
Theorem C68_file_output_refuted :
  let f := File (fun s => Some s) in
  con_run f [WriteN [72; 105; 33; 0] 2] (mkCon [] [] false) = Ok ([[]], mkCon [] [72; 105; 33] false) /\
  con_run f [WriteN [72; 105] 2] (mkCon [] [] false) = UB /\
  con_run f [WriteS [72; 0; 105]] (mkCon [] [] false) = Ok ([[]], mkCon [] [72] false).
Proof. split; [|split]; reflexivity. Qed.
Print Assumptions C68_file_output_refuted.

(* On Linux different colours write different sequences. *)
Theorem C68_colours :
  forall can r g b l r' g' b' l' c,
  con_step (Linux can) (SetColor r g b l) c = con_step (Linux can) (SetColor r' g' b' l') c -> (r, g, b, l) = (r', g', b', l').
Proof. exact colours. Qed.
Print Assumptions C68_colours.

(* ---- Input --------------------------------------------------------------- *)

(* On Linux successive reads return the lines of the input, the rest after the last line feed, and then empty strings.
   A line is cut at a zero, a carriage return is kept. *)
Theorem C68_linux_input :
  forall can ls s m c, Forall (fun l => ~ In 10 l) ls -> ~ In 10 s -> con_in c = flat_map lf ls ++ s ->
  con_run (Linux can) (repeat Read (length ls + S m)) c
  = Ok (map upto_zero ls ++ upto_zero s :: repeat [] m, mkCon [] (con_out c) (con_bad c)).
Proof. exact linux_read. Qed.
Print Assumptions C68_linux_input.
Example C68_linux_input_ex :
  con_run (Linux (fun _ => true)) (repeat Read 4) (mkCon [97; 98; 10; 10; 99; 13] [] false) = Ok ([[97; 98]; []; [99; 13]; []], mkCon [] [] false).
Proof. reflexivity. Qed.

(* On Windows successive reads return the lines of the input, each ended by a line feed with or without a carriage return
   before it. *)
Theorem C68_windows_input :
  forall t ls r c, match t with Linux _ => False | _ => True end ->
  Forall (fun p => ~ In 10 (fst p) /\ ~ In 13 (fst p) /\ Forall (fun x => x <> 0) (fst p)) ls ->
  con_in c = flat_map ended ls ++ r ->
  con_run t (repeat Read (length ls)) c = Ok (map fst ls, mkCon r (con_out c) (con_bad c)).
Proof. exact windows_read. Qed.
Print Assumptions C68_windows_input.
Example C68_windows_input_ex :
  flat_map ended [([97; 98], true); ([], false); ([99], true)] = [97; 98; 13; 10; 10; 99; 13; 10].
Proof. reflexivity. Qed.
(* Whatever follows a carriage return is dropped, and the end of the input is not noticed: an unset variable is tested. *)
Theorem C68_windows_input_refuted :
  con_run Window [Read; Read] (mkCon [97; 13; 98; 99; 10] [] false) = Ok ([[97]; [99]], mkCon [] [] false) /\
  con_run Window [Read] (mkCon [97; 98] [] false) = UB.
Proof. split; reflexivity. Qed.
Print Assumptions C68_windows_input_refuted.
