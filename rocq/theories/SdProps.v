(* C73: dictionaries from strings to strings *)
From Verif Require Import Base StrModel StrSpec SlModel SlSpec SdModel SdSpec SdProofs2.
Open Scope Z_scope.

(* Any program over string variables and dictionaries that makes sense on plain values (maps
   between character sequences) runs without undefined behaviour, returns what the plain
   program returns, and leaves every variable with the plain value and every dictionary with
   the keys and values of the map, in the order of the map. *)
Theorem C73_dictionaries_of_strings (n m : nat) (os : list dop) (t : maps) (rs : list pout) :
  mrun (mstart n m) os = Ok (t, rs) ->
  exists w xs, run (start n m) os = Ok (w, xs) /\ world_shows w (flatten t) /\ Forall2 tout_ok xs rs.
Proof. exact (dicts_of_strings n m os t rs). Qed.
Print Assumptions C73_dictionaries_of_strings.

(* The keys are in strictly ascending lexicographic order. *)
Theorem C73_keys_ascend (n m : nat) (os : list dop) (t : maps) (rs : list pout) :
  mrun (mstart n m) os = Ok (t, rs) -> forall d mp, mread t d = Ok mp -> ascending_keys mp.
Proof. exact (dict_keys n m os t rs). Qed.
Print Assumptions C73_keys_ascend.

(* Every reference-counted buffer counts exactly the variables, keys and values that use it. *)
Theorem C73_counters (n m : nat) (os : list dop) (t : maps) (rs : list pout) (w : world) (xs : list tout) b cs k :
  mrun (mstart n m) os = Ok (t, rs) -> run (start n m) os = Ok (w, xs) ->
  nth_error (hp (strs w)) b = Some (Counted cs k) -> k = Z.of_nat (refs b (named w)) /\ 0 < k.
Proof. exact (dict_counters n m os t rs w xs b cs k). Qed.
Print Assumptions C73_counters.

(* The allocated buffers are those of the dictionaries. *)
Theorem C73_buffers (n m : nat) (os : list dop) (t : maps) (rs : list pout) (w : world) (xs : list tout) :
  mrun (mstart n m) os = Ok (t, rs) -> run (start n m) os = Ok (w, xs) ->
  forall p, In p (live (mem w)) <-> exists l x, nth_error (lists w) l = Some (Some x) /\ room x <> 0 /\ p = (base x, room x).
Proof. exact (dict_buffers n m os t rs w xs). Qed.
Print Assumptions C73_buffers.

(* When all variables and dictionaries are gone, nothing is left. *)
Theorem C73_no_leak (n m : nat) (os : list dop) (t : maps) (rs : list pout) (w : world) (xs : list tout) :
  mrun (mstart n m) os = Ok (t, rs) -> run (start n m) os = Ok (w, xs) ->
  Forall (fun v => v = None) (mvars t) -> Forall (fun d => d = None) (mdicts t) ->
  live (mem w) = [] /\ forall b cs k, nth_error (hp (strs w)) b <> Some (Counted cs k).
Proof. exact (dict_no_leak n m os t rs w xs). Qed.
Print Assumptions C73_no_leak.

(* Keys b, a, c are added, the last moved together with its value; an existing key is set
   from another entry without losing the moved key argument; adding an existing key fails. *)
Definition C73_program : list dop :=
  [MStr (OInit 0 (EChar 98)); MStr (OInit 1 (EChar 97)); MStr (OInit 2 (ECopyFrom [99] 1)); MNew 0; MNew 1;
   MAdd 0 (PVar 0) (PVar 1); MAdd 0 (PVar 1) (PVar 0); MAdd 0 (PMove 2) (PVar 2); MCount 0;
   MAdd 0 (PVar 0) (PVar 0); MSet 0 (PMove 0) (PAt 0 1); MAdd 1 (PKey 0 2) (PVal 0 0);
   MRemove 0 (PKey 0 0); MLoad 2 (PKey 1 0); MContains 0 (PVar 1); MMoveAssign 1 0; MCount 0].
Example C73_program_plain : mrun (mstart 3 2) C73_program =
  Ok (mkM [Some [98]; Some [97]; Some [99]] [Some []; Some [([98], [98]); ([99], [])]],
      [POut SNone; POut SNone; POut SNone; POut SNone; POut SNone; PBool true; PBool true; PBool true; POut (SInt 3);
       POut SError; PBool true; PBool true; PBool true; POut SNone; PBool false; POut SNone; POut (SInt 0)]).
Proof. vm_compute. reflexivity. Qed.
Example C73_program_counters :
  match run (start 3 2) C73_program with
  | Ok (w, _) => nth_error (hp (strs w)) 1 = Some (Counted [Some 98; Some 0] 3) /\ nth_error (hp (strs w)) 3 = Some (Counted [Some 99; Some 0] 2)
  | _ => False
  end.
Proof. vm_compute. split; reflexivity. Qed.
(* and after destroying everything nothing is left *)
Definition C73_program_end : list dop :=
  C73_program ++ [MClear 1; MDestroy 1; MDestroy 0; MStr (ODestroy 0); MStr (ODestroy 1); MStr (ODestroy 2)].
Example C73_program_end_plain : exists rs, mrun (mstart 3 2) C73_program_end = Ok (mkM [None; None; None] [None; None], rs).
Proof. eexists. vm_compute. reflexivity. Qed.
(* handing a key of the dictionary as the value of a new entry uses storage that is gone *)
Example C73_own_key : run (start 2 1)
  [MStr (OInit 0 (EChar 98)); MStr (OInit 1 (EChar 99)); MNew 0; MAdd 0 (PVar 0) (PVar 0); MAdd 0 (PVar 1) (PVar 1); MStr (OSet 0 (EChar 97)); MAdd 0 (PVar 0) (PKey 0 0)] = UB.
Proof. vm_compute. reflexivity. Qed.
