(* C72: lists of strings *)
From Verif Require Import Base StrModel StrSpec SlModel SlSpec SlProofs5.
Open Scope Z_scope.

(* Any program over string variables and lists of strings that makes sense on plain values
   runs without undefined behaviour, returns what the plain program returns, and leaves
   every variable and every list with the plain values. *)
Theorem C72_lists_of_strings (n m : nat) (os : list lop) (t : plain) (rs : list pout) :
  prun (pstart n m) os = Ok (t, rs) ->
  exists w xs, run (start_world n m) os = Ok (w, xs) /\ world_shows w t /\ Forall2 tout_ok xs rs.
Proof. exact (strings_in_lists n m os t rs). Qed.
Print Assumptions C72_lists_of_strings.

(* Every reference-counted buffer counts exactly the variables and list elements that use
   it: storage that a list moved elements out of, or keeps in reserve, holds no share. *)
Theorem C72_counters (n m : nat) (os : list lop) (t : plain) (rs : list pout) (w : world) (xs : list tout) b cs k :
  prun (pstart n m) os = Ok (t, rs) -> run (start_world n m) os = Ok (w, xs) ->
  nth_error (hp (strs w)) b = Some (Counted cs k) -> k = Z.of_nat (refs b (named w)) /\ 0 < k.
Proof. exact (list_counters n m os t rs w xs b cs k). Qed.
Print Assumptions C72_counters.

(* The allocated list buffers are those of the lists. *)
Theorem C72_buffers (n m : nat) (os : list lop) (t : plain) (rs : list pout) (w : world) (xs : list tout) :
  prun (pstart n m) os = Ok (t, rs) -> run (start_world n m) os = Ok (w, xs) ->
  forall p, In p (live (mem w)) <-> exists l x, nth_error (lists w) l = Some (Some x) /\ room x <> 0 /\ p = (base x, room x).
Proof. exact (list_buffers n m os t rs w xs). Qed.
Print Assumptions C72_buffers.

(* When all variables and lists are gone, no list buffer and no reference-counted buffer is left. *)
Theorem C72_no_leak (n m : nat) (os : list lop) (t : plain) (rs : list pout) (w : world) (xs : list tout) :
  prun (pstart n m) os = Ok (t, rs) -> run (start_world n m) os = Ok (w, xs) ->
  Forall (fun v => v = None) (pvars t) -> Forall (fun l => l = None) (plists t) ->
  live (mem w) = [] /\ forall b cs k, nth_error (hp (strs w)) b <> Some (Counted cs k).
Proof. exact (list_no_leak n m os t rs w xs). Qed.
Print Assumptions C72_no_leak.

(* Three copies of a string and one moved string go through a growing and a shrinking list;
   an element is set from another list; the counter of the first string is 3 in the end. *)
Definition C72_program : list lop :=
  [TStr (OInit 0 (ECopyFrom [97; 98] 2)); TStr (OInit 1 (EChar 99)); TNew 0; TNew 1;
   TAdd 0 (AVar 0) false; TAdd 0 (AVar 1) true; TInsert 0 0 (AVar 0) false; TInsert 0 1 (AItem 1 0) false;
   TAdd 1 (AItem 0 2) false; TSet 1 0 (AItem 0 0) false; TRemoveAt 0 0; TIndexOf 0 (AItem 1 0); TRead 1 0 1;
   TMoveNew 2 0; TRemove 2 (AVar 1); TCount 2; TContains 2 (AVar 0)].
Example C72_program_plain : prun (pstart 2 3) C72_program =
  Ok (mkP [Some [97; 98]; Some [99]] [Some []; Some [[97; 98]]; Some [[97; 98]]],
      [POut SNone; POut SNone; POut SNone; POut SNone; POut (SInt 0); POut (SInt 1); POut (SInt 0); POut SError;
       POut (SInt 0); PBool true; PBool true; POut (SInt 0); POut SNone;
       POut SNone; PBool true; POut (SInt 1); PBool true]).
Proof. vm_compute. reflexivity. Qed.
Example C72_program_counters :
  match run (start_world 2 3) C72_program with
  | Ok (w, _) => nth_error (hp (strs w)) 1 = Some (Counted [Some 97; Some 98; Some 0] 3) /\ nth_error (hp (strs w)) 2 = Some (Counted [Some 99; Some 0] 1)
  | _ => False
  end.
Proof. vm_compute. split; reflexivity. Qed.
(* and after destroying everything nothing is left *)
Definition C72_program_end : list lop :=
  C72_program ++ [TClear 2; TDestroy 2; TDestroy 1; TDestroy 0; TStr (ODestroy 0); TStr (ODestroy 1)].
Example C72_program_end_plain : exists rs, prun (pstart 2 3) C72_program_end = Ok (mkP [None; None] [None; None; None], rs).
Proof. eexists. vm_compute. reflexivity. Qed.
