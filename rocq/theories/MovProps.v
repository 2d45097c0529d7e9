(* C67: moves of sorted lists, dictionaries and groups. *)
From Verif Require Import Base LstModel LstSpec SrtModel SrtSpec DctModel DctSpec MovModel MovSpec MovProofs.
Open Scope Z_scope.

(* C67: a move hands the contents over and leaves an empty container that can be used again *)
Theorem C67_sorted (A : Type) (c : A -> A -> comparison) (n : nat) (os : list (mop (sop A))) : total_order c ->
  proper (sop A) (client_ok A) (repeat false n) os ->
  exists s t rs, mrun (sm_step A (fun a b => Some (c a b))) (repeat None n) os = Ok (s, rs) /\
    vrun (sop A) (list A) (out A) [] (s_ok c) (repeat None n) os t rs /\ sm_shows c s t.
Proof. exact (fun TO => sorted_moves A c TO n os). Qed.
Print Assumptions C67_sorted.
Example C67_sorted_example : proper (sop Z) (client_ok Z) (repeat false 2) sorted_program /\
  exists s, mrun (sm_step Z (fun a b => Some (Z.compare a b))) (repeat None 2) sorted_program =
    Ok (s, [Done; Answer (RInt 0); Answer (RInt 0); Done; Answer (RInt 0); Answer (RVal 1); Done; Answer (RInt 1); Done; Done; Answer (RInt 0)]).
Proof. exact (conj sorted_program_ok sorted_program_run). Qed.

(* C67: the same for dictionaries; keys and values stay together *)
Theorem C67_dictionary (K V : Type) (c : K -> K -> comparison) (n : nat) (os : list (mop (dop K V))) : total_order c ->
  proper (dop K V) (fun _ => True) (repeat false n) os ->
  exists s t rs, mrun (dm_step K V (fun a b => Some (c a b))) (repeat None n) os = Ok (s, rs) /\
    vrun (dop K V) (fmap K V) (dout K V) [] (d_ok c) (repeat None n) os t rs /\ dm_shows c s t.
Proof. exact (fun TO => dict_moves K V c TO n os). Qed.
Print Assumptions C67_dictionary.
Example C67_dictionary_example : proper (dop Z Z) (fun _ => True) (repeat false 2) dict_program /\
  exists s, mrun (dm_step Z Z (fun a b => Some (Z.compare a b))) (repeat None 2) dict_program =
    Ok (s, [Done; Answer (OBool true); Answer (OBool true); Done; Answer (OInt 0); Answer (OVal 30); Done; Answer (OVal 10); Done; Done; Answer (OInt 0)]).
Proof. exact (conj dict_program_ok dict_program_run). Qed.

(* C67: the same for groups; the lists of values on the heap are those of the keys of all groups, each of one key of one group *)
Theorem C67_group (K V : Type) (c : K -> K -> comparison) (veq : V -> V -> bool) (n : nat) (os : list (mop (gop K V))) : total_order c ->
  proper (gop K V) (fun _ => True) (repeat false n) os ->
  exists s t rs, mrun (gm_step K V (fun a b => Some (c a b)) veq) (gm_start K V n) os = Ok (s, rs) /\
    vrun (gop K V) (fmap K (list V)) (dout K V) [] (g_ok c veq) (repeat None n) os t rs /\ gm_shows K V c s t /\
    in_use (gvheap s) = all_keys t.
Proof. exact (fun TO => group_all K V c TO veq n os). Qed.
Print Assumptions C67_group.
Example C67_group_example : proper (gop Z Z) (fun _ => True) (repeat false 3) group_program /\
  exists s, mrun (gm_step Z Z (fun a b => Some (Z.compare a b)) Z.eqb) (gm_start Z Z 3) group_program =
    Ok (s, [Done; Done; Answer (OBool true); Answer (OBool true); Answer (OBool true); Done; Answer (OInt 0); Answer (OVal 31); Answer (OBool true);
            Done; Done; Answer (OInt 2); Done; Answer (OInt 0); Done; Done]) /\ in_use (gvheap s) = 0.
Proof. exact (conj group_program_ok group_program_run). Qed.

(* C67: when all groups are destroyed no list of values is left *)
Theorem C67_group_gone (K V : Type) (c : K -> K -> comparison) (veq : V -> V -> bool) (n : nat) (os : list (mop (gop K V))) : total_order c ->
  proper (gop K V) (fun _ => True) (repeat false n) os ->
  forall s rs, mrun (gm_step K V (fun a b => Some (c a b)) veq) (gm_start K V n) os = Ok (s, rs) ->
  Forall (fun x => x = None) (gvs s) -> Forall (fun x => x = None) (gvheap s).
Proof. exact (fun TO => group_gone K V c TO veq n os). Qed.
Print Assumptions C67_group_gone.

(* C67: moves and operations of dictionaries and groups leave no choice: contents and answers are those of vrun *)
Theorem C67_unique (O T R : Type) (nothing : T) (f : T -> O -> T * R) (t : list (option T)) (os : list (mop O)) t1 rs1 t2 rs2 :
  vrun O T R nothing (fun m o m' r => f m o = (m', r)) t os t1 rs1 ->
  vrun O T R nothing (fun m o m' r => f m o = (m', r)) t os t2 rs2 -> t1 = t2 /\ rs1 = rs2.
Proof. exact (vrun_det nothing f t os t1 rs1 t2 rs2). Qed.
Print Assumptions C67_unique.

(* C67: x = std::move(x) loses the contents: not a no-op for any of the three containers *)
Theorem C67_self_move_refuted :
  (exists s, mrun (sm_step Z (fun a b => Some (Z.compare a b))) (repeat None 1) [MNew 0; MOp 0 (SAdd 5); MMoveAssign 0 0; MOp 0 SCount] =
     Ok (s, [Done; Answer (RInt 0); Done; Answer (RInt 0)])) /\
  (exists s, mrun (dm_step Z Z (fun a b => Some (Z.compare a b))) (repeat None 1) [MNew 0; MOp 0 (DAdd 5 50); MMoveAssign 0 0; MOp 0 DCount] =
     Ok (s, [Done; Answer (OBool true); Done; Answer (OInt 0)])) /\
  (exists s, mrun (gm_step Z Z (fun a b => Some (Z.compare a b)) Z.eqb) (gm_start Z Z 1) [MNew 0; MOp 0 (GAdd 5 50); MMoveAssign 0 0; MOp 0 GCount] =
     Ok (s, [Done; Answer (OBool true); Done; Answer (OInt 0)])).
Proof. exact self_moves. Qed.
Print Assumptions C67_self_move_refuted.
