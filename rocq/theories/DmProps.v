(* C83: sorted lists, dictionaries and groups when memory runs out. *)
From Verif Require Import Base LstModel LstSpec SrtModel SrtSpec DctModel DctSpec LmModel LmSpec DmModel DmSpec DmProofs.
Open Scope Z_scope.

(* In any program, with any choice of the allocations that fail: undefined behaviour, or every operation returns
   what it returns with unlimited memory and the container holds the same.  For a sorted list ... *)
Theorem C83_sorted_never_wrong_partial :
  forall (A : Type) (c : A -> A -> comparison), total_order c ->
  forall p : list (sop A * (nat -> bool)), Forall (client_ok A) (map fst p) ->
    ms_run A (fun a b => Some (c a b)) empty_lst p = UB \/
    exists x rs l, ms_run A (fun a b => Some (c a b)) empty_lst p = Ok (x, rs) /\ holds A x l /\ ok_run A c [] (map fst p) l rs.
Proof. exact sorted_never_wrong. Qed.
Print Assumptions C83_sorted_never_wrong_partial.

(* ... for a dictionary ... *)
Theorem C83_dictionary_never_wrong_partial :
  forall (K V : Type) (c : K -> K -> comparison), total_order c ->
  forall p : list (dop K V * (nat -> bool)),
    dm_run K V (fun a b => Some (c a b)) empty_dict p = UB \/
    exists d, dm_run K V (fun a b => Some (c a b)) empty_dict p = Ok (d, snd (md_run K V c [] (map fst p))) /\
      d_holds K V c d (fst (md_run K V c [] (map fst p))).
Proof. exact (@dict_never_wrong). Qed.
Print Assumptions C83_dictionary_never_wrong_partial.

(* ... and for a group, where Add of a new key whose container cannot be had throws and changes nothing *)
Theorem C83_group_never_wrong_partial :
  forall (K V : Type) (c : K -> K -> comparison) (veq : V -> V -> bool), total_order c ->
  forall p : list (gop K V * (nat -> bool)),
    gm_run K V (fun a b => Some (c a b)) veq empty_group p = UB \/
    exists g, gm_run K V (fun a b => Some (c a b)) veq empty_group p = Ok (g, snd (short_run K V c veq [] p)) /\
      g_holds K V c g (fst (short_run K V c veq [] p)).
Proof. exact (@group_never_wrong). Qed.
Print Assumptions C83_group_never_wrong_partial.

(* While no allocation fails the containers behave as in C19 and C21, C22, for every comparison *)
Theorem C83_enough_memory_sorted :
  forall (A : Type) (cmp : A -> A -> option comparison) (os : list (sop A)) (x : lst A),
    ms_run A cmp x (map (fun o => (o, enough)) os) = s_run A cmp x os.
Proof. exact (@ms_run_good). Qed.
Print Assumptions C83_enough_memory_sorted.
Theorem C83_enough_memory_dictionary :
  forall (K V : Type) (cmp : K -> K -> option comparison) (os : list (dop K V)) (d : dict K V),
    dm_run K V cmp d (map (fun o => (o, enough)) os) = d_run K V cmp d os.
Proof. exact (@dm_run_good). Qed.
Print Assumptions C83_enough_memory_dictionary.
Theorem C83_enough_memory_group :
  forall (K V : Type) (cmp : K -> K -> option comparison) (veq : V -> V -> bool) (os : list (gop K V)) (g : group K V),
    gm_run K V cmp veq g (map (fun o => (o, enough)) os) = do (g, rs) <- g_run K V cmp veq g os; Ok (g, map Some rs).
Proof. exact (@gm_run_good). Qed.
Print Assumptions C83_enough_memory_group.

(* Add without memory: undefined exactly when a buffer that has to grow is full, otherwise as with memory *)
Theorem C83_sorted_add_refuted :
  forall (A : Type) (c : A -> A -> comparison), total_order c ->
  forall (x : lst A) (l : list A) (a : A) (f : nat -> bool), lst_shows A x l -> ascending A c l ->
    ms_step A (fun a b => Some (c a b)) x (SAdd a) f =
    if f 1%nat && (zlen l =? cap x) then UB else s_step A (fun a b => Some (c a b)) x (SAdd a).
Proof. exact sorted_add_exact. Qed.
Print Assumptions C83_sorted_add_refuted.
Theorem C83_dictionary_add_refuted :
  forall (K V : Type) (c : K -> K -> comparison), total_order c ->
  forall (d : dict K V) (m : fmap K V) (k : K) (v : V) (f : nat -> bool),
    d_shows K V c d m -> lookup K V c k m = None ->
    let o := DAdd k v in
    dm_step K V (fun a b => Some (c a b)) d o f =
    if f 1%nat && (zlen m =? cap (keys d)) || f 2%nat && (zlen m =? cap (vals d)) then UB
    else d_step K V (fun a b => Some (c a b)) d o.
Proof. exact (fun K V c => @dict_add_exact K V c (fun _ _ => true)). Qed.
Print Assumptions C83_dictionary_add_refuted.
(* a group's Add of a new key: a new that fails throws, a malloc that fails is not noticed; the first value of a key
   always allocates *)
Theorem C83_group_add_refuted :
  forall (K V : Type) (c : K -> K -> comparison) (veq : V -> V -> bool), total_order c ->
  forall (g : group K V) (m : fmap K (list V)) (k : K) (v : V) (f : nat -> bool),
    g_shows K V c g m -> lookup K (list V) c k m = None ->
    let o := GAdd k v in
    gm_step K V (fun a b => Some (c a b)) veq g o f =
    if f 0%nat then Ok (g, None)
    else if f 1%nat && (zlen m =? cap (gkeys g)) || f 2%nat && (zlen m =? cap (gvals g)) || f 3%nat then UB
    else do (g', r) <- g_step K V (fun a b => Some (c a b)) veq g o; Ok (g', Some r).
Proof. exact (@group_add_exact). Qed.
Print Assumptions C83_group_add_refuted.

(* Remove allocates too.  When its malloc fails while the last key goes, Remove reports success, the dictionary is
   empty, and the next Add of any pair is undefined even if there is memory again *)
Theorem C83_remove_refuted :
  forall (k v : Z) (f : nat -> bool),
    let w := [(DAdd 1 10, enough); (DRemove 1, only 1)] in
    dm_run Z Z (fun a b => Some (a ?= b)) empty_dict (w ++ [(DCount, enough)]) =
      Ok (mkDict (mkLst [] 0 1 0) (mkLst [Raw] 0 1 0), [OBool true; OBool true; OInt 0]) /\
    dm_run Z Z (fun a b => Some (a ?= b)) empty_dict (w ++ [(DAdd k v, f)]) = UB.
Proof. exact removal_then_add. Qed.
Print Assumptions C83_remove_refuted.

(* ---- concrete cases ---- *)
(* two pairs; the second Add needs no memory in either list, the third needs it *)
Example C83_lucky :
  dm_run Z Z (fun a b => Some (a ?= b)) empty_dict [(DAdd 5 50, enough); (DAdd 3 30, fun _ => true); (DGet 3, fun _ => true)]
  = Ok (mkDict (mkLst [Live 3; Live 5] 2 2 1) (mkLst [Live 30; Live 50] 2 2 1), [OBool true; OBool true; OVal 30]).
Proof. reflexivity. Qed.
Example C83_unlucky :
  dm_run Z Z (fun a b => Some (a ?= b)) empty_dict [(DAdd 5 50, enough); (DAdd 3 30, enough); (DAdd 4 40, only 2)] = UB.
Proof. reflexivity. Qed.
(* the container of a new key cannot be had: the exception, and the group is as before *)
Example C83_thrown :
  gm_run Z Z (fun a b => Some (a ?= b)) Z.eqb empty_group [(GAdd 5 50, enough); (GAdd 3 30, only 0); (GAdd 5 51, only 0); (GCount, enough); (GValueCount 5, enough)]
  = Ok (mkGroup (mkLst [Live 5; Raw] 1 2 0) (mkLst [Live 0%nat; Raw] 1 2 0) [Some (mkLst [Live 50; Live 51] 2 2 0)],
        [Some (OBool true); None; Some (OBool true); Some (OInt 1); Some (OInt 2)]).
Proof. reflexivity. Qed.
Example C83_sorted_case :
  ms_run Z (fun a b => Some (a ?= b)) empty_lst [(SAdd 5, enough); (SAdd 3, only 1); (SRemove 5, only 2)]
  = Ok (mkLst [Live 3; Raw] 1 2 1, [RInt 0; RInt 0; RBool true]).
Proof. reflexivity. Qed.
