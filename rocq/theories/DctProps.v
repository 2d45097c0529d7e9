(* Theorems about Dictionary, Group, their enumerators and GroupInnerJoin. *)
From Verif Require Import Base LstModel LstSpec SrtModel SrtSpec DctModel DctSpec DctProofs.
Open Scope Z_scope.

Section Props.
  Variable K V : Type.
  Variable c : K -> K -> comparison.
  Variable veq : V -> V -> bool.

  (* C21: any history on a dictionary answers as on the finite map; keys stay strictly
     ascending and aligned with the values. *)
  Theorem C21_history : total_order c -> forall os : list (dop K V),
    exists d, d_run K V (fun a b => Some (c a b)) empty_dict os = Ok (d, snd (md_run K V c [] os)) /\
              d_shows K V c d (fst (md_run K V c [] os)).
  Proof. exact (fun TO os => d_run_ok K V c TO os _ _ (d_empty K V c)). Qed.

  (* the specification is a finite map *)
  Theorem C21_map_put : total_order c -> forall m k v k',
    lookup K V c k' (put K V c k v m) = match c k k' with Eq => Some v | _ => lookup K V c k' m end.
  Proof. exact (lookup_put K V c). Qed.
  Theorem C21_map_del : total_order c -> forall m k k', ascending_keys K V c m ->
    lookup K V c k' (del K V c k m) = match c k k' with Eq => None | _ => lookup K V c k' m end.
  Proof. exact (lookup_del K V c). Qed.
  Theorem C21_map_ascending : total_order c -> forall m k v, ascending_keys K V c m ->
    ascending_keys K V c (put K V c k v m) /\ ascending_keys K V c (del K V c k m).
  Proof. exact (fun TO m k v H => conj (put_asc K V c TO m k v H) (del_asc K V c TO m k H)). Qed.

  (* C22: any history on a group answers as on the map to sequences, no sequence is empty,
     every container on the heap is owned by exactly one key. *)
  Theorem C22_history : total_order c -> forall os : list (gop K V),
    exists g, g_run K V (fun a b => Some (c a b)) veq empty_group os = Ok (g, snd (mg_run K V c veq [] os)) /\
              g_shows K V c g (fst (mg_run K V c veq [] os)).
  Proof. exact (fun TO os => g_run_ok K V c TO veq os _ _ (g_empty K V c)). Qed.
  (* an empty group owns nothing: the destructor, which clears, frees every container *)
  Theorem C22_no_leak : forall g p x, g_shows K V c g [] -> nth_error (gheap g) p <> Some (Some x).
  Proof. exact (g_no_leak K V c). Qed.

  (* C24: enumeration gives every pair once, in order, with its position. *)
  Theorem C24_dictionary : forall d m, d_shows K V c d m ->
    d_drive K V d d_enum (length m + 1) = Ok (numbered m).
  Proof. exact (d_enum_ok K V c). Qed.
  Theorem C24_group : forall g m, g_shows K V c g m ->
    g_drive K V g g_enum (length (pairs_of K V m) + 1) = Ok (numbered (pairs_of K V m)).
  Proof. exact (g_enum_ok K V c). Qed.

  (* C25 is false for the enumerators of Dictionary and Group: Reset always raises an error. *)
  Theorem C25_dictionary_reset_refuted : forall d m e, d_shows K V c d m -> d_reset K V d e = Err.
  Proof. exact (d_reset_err K V c). Qed.
  Theorem C25_group_reset_refuted : forall g m e, g_shows K V c g m -> g_reset K V g e = Err.
  Proof. exact (g_reset_err K V c). Qed.
End Props.

(* C26: the callbacks are called once per key, in ascending key order, with the value
   sequences: accept exactly for the common keys, discard for the others. *)
Theorem C26_join : forall K V W c, total_order c -> forall a b m n, g_shows K V c a m -> g_shows K W c b n ->
  exists es, group_inner_join K V W (fun x y => Some (c x y)) a b = Ok es /\
    accepts K V W es = joined K V W c m n /\ discards1 K V W es = only_first K V W c m n /\
    discards2 K V W es = only_second K V W c m n /\ StronglySorted (fun x y => c x y = Lt) (map event_key es).
Proof. exact (fun K V W c TO => group_join_ok K V W c TO). Qed.

(* C23 is false: Remove(key, value) returns true although the value is not there and
   nothing was removed. *)
Theorem C23_remove_value_refuted :
  exists g g', g_shows Z Z Z.compare g [(1, [10])] /\
    g_remove_value Z Z (fun a b => Some (a ?= b)) Z.eqb g 1 99 = Ok (g', true) /\
    g_shows Z Z Z.compare g' [(1, [10])].
Proof. exact remove_value_lies. Qed.
(* what does hold: true exactly when the key exists, and the first occurrence is removed *)
Theorem C23_remove_value_partial : forall K V c veq, total_order c -> forall g m k v, g_shows K V c g m ->
  exists g', g_remove_value K V (fun a b => Some (c a b)) veq g k v =
      Ok (g', match lookup K (list V) c k m with Some _ => true | None => false end) /\
    g_shows K V c g' (match lookup K (list V) c k m with
                      | Some vs => match remove_first V veq v vs with [] => del K _ c k m | vs' => put K _ c k vs' m end
                      | None => m
                      end).
Proof. exact remove_value_ok. Qed.

Example C21_case : total_order Z.compare /\
  snd (md_run Z Z Z.compare [] [DAdd 5 50; DAdd 3 30; DAdd 5 51; DSet 5 52; DGet 5; DGet 4; DKeyAt 0; DRemove 3; DRemove 3; DCount])
  = [OBool true; OBool true; OError; OBool true; OVal 52; OError; OKey 3; OBool true; OBool false; OInt 1].
Proof. exact (conj Z_total eq_refl). Qed.
Example C22_case :
  snd (mg_run Z Z Z.compare Z.eqb [] [GAdd 5 50; GAdd 3 30; GAdd 5 51; GValueCount 5; GRemoveValue 5 50; GValueAt 5 0; GRemoveValue 5 51; GContains 5; GCount])
  = [OBool true; OBool true; OBool true; OInt 2; OBool true; OVal 51; OBool true; OBool false; OInt 1] /\
  numbered (pairs_of Z Z [(3, [30]); (5, [50; 51])]) = [(0, (3, 30)); (1, (5, 50)); (2, (5, 51))].
Proof. exact (conj eq_refl eq_refl). Qed.
Example C26_case : joined Z Z Z Z.compare [(1, [10]); (2, [20; 21])] [(2, [7]); (3, [8])] = [(2, ([20; 21], [7]))] /\
  only_first Z Z Z Z.compare [(1, [10]); (2, [20; 21])] [(2, [7]); (3, [8])] = [(1, [10])].
Proof. exact (conj eq_refl eq_refl). Qed.

Print Assumptions C21_history.
Print Assumptions C21_map_put.
Print Assumptions C21_map_del.
Print Assumptions C21_map_ascending.
Print Assumptions C22_history.
Print Assumptions C22_no_leak.
Print Assumptions C24_dictionary.
Print Assumptions C24_group.
Print Assumptions C25_dictionary_reset_refuted.
Print Assumptions C25_group_reset_refuted.
Print Assumptions C26_join.
Print Assumptions C23_remove_value_refuted.
Print Assumptions C23_remove_value_partial.
