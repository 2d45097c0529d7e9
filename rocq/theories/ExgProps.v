(* Theorems for C65 (Group and SortedList). *)
From Verif Require Import Base LstModel LstSpec SrtModel SrtSpec DctModel DctSpec ExcModel ExcSpec ExgModel ExgSpec ExgProofs.
Open Scope Z_scope.

(* C65: after an exception of the copy of a new key or of any value added to a group, whatever defined program
   follows, the group counts more keys or values than there are, and its destructor is undefined *)
Theorem C65_group_add_refuted (K V : Type) (c : K -> K -> comparison) : total_order c -> forall (veq : V -> V -> bool) os1 k v o os2,
  (o = XGAddKeyThrows k v /\ lookup K (list V) c k (fst (mg_run K V c veq [] os1)) = None \/ o = XGAddValueThrows k v) ->
  (exists g rs, xg_run K V (fun a b => Some (c a b)) veq empty_group (map XGroup os1 ++ [o]) = Ok (g, rs ++ [XGThrown])) /\
  forall g rs, xg_run K V (fun a b => Some (c a b)) veq empty_group (map XGroup os1 ++ o :: os2) = Ok (g, rs) ->
    group_torn K V g /\ forall u, g_destruct K V g <> Ok u.
Proof. exact (g_no_return K V c). Qed.
Print Assumptions C65_group_add_refuted.

(* C65: an exception of the copy of a new key also leaves a container that belongs to no key, for ever *)
Theorem C65_group_leak_refuted (K V : Type) (c : K -> K -> comparison) : total_order c -> forall (veq : V -> V -> bool) os1 k v os2 g rs,
  lookup K (list V) c k (fst (mg_run K V c veq [] os1)) = None ->
  xg_run K V (fun a b => Some (c a b)) veq empty_group (map XGroup os1 ++ XGAddKeyThrows k v :: os2) = Ok (g, rs) ->
  exists p, nth_error (gheap g) p = Some (Some empty_lst) /\ ~ held K V g p.
Proof. exact (g_key_leak K V c). Qed.
Print Assumptions C65_group_leak_refuted.

(* C65: an exception of the copy of a value leaves all other keys and their values, and the values that the key had;
   the key is there, and there is one more value to count than to read *)
Theorem C65_group_value (K V : Type) (c : K -> K -> comparison) : total_order c -> forall (veq : V -> V -> bool) os1 g1 rs k v,
  g_run K V (fun a b => Some (c a b)) veq empty_group os1 = Ok (g1, rs) ->
  let m := fst (mg_run K V c veq [] os1) in let vs := values_at K V c k m in
  exists g2, xg_step K V (fun a b => Some (c a b)) veq g1 (XGAddValueThrows k v) = Ok (g2, XGThrown) /\
    (forall o k', asks K V o k' -> c k k' <> Eq -> g_step K V (fun a b => Some (c a b)) veq g2 o = Ok (g2, snd (mg_step K V c veq m o))) /\
    g_step K V (fun a b => Some (c a b)) veq g2 GCount = Ok (g2, OInt (zlen (put K (list V) c k vs m))) /\
    forall k', c k k' = Eq ->
      g_step K V (fun a b => Some (c a b)) veq g2 (GContains k') = Ok (g2, OBool true) /\
      g_step K V (fun a b => Some (c a b)) veq g2 (GValueCount k') = Ok (g2, OInt (zlen vs + 1)) /\
      (forall i a, znth vs i = Some a -> g_step K V (fun a b => Some (c a b)) veq g2 (GValueAt k' i) = Ok (g2, OVal a)) /\
      g_step K V (fun a b => Some (c a b)) veq g2 (GValueAt k' (zlen vs)) = UB.
Proof. exact (g_value_left K V c). Qed.
Print Assumptions C65_group_value.

(* C65: adding to a key that is there does not copy the key *)
Theorem C65_group_key_not_copied (K V : Type) (c : K -> K -> comparison) : total_order c -> forall (veq : V -> V -> bool) os1 k v g,
  (exists rs, g_run K V (fun a b => Some (c a b)) veq empty_group os1 = Ok (g, rs)) ->
  lookup K (list V) c k (fst (mg_run K V c veq [] os1)) <> None ->
  exists g', xg_step K V (fun a b => Some (c a b)) veq g (XGAddKeyThrows k v) = Ok (g', XGRet (OBool true)) /\
    g_step K V (fun a b => Some (c a b)) veq g (GAdd k v) = Ok (g', OBool true).
Proof. exact (g_key_there K V c). Qed.
Print Assumptions C65_group_key_not_copied.

(* the destructor of a group without exceptions is defined and frees every container *)
Theorem C65_group_calm (K V : Type) (c : K -> K -> comparison) : total_order c -> forall (veq : V -> V -> bool) os g rs,
  g_run K V (fun a b => Some (c a b)) veq empty_group os = Ok (g, rs) ->
  exists g', g_destruct K V g = Ok g' /\ forall p x, nth_error (gheap g') p <> Some (Some x).
Proof. exact (g_calm K V c). Qed.
Print Assumptions C65_group_calm.
Example C65_group_example : total_order Z.compare /\
  lookup Z (list Z) Z.compare 5 (fst (mg_run Z Z Z.compare Z.eqb [] xg_demo)) = None /\
  lookup Z (list Z) Z.compare 2 (fst (mg_run Z Z Z.compare Z.eqb [] xg_demo)) = Some [20; 21] /\
  exists g rs, xg_run Z Z (fun a b => Some (Z.compare a b)) Z.eqb empty_group
      (map XGroup xg_demo ++ XGAddValueThrows 2 22 :: [XGroup (GValueCount 2); XGroup (GValueAt 2 1); XGroup (GValueAt 1 0); XGroup (GAdd 7 70)]) = Ok (g, rs) /\
    skipn 5 rs = [XGThrown; XGRet (OInt 3); XGRet (OVal 21); XGRet (OVal 10); XGRet (OBool true)].
Proof. exact xg_ex. Qed.

(* C65: after an exception of the copy of an element added to a sorted list, whatever defined program follows, the
   list counts more elements than there are, and its destructor is undefined *)
Theorem C65_sorted_add_refuted (A : Type) (c : A -> A -> comparison) : total_order c -> forall os1 a os2, Forall (client_ok A) os1 ->
  (exists x rs, xs_run A (fun a b => Some (c a b)) empty_lst (map XSorted os1 ++ [XSAddThrows a]) = Ok (x, rs ++ [XSThrown])) /\
  forall x rs, xs_run A (fun a b => Some (c a b)) empty_lst (map XSorted os1 ++ XSAddThrows a :: os2) = Ok (x, rs) ->
    torn A x /\ forall u, destruct A x <> Ok u.
Proof. exact (s_no_return A c). Qed.
Print Assumptions C65_sorted_add_refuted.
Example C65_sorted_example : total_order Z.compare /\ Forall (client_ok Z) [SAdd 5; SAdd 3; SRemove 5; SRemoveRange 0 0] /\
  exists x rs, xs_run Z (fun a b => Some (Z.compare a b)) empty_lst
      (map XSorted [SAdd 5; SAdd 3; SRemove 5; SRemoveRange 0 0] ++ XSAddThrows 4 :: [XSorted SCount; XSorted (SGet 0)]) = Ok (x, rs) /\
    skipn 4 rs = [XSThrown; XSRet (RInt 2); XSRet (RVal 3)].
Proof. exact xs_ex. Qed.
