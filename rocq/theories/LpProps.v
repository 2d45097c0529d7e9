(* C71: List<Ptr<T>>, on the stack and inside objects. *)
From Verif Require Import Base RcModel RcSpec LpModel LpSpec LpProofs10.
Open Scope nat_scope.

(* C71: every history that follows the rules of [llegal] runs without undefined behaviour, and every step of it does to the
   variables, lists and objects what [lspec] says *)
Theorem C71_history (n : nat) (os : list lop) : llegal_run (init_l n) os ->
  exists s, lrun (init_l n) os = Ok s /\ lhistory (init_l n) os s.
Proof. exact (lhistory_ok n os). Qed.
Print Assumptions C71_history.

Example C71_history_example : llegal_run (init_l 3) tree_demo /\
  exists s1 s2 s3, lrun (init_l 3) (firstn 10 tree_demo) = Ok s1 /\ al (lworld_of s1) 2 = Some [Some 1; Some 0] /\
    al (lworld_of s1) 0 = Some [Some 1] /\
    lrun (init_l 3) (firstn 11 tree_demo) = Ok s2 /\ al (lworld_of s2) 2 = Some [Some 1] /\ al (lworld_of s2) 0 = None /\
    aa (lworld_of s2) 0 = false /\ aa (lworld_of s2) 1 = true /\
    lrun (init_l 3) tree_demo = Ok s3 /\ al (lworld_of s3) 2 = Some [] /\ aa (lworld_of s3) 1 = false /\ cn (rc s3) = [None; None].
Proof. exact (conj tree_legal tree_runs). Qed.

(* lists and members of objects that are only held by lists of other objects *)
Example C71_history_deep_example : llegal_run (init_l 3) deep_demo /\
  exists s1 s2 s3, lrun (init_l 3) (firstn 8 deep_demo) = Ok s1 /\ al (lworld_of s1) 0 = Some [Some 1] /\
    al (lworld_of s1) 1 = Some [Some 2] /\ av (lworld_of s1) 5 = Some (Some 0) /\
    lrun (init_l 3) (firstn 10 deep_demo) = Ok s2 /\ al (lworld_of s2) 0 = Some [Some 1] /\ al (lworld_of s2) 1 = Some [] /\
    aa (lworld_of s2) 2 = false /\ aa (lworld_of s2) 1 = true /\
    lrun (init_l 3) deep_demo = Ok s3 /\ ob (rc s3) = [false; false; false] /\ cn (rc s3) = [None; None; None].
Proof. exact (conj deep_legal deep_runs). Qed.

(* C71: an object exists exactly while a variable or an item of a list refers to it *)
Theorem C71_alive (n : nat) (os : list lop) (s : lst) (o : nat) :
  llegal_run (init_l n) os -> lrun (init_l n) os = Ok s -> (aa (lworld_of s) o = true <-> exists p, arefers (lworld_of s) p o).
Proof. exact (lalive_ok n os s o). Qed.
Print Assumptions C71_alive.

Example C71_alive_example : llegal_run (init_l 3) tree_demo /\ exists s, lrun (init_l 3) tree_demo = Ok s.
Proof. split; [exact tree_legal|]. eexists. vm_compute. reflexivity. Qed.

(* C71: the counter is the number of variables and items that refer to the object *)
Theorem C71_counter (n : nat) (os : list lop) (s : lst) (u : nat) (p : ptr) (h : option nat) (o : nat) :
  llegal_run (init_l n) os -> lrun (init_l n) os = Ok s -> nth_error (vs (rc s)) u = Some (Some p, h) -> pr p = Some o ->
  alive (rc s) o = true /\ exists c, pc p = Some c /\ nth_error (cn (rc s)) c = Some (Some (Z.of_nat (owners (rc s) o))).
Proof. exact (lcounter_ok n os s u p h o). Qed.
Print Assumptions C71_counter.

Example C71_counter_example : exists s, lrun (init_l 3) (firstn 3 tree_demo) = Ok s /\ owners (rc s) 1 = 2 /\
  nth_error (vs (rc s)) 1 = Some (Some (mkPtr (Some 1) (Some 1) (Some 1) true), None) /\ nth_error (cn (rc s)) 1 = Some (Some 2%Z).
Proof. eexists. split; [vm_compute; reflexivity|]. split; [reflexivity|]. split; reflexivity. Qed.

(* C71: a counter that has not been deleted counts a variable or an item *)
Theorem C71_counter_released (n : nat) (os : list lop) (s : lst) (c : nat) (k : Z) :
  llegal_run (init_l n) os -> lrun (init_l n) os = Ok s -> nth_error (cn (rc s)) c = Some (Some k) ->
  exists q o, at_ (lworld_of s) q = Some (Some o) /\ exists u p h, nth_error (vs (rc s)) u = Some (Some p, h) /\ pc p = Some c /\ pr p = Some o.
Proof. exact (lcounter_released n os s c k). Qed.
Print Assumptions C71_counter_released.

Example C71_counter_released_example : exists s, lrun (init_l 3) (firstn 3 tree_demo) = Ok s /\ nth_error (cn (rc s)) 1 = Some (Some 2%Z).
Proof. eexists. split; [vm_compute; reflexivity|reflexivity]. Qed.

(* C71: memory that was allocated and not freed is exactly the memory of the buffers of the lists *)
Theorem C71_buffers (n : nat) (os : list lop) (s : lst) (u : nat) :
  llegal_run (init_l n) os -> lrun (init_l n) os = Ok s -> (kind_of (kd s) u = KRaw \/ kind_of (kd s) u = KMade <-> in_buffer s u).
Proof. exact (buffers_ok n os s u). Qed.
Print Assumptions C71_buffers.

Example C71_buffers_example : exists s, lrun (init_l 3) (firstn 10 tree_demo) = Ok s /\ in_buffer s 5 /\ kind_of (kd s) 5 = KMade /\
  exists s', lrun (init_l 3) tree_demo = Ok s' /\ kind_of (kd s') 5 = KFree.
Proof.
  eexists. split; [vm_compute; reflexivity|]. split; [eexists 2, _; split; [reflexivity|cbn; auto]|]. split; [reflexivity|].
  eexists. split; [vm_compute; reflexivity|reflexivity].
Qed.

(* C71: no two lists share memory *)
Theorem C71_apart (n : nat) (os : list lop) (s : lst) (l m : nat) (x y : lrec) (u : nat) :
  llegal_run (init_l n) os -> lrun (init_l n) os = Ok s ->
  nth_error (ls s) l = Some (Some x) -> nth_error (ls s) m = Some (Some y) -> l <> m ->
  base x <= u < base x + room x -> ~ (base y <= u < base y + room y).
Proof. exact (apart_ok n os s l m x y u). Qed.
Print Assumptions C71_apart.

Example C71_apart_example : exists s x y, lrun (init_l 3) (firstn 10 tree_demo) = Ok s /\
  nth_error (ls s) 0 = Some (Some x) /\ nth_error (ls s) 2 = Some (Some y) /\ room x = 2 /\ room y = 2.
Proof. do 3 eexists. split; [vm_compute; reflexivity|]. split; [reflexivity|]. split; [reflexivity|]. split; reflexivity. Qed.

(* C71: an index out of range is an error, and nothing is undefined *)
Theorem C71_range (n : nat) (os : list lop) (s : lst) (o : lop) :
  llegal_run (init_l n) os -> lrun (init_l n) os = Ok s -> out_of_range (lworld_of s) o -> lstep s o = Err.
Proof. exact (lrange_ok n os s o). Qed.
Print Assumptions C71_range.

Example C71_range_example : exists s, lrun (init_l 3) (firstn 10 tree_demo) = Ok s /\
  out_of_range (lworld_of s) (LRemove 2 1 2) /\ out_of_range (lworld_of s) (LInsert 2 3 (AItem 0 0) false) /\
  out_of_range (lworld_of s) (LInsert 2 0 (AItem 2 5) false) /\ out_of_range (lworld_of s) (MCopy 2 (AItem 2 5)).
Proof.
  eexists. split; [vm_compute; reflexivity|]. split; [|split; [|split]].
  - eexists. split; [vm_compute; reflexivity|cbn; auto].
  - eexists. split; [vm_compute; reflexivity|]. right. split; [discriminate|cbn; auto].
  - eexists. split; [vm_compute; reflexivity|]. left. eexists. split; [vm_compute; reflexivity|cbn; auto].
  - split; [reflexivity|]. eexists. split; [vm_compute; reflexivity|cbn; auto].
Qed.

(* C71 fails for list = std::move(list[0]->children) when list holds the only reference: the items are destroyed first, and the
   list to move from with them *)
Theorem C71_lift_refuted : llegal_run (init_l 1) lift_demo /\ exists s, lrun (init_l 1) lift_demo = Ok s /\
  al (lworld_of s) 0 = Some [Some 0] /\ al (lworld_of s) 1 = Some [] /\ lstep s (LMove 0 1) = UB.
Proof. exact lift_bad. Qed.
Print Assumptions C71_lift_refuted.

(* C71 fails for Clear and RemoveAt of a list that holds the only reference to the object it is a member of: the list is written
   after it was destroyed *)
Theorem C71_own_list_refuted : llegal_run (init_l 2) ring_demo /\ exists s, lrun (init_l 2) ring_demo = Ok s /\
  al (lworld_of s) 0 = Some [Some 0] /\ lstep s (LClear 0) = UB /\ lstep s (LRemove 0 0 1) = UB.
Proof. exact ring_bad. Qed.
Print Assumptions C71_own_list_refuted.

(* C71 fails for list.Add(list[0]) when the buffer is full *)
Theorem C71_own_item_refuted : llegal_run (init_l 1) full_demo /\ exists s, lrun (init_l 1) full_demo = Ok s /\
  al (lworld_of s) 0 = Some [Some 0; Some 0] /\ lstep s (LInsert 0 2 (AItem 0 0) false) = UB.
Proof. exact full_bad. Qed.
Print Assumptions C71_own_item_refuted.
