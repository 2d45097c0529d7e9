(* C87: Dictionary<K, Ptr<T>>, on the stack and inside objects. *)
From Verif Require Import Base.
From Verif Require SrtSpec DctSpec DctProofs.
From Verif Require Import RcModel RcSpec LpModel LpSpec PdModel PdSpec PdProofs3.
Open Scope nat_scope.

(* C87: every history that follows the rules of [dlegal] runs without undefined behaviour, and every step of it does to the
   variables, dictionaries and objects, and returns to its caller, what [dspec] says *)
Theorem C87_history (K : Type) (c : K -> K -> comparison) (n : nat) (os : list (pop K)) : SrtSpec.total_order c ->
  dlegal_run K c (init_p n) os ->
  exists s rs, prun K (fun a b => Some (c a b)) (init_p n) os = Ok (s, rs) /\ dhistory K c (init_p n) os rs s.
Proof. exact (fun TO => history_ok K c TO n os). Qed.
Print Assumptions C87_history.

Example C87_history_example : SrtSpec.total_order Z.compare /\ dlegal_run Z Z.compare (init_p 3) registry /\
  exists s1 s2 s3 r1 r2 r3,
  zrun (init_p 3) (firstn 8 registry) = Ok (s1, r1) /\ dict (dworld_of s1) 0 = Some [(3%Z, Some 1); (9%Z, Some 0)] /\
  dict (dworld_of s1) 1 = Some [(5%Z, Some 1)] /\
  zrun (init_p 3) (firstn 16 registry) = Ok (s2, r2) /\ dict (dworld_of s2) 0 = Some [(7%Z, Some 1); (9%Z, Some 1)] /\
  skipn 8 r2 = [Raised; Done; Raised; Said false; Said true; Said true; Said false; Said true] /\
  zrun (init_p 3) registry = Ok (s3, r3) /\ dict (dworld_of s3) 0 = Some [] /\ dict (dworld_of s3) 1 = None /\ ob (rc (lp s3)) = [false; false].
Proof. exact (conj DctProofs.Z_total (conj registry_legal registry_runs)). Qed.

(* C87: an object exists exactly while a variable or a value of a dictionary refers to it *)
Theorem C87_alive (K : Type) (c : K -> K -> comparison) (n : nat) (os : list (pop K)) (s : pst K) (rs : list pout) (o : nat) :
  SrtSpec.total_order c -> dlegal_run K c (init_p n) os -> prun K (fun a b => Some (c a b)) (init_p n) os = Ok (s, rs) ->
  (aa (refs (dworld_of s)) o = true <->
   (exists u, av (refs (dworld_of s)) u = Some (Some o)) \/ exists l f k, dict (dworld_of s) l = Some f /\ In (k, Some o) f).
Proof. exact (fun TO => alive_ok K c TO n os s rs o). Qed.
Print Assumptions C87_alive.

Example C87_alive_example : dlegal_run Z Z.compare (init_p 3) registry /\ exists s rs, zrun (init_p 3) registry = Ok (s, rs).
Proof. split; [exact registry_legal|]. do 2 eexists. vm_compute. reflexivity. Qed.

(* C87: Keys() and Values() have the same length and belong together, and the keys are in ascending order without duplicates *)
Theorem C87_aligned (K : Type) (c : K -> K -> comparison) (n : nat) (os : list (pop K)) (s : pst K) (rs : list pout) (l : nat) f :
  SrtSpec.total_order c -> dlegal_run K c (init_p n) os -> prun K (fun a b => Some (c a b)) (init_p n) os = Ok (s, rs) ->
  dict (dworld_of s) l = Some f ->
  DctSpec.ascending_keys K (option nat) c f /\ map fst f = keyed (dworld_of s) l /\ al (refs (dworld_of s)) l = Some (map snd f).
Proof. exact (fun TO => map_ok K c TO n os s rs l f). Qed.
Print Assumptions C87_aligned.

Example C87_aligned_example : exists s rs, zrun (init_p 3) (firstn 16 registry) = Ok (s, rs) /\
  dict (dworld_of s) 0 = Some [(7%Z, Some 1); (9%Z, Some 1)] /\ keyed (dworld_of s) 0 = [7%Z; 9%Z] /\
  al (refs (dworld_of s)) 0 = Some [Some 1; Some 1].
Proof. do 2 eexists. split; [vm_compute; reflexivity|]. split; [reflexivity|]. split; reflexivity. Qed.

(* C87: the counter is the number of variables and values that refer to the object *)
Theorem C87_counter (K : Type) (c : K -> K -> comparison) (n : nat) (os : list (pop K)) (s : pst K) (rs : list pout)
  (u : nat) (p : ptr) (h : option nat) (o : nat) :
  SrtSpec.total_order c -> dlegal_run K c (init_p n) os -> prun K (fun a b => Some (c a b)) (init_p n) os = Ok (s, rs) ->
  nth_error (vs (rc (lp s))) u = Some (Some p, h) -> pr p = Some o ->
  alive (rc (lp s)) o = true /\ exists d, pc p = Some d /\ nth_error (cn (rc (lp s))) d = Some (Some (Z.of_nat (owners (rc (lp s)) o))).
Proof. exact (fun TO => counter_ok K c TO n os s rs u p h o). Qed.
Print Assumptions C87_counter.

Example C87_counter_example : exists s rs, zrun (init_p 3) (firstn 6 registry) = Ok (s, rs) /\ owners (rc (lp s)) 1 = 2 /\
  exists u p h, nth_error (vs (rc (lp s))) u = Some (Some p, h) /\ pr p = Some 1.
Proof. do 2 eexists. split; [vm_compute; reflexivity|]. split; [reflexivity|]. exists 3. do 2 eexists. split; reflexivity. Qed.

(* C87: the values of the dictionaries have a history of lists of Ptr, so that what C71 says of buffers and counters applies *)
Theorem C87_lists (K : Type) (c : K -> K -> comparison) (n : nat) (os : list (pop K)) (s : pst K) (rs : list pout) :
  SrtSpec.total_order c -> dlegal_run K c (init_p n) os -> prun K (fun a b => Some (c a b)) (init_p n) os = Ok (s, rs) ->
  exists los, llegal_run (init_l n) los /\ lrun (init_l n) los = Ok (lp s).
Proof. exact (fun TO => lists_ok K c TO n os s rs). Qed.
Print Assumptions C87_lists.

Example C87_lists_example : dlegal_run Z Z.compare (init_p 3) registry /\ exists s rs, zrun (init_p 3) registry = Ok (s, rs).
Proof. split; [exact registry_legal|]. do 2 eexists. vm_compute. reflexivity. Qed.

(* C87 is false without the rule about values of the dictionary itself: d.Add(3, d[1]) and d.Set(3, d[1]) read a value that the
   insertion has moved away, when the buffer is full and when the new key comes first *)
Theorem C87_own_value_refuted : dlegal_run Z Z.compare (init_p 1) own_demo /\ exists s r s1 r1, zrun (init_p 1) own_demo = Ok (s, r) /\
  dict (dworld_of s) 0 = Some [(1%Z, Some 0); (2%Z, Some 0)] /\ zstep s (DAdd 0 3 (FromDict 0 1) false)%Z = UB /\
  zstep s (DSet 0 3 (FromDict 0 1) false)%Z = UB /\
  zrun (init_p 1) (firstn 3 own_demo) = Ok (s1, r1) /\ zstep s1 (DAdd 0 0 (FromDict 0 1) false)%Z = UB.
Proof. exact own_bad. Qed.
Print Assumptions C87_own_value_refuted.

(* C87 is false for a dictionary that only its own value keeps: Remove and Clear delete the dictionary they work on *)
Theorem C87_own_dictionary_refuted : dlegal_run Z Z.compare (init_p 2) own_ring /\ exists s r s1, zrun (init_p 2) own_ring = Ok (s, r) /\
  zstep s (VEnd 0) = Ok (s1, Done) /\ dict (dworld_of s1) 0 = Some [(1%Z, Some 0)] /\
  zstep s1 (DRemove 0 1%Z) = UB /\ zstep s1 (DClear 0) = UB /\ zstep s1 (DMove 0 0) = UB.
Proof. exact ring_breaks. Qed.
Print Assumptions C87_own_dictionary_refuted.
