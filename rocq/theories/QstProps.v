(* Theorems about sorting and searching with a comparison that is user code, and about the
   number of comparisons. *)
From Verif Require Import Base LstModel LstSpec SrtModel SrtSpec QsModel QstModel QstSpec QstProofs.
Open Scope Z_scope.

(* C27: whatever the comparison does - answering inconsistently, depending on its own state,
   throwing - the call terminates, stays within the range, leaves a permutation of the range
   and nothing else changed.  It is left by an exception only if some comparison of two
   elements of the range gave no ordering. *)
Theorem C27_any_orderer : forall T St (orderer : St -> T -> T -> St * answer) (pre seg post : list T) s,
  exists seg' s' o,
    tsort_array T St orderer (pre ++ seg ++ post) s (zlen pre) (zlen seg) = Ok (pre ++ seg' ++ post, s', o) /\
    Permutation seg seg' /\
    match o with Some depth => 2 ^ Z.of_nat depth <= zlen seg + 1 | None => no_answer orderer seg end.
Proof. exact tsort_permutes. Qed.
Print Assumptions C27_any_orderer.

(* C27: an exception of the comparison is not swallowed: if the call returns normally, the
   comparison has not thrown.  [calm] stands for "has not thrown yet". *)
Theorem C27_exceptions_propagate : forall T St (orderer : St -> T -> T -> St * answer) calm, stays_calm orderer calm ->
  forall (pre seg post : list T) s a s' d, calm s ->
    tsort_array T St orderer (pre ++ seg ++ post) s (zlen pre) (zlen seg) = Ok (a, s', Some d) -> calm s'.
Proof. exact tsort_calm. Qed.
Print Assumptions C27_exceptions_propagate.

(* C27: for a comparison that is a function the two models of Sort agree; an error of one is
   an exception of the other. *)
Theorem C27_models_agree : forall T (cmp : T -> T -> option comparison) a base len,
  match sort_array T cmp a base len with
  | Ok (a', d) => tsort_array T unit (stateless cmp) a tt base len = Ok (a', tt, Some d)
  | Err => exists a', tsort_array T unit (stateless cmp) a tt base len = Ok (a', tt, None)
  | UB => tsort_array T unit (stateless cmp) a tt base len = UB
  | NoFuel => tsort_array T unit (stateless cmp) a tt base len = NoFuel
  end.
Proof. exact sort_agrees. Qed.
Print Assumptions C27_models_agree.

(* C34: OrderBy does not keep the order of elements that compare equal. *)
Theorem C34_stable_refuted : ~ (forall T (c : T -> T -> comparison), total_order c ->
  forall source out, order_by T (fun a b => Some (c a b)) source = Ok out -> keeps_order c source out).
Proof. exact not_stable. Qed.
Print Assumptions C34_stable_refuted.

(* C62: sorting n elements makes at most n (n - 1) comparisons, whatever they answer: a
   measure of the comparison's state that grows by at most one per call grows by at most
   that much. *)
Theorem C62_sort_at_most : forall T St (orderer : St -> T -> T -> St * answer) measure, calls_bound orderer measure ->
  forall (pre seg post : list T) s, exists a s' o,
    tsort_array T St orderer (pre ++ seg ++ post) s (zlen pre) (zlen seg) = Ok (a, s', o) /\
    measure s' <= measure s + zlen seg * (zlen seg - 1).
Proof. exact tsort_cost. Qed.
Print Assumptions C62_sort_at_most.

(* C62: and that many on every list that is already in strictly ascending order. *)
Theorem C62_sort_worst_case : forall T (c : T -> T -> comparison) (pre seg post : list T) n, strictly_ascending c seg ->
  exists d, tsort_array T Z (counting (fun a b => Is (c a b))) (pre ++ seg ++ post) n (zlen pre) (zlen seg) =
    Ok (pre ++ seg ++ post, n + zlen seg * (zlen seg - 1), Some d).
Proof. exact w_sort_array. Qed.
Print Assumptions C62_sort_worst_case.

(* C62: hence no bound of the form k n log n holds. *)
Theorem C62_sort_n_log_n_refuted : ~ (exists k, forall (seg : list Z) a calls o,
  tsort_array Z Z (counting (fun a b => Is (Z.compare a b))) seg 0 0 (zlen seg) = Ok (a, calls, o) ->
  calls <= k * (zlen seg + 1) * Z.log2_up (zlen seg + 1)).
Proof. exact not_n_log_n. Qed.
Print Assumptions C62_sort_n_log_n_refuted.

(* C62: IndexOf and Contains of a SortedList of n elements compare at most
   ceil (log2 (n + 1)) times (= floor (log2 n) + 1 for n > 0), for every comparison. *)
Theorem C62_search_at_most : forall T St (orderer : St -> T -> T -> St * answer) measure, calls_bound orderer measure ->
  forall x l key st, lst_shows T x l ->
  exists st' o, tindex T St orderer x key st = Ok (st', o) /\ measure st' <= measure st + Z.log2_up (zlen l + 1).
Proof. exact tindex_bound. Qed.
Print Assumptions C62_search_at_most.

(* C62: that many for a key above every element. *)
Theorem C62_search_worst_case : forall T (c : T -> T -> comparison) x l key n,
  lst_shows T x l -> Forall (fun y => c y key = Lt) l ->
  exists oi, tindex T Z (counting (fun a b => Is (c a b))) x key n = Ok (n + Z.log2_up (zlen l + 1), Some (-1, oi)).
Proof. exact w_index. Qed.
Print Assumptions C62_search_worst_case.

(* C62: Add makes one more (none for an empty list); if a comparison throws, the list is
   unchanged, otherwise the element has been inserted at the returned position. *)
Theorem C62_add : forall T St (orderer : St -> T -> T -> St * answer) measure, calls_bound orderer measure ->
  forall x l a st, lst_shows T x l ->
  exists y st' o, tadd T St orderer x a st = Ok (y, st', o) /\
    measure st' <= measure st + (if zlen l =? 0 then 0 else Z.log2_up (zlen l + 1) + 1) /\
    match o with
    | Some i => 0 <= i <= zlen l /\ lst_shows T y (ztake T i l ++ a :: zdrop T i l)
    | None => y = x /\ exists st x, In x l /\ forall c, snd (orderer st x a) <> Is c
    end.
Proof. exact tadd_bound. Qed.
Print Assumptions C62_add.

(* C62: neither the search nor Add swallows an exception of the comparison. *)
Theorem C62_exceptions_propagate : forall T St (orderer : St -> T -> T -> St * answer) calm, stays_calm orderer calm ->
  forall x l a st, lst_shows T x l -> calm st ->
  (forall st' r, tindex T St orderer x a st = Ok (st', Some r) -> calm st') /\
  (forall y st' i, tadd T St orderer x a st = Ok (y, st', Some i) -> calm st').
Proof. exact search_calm. Qed.
Print Assumptions C62_exceptions_propagate.

(* C62: adding or setting a key of a Dictionary of n keys compares at most
   2 ceil (log2 (n + 1)) + 1 times, and leaves the keys alone if a comparison throws. *)
Theorem C62_dictionary : forall T St (orderer : St -> T -> T -> St * answer) measure, calls_bound orderer measure ->
  forall keys l key st, lst_shows T keys l ->
  exists keys' st' o, tdict_key T St orderer keys key st = Ok (keys', st', o) /\
    measure st' <= measure st + (2 * Z.log2_up (zlen l + 1) + 1) /\ (o = None -> keys' = keys).
Proof. exact tdict_bound. Qed.
Print Assumptions C62_dictionary.

(* C62: these models of the search and of Add agree with those of C19 when the comparison is
   a function. *)
Theorem C62_models_agree : forall T (cmp : T -> T -> option comparison) x l a, lst_shows T x l ->
  tindex T unit (stateless cmp) x a tt =
    match index_of_internal T cmp x a with
    | Ok r => Ok (tt, Some r) | Err => Ok (tt, None) | UB => UB | NoFuel => NoFuel end /\
  tadd T unit (stateless cmp) x a tt =
    match s_add T cmp x a with
    | Ok (y, i) => Ok (y, tt, Some i) | Err => Ok (x, tt, None) | UB => UB | NoFuel => NoFuel end.
Proof. exact srt_agree. Qed.
Print Assumptions C62_models_agree.

(* a comparison that answers inconsistently and throws at its fifth call: the array is left
   as a permutation *)
Example C27_orderer_case : tsort_array Z Z moody [9; 3; 1; 2; 5; 4; 9] 0 1 5 = Ok ([9; 5; 2; 3; 1; 4; 9], 5, None).
Proof. reflexivity. Qed.
Example C27_calm_case : stays_calm moody (fun n => n <= 4) /\ ~ (fun n => n <= 4) 5.
Proof. exact moody_calm. Qed.
Example C62_case : calls_bound (counting (fun a b : Z => Is (Z.compare a b))) (fun n => n) /\
  strictly_ascending Z.compare [1; 2; 5; 8] /\
  tsort_array Z Z (counting (fun a b => Is (Z.compare a b))) [1; 2; 5; 8] 0 0 4 = Ok ([1; 2; 5; 8], 12, Some 1%nat) /\
  tsort_array Z Z (counting (fun a b => Is (Z.compare a b))) [5; 1; 8; 2] 0 0 4 = Ok ([1; 2; 5; 8], 8, Some 2%nat).
Proof. exact cost_case. Qed.
