(* C37: copying pairs into and out of dictionaries and groups. *)
From Coq Require Import Permutation.
From Verif Require Import Base LzyModel LzySpec LstModel LstSpec SrtModel SrtSpec DctModel DctSpec CpyModel CpySpec EngModel CpdModel CpdSpec CpdProofs.
Open Scope Z_scope.

(* The source s holds the pairs l: an array, list or sorted list of pairs, a pointer and a count, or a dictionary; in the
   theorems named _en a lazy list or a group.  A dictionary is given the pairs one after the other, a later value replacing an
   earlier one of the same key. *)
Theorem C37_dictionary (K V : Type) (c : K -> K -> comparison) (d : dict K V) (m : fmap K V) (s : psrc K V) (l : list (K * V)) (append : bool) :
  total_order c -> d_shows K V c d m -> psrc_shows K V c s l ->
  exists d', copy_dict_ra K V (fun a b => Some (c a b)) d s append = Ok d' /\ d_shows K V c d' (put_all K V c (kept append m) l).
Proof. exact (fun TO => dict_ra K V c TO d m s l append). Qed.
Print Assumptions C37_dictionary.
Theorem C37_dictionary_en (K V : Type) (c : K -> K -> comparison) (d : dict K V) (m : fmap K V) (s : esrc K V) (l : list (K * V)) (append : bool) :
  total_order c -> d_shows K V c d m -> esrc_shows K V c s l ->
  exists d', yields (fun f => copy_dict_en K V (fun a b => Some (c a b)) f d s append) d' /\ d_shows K V c d' (put_all K V c (kept append m) l).
Proof. exact (fun TO => dict_en K V c TO (fun _ _ => true) d m s l append). Qed.
Print Assumptions C37_dictionary_en.
(* what that map holds: the last value given for the key, else what was there *)
Theorem C37_dictionary_values (K V : Type) (c : K -> K -> comparison) (m : fmap K V) (l : list (K * V)) (k : K) : total_order c ->
  lookup K V c k (put_all K V c m l) = last_for K V c k l (lookup K V c k m).
Proof. exact (fun TO => put_all_lookup K V c TO l m k). Qed.
Print Assumptions C37_dictionary_values.

(* A group is given the pairs one after the other, every value going to the end of the values of its key. *)
Theorem C37_group (K V : Type) (c : K -> K -> comparison) (g : group K V) (m : fmap K (list V)) (s : psrc K V) (l : list (K * V)) (append : bool) :
  total_order c -> g_shows K V c g m -> psrc_shows K V c s l ->
  exists g', copy_group_ra K V (fun a b => Some (c a b)) g s append = Ok g' /\ g_shows K V c g' (group_put_all K V c (kept append m) l).
Proof. exact (fun TO => group_ra K V c TO (fun _ _ => true) g m s l append). Qed.
Print Assumptions C37_group.
Theorem C37_group_en (K V : Type) (c : K -> K -> comparison) (g : group K V) (m : fmap K (list V)) (s : esrc K V) (l : list (K * V)) (append : bool) :
  total_order c -> g_shows K V c g m -> esrc_shows K V c s l ->
  exists g', yields (fun f => copy_group_en K V (fun a b => Some (c a b)) f g s append) g' /\ g_shows K V c g' (group_put_all K V c (kept append m) l).
Proof. exact (fun TO => group_en K V c TO (fun _ _ => true) g m s l append). Qed.
Print Assumptions C37_group_en.
(* what that map holds: the values that were there, then those given for the key *)
Theorem C37_group_values (K V : Type) (c : K -> K -> comparison) (m : fmap K (list V)) (l : list (K * V)) (k : K) : total_order c ->
  values_in K V c k (group_put_all K V c m l) = values_in K V c k m ++ values_for K V c k l.
Proof. exact (fun TO => group_put_all_values K V c TO l m k). Qed.
Print Assumptions C37_group_values.

(* Copying a dictionary to another, or a group to another, makes them equal. *)
Theorem C37_dictionary_copy (K V : Type) (c : K -> K -> comparison) (d d0 : dict K V) (m m0 : fmap K V) :
  total_order c -> d_shows K V c d m -> d_shows K V c d0 m0 ->
  exists d', copy_dict_ra K V (fun a b => Some (c a b)) d0 (PDict d) false = Ok d' /\ d_shows K V c d' m.
Proof. exact (fun TO => dict_dict K V c TO d m d0 m0). Qed.
Print Assumptions C37_dictionary_copy.
Theorem C37_group_copy (K V : Type) (c : K -> K -> comparison) (g g0 : group K V) (m m0 : fmap K (list V)) :
  total_order c -> g_shows K V c g m -> g_shows K V c g0 m0 ->
  exists g', yields (fun f => copy_group_en K V (fun a b => Some (c a b)) f g0 (EGroup g) false) g' /\ g_shows K V c g' m.
Proof. exact (fun TO => group_group K V c TO (fun _ _ => true) g m g0 m0). Qed.
Print Assumptions C37_group_copy.

(* Lists, sorted lists and arrays of pairs, from a dictionary or a group as from any other source *)
Theorem C37_list_of_pairs (K V : Type) (c : K -> K -> comparison) (pc : K * V -> K * V -> comparison) (x : lst (K * V)) (l0 l : list (K * V)) (s : psrc K V) (append : bool) :
  lst_shows (K * V) x l0 -> psrc_shows K V c s l ->
  exists y, copy_list_ra K V (fun a b => Some (pc a b)) KList x s append = Ok y /\ lst_shows (K * V) y (kept append l0 ++ l).
Proof. exact (list_ra K V c pc x l0 s l append). Qed.
Print Assumptions C37_list_of_pairs.
Theorem C37_list_of_pairs_en (K V : Type) (c : K -> K -> comparison) (pc : K * V -> K * V -> comparison) (x : lst (K * V)) (l0 l : list (K * V)) (s : esrc K V) (append : bool) :
  lst_shows (K * V) x l0 -> esrc_shows K V c s l ->
  exists y, yields (fun f => copy_list_en K V (fun a b => Some (pc a b)) KList f x s append) y /\ lst_shows (K * V) y (kept append l0 ++ l).
Proof. exact (list_en K V c (fun _ _ => true) pc x l0 s l append). Qed.
Print Assumptions C37_list_of_pairs_en.
Theorem C37_sorted_of_pairs (K V : Type) (c : K -> K -> comparison) (pc : K * V -> K * V -> comparison) (x : lst (K * V)) (l0 l : list (K * V)) (s : psrc K V) (append : bool) :
  total_order pc -> lst_shows (K * V) x l0 -> ascending (K * V) pc l0 -> psrc_shows K V c s l ->
  exists y r, copy_list_ra K V (fun a b => Some (pc a b)) KSorted x s append = Ok y /\ lst_shows (K * V) y r /\ ascending (K * V) pc r /\
    Permutation r (kept append l0 ++ l).
Proof. exact (fun PTO => sorted_ra K V c pc PTO x l0 s l append). Qed.
Print Assumptions C37_sorted_of_pairs.
Theorem C37_sorted_of_pairs_en (K V : Type) (c : K -> K -> comparison) (pc : K * V -> K * V -> comparison) (x : lst (K * V)) (l0 l : list (K * V)) (s : esrc K V) (append : bool) :
  total_order pc -> lst_shows (K * V) x l0 -> ascending (K * V) pc l0 -> esrc_shows K V c s l ->
  exists y r, yields (fun f => copy_list_en K V (fun a b => Some (pc a b)) KSorted f x s append) y /\ lst_shows (K * V) y r /\ ascending (K * V) pc r /\
    Permutation r (kept append l0 ++ l).
Proof. exact (fun PTO => sorted_en K V c (fun _ _ => true) pc PTO x l0 s l append). Qed.
Print Assumptions C37_sorted_of_pairs_en.
Theorem C37_array_of_pairs (K V : Type) (c : K -> K -> comparison) (dflt : option (K * V)) (x : arr (K * V)) (l : list (option (K * V))) (s : psrc K V) (m : list (K * V)) (append : bool) :
  arr_shows (K * V) x l -> psrc_shows K V c s m ->
  exists y, copy_array_ra K V dflt x s append = Ok y /\ arr_shows (K * V) y (kept append l ++ map Some m).
Proof. exact (array_ra K V c dflt x l s m append). Qed.
Print Assumptions C37_array_of_pairs.
Theorem C37_array_from_group (K V : Type) (c : K -> K -> comparison) (dflt : option (K * V)) (x : arr (K * V)) (l : list (option (K * V))) (g : group K V) (m : fmap K (list V)) (append : bool) :
  arr_shows (K * V) x l -> g_shows K V c g m ->
  exists y, yields (fun f => copy_array_group K V f dflt x g append) y /\ arr_shows (K * V) y (kept append l ++ map Some (pairs_of K V m)).
Proof. exact (array_group K V c (fun _ _ => true) dflt x l g m append). Qed.
Print Assumptions C37_array_from_group.

(* A dictionary copied to itself: nothing happens when appending, otherwise it is emptied. *)
Theorem C37_dictionary_self (K V : Type) (c : K -> K -> comparison) (d : dict K V) (m : fmap K V) (append : bool) : total_order c -> d_shows K V c d m ->
  exists d', copy_dict_self K V (fun a b => Some (c a b)) d append = Ok d' /\ d_shows K V c d' (kept append m).
Proof. exact (fun TO => dict_self K V c TO (fun _ _ => true) d m append). Qed.
Print Assumptions C37_dictionary_self.
(* A group copied to itself, in any state: it is emptied, *)
Theorem C37_group_self_refuted (K V : Type) (c : K -> K -> comparison) (veq : V -> V -> bool) (n : nat) (os : list (heop K V)) (s : gst K V) (rs : list (hres K V)) :
  total_order c -> hrun K V (fun a b => Some (c a b)) veq (hstart K V (S n)) os = Ok (s, rs) ->
  exists s', yields (fun f => copy_group_self K V (fun a b => Some (c a b)) veq f s false) s' /\ g_shows K V c (gx s') [].
Proof. exact (fun TO => group_self_clear K V c TO veq n os s rs). Qed.
Print Assumptions C37_group_self_refuted.
(* or, when appending, the loop never ends. *)
Theorem C37_group_self_append_refuted (K V : Type) (c : K -> K -> comparison) (veq : V -> V -> bool) (n : nat) (os : list (heop K V)) (s : gst K V) (rs : list (hres K V))
    (m : fmap K (list V)) :
  total_order c -> hrun K V (fun a b => Some (c a b)) veq (hstart K V (S n)) os = Ok (s, rs) -> g_shows K V c (gx s) m -> m <> [] ->
  forall fuel, copy_group_self K V (fun a b => Some (c a b)) veq fuel s true = NoFuel.
Proof. exact (fun TO => group_self_append K V c TO veq n os s rs m). Qed.
Print Assumptions C37_group_self_append_refuted.

(* Concrete cases: a dictionary {1: 10, 2: 20} is given (2, 21), (0, 5), (2, 22); a group {1: [10, 11]} is copied to a list and
   a dictionary; a group is given a dictionary *)
Example C37_pairs_case :
  exists d g d1 g1 x1, d_run Z Z (fun a b => Some (Z.compare a b)) empty_dict [DSet 1 10; DSet 2 20] = Ok (d, [OBool true; OBool true]) /\ d_shows Z Z Z.compare d [(1, 10); (2, 20)] /\
  g_run Z Z (fun a b => Some (Z.compare a b)) Z.eqb empty_group [GAdd 1 10; GAdd 1 11] = Ok (g, [OBool true; OBool true]) /\ g_shows Z Z Z.compare g [(1, [10; 11])] /\
  copy_dict_ra Z Z (fun a b => Some (Z.compare a b)) d (PSrc (RSlice [(2, 21); (0, 5); (2, 22)] 3)) true = Ok d1 /\ d_shows Z Z Z.compare d1 [(0, 5); (1, 10); (2, 22)] /\
  copy_group_ra Z Z (fun a b => Some (Z.compare a b)) g (PDict d) true = Ok g1 /\ g_shows Z Z Z.compare g1 [(1, [10; 11; 10]); (2, [20])] /\
  copy_list_en Z Z (fun _ _ => Some Eq) KList 9 empty_lst (EGroup g) false = Ok x1 /\ lst_shows (Z * Z) x1 [(1, 10); (1, 11)].
Proof. exact ex_pairs. Qed.
