(* C66: arguments that are elements of the container itself. *)
From Verif Require Import Base BaseFacts LstModel LstSpec LstProofs SrtModel SrtSpec SrtProofs DctModel DctSpec DctProofs EnuModel EnuSpec EnuProofs OwnModel OwnSpec OwnProofs.
Open Scope Z_scope.

(* C66: a program that passes elements of a list back to the list gives the results, including undefined behaviour, of the program in
   which every such argument is replaced as OwnSpec says *)
Theorem C66_list (A : Type) (eqb : A -> A -> bool) (x : lst A) (l : list A) (os : list (oop A)) : lst_shows A x l -> Forall (sensible_o A) os ->
  outs (orun A eqb x os) = outs (osrun A eqb (l, cap x) os) /\
  (forall l' room rs, osrun A eqb (l, cap x) os = Ok ((l', room), rs) ->
     exists y, orun A eqb x os = Ok (y, rs) /\ lst_shows A y l' /\ cap y = room).
Proof. exact (history_full A eqb x l os). Qed.
Print Assumptions C66_list.
Example C66_list_example : lst_shows Z empty_lst [] /\
  outs (orun Z Z.eqb empty_lst [OList (LAdd 0 1); OList (LAdd 0 2); OList (LAdd 0 3); OInsertOwn 0 2; OList (LGet 0 0)]) =
    Ok [RInt 0; RInt 1; RInt 2; RInt 0; RVal 2].
Proof. exact (conj (empty_shows Z) list_wrong_value). Qed.

(* C66: Set, Remove, IndexOf and Contains may be given elements of the list *)
Theorem C66_list_safe (A : Type) (eqb : A -> A -> bool) (x : lst A) (l : list A) (os : list (oop A)) : lst_shows A x l ->
  Forall (sensible_o A) os -> Forall (no_insert A) os -> exists y rs, orun A eqb x os = Ok (y, rs).
Proof. exact (no_insert_ok A eqb os x l). Qed.
Print Assumptions C66_list_safe.
Example C66_list_safe_example : Forall (no_insert Z) [OList (LAdd 0 1); OList (LAdd 0 2); OSetOwn 0 1; ORemoveOwn 1; OIndexOfOwn 0].
Proof. exact safe_example. Qed.

(* C66: Insert(i, x[j]) is undefined if there is no room or j = i, inserts x[j] if j < i, and x[j - 1] if j > i *)
Theorem C66_insert (A : Type) (x : lst A) (l : list A) (i j : Z) (a : A) : lst_shows A x l -> 0 <= i <= zlen l -> znth l j = Some a ->
  (cap x <= zlen l -> insert_own A x i j = UB) /\
  (zlen l < cap x -> j < i -> insert_own A x i j = insert A x i a) /\
  (zlen l < cap x -> j = i -> insert_own A x i j = UB) /\
  (zlen l < cap x -> i < j -> exists b, znth l (j - 1) = Some b /\ insert_own A x i j = insert A x i b).
Proof. exact (insert_own_cases A x l i j a). Qed.
Print Assumptions C66_insert.

(* C66: x.Add(x[j]) n times is defined exactly if there is room for n more elements, and then appends n copies *)
Theorem C66_adds (A : Type) (eqb : A -> A -> bool) (n : nat) (x : lst A) (l : list A) (j : Z) (a : A) : lst_shows A x l -> znth l j = Some a ->
  (Z.of_nat n <= cap x - zlen l ->
     exists y rs, orun A eqb x (repeat (OAddOwn j) n) = Ok (y, rs) /\ lst_shows A y (l ++ repeat a n)) /\
  (cap x - zlen l < Z.of_nat n -> orun A eqb x (repeat (OAddOwn j) n) = UB).
Proof. exact (adds_own A eqb n x l j a). Qed.
Print Assumptions C66_adds.

(* C66: false that Insert(i, x[j]) inserts a copy of x[j] wherever it is defined *)
Theorem C66_insert_copy_refuted : ~ forall x l i j a y, lst_shows Z x l -> znth l j = Some a -> insert_own Z x i j = Ok y -> insert Z x i a = Ok y.
Proof. exact insert_copy_wrong. Qed.
Print Assumptions C66_insert_copy_refuted.
(* C66: false that Add(x[j]) is always defined *)
Theorem C66_add_refuted : ~ forall x l j a, lst_shows Z x l -> znth l j = Some a -> insert_own Z x (zlen l) j <> UB.
Proof. exact add_defined_wrong. Qed.
Print Assumptions C66_add_refuted.

(* C66: adding an element of a sorted list to the list is undefined if there is no room or the element is the one that IndexOf
   finds; otherwise an equal element is added and the list stays ordered *)
Theorem C66_sorted (A : Type) (c : A -> A -> comparison) (x : lst A) (l : list A) (j : Z) (a : A) : total_order c ->
  lst_shows A x l -> ascending A c l -> znth l j = Some a ->
  exists i, s_index_of A (fun a b => Some (c a b)) x a = Ok i /\ 0 <= i < zlen l /\
    (cap x <= zlen l \/ i = j -> s_add_own A (fun a b => Some (c a b)) x j = UB) /\
    (zlen l < cap x -> i <> j -> exists y b, s_add_own A (fun a b => Some (c a b)) x j = Ok (y, i) /\ In b l /\ c b a = Eq /\
       lst_shows A y (ztake A i l ++ b :: zdrop A i l) /\ ascending A c (ztake A i l ++ b :: zdrop A i l)).
Proof. exact (fun TO => sorted_add_own A c TO x l j a). Qed.
Print Assumptions C66_sorted.
Example C66_sorted_example : lst_shows Z doubled [5; 7; 7; 7] /\ ascending Z Z.compare [5; 7; 7; 7] /\ znth [5; 7; 7; 7] 3 = Some 7 /\
  s_add_own Z (fun a b => Some (Z.compare a b)) doubled 3 = Ok (mkLst [Live 5; Live 7; Live 7; Live 7; Live 7] 5 5 3, 1) /\
  s_add_own Z (fun a b => Some (Z.compare a b)) doubled 1 = UB.
Proof. exact doubled_shows. Qed.
(* C66: if no two elements are equal, adding an element of the list to the list is always undefined *)
Theorem C66_sorted_distinct (A : Type) (c : A -> A -> comparison) (x : lst A) (l : list A) (j : Z) (a : A) : total_order c ->
  lst_shows A x l -> StronglySorted (fun a b => c a b = Lt) l -> znth l j = Some a -> s_add_own A (fun a b => Some (c a b)) x j = UB.
Proof. exact (fun TO => sorted_distinct A c TO x l j a). Qed.
Print Assumptions C66_sorted_distinct.

(* C66: a program that passes keys or values of a dictionary back to the dictionary gives the results, including undefined behaviour,
   of the program in which every such argument is replaced as OwnSpec says *)
Theorem C66_dictionary (K V : Type) (c : K -> K -> comparison) (d : dict K V) (m : fmap K V) (os : list (odop K V)) : total_order c ->
  d_shows K V c d m -> cap (keys d) = cap (vals d) ->
  outs (od_run K V (fun a b => Some (c a b)) d os) = outs (odsrun K V c (m, cap (keys d)) os) /\
  (forall m' room rs, odsrun K V c (m, cap (keys d)) os = Ok ((m', room), rs) ->
     exists d', od_run K V (fun a b => Some (c a b)) d os = Ok (d', rs) /\ d_shows K V c d' m').
Proof. exact (fun TO => dict_full K V c TO d m os). Qed.
Print Assumptions C66_dictionary.
Theorem C66_dictionary_new (K V : Type) (c : K -> K -> comparison) (os : list (odop K V)) : total_order c ->
  outs (od_run K V (fun a b => Some (c a b)) empty_dict os) = outs (odsrun K V c ([], 0) os).
Proof. exact (fun TO => history_empty_dict K V c TO os). Qed.
Print Assumptions C66_dictionary_new.
Example C66_dictionary_example : total_order Z.compare /\
  outs (od_run Z Z (fun a b => Some (Z.compare a b)) empty_dict
    [ODict (DAdd 2 20); ODict (DAdd 3 30); ODict (DAdd 4 40); ODAddOwn 1 4; ODict (DGet 1)]) =
    Ok [OBool true; OBool true; OBool true; OBool true; OVal 30] /\
  outs (od_run Z Z (fun a b => Some (Z.compare a b)) empty_dict [ODict (DAdd 1 10); ODict (DAdd 2 20); ODSetOwn 3 1]) = UB.
Proof. exact (conj Z_total (conj dict_wrong_value (proj1 dict_dangling))). Qed.
(* C66: false that d.Add(k, d[k']) adds a copy of the value of k' wherever it is defined, and that it is defined whenever k' is there
   and k is not *)
Theorem C66_dictionary_copy_refuted : ~ forall d m k k' v d', d_shows Z Z Z.compare d m -> lookup Z Z Z.compare k' m = Some v ->
  d_add_own Z Z (fun a b => Some (Z.compare a b)) d k k' = Ok d' -> d_add Z Z (fun a b => Some (Z.compare a b)) d k v = Ok d'.
Proof. exact dict_copy_wrong. Qed.
Print Assumptions C66_dictionary_copy_refuted.
Theorem C66_dictionary_add_refuted : ~ forall d m k k' v, d_shows Z Z Z.compare d m -> lookup Z Z Z.compare k m = None ->
  lookup Z Z Z.compare k' m = Some v -> d_add_own Z Z (fun a b => Some (Z.compare a b)) d k k' <> UB.
Proof. exact dict_defined_wrong. Qed.
Print Assumptions C66_dictionary_add_refuted.

(* C66: g.Add(k, g[k'][j]) for another key adds a copy *)
Theorem C66_group_other (K V : Type) (c : K -> K -> comparison) (g : group K V) m k k' j vs v : total_order c ->
  g_shows K V c g m -> lookup K (list V) c k' m = Some vs -> znth vs j = Some v -> c k k' <> Eq ->
  g_add_own K V (fun a b => Some (c a b)) g k k' j = g_add K V (fun a b => Some (c a b)) g k v.
Proof. exact (fun TO => group_add_other K V c TO g m k k' j vs v). Qed.
Print Assumptions C66_group_other.
(* C66: for the same key it adds a copy if the values of the key have room for one more, and is undefined otherwise *)
Theorem C66_group_same (K V : Type) (c : K -> K -> comparison) (g : group K V) m k k' j vs v : total_order c ->
  g_shows K V c g m -> lookup K (list V) c k' m = Some vs -> znth vs j = Some v -> c k k' = Eq ->
  exists x, g_get K V (fun a b => Some (c a b)) g k = Ok x /\ lst_shows V x vs /\
    (zlen vs < cap x -> g_add_own K V (fun a b => Some (c a b)) g k k' j = g_add K V (fun a b => Some (c a b)) g k v) /\
    (cap x <= zlen vs -> g_add_own K V (fun a b => Some (c a b)) g k k' j = UB).
Proof. exact (fun TO => group_add_same K V c TO g m k k' j vs v). Qed.
Print Assumptions C66_group_same.
(* C66: a missing key or a bad index is an error *)
Theorem C66_group_error (K V : Type) (c : K -> K -> comparison) (g : group K V) m k k' j : total_order c -> g_shows K V c g m ->
  match lookup K (list V) c k' m with Some vs => znth vs j = None | None => True end ->
  g_add_own K V (fun a b => Some (c a b)) g k k' j = Err.
Proof. exact (fun TO => group_add_err K V c TO g m k k' j). Qed.
Print Assumptions C66_group_error.
(* C66: g.Remove(k, g[k][j]) removes the first value equal to that one *)
Theorem C66_group_remove (K V : Type) (c : K -> K -> comparison) (veq : V -> V -> bool) (g : group K V) m k j : total_order c -> g_shows K V c g m ->
  match lookup K (list V) c k m with
  | Some vs => match znth vs j with
               | Some v => g_remove_own K V (fun a b => Some (c a b)) veq g k j = g_remove_value K V (fun a b => Some (c a b)) veq g k v
               | None => g_remove_own K V (fun a b => Some (c a b)) veq g k j = Err
               end
  | None => g_remove_own K V (fun a b => Some (c a b)) veq g k j = Err
  end.
Proof. exact (fun TO => group_remove_own K V c TO veq g m k j). Qed.
Print Assumptions C66_group_remove.
Example C66_group_example : g_shows Z Z Z.compare pair_group [(1, [1; 2; 3]); (2, [1; 2])].
Proof. exact pair_group_shows. Qed.
