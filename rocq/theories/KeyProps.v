(* Property C86. *)
From Coq Require Import Permutation.
From Verif Require Import Base LstModel LstSpec SrtModel SrtSpec DctModel DctSpec QsModel.
From Verif Require Import DateModel TupModel KeyModel KeySpec KeyProofs KeyProofs2 KeyProofs3.
Open Scope Z_scope.

(* C86: integers, strings, dates, pointers, and nullable values, pairs and tuples of them to any depth: <=> never gives
   "unordered", it is the order of the specification, which is total, and == agrees with it *)
Theorem C86_compare : forall k a b, key_cmp k a b = Some (order k a b).
Proof. exact key_cmp_order. Qed.
Print Assumptions C86_compare.
Theorem C86_total : forall k, SrtSpec.total_order (order k).
Proof. exact order_total. Qed.
Print Assumptions C86_total.
Theorem C86_equal : forall k a b, eqe (elem_of k) a b = true <-> order k a b = Eq.
Proof. exact equal_order. Qed.
Print Assumptions C86_equal.
(* C86: so the collections work as promised with such elements and keys *)
Theorem C86_sorted_list : forall k os, Forall (client_ok (value k)) os ->
  exists x rs l, s_run (value k) (key_cmp k) empty_lst os = Ok (x, rs) /\ lst_shows (value k) x l /\
    ok_run (value k) (order k) [] os l rs.
Proof. exact key_sorted. Qed.
Print Assumptions C86_sorted_list.
Theorem C86_dictionary : forall k V (os : list (dop (value k) V)),
  exists d, d_run (value k) V (key_cmp k) empty_dict os = Ok (d, snd (md_run (value k) V (order k) [] os)) /\
    d_shows (value k) V (order k) d (fst (md_run (value k) V (order k) [] os)).
Proof. exact key_dictionary. Qed.
Print Assumptions C86_dictionary.
Theorem C86_group : forall k V veq (os : list (gop (value k) V)),
  exists g, g_run (value k) V (key_cmp k) veq empty_group os = Ok (g, snd (mg_run (value k) V (order k) veq [] os)) /\
    g_shows (value k) V (order k) g (fst (mg_run (value k) V (order k) veq [] os)).
Proof. exact key_group. Qed.
Print Assumptions C86_group.
Theorem C86_join : forall k V W a b m n, g_shows (value k) V (order k) a m -> g_shows (value k) W (order k) b n ->
  exists es, group_inner_join (value k) V W (key_cmp k) a b = Ok es /\
    accepts (value k) V W es = joined (value k) V W (order k) m n /\
    discards1 (value k) V W es = only_first (value k) V W (order k) m n /\
    discards2 (value k) V W es = only_second (value k) V W (order k) m n.
Proof. exact key_join. Qed.
Print Assumptions C86_join.
Theorem C86_sort : forall k (pre seg post : list (value k)),
  exists seg' d, sort_array (value k) (key_cmp k) (pre ++ seg ++ post) (zlen pre) (zlen seg) = Ok (pre ++ seg' ++ post, d) /\
    Permutation seg seg' /\ ascending (value k) (order k) seg'.
Proof. exact key_sort. Qed.
Print Assumptions C86_sort.

(* C86: floating point.  A NaN that would have to be compared raises an error and changes nothing; otherwise the
   collections work as promised.  A NaN gets in only when the collection is empty, and then it is alone. *)
Theorem C86_nan_sorted_list : forall A (c : A -> A -> comparison), SrtSpec.total_order c ->
  forall os, Forall (client_ok (option A)) os ->
  exists x rs l, s_run (option A) (fcmp c) empty_lst os = Ok (x, rs) /\ lst_shows (option A) x l /\ float_run A c [] os l rs.
Proof. exact float_sorted. Qed.
Print Assumptions C86_nan_sorted_list.
Theorem C86_nan_dictionary : forall A (c : A -> A -> comparison), SrtSpec.total_order c -> forall V os,
  exists d, d_run (option A) V (fcmp c) empty_dict os = Ok (d, snd (fd_run A V c [] os)) /\
    d_shows (option A) V (nan_last c) d (fst (fd_run A V c [] os)) /\
    (numbers A (map fst (fst (fd_run A V c [] os))) \/ map fst (fst (fd_run A V c [] os)) = [None]).
Proof. exact float_dictionary. Qed.
Print Assumptions C86_nan_dictionary.
Theorem C86_nan_group : forall A (c : A -> A -> comparison), SrtSpec.total_order c -> forall V veq os,
  exists g, g_run (option A) V (fcmp c) veq empty_group os = Ok (g, snd (fg_run A V c veq [] os)) /\
    g_shows (option A) V (nan_last c) g (fst (fg_run A V c veq [] os)) /\
    (numbers A (map fst (fst (fg_run A V c veq [] os))) \/ map fst (fst (fg_run A V c veq [] os)) = [None]).
Proof. exact float_group. Qed.
Print Assumptions C86_nan_group.
(* false: "a value that was stored can be read and removed by its key".  After Set(NaN, v) on an empty dictionary every
   operation with a key raises an error, until Clear *)
Theorem C86_nan_stored_refuted : forall A (c : A -> A -> comparison), SrtSpec.total_order c ->
  forall V (v : V) os, Forall (fun o => o <> DClear) os ->
  exists d rs, d_run (option A) V (fcmp c) empty_dict (DSet None v :: os) = Ok (d, OBool true :: rs) /\
    d_shows (option A) V (nan_last c) d [(None, v)] /\ Forall2 (fun o r => d_key A V o <> None -> r = OError) os rs.
Proof. exact dictionary_stuck. Qed.
Print Assumptions C86_nan_stored_refuted.
(* false: "GroupInnerJoin accepts equal keys only".  A NaN is joined with every number, without an error *)
Theorem C86_nan_join_refuted : forall A (c : A -> A -> comparison) V W veq weq (x : A) (v : V) (w : W), exists a b,
  g_run (option A) V (fcmp c) veq empty_group [GAdd None v] = Ok (a, [OBool true]) /\
  g_run (option A) W (fcmp c) weq empty_group [GAdd (Some x) w] = Ok (b, [OBool true]) /\
  group_inner_join (option A) V W (fcmp c) a b = Ok [Accept None [v] [w]].
Proof. exact join_nan. Qed.
Print Assumptions C86_nan_join_refuted.
(* C86: Sort puts numbers in order, and raises an error when there is a NaN among two or more values *)
Theorem C86_numbers_sort : forall A (c : A -> A -> comparison), SrtSpec.total_order c -> forall pre seg post, numbers A seg ->
  exists seg' d, sort_array (option A) (fcmp c) (pre ++ seg ++ post) (zlen pre) (zlen seg) = Ok (pre ++ seg' ++ post, d) /\
    Permutation seg seg' /\ ascending (option A) (nan_last c) seg'.
Proof. exact sort_numbers. Qed.
Print Assumptions C86_numbers_sort.
Theorem C86_nan_sort : forall A (c : A -> A -> comparison) pre seg post, In None seg -> 2 <= zlen seg ->
  sort_array (option A) (fcmp c) (pre ++ seg ++ post) (zlen pre) (zlen seg) = Err.
Proof. exact sort_nan. Qed.
Print Assumptions C86_nan_sort.

(* a Tuple<WString, Nullable<Pair<vint, vint>>> *)
Example C86_case1 : let k := KTuple [KText; KNullable (KPair KInt KInt)] in
  snd (md_run (value k) Z (order k) [] [DAdd ([97], (Some (1, 2), tt)) 10; DAdd ([97], (None, tt)) 20; DAdd ([97], (Some (1, 2), tt)) 30;
    DGet ([97], (None, tt)); DKeyAt 0; DContains ([97; 98], (None, tt))])
  = [OBool true; OBool true; OError; OVal 20; OKey ([97], (None, tt)); OBool false].
Proof. reflexivity. Qed.
Example C86_case2 : snd (fd_run Z Z Z.compare [] [DSet (Some 1) 10; DSet None 5; DGet (Some 1); DContains None; DRemove (Some 1); DSet None 6; DCount; DGet None; DSet (Some 1) 7; DClear; DSet (Some 1) 8])
  = [OBool true; OError; OVal 10; OError; OBool true; OBool true; OInt 1; OError; OError; OBool true; OBool true].
Proof. reflexivity. Qed.
Example C86_case3 : numbers Z [Some 3; Some 1] /\ In None [Some 3; None] /\ 2 <= zlen [Some 3; None].
Proof. split; [intros [E|[E|[]]]; discriminate|]. split; [right; left; reflexivity|discriminate]. Qed.
Example C86_case4 : Forall (fun o : dop (option Z) Z => o <> DClear) [DGet None; DSet (Some 1) 2].
Proof. repeat constructor; discriminate. Qed.
