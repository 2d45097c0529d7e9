(* Theorems about the elements that sorted lists and dictionaries move and the memory they hold. *)
From Verif Require Import Base LstModel LstSpec SrtModel SrtSpec DctModel DctSpec CstSpec CstProofs.
Open Scope Z_scope.

(* C88: a sorted list moves the elements behind the place of each insertion and removal, and at
   most eleven more per statement; it never holds more than a quarter more than the largest
   number of elements it ever had, and one. *)
Theorem C88_sorted_list : forall A (c : A -> A -> comparison), total_order c -> forall os, Forall (client_ok A) os ->
  exists x rs l least most peak, s_run A (fun a b => Some (c a b)) empty_lst os = Ok (x, rs) /\ lst_shows A x l /\
    ok_costs A c [] os l rs least most peak /\
    least <= moves x <= most + 11 * zlen os /\ cap x <= peak * 5 / 4 + 1.
Proof. exact sorted_costs. Qed.
Print Assumptions C88_sorted_list.

(* C88: so does each of the two lists of a dictionary. *)
Theorem C88_dictionary : forall K V (c : K -> K -> comparison), total_order c -> forall os,
  exists d, d_run K V (fun a b => Some (c a b)) empty_dict os = Ok (d, snd (md_run K V c [] os)) /\
    d_shows K V c d (fst (md_run K V c [] os)) /\
    all_keys_behind K V c [] os <= moves (keys d) <= all_keys_behind K V c [] os + 11 * zlen os /\
    all_keys_behind K V c [] os <= moves (vals d) <= all_keys_behind K V c [] os + 11 * zlen os /\
    cap (keys d) <= most_keys K V c [] os * 5 / 4 + 1 /\ cap (vals d) <= most_keys K V c [] os * 5 / 4 + 1.
Proof. exact dict_costs. Qed.
Print Assumptions C88_dictionary.

(* C88: filling a dictionary in ascending key order costs a constant per key. *)
Theorem C88_ascending : forall K V (c : K -> K -> comparison), total_order c -> forall m, ascending_keys K V c m ->
  exists d rs, d_run K V (fun a b => Some (c a b)) empty_dict (add_all K V m) = Ok (d, rs) /\ d_shows K V c d m /\
    moves (keys d) <= 11 * zlen m /\ moves (vals d) <= 11 * zlen m.
Proof. exact add_ascending. Qed.
Print Assumptions C88_ascending.

(* C88: in descending order it moves n (n - 1) / 2 keys and as many values. *)
Theorem C88_descending : forall K V (c : K -> K -> comparison), total_order c -> forall m, ascending_keys K V c m ->
  exists d rs, d_run K V (fun a b => Some (c a b)) empty_dict (add_all K V (rev m)) = Ok (d, rs) /\ d_shows K V c d m /\
    zlen m * (zlen m - 1) <= 2 * moves (keys d) /\ zlen m * (zlen m - 1) <= 2 * moves (vals d).
Proof. exact add_descending. Qed.
Print Assumptions C88_descending.

(* C88: n equal elements move n (n - 1) / 4 elements of a sorted list: the search stops in the
   middle of them. *)
Theorem C88_equal_elements : forall A (c : A -> A -> comparison), total_order c -> forall a n,
  exists x rs, s_run A (fun a b => Some (c a b)) empty_lst (repeat (SAdd a) n) = Ok (x, rs) /\ lst_shows A x (repeat a n) /\
    Z.of_nat n * (Z.of_nat n - 1) <= 4 * moves x.
Proof. exact add_equals. Qed.
Print Assumptions C88_equal_elements.

(* C88: hence adding elements in their order does not cost a constant per element. *)
Theorem C88_in_order_refuted : ~ (exists k, forall (l : list Z) x rs, ascending Z Z.compare l ->
  s_run Z (fun a b => Some (Z.compare a b)) empty_lst (map SAdd l) = Ok (x, rs) -> moves x <= k * zlen l).
Proof. exact in_order_refuted. Qed.
Print Assumptions C88_in_order_refuted.

(* nontrivial cases *)
Example C88_orders : total_order Z.compare.
Proof. exact z_order. Qed.
Example C88_clients : Forall (client_ok Z) sorted_program.
Proof. repeat constructor. Qed.
Example C88_sorted_run : match s_run Z (fun a b => Some (Z.compare a b)) empty_lst sorted_program with
  | Ok (x, rs) => (moves x, cap x, count x, rs) | _ => (0, 0, 0, []) end =
  (8, 4, 2, [RInt 0; RInt 0; RInt 1; RInt 1; RBool true; RBool false; RBool true; RInt 1]).
Proof. reflexivity. Qed.
Example C88_key_run : match d_run Z Z (fun a b => Some (Z.compare a b)) empty_dict key_program with
  | Ok (d, rs) => (moves (keys d), all_keys_behind Z Z Z.compare [] key_program, cap (keys d), most_keys Z Z Z.compare [] key_program, count (keys d)) | _ => (0, 0, 0, 0, 0) end =
  (6, 4, 4, 3, 3).
Proof. reflexivity. Qed.
Example C88_five : ascending_keys Z Z Z.compare five_keys.
Proof. repeat constructor. Qed.
Example C88_five_up : match d_run Z Z (fun a b => Some (Z.compare a b)) empty_dict (add_all Z Z five_keys) with Ok (d, _) => moves (keys d) | _ => 0 end = 6.
Proof. reflexivity. Qed.
Example C88_five_down : match d_run Z Z (fun a b => Some (Z.compare a b)) empty_dict (add_all Z Z (rev five_keys)) with Ok (d, _) => moves (keys d) | _ => 0 end = 10.
Proof. reflexivity. Qed.
