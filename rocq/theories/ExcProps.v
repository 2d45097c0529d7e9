(* Property C65, for List, Array and Dictionary. *)
From Verif Require Import Base LstModel LstSpec SrtModel SrtSpec DctModel DctSpec ExcModel ExcSpec ExcProofs.
Open Scope Z_scope.

(* C65: in every history in which element constructions and assignments throw, except for those of Insert and Add, the
   results and the contents of all lists and arrays are the ones of plain sequences, where a failed assignment leaves
   what the assignment of the element left, a failed construction of an array leaves no array, and a failed Resize
   leaves as many elements as before, all moved from; the elements that are lost are exactly the ones listed *)
Theorem C65_history (A : Type) (eqb : A -> A -> bool) (dflt : option A) (n m : nat) (os : list (xop A)) t ys :
  sxrun A eqb dflt (sxstart A n m) os = Ok (t, ys) ->
  exists w, xrun A eqb dflt (xstart A n m) os = Ok (w, ys) /\ xshows A w t.
Proof. exact (xhistory A eqb dflt n m os t ys). Qed.
Print Assumptions C65_history.
Example C65_history_example : sxrun Z Z.eqb (Some 0) (sxstart Z 1 2) x_demo
  = Ok (mkSW [None] [None; None] [[Some 0; Some 0; Some 0]; [Some 1; Some 2; Some 3; Some 0; Some 0]],
     [XRet RNone; XRet (RInt 0); XThrown; XRet (RVal 7); XRet RError; XRet RNone; XThrown; XRet (RInt 3); XThrown; XRet RNone; XThrown; XRet (RVal 8);
      XRet RNone; XRet RNone; XRet RNone]).
Proof. exact x_demo_ok. Qed.

(* C65: the state that a failed Insert or Add leaves: the slot of the new element is counted and holds no element;
   nothing else has changed *)
Theorem C65_insert_effect (A : Type) (eqb : A -> A -> bool) (dflt : option A) n m os t ys v l i :
  sxrun A eqb dflt (sxstart A n m) os = Ok (t, ys) -> nth_error (sl t) v = Some (Some l) -> 0 <= i <= zlen l ->
  exists w, xrun A eqb dflt (xstart A n m) os = Ok (w, ys) /\
    forall o, (o = XInsertThrows v i \/ o = XAddThrows v /\ i = zlen l) ->
      exists y k, xstep A eqb dflt w o = Ok (mkXW (upd (xl w) v (Some y)) (xa w) (lost w), XThrown) /\
        buf y = map Live (ztake A i l) ++ Raw :: map Live (zdrop A i l) ++ repeat Raw k /\ count y = zlen l + 1.
Proof. exact (failed_insert A eqb dflt n m os t ys v l i). Qed.
Print Assumptions C65_insert_effect.

(* C65: after an Insert or an Add in which the copy of the element throws, no continuation of the program that is
   defined gets rid of the list that counts an element that does not exist *)
Theorem C65_insert (A : Type) (eqb : A -> A -> bool) (dflt : option A) n m os1 t ys v l i o os2 w rs :
  sxrun A eqb dflt (sxstart A n m) os1 = Ok (t, ys) -> nth_error (sl t) v = Some (Some l) -> 0 <= i <= zlen l ->
  (o = XInsertThrows v i \/ o = XAddThrows v) ->
  xrun A eqb dflt (xstart A n m) (os1 ++ o :: os2) = Ok (w, rs) -> has_torn A (xl w).
Proof. exact (no_return A eqb dflt n m os1 t ys v l i o os2 w rs). Qed.
Print Assumptions C65_insert.
Example C65_insert_example : exists t w ys rs, sxrun Z Z.eqb (Some 0) (sxstart Z 1 0) [XList (LNew 0); XList (LAdd 0 5)] = Ok (t, ys) /\
  nth_error (sl t) 0 = Some (Some [5]) /\
  xrun Z Z.eqb (Some 0) (xstart Z 1 0) ([XList (LNew 0); XList (LAdd 0 5)] ++ XInsertThrows 0 0 :: [XList (LGet 0 1); XList (LCount 0)]) = Ok (w, rs) /\
  skipn 2 rs = [XThrown; XRet (RVal 5); XRet (RInt 2)].
Proof. exact x_insert_ex. Qed.

(* C65: false that a list can be destroyed after a failed Insert or Add: no defined program that destroys all lists
   contains one *)
Theorem C65_insert_destroy_refuted (A : Type) (eqb : A -> A -> bool) (dflt : option A) n m os1 t ys v l i o os2 w rs :
  sxrun A eqb dflt (sxstart A n m) os1 = Ok (t, ys) -> nth_error (sl t) v = Some (Some l) -> 0 <= i <= zlen l ->
  (o = XInsertThrows v i \/ o = XAddThrows v) ->
  Forall (fun x => x = None) (xl w) ->
  xrun A eqb dflt (xstart A n m) (os1 ++ o :: os2) <> Ok (w, rs).
Proof. exact (no_end A eqb dflt n m os1 t ys v l i o os2 w rs). Qed.
Print Assumptions C65_insert_destroy_refuted.

(* C65: false that a failed construction of an array destroys what it has constructed: for every number k of
   constructors that have finished, their k elements stay behind in a buffer to which nothing refers *)
Theorem C65_array_new_refuted (A : Type) (dflt : option A) n k : Z.of_nat k < n ->
  exists m, a_new_x A dflt n k = Ok (inr m) /\ lost_shows A m (repeat dflt k).
Proof. exact (a_new_x_some A dflt n k). Qed.
Print Assumptions C65_array_new_refuted.
Theorem C65_array_from_refuted (A : Type) (src : list A) n k : 0 <= n <= zlen src -> Z.of_nat k < n ->
  exists m, a_from_x A src n k = Ok (inr m) /\ lost_shows A m (map Some (firstn k src)).
Proof. exact (a_from_x_some A (fun _ _ => true) src n k). Qed.
Print Assumptions C65_array_from_refuted.

(* C65: false that a failed Resize leaves the array as it was: its values are in the buffer that is lost *)
Theorem C65_array_resize_refuted (A : Type) (dflt : option A) x l n k : arr_shows A x l -> Z.of_nat k < n - zlen l ->
  exists y m, a_resize_x A dflt x n k = Ok (y, Some m) /\ arr_shows A y (repeat None (length l)) /\ lost_shows A m (l ++ repeat dflt k).
Proof. exact (a_resize_x_some A dflt x l n k). Qed.
Print Assumptions C65_array_resize_refuted.

(* C65: after an exception of the copy of a key or a value while a key is added, whatever defined program follows, the
   dictionary counts more keys or values than there are, and its destructor is undefined *)
Theorem C65_dictionary_add_refuted (K V : Type) (c : K -> K -> comparison) : total_order c -> forall os1 k o os2,
  lookup K V c k (fst (md_run K V c [] os1)) = None ->
  (o = XDAddKeyThrows k \/ o = XDAddValueThrows k \/ exists v, o = XDSetValueThrows k v) ->
  (exists d rs, xd_run K V (fun a b => Some (c a b)) empty_dict (map XDict os1 ++ [o]) = Ok (d, rs)) /\
  forall d rs, xd_run K V (fun a b => Some (c a b)) empty_dict (map XDict os1 ++ o :: os2) = Ok (d, rs) ->
    dict_torn d /\ forall u, d_destruct K V d <> Ok u.
Proof. exact (d_no_return K V c). Qed.
Print Assumptions C65_dictionary_add_refuted.
(* the destructor of a dictionary without exceptions is defined *)
Theorem C65_dictionary_calm (K V : Type) (c : K -> K -> comparison) : total_order c -> forall os d rs,
  d_run K V (fun a b => Some (c a b)) empty_dict os = Ok (d, rs) -> d_destruct K V d = Ok tt.
Proof. exact (d_calm K V c). Qed.
Print Assumptions C65_dictionary_calm.
(* C65: an exception of the assignment of the value of a key that is there leaves the dictionary with what the
   assignment left *)
Theorem C65_dictionary_set (K V : Type) (c : K -> K -> comparison) : total_order c -> forall os1 k v v0,
  lookup K V c k (fst (md_run K V c [] os1)) = Some v0 ->
  exists d1 rs d2, d_run K V (fun a b => Some (c a b)) empty_dict os1 = Ok (d1, rs) /\
    xd_step K V (fun a b => Some (c a b)) d1 (XDSetValueThrows k v) = Ok (d2, XDThrown) /\
    d_step K V (fun a b => Some (c a b)) d1 (DSet k v) = Ok (d2, OBool true).
Proof. exact (d_set_throws K V c). Qed.
Print Assumptions C65_dictionary_set.
Example C65_dictionary_example : total_order Z.compare /\
  lookup Z Z Z.compare 3 (fst (md_run Z Z Z.compare [] [DAdd 2 20; DAdd 1 10])) = None /\
  lookup Z Z Z.compare 1 (fst (md_run Z Z Z.compare [] [DAdd 2 20; DAdd 1 10])) = Some 10.
Proof. exact x_dict_ex. Qed.
