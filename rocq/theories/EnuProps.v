(* C64: enumerators and references while the container changes. *)
From Verif Require Import Base LstModel LstSpec SrtModel SrtSpec DctModel DctSpec DctProofs EnuModel EnuSpec EnuProofs.
Open Scope Z_scope.

(* C64: an enumerator is a position in the list as it is at each call; a reference is a position as long as the
   elements stay where they are, and using it later is undefined, no less and no more *)
Theorem C64_history (A : Type) (eqb : A -> A -> bool) (n m : nat) (os : list (eop A)) : Forall (sensible_e A) os ->
  outs (erun A eqb (estart A n m) os) = outs (ssrun A eqb (sstart A n m) os) /\
  (forall t rs, ssrun A eqb (sstart A n m) os = Ok (t, rs) ->
     exists s, erun A eqb (estart A n m) os = Ok (s, rs) /\ e_shows A s t).
Proof. exact (history A eqb n m os). Qed.
Print Assumptions C64_history.
Example C64_history_example : Forall (sensible_e Z) (add_then_remove 3 [1]) /\
  exists s, erun Z Z.eqb (estart Z 0 1) (add_then_remove 3 [1]) = Ok (s, [RInt 0; RInt 1; RInt 2; RNone; RBool true; RVal 0]).
Proof. exact ex_history. Qed.

(* C64: whatever is done to the list, moving enumerators and asking them for references is defined *)
Theorem C64_enumerators (A : Type) (eqb : A -> A -> bool) (n m : nat) (os : list (eop A)) :
  Forall (sensible_e A) os -> Forall (no_reference A n m) os -> exists s rs, erun A eqb (estart A n m) os = Ok (s, rs).
Proof. exact (enumerators_safe A eqb n m os). Qed.
Print Assumptions C64_enumerators.
Example C64_enumerators_example : Forall (sensible_e Z) [EList (LAdd 0 5); ENext 0; ECurrent 0 0; EList (LClear 0); ENext 0] /\
  Forall (no_reference Z 1 1) [EList (LAdd 0 5); ENext 0; ECurrent 0 0; EList (LClear 0); ENext 0].
Proof. exact ex_safe. Qed.

(* C64: as long as nothing is inserted or removed, a reference to element i is the same as Get(i) and Set(i) *)
Theorem C64_reference (A : Type) (eqb : A -> A -> bool) (n m : nat) (os1 os2 : list (eop A)) (s1 s2 : est A) (rs1 rs2 : list (out A)) (r : nat) (i : Z) :
  Forall (sensible_e A) os1 -> Forall (sensible_e A) os2 ->
  erun A eqb (estart A n m) os1 = Ok (s1, rs1) -> (r < m)%nat -> 0 <= i < count (lx s1) ->
  Forall (in_place A) os2 -> Forall (fun o => ~ rebinds A r o) os2 ->
  erun A eqb s1 (ERefer r i :: os2) = Ok (s2, rs2) ->
  estep A eqb s2 (ERead r) = estep A eqb s2 (EList (LGet 0 i)) /\
  forall a, exists s3, estep A eqb s2 (EWrite r a) = Ok (s3, RNone) /\ estep A eqb s2 (EList (LSet 0 i a)) = Ok (s3, RBool true).
Proof. exact (reference A eqb n m os1 os2 s1 s2 rs1 rs2 r i). Qed.
Print Assumptions C64_reference.
Example C64_reference_example : exists s, erun Z Z.eqb (estart Z 1 1)
    [EList (LAdd 0 5); ENext 0; ECurrent 0 0; EList (LInsert 0 0 4); EWrite 0 9; ENext 0; ECurrent 0 0; ERead 0; ENext 0; ECurrent 0 0; EList (LGet 0 0)]
  = Ok (s, [RInt 0; RBool true; RNone; RInt 0; RNone; RBool true; RNone; RVal 5; RBool false; RError; RVal 9]).
Proof. exact ex_enum. Qed.

(* C64: reading a reference is undefined exactly if the storage is another one, or no element is left at its place *)
Theorem C64_reference_exact (A : Type) (eqb : A -> A -> bool) (n m : nat) (os : list (eop A)) (s : est A) (rs : list (out A)) (r : nat) :
  Forall (sensible_e A) os -> erun A eqb (estart A n m) os = Ok (s, rs) ->
  (estep A eqb s (ERead r) = UB <-> ~ exists i, nth_error (refs s) r = Some (Some (gen s, i)) /\ i < count (lx s)).
Proof. exact (reference_exact A eqb n m os s rs r). Qed.
Print Assumptions C64_reference_exact.

(* C64: no reference survives every number of additions *)
Theorem C64_reference_lost (A : Type) (eqb : A -> A -> bool) (n m : nat) (os : list (eop A)) (s : est A) (rs : list (out A)) (r : nat) (a : A) :
  Forall (sensible_e A) os -> erun A eqb (estart A n m) os = Ok (s, rs) ->
  exists k, outs (erun A eqb s (repeat (EList (LAdd 0 a)) k ++ [ERead r])) = UB.
Proof. exact (reference_lost A eqb n m os s rs r a). Qed.
Print Assumptions C64_reference_lost.

(* C64: false that removing later elements keeps the references to earlier ones: the storage shrinks *)
Theorem C64_reference_after_remove_refuted :
  ~ forall n js, Forall (fun j => 0 < j) js -> outs (erun Z Z.eqb (estart Z 0 1) (add_then_remove n js)) <> UB.
Proof. exact remove_loses. Qed.
Print Assumptions C64_reference_after_remove_refuted.

(* C64: a loop over a list whose body changes the list visits, round by round, the element then at the next position *)
Theorem C64_loop (A : Type) (eqb : A -> A -> bool) (fuel : nat) (body : Z -> A -> list (op A)) (x : lst A) (l : list A) :
  lst_shows A x l -> (forall i a, Forall (sensible A) (body i a)) ->
  match sloop A eqb fuel body l 0 with
  | Ok (vs, l') => exists y, eloop A eqb fuel body x (-1) = Ok (vs, y) /\ lst_shows A y l'
  | UB => eloop A eqb fuel body x (-1) = UB
  | NoFuel => eloop A eqb fuel body x (-1) = NoFuel
  | Err => False
  end.
Proof. exact (loop_ok A eqb fuel body x l). Qed.
Print Assumptions C64_loop.
Example C64_loop_example : exists x, append_all Z empty_lst [1; 2; 3] = Ok x /\ lst_shows Z x [1; 2; 3].
Proof. exact (built [1; 2; 3]). Qed.

(* C64: a body that does not change the list sees every element once *)
Theorem C64_loop_queries (A : Type) (eqb : A -> A -> bool) (x : lst A) (l : list A) (body : Z -> A -> list (op A)) :
  lst_shows A x l -> (forall i a, Forall (queries A) (body i a)) ->
  exists y, eloop A eqb (S (length l)) body x (-1) = Ok (l, y) /\ lst_shows A y l.
Proof. exact (loop_queries A eqb x l body). Qed.
Print Assumptions C64_loop_queries.

(* C64: a body that replaces the current element transforms the list *)
Theorem C64_loop_replaces (A : Type) (eqb : A -> A -> bool) (x : lst A) (l : list A) (f : A -> A) : lst_shows A x l ->
  exists y, eloop A eqb (S (length l)) (replaces A f) x (-1) = Ok (l, y) /\ lst_shows A y (map f l).
Proof. exact (loop_replaces A eqb x l f). Qed.
Print Assumptions C64_loop_replaces.

(* C64: a list to which the body appends is a work list: all and only what is in the list at the end has been visited,
   in order, and that is the shortest list closed under the body; the loop ends if and only if there is one *)
Theorem C64_loop_worklist (A : Type) (eqb : A -> A -> bool) (x : lst A) (l : list A) (f : A -> list A) : lst_shows A x l ->
  (forall fuel vs y, eloop A eqb fuel (appends A f) x (-1) = Ok (vs, y) ->
     lst_shows A y vs /\ vs = l ++ flat_map f vs /\ forall w, w = l ++ flat_map f w -> exists z, w = vs ++ z) /\
  ((exists fuel r, eloop A eqb fuel (appends A f) x (-1) = Ok r) <-> exists w, w = l ++ flat_map f w) /\
  (forall fuel, eloop A eqb fuel (appends A f) x (-1) = NoFuel \/ exists r, eloop A eqb fuel (appends A f) x (-1) = Ok r).
Proof. exact (worklist A eqb x l f). Qed.
Print Assumptions C64_loop_worklist.

(* C64: a body that always appends something, or always inserts something in front, never ends *)
Theorem C64_loop_endless (A : Type) (eqb : A -> A -> bool) (x : lst A) (l : list A) : lst_shows A x l -> l <> [] ->
  (forall f fuel, (forall a, f a <> []) -> eloop A eqb fuel (appends A f) x (-1) = NoFuel) /\
  (forall b fuel, eloop A eqb fuel (prepends A b) x (-1) = NoFuel).
Proof. exact (fun H Hl => conj (fun f fuel => worklist_endless A eqb x l f fuel H Hl) (fun b fuel => prepend_endless A eqb x l b fuel H Hl)). Qed.
Print Assumptions C64_loop_endless.

(* C64: a body that removes the current element makes the loop pass over the next one *)
Theorem C64_loop_removes (A : Type) (eqb : A -> A -> bool) (x : lst A) (l : list A) (p : A -> bool) : lst_shows A x l ->
  exists y, eloop A eqb (S (length l)) (removes A p) x (-1) = Ok (seen A (length l) p l, y) /\ lst_shows A y (left_over A (length l) p l).
Proof. exact (loop_removes A eqb x l p). Qed.
Print Assumptions C64_loop_removes.
Example C64_loop_removes_example : seen Z 5 Z.even [1; 2; 3; 4; 6] = [1; 2; 4] /\ left_over Z 5 Z.even [1; 2; 3; 4; 6] = [1; 3; 6].
Proof. exact (conj eq_refl eq_refl). Qed.

(* C64: false that removing in a loop removes all elements to be removed *)
Theorem C64_loop_removes_all_refuted : ~ forall (p : Z -> bool) x l, lst_shows Z x l -> exists fuel vs y,
  eloop Z Z.eqb fuel (removes Z p) x (-1) = Ok (vs, y) /\ lst_shows Z y (filter (fun a => negb (p a)) l).
Proof. exact remove_all_wrong. Qed.
Print Assumptions C64_loop_removes_all_refuted.

(* C64: an enumerator of a dictionary is a position, and a pair of references made when it was moved there *)
Theorem C64_dictionary (K V : Type) (c : K -> K -> comparison) (n : nat) (os : list (deop K V)) : total_order c ->
  outs (drun K V (fun a b => Some (c a b)) (dstart K V n) os) = outs (mrun K V c (mstart K V n) os) /\
  (forall t rs, mrun K V c (mstart K V n) os = Ok (t, rs) ->
     exists s, drun K V (fun a b => Some (c a b)) (dstart K V n) os = Ok (s, rs) /\ m_shows K V c s t).
Proof. exact (fun TO => dict_history K V c TO n os). Qed.
Print Assumptions C64_dictionary.
Example C64_dictionary_example : total_order Z.compare /\ exists s, drun Z Z (fun a b => Some (Z.compare a b)) (dstart Z Z 2)
    [FDict Z Z (DAdd 2 20); FNext Z Z 0; FDict Z Z (DAdd 1 10); FCurrent Z Z 0; FClone Z Z 1 0; FCurrent Z Z 1; FNext Z Z 0; FCurrent Z Z 0;
     FDict Z Z (DSet 2 21); FCurrent Z Z 0; FNext Z Z 0; FCurrent Z Z 0; FReset Z Z 0]
  = Ok (s, [DRes Z Z (OBool true); DRes Z Z (OBool true); DRes Z Z (OBool true); DPair Z Z 1 10; DNone Z Z; DError Z Z; DRes Z Z (OBool true); DPair Z Z 2 20;
            DRes Z Z (OBool true); DPair Z Z 2 21; DRes Z Z (OBool false); DPair Z Z 2 21; DError Z Z]).
Proof. exact (conj Z_total ex_dict). Qed.

(* C64: moving enumerators of a dictionary is defined whatever is done to the dictionary *)
Theorem C64_dictionary_enumerators (K V : Type) (c : K -> K -> comparison) (n : nat) (os : list (deop K V)) : total_order c ->
  Forall (no_current K V n) os -> exists s rs, drun K V (fun a b => Some (c a b)) (dstart K V n) os = Ok (s, rs).
Proof. exact (fun TO => dict_enumerators K V c TO n os). Qed.
Print Assumptions C64_dictionary_enumerators.

(* C64: false that the pair visited can still be read after other keys have been added *)
Theorem C64_dictionary_current_refuted : ~ forall ks, Forall (fun k => 0 < k) ks ->
  outs (drun Z Z (fun a b => Some (Z.compare a b)) (dstart Z Z 1) (visit_then_add ks)) <> UB.
Proof. exact add_loses. Qed.
Print Assumptions C64_dictionary_current_refuted.
