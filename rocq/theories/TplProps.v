(* C70: construction, copying, moving and assignment of Tuple with elements of types T and T&. *)
From Verif Require Import Base TplModel TplSpec TplProofs TplProofs2.
Open Scope nat_scope.

(* C70: what every statement does to every object and every tuple *)
Theorem C70_effect {V} (gone self : V -> V) (n : nat) (s : st V) (o : op V) (s' : st V) (r : option V) :
  reach gone self n s -> allowed s o -> step gone self s o = Ok (s', r) -> effect gone self s o s' r.
Proof. exact (effect_ok gone self n s o s' r). Qed.
Print Assumptions C70_effect.

Example C70_effect_example : exists s, run zero keep (init 2) demo = Ok (s, [None; None; None; None; None; None]) /\ reach zero keep 2 s /\
  value s 0 = Some 5%Z /\ value s 1 = Some 7%Z /\ nth_error (tup s) 0 = Some (Some [Own 2; Ref 4]) /\ nth_error (tup s) 1 = Some (Some [Own 3; Own 4]) /\
  value s 2 = Some 8%Z.
Proof. exact demo_ok. Qed.

(* C70: a statement whose tuples exist and whose sources have values is defined *)
Theorem C70_defined {V} (gone self : V -> V) (n : nat) (s : st V) (o : op V) :
  reach gone self n s -> good s o -> exists s' r, step gone self s o = Ok (s', r).
Proof. exact (good_ok gone self n s o). Qed.
Print Assumptions C70_defined.

Example C70_defined_example : exists s s' r es us, reach zero keep 2 s /\ step zero keep s (TAssign 0 1 false) = Ok (s', r) /\
  nth_error (tup s) 0 = Some (Some es) /\ nth_error (tup s) 1 = Some (Some us) /\ (forall a, In (Own a) es -> ~ In a (map at_ us)) /\
  step zero keep s (TGet 1 0) = Ok (s, Some 7%Z) /\ step zero keep s (TGet 0 0) = Ok (s, Some 5%Z) /\ step zero keep s' (TGet 0 0) = Ok (s', Some 7%Z).
Proof. exact demo_assign_ok. Qed.

(* C70: no two elements of type T share an object *)
Theorem C70_apart {V} (gone self : V -> V) (n : nat) (s : st V) (v i w j a : nat) :
  reach gone self n s -> element s v i = Some (Own a) -> element s w j = Some (Own a) -> v = w /\ i = j.
Proof. exact (own_ok gone self n s v i w j a). Qed.
Print Assumptions C70_apart.

(* C70: a copy has the elements of the original, which keeps them *)
Theorem C70_copy {V} (gone self : V -> V) (n : nat) (s : st V) (v : nat) (refs : list bool) (w : nat) (s' : st V) (r : option V) (i : nat) :
  reach gone self n s -> step gone self s (TFrom v refs w false) = Ok (s', r) -> w <> v ->
  forall x, step gone self s (TGet w i) = Ok (s, Some x) ->
    step gone self s' (TGet v i) = Ok (s', Some x) /\ step gone self s' (TGet w i) = Ok (s', Some x).
Proof. exact (copy_ok gone self n s v refs w s' r i). Qed.
Print Assumptions C70_copy.

Example C70_copy_example : exists s s' r, reach zero keep 2 s /\ step zero keep s (TFrom 1 [false; false] 0 false) = Ok (s', r) /\
  step zero keep s (TGet 0 1) = Ok (s, Some 7%Z) /\ step zero keep s' (TGet 1 1) = Ok (s', Some 7%Z) /\ element s' 0 1 = Some (Ref 1) /\
  element s' 1 1 = Some (Own 4).
Proof. exact demo_copy_ok. Qed.

(* C70: after v = w the elements of v have the values of the elements of w, unless w refers to objects of v *)
Theorem C70_assign {V} (gone self : V -> V) (n : nat) (s : st V) (v w : nat) (s' : st V) (r : option V) (es us : list elem) :
  reach gone self n s -> step gone self s (TAssign v w false) = Ok (s', r) ->
  nth_error (tup s) v = Some (Some es) -> nth_error (tup s) w = Some (Some us) ->
  (forall a, In (Own a) es -> ~ In a (map at_ us)) ->
  forall i x, step gone self s (TGet w i) = Ok (s, Some x) -> step gone self s' (TGet v i) = Ok (s', Some x).
Proof. exact (assign_copy_ok gone self n s v w s' r es us). Qed.
Print Assumptions C70_assign.

Example C70_assign_example : exists s s' r es us, reach zero keep 2 s /\ step zero keep s (TAssign 0 1 false) = Ok (s', r) /\
  nth_error (tup s) 0 = Some (Some es) /\ nth_error (tup s) 1 = Some (Some us) /\ (forall a, In (Own a) es -> ~ In a (map at_ us)) /\
  step zero keep s (TGet 1 0) = Ok (s, Some 7%Z) /\ step zero keep s (TGet 0 0) = Ok (s, Some 5%Z) /\ step zero keep s' (TGet 0 0) = Ok (s', Some 7%Z).
Proof. exact demo_assign_ok. Qed.

(* C70, refuted part: constructing a Tuple<T> from a moved Tuple<T&> takes the value away from the variable referred to, which
   is not part of any tuple *)
Theorem C70_move_through_refuted : exists s s' r, reach zero keep 2 s /\ step zero keep s (TFrom 1 [false] 0 true) = Ok (s', r) /\
  nth_error (tup s) 0 = Some (Some [Ref 0]) /\ ~ owned s 0 /\ value s 0 = Some 5%Z /\ value s' 0 = Some (zero 5%Z).
Proof. exact move_through. Qed.
Print Assumptions C70_move_through_refuted.

(* C70, refuted part: assigning to a Tuple<T&> does not write to the variable referred to; it refers to another one afterwards *)
Theorem C70_assign_through_refuted : exists s s' r, reach zero keep 2 s /\ step zero keep s (TAssign 0 1 false) = Ok (s', r) /\
  nth_error (tup s) 0 = Some (Some [Ref 0]) /\ nth_error (tup s) 1 = Some (Some [Ref 1]) /\ value s 0 = Some 5%Z /\ value s 1 = Some 7%Z /\
  value s' 0 = Some 5%Z /\ exists s2, step zero keep s' (TPut 0 0 9%Z) = Ok (s2, None) /\ value s2 0 = Some 5%Z /\ value s2 1 = Some 9%Z.
Proof. exact assign_through. Qed.
Print Assumptions C70_assign_through_refuted.

(* C70, refuted part: so after t = std::move(u) a Tuple<T&> refers into u, and dangles when u is gone *)
Theorem C70_dangling_refuted : exists s, reach zero keep 2 s /\ nth_error (tup s) 1 = Some None /\ (exists b, element s 0 0 = Some (Ref b)) /\
  step zero keep s (TGet 0 0) = UB.
Proof. exact dangling. Qed.
Print Assumptions C70_dangling_refuted.

(* C70, refuted part: the elements of a default constructed Tuple<int> have no value *)
Theorem C70_default_refuted : exists s s' r, reach zero keep 2 s /\ step zero keep s (TDefault 0 [None]) = Ok (s', r) /\
  step zero keep s' (TGet 0 0) = UB.
Proof. exact default_raw. Qed.
Print Assumptions C70_default_refuted.
