(* Property C44. *)
From Verif Require Import Base TupModel TupSpec NulModel NulSpec NulProofs TupProofs.

(* C44: for every element type (copy or move assignable or not) and every history over any number of Nullable
   variables, no step is undefined (no object is read, assigned or destroyed that does not exist, or constructed over
   another, or read after it was moved from), every result is the one of an optional value, Value() raises an error
   exactly when it is null, and the constructions and destructions of the object inside of each variable alternate;
   the object exists at the end iff the variable holds a value. *)
Theorem C44_history : forall V ca ma cmpv eqv n (ops : list (nop V)), nlegals ca cmpv eqv (repeat None n) ops ->
  exists w, nrun ca ma cmpv eqv (ninit n) ops = Ok (w, snd (nspecs cmpv eqv (repeat None n) ops)) /\
    forall x, alternates x (lives w) (alive (fst (nspecs cmpv eqv (repeat None n) ops)) x).
Proof. exact @nul_history. Qed.
Print Assumptions C44_history.
Example C44_case : nlegals false zcmp Z.eqb (repeat None 3) (firstn 14 demo) /\ nlegals true zcmp Z.eqb (repeat None 3) demo /\
  snd (nspecs zcmp Z.eqb (repeat None 3) demo) =
    [NUnit; NUnit; NO Less; NUnit; NB false; NV 7%Z; NRaised; NUnit; NUnit; NO Less; NUnit; NB true; NUnit; NUnit; NRaised; NUnit; NUnit; NUnit; NUnit].
Proof.
  unfold demo. cbn [firstn nlegals nlegal nspec fst snd]. unfold gone, here. cbn.
  repeat split; eauto.
Qed.
(* C44: null is below every value, and a total order on the values gives a total order *)
Theorem C44_order : forall V (c : V -> V -> ord), total_order c -> total_order (ocmp c).
Proof. exact @ocmp_total. Qed.
Print Assumptions C44_order.
Theorem C44_null_least : forall V (c : V -> V -> ord) v,
  ocmp c None (Some v) = Less /\ ocmp c (Some v) None = Greater /\ ocmp c None None = Equal.
Proof. exact @ocmp_least. Qed.
Print Assumptions C44_null_least.
(* C44 is false of x = x.Value() when T is copy constructible but not copy assignable: the object is destroyed before
   it is copied *)
Theorem C44_own_value_refuted : forall V ma cmpv eqv (v : V),
  nrun false ma cmpv eqv (ninit 1) [NValue 0 v; NSetFrom 0 0] = UB.
Proof. exact @nul_self. Qed.
Print Assumptions C44_own_value_refuted.
