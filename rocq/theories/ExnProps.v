(* Property C65, for Nullable. *)
From Verif Require Import Base TupModel TupSpec NulModel NulSpec TupProofs ExnModel ExnSpec ExnProofs.

(* C65: for every element type and every history in which constructions and assignments of T throw at any time, no
   step is undefined, every result is the one of an optional value (a failed construction leaves null, a failed
   assignment what the assignment of T left), and the constructions and destructions of the object alternate *)
Theorem C65_nullable : forall V ca ma cmpv eqv n (ops : list (xnop V)), xnlegals ca ma cmpv eqv (repeat None n) ops ->
  exists w, xnrun ca ma cmpv eqv (ninit n) ops = Ok (w, snd (xnspecs ca ma cmpv eqv (repeat None n) ops)) /\
    forall x, alternates x (lives w) (alive (fst (xnspecs ca ma cmpv eqv (repeat None n) ops)) x).
Proof. exact @exn_history. Qed.
Print Assumptions C65_nullable.
Example C65_nullable_example : xnlegals true false zcmp Z.eqb (repeat None 2) xn_demo /\
  snd (xnspecs true false zcmp Z.eqb (repeat None 2) xn_demo) =
    [NRet NUnit; NThrown; NRet NUnit; NThrown; NRet (NV 8%Z); NThrown; NRet NRaised; NThrown; NRet (NB false); NRet NUnit; NRet NUnit].
Proof. exact xn_demo_ok. Qed.
(* C65: false that a failed assignment leaves a Nullable as it was *)
Theorem C65_nullable_strong_refuted : exists ops : list (xnop Z), xnlegals false false zcmp Z.eqb (repeat None 1) (ops ++ [NSetThrows true 0 1%Z]) /\
  fst (xnspecs false false zcmp Z.eqb (repeat None 1) ops) = [Some (Some 7%Z)] /\
  fst (xnspecs false false zcmp Z.eqb (repeat None 1) (ops ++ [NSetThrows true 0 1%Z])) = [Some None].
Proof. exact xn_strong. Qed.
Print Assumptions C65_nullable_strong_refuted.
