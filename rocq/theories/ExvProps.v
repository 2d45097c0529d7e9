(* Property C65, for Variant. *)
From Verif Require Import Base VarModel VarSpec VarProofs ExvModel ExvSpec ExvProofs.

(* C65: in every history in which constructions of variants and assignments to the alternative that is there throw,
   no step is undefined, every result is the one of a tagged value (which a failed assignment replaces by what the
   assignment of the alternative left), each variant contains one object, and constructions and destructions alternate *)
Theorem C65_variant_history : forall V alts moved n (ops : list (xvop V)), xvlegals alts moved (repeat None n) ops ->
  exists w, xvrun alts moved (vinit n) ops = Ok (w, snd (xvspecs alts moved (repeat None n) ops)) /\
    (forall x, nth_error (vars w) x = option_map (option_map (fun a => mkV (fst a) (Live (fst a) (snd a)))) (nth_error (fst (xvspecs alts moved (repeat None n) ops)) x)) /\
    forall x, alternates x (lives w) (alternative (fst (xvspecs alts moved (repeat None n) ops)) x).
Proof. exact @exv_history. Qed.
Print Assumptions C65_variant_history.
(* C65: false that a variant can be used after a change of its alternative that throws: whatever defined program
   follows, the variable exists and holds no object *)
Theorem C65_variant_refuted : forall V alts moved n (ops1 : list (xvop V)) x i j u v ops2, xvlegals alts moved (repeat None n) ops1 ->
  nth_error (fst (xvspecs alts moved (repeat None n) ops1)) x = Some (Some (j, u)) -> j <> i ->
  (exists w rs, xvrun alts moved (vinit n) (ops1 ++ [VSetThrows x i v]) = Ok (w, rs)) /\
  forall w rs, xvrun alts moved (vinit n) (ops1 ++ VSetThrows x i v :: ops2) = Ok (w, rs) -> hollow w x.
Proof. exact @exv_no_return. Qed.
Print Assumptions C65_variant_refuted.
Example C65_variant_example : xvlegals two (fun _ v => v) (repeat None 2) xv_demo /\
  snd (xvspecs two (fun _ v => v) (repeat None 2) xv_demo) = [VThrown; VRet VUnit; VThrown; VRet (VVal (Some 6%Z)); VRet VUnit; VRet VUnit] /\
  nth_error (fst (xvspecs two (fun _ v => v) (repeat None 2) xv_demo)) 1 = Some (Some (1, 6%Z)) /\
  exists w, xvrun two (fun _ v => v) (vinit 2) (xv_demo ++ [VSetThrows 1 0 6%Z; VPlain (VIndex 1)]) =
    Ok (w, [VThrown; VRet VUnit; VThrown; VRet (VVal (Some 6%Z)); VRet VUnit; VRet VUnit; VThrown; VRet (VNat 0)]).
Proof. exact xv_demo_ok. Qed.
(* in particular its destructor is undefined, and so is reading the object *)
Theorem C65_variant_hollow : forall V alts moved (w : vworld V) x, hollow w x -> in_range alts w x ->
  vstep alts moved w (VDrop x) = UB /\ forall i w' v, vstep alts moved w (VGet x i) <> Ok (w', VVal (Some v)).
Proof. exact @hollow_drop. Qed.
Print Assumptions C65_variant_hollow.
