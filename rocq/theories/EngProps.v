(* C64, C66: enumerators of a group, and its keys and values used as arguments, while the group changes. *)
From Verif Require Import Base LstModel LstSpec SrtModel SrtSpec DctModel DctSpec DctProofs EnuModel EnuSpec EngModel EngSpec EngProofs.
Open Scope Z_scope.

(* C64: an enumerator of a group is the position of a key and of one of its values, with references to both taken when it was
   moved there; the key reference is lost when the keys move to other storage, the value reference when the values of that
   key move or the key is removed *)
Theorem C64_group (K V : Type) (c : K -> K -> comparison) (veq : V -> V -> bool) (n : nat) (os : list (heop K V)) : total_order c ->
  outs (hrun K V (fun a b => Some (c a b)) veq (hstart K V n) os) = outs (hsrun K V c veq (hsstart K V n) os) /\
  (forall t rs, hsrun K V c veq (hsstart K V n) os = Ok (t, rs) ->
     exists s, hrun K V (fun a b => Some (c a b)) veq (hstart K V n) os = Ok (s, rs) /\ h_shows K V c s t).
Proof. exact (fun TO => group_history K V c TO veq n os). Qed.
Print Assumptions C64_group.
Example C64_group_example : outs (hrun Z Z (fun a b => Some (Z.compare a b)) Z.eqb (hstart Z Z 1)
    [HGroup (GAdd 3 30); HGroup (GAdd 1 10); HGroup (GAdd 3 31); HNext 0; HKey 0; HValue 0; HNext 0; HIndex 0;
     HGroup (GRemove 1); HIndex 0; HNext 0; HIndex 0; HReset 0; HNext 0; HIndex 0; HValue 0]) =
  Ok [HRes (OBool true); HRes (OBool true); HRes (OBool true); HRes (OBool true); HRes (OKey 1); HRes (OVal 10); HRes (OBool true); HRes (OInt 1);
      HRes (OBool true); HRes (OInt (-1)); HRes (OBool false); HRes (OInt (-1)); HError; HRes (OBool true); HRes (OInt 0); HRes (OVal 30)].
Proof. exact ex_group. Qed.

(* C64, C66: moving enumerators is defined whatever is done to the group, and so are its methods when they are given keys and
   values of the group itself, except to add a value to the key it belongs to *)
Theorem C64_group_enumerators (K V : Type) (c : K -> K -> comparison) (veq : V -> V -> bool) (n : nat) (os : list (heop K V)) : total_order c ->
  Forall (no_current K V c n) os -> exists s rs, hrun K V (fun a b => Some (c a b)) veq (hstart K V n) os = Ok (s, rs).
Proof. exact (fun TO => group_enumerators K V c TO veq n os). Qed.
Print Assumptions C64_group_enumerators.
Example C64_group_enumerators_example : Forall (no_current Z Z Z.compare 1)
  [HGroup (GAdd 3 30); HAdd (KVal 1) (VAt 3 0); HNext 0; HRemove (KAt 0); HRemoveValue (KAt 0) (VAt 3 0); HNext 0].
Proof. exact ex_no_current. Qed.

(* C64: the value an enumerator stands on can be read as long as only other keys are changed *)
Theorem C64_group_value (K V : Type) (c : K -> K -> comparison) (veq : V -> V -> bool) (n : nat) (os1 os : list (heop K V))
    (s1 s2 s3 : gst K V) (rs1 rs : list (hres K V)) (e : nat) (k : K) (v : V) : total_order c ->
  let step := hstep K V (fun a b => Some (c a b)) veq in
  let run := hrun K V (fun a b => Some (c a b)) veq in
  run (hstart K V n) os1 = Ok (s1, rs1) -> step s1 (HNext e) = Ok (s2, HRes (OBool true)) ->
  step s2 (HKey e) = Ok (s2, HRes (OKey k)) -> step s2 (HValue e) = Ok (s2, HRes (OVal v)) ->
  Forall (elsewhere K V c k) os -> Forall (fun o => ~ moves_enum K V e o) os -> run s2 os = Ok (s3, rs) ->
  step s3 (HValue e) = Ok (s3, HRes (OVal v)).
Proof. exact (fun TO => group_value K V c TO veq n os1 s1 rs1 e s2 k v os s3 rs). Qed.
Print Assumptions C64_group_value.
Example C64_group_value_example : exists s1 rs1 s2 s3 rs,
  hrun Z Z (fun a b => Some (Z.compare a b)) Z.eqb (hstart Z Z 1) [HGroup (GAdd 0 7)] = Ok (s1, rs1) /\
  hstep Z Z (fun a b => Some (Z.compare a b)) Z.eqb s1 (HNext 0) = Ok (s2, HRes (OBool true)) /\
  hstep Z Z (fun a b => Some (Z.compare a b)) Z.eqb s2 (HKey 0) = Ok (s2, HRes (OKey 0)) /\
  hstep Z Z (fun a b => Some (Z.compare a b)) Z.eqb s2 (HValue 0) = Ok (s2, HRes (OVal 7)) /\
  Forall (elsewhere Z Z Z.compare 0) [HGroup (GAdd 1 1); HGroup (GAdd 2 2); HRemove (KVal 1)] /\
  hrun Z Z (fun a b => Some (Z.compare a b)) Z.eqb s2 [HGroup (GAdd 1 1); HGroup (GAdd 2 2); HRemove (KVal 1)] = Ok (s3, rs).
Proof. exact ex_value. Qed.

(* C64: false of the key it stands on *)
Theorem C64_group_key_refuted : ~ forall ks, Forall (fun k => 0 < k) ks ->
  outs (hrun Z Z (fun a b => Some (Z.compare a b)) Z.eqb (hstart Z Z 1) (visit_then_add_keys (HKey 0) ks)) <> UB.
Proof. exact keys_lost. Qed.
Print Assumptions C64_group_key_refuted.

(* C66: a program that passes keys and values of a group back to the group gives the results, including undefined behaviour, that
   EngSpec says *)
Theorem C66_group_history (K V : Type) (c : K -> K -> comparison) (veq : V -> V -> bool) (os : list (heop K V)) : total_order c ->
  outs (hrun K V (fun a b => Some (c a b)) veq (hstart K V 0) os) = outs (hsrun K V c veq (hsstart K V 0) os) /\
  (forall t rs, hsrun K V c veq (hsstart K V 0) os = Ok (t, rs) ->
     exists s, hrun K V (fun a b => Some (c a b)) veq (hstart K V 0) os = Ok (s, rs) /\ g_shows K V c (gx s) (contents K V (hm t))).
Proof. exact (fun TO => own_history K V c TO veq os). Qed.
Print Assumptions C66_group_history.
Example C66_group_history_example : outs (hrun Z Z (fun a b => Some (Z.compare a b)) Z.eqb (hstart Z Z 0)
    [HGroup (GAdd 1 10); HGroup (GAdd 1 11); HAdd (KAt 0) (VVal 12); HAdd (KVal 2) (VAt 1 1); HGroup (GValueAt 2 0); HAdd (KVal 1) (VAt 1 0); HGroup (GValueAt 1 3);
     HRemoveValue (KAt 0) (VAt 1 0); HGroup (GValueAt 1 0); HRemove (KAt 0); HGroup GCount]) =
  Ok [HRes (OBool true); HRes (OBool true); HRes (OBool true); HRes (OBool true); HRes (OVal 11); HRes (OBool true); HRes (OVal 10);
      HRes (OBool true); HRes (OVal 11); HRes (OBool true); HRes (OInt 1)].
Proof. exact ex_own. Qed.

(* C66: false that a value of a group can be added to any key of the group *)
Theorem C66_group_add_refuted : ~ forall os, Forall (fun o => match o with HGroup _ | HAdd (KVal _) (VAt _ _) => True | _ => False end) os ->
  outs (hrun Z Z (fun a b => Some (Z.compare a b)) Z.eqb (hstart Z Z 0) os) <> UB.
Proof. exact own_lost. Qed.
Print Assumptions C66_group_add_refuted.
