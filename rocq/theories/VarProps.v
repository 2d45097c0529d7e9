(* Property C45. *)
From Verif Require Import Base VarModel VarSpec VarProofs.

(* C45: for every list of alternatives (each copyable, movable, assignable or not) and every history over any number
   of variants, no step is undefined; every result is the one of a tagged value: Index() is the tag, Get of it returns
   the value, Get of another alternative raises an error, TryGet returns null, Apply calls the callback exactly once,
   with that alternative, TryApply as well if overload resolution picks the callback; each variant contains exactly one
   object, of the alternative of its index; and every constructed object is destroyed exactly once, before the next one
   is constructed in its variant.  An alternative that cannot be copied raises an error when it is. *)
Theorem C45_history : forall V alts moved n (ops : list (vop V)), vlegals alts moved (repeat None n) ops ->
  exists w, vrun alts moved (vinit n) ops = Ok (w, snd (vspecs alts moved (repeat None n) ops)) /\
    (forall x, nth_error (vars w) x = option_map (option_map (fun a => mkV (fst a) (Live (fst a) (snd a)))) (nth_error (fst (vspecs alts moved (repeat None n) ops)) x)) /\
    forall x, alternates x (lives w) (alternative (fst (vspecs alts moved (repeat None n) ops)) x).
Proof. exact @var_history. Qed.
Print Assumptions C45_history.
Example C45_case : vlegals two (fun _ v => v) (repeat None 3) demo /\
  snd (vspecs two (fun _ v => v) (repeat None 3) demo) =
    [VUnit; VUnit; VNat 1; VRaised; VUnit; VNat 1; VVal (Some 6%Z); VRaised; VVal None; VCalls [(1, 6%Z)] true; VCalls [] false; VRaised;
     VUnit; VUnit; VUnit; VUnit; VUnit; VCalls [(0, 9%Z)] true; VUnit; VUnit; VUnit].
Proof.
  unfold demo. cbn. unfold gone, here, holds. cbn. repeat split; eauto; try lia.
  all: intros i j [v1 A] [v2 B] N; inversion A; inversion B; subst; cbn; congruence.
Qed.
(* C45 is false of x = y when y holds another alternative, which cannot be copied: the error is raised after the object
   of x was destroyed and the index changed, so that x holds no object; its destructor is undefined *)
Theorem C45_noncopyable_refuted : exists w xs,
  vrun two (fun _ v => v) (vinit 2) [VNew 0 0 5%Z; VNew 1 1 6%Z; VAssign 0 1] = Ok (w, xs) /\
  xs = [VUnit; VUnit; VRaised] /\ nth_error (vars w) 0 = Some (Some (mkV 1 Raw)) /\
  vstep two (fun _ v => v) w (VGet 0 1) = UB /\ vstep two (fun _ v => v) w (VDrop 0) = UB.
Proof. exact var_noncopyable. Qed.
Print Assumptions C45_noncopyable_refuted.
(* C45 is false of an assignment from a part of the object the variant holds, to another alternative *)
Theorem C45_own_part_refuted : forall V moved (u v : V), vrun two moved (vinit 1) [VNew 0 0 u; VSetPart 0 1 v] = UB.
Proof. exact @var_part. Qed.
Print Assumptions C45_own_part_refuted.
