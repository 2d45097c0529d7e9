(* Variants that hold nothing. *)
From Verif Require Import Base VarModel VarSpec ExvModel.
(* the variable x exists, and holds no object although every variant says that it does *)
Definition hollow {V : Type} (w : vworld V) (x : nat) : Prop :=
  exists n, nth_error (vars w) x = Some (Some n) /\ buffer n = Raw.
Definition in_range {V : Type} (alts : list alt) (w : vworld V) (x : nat) : Prop :=
  exists n, nth_error (vars w) x = Some (Some n) /\ index n < length alts.

(* Variants as tagged values, with exceptions of the alternatives *)
Section spec.
  Context {V : Type} (alts : list alt) (moved : nat -> V -> V).
  Definition xvspec (s : @env V) (o : xvop V) : @env V * xvout V :=
    match o with
    | VPlain o => (fst (vspec alts moved s o), VRet (snd (vspec alts moved s o)))
    | VNewThrows x => (s, VThrown)
    | VSetThrows x i v => (upd s x (Some (i, v)), VThrown)
    end.
  Fixpoint xvspecs (s : @env V) (ops : list (xvop V)) : @env V * list (xvout V) :=
    match ops with
    | [] => (s, [])
    | o :: ops => let (s, x) := xvspec s o in let (s, xs) := xvspecs s ops in (s, x :: xs)
    end.
  (* exceptions of constructions of variants and of assignments to the same alternative *)
  Definition xvlegal (s : @env V) (o : xvop V) : Prop :=
    match o with
    | VPlain o => vlegal alts s o
    | VNewThrows x => gone s x
    | VSetThrows x i _ => exists u, nth_error s x = Some (Some (i, u))
    end.
  Fixpoint xvlegals (s : @env V) (ops : list (xvop V)) : Prop :=
    match ops with [] => True | o :: ops => xvlegal s o /\ xvlegals (fst (xvspec s o)) ops end.
End spec.
