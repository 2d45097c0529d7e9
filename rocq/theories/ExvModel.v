(* Variant (Source/Primitives/Variant.h:64-521) when a constructor or an assignment of an alternative throws.  Nothing
   is caught, so the exception leaves the operation at that point. *)
From Verif Require Import Base VarModel.

Inductive xvop (V : Type) :=
| VPlain (o : vop V)                  (* an operation in which no alternative throws *)
| VNewThrows (x : nat)                (* 281-335, the construction throws: x does not come to exist, ~Variant is not called *)
| VSetThrows (x i : nat) (v : V).     (* 342-439, the construction or the assignment of alternative i in x throws; v is what the assignment has left *)
Arguments VPlain {V}. Arguments VNewThrows {V}. Arguments VSetThrows {V}.
Inductive xvout (V : Type) := VRet (o : vout V) | VThrown.
Arguments VRet {V}. Arguments VThrown {V}.

Section model.
  Context {V : Type} (alts : list alt) (moved : nat -> V -> V).
  Definition xvstep (w : vworld V) (o : xvop V) : res (vworld V * xvout V) :=
    match o with
    | VPlain o => do (w, r) <- vstep alts moved w o; Ok (w, VRet r)
    | VNewThrows x => do _ <- fresh w x 0; Ok (w, VThrown)
    | VSetThrows x i v =>
        do n <- var w x;
        if Nat.eqb (index n) i then do w <- assign w x i v; Ok (w, VThrown)
        else
          do r <- dtor alts w x;
          match r with
          | None => Ok (w, VRet VRaised)
          | Some w => do w <- set_index w x i; Ok (w, VThrown)        (* index is changed before the object is constructed *)
          end
    end.
  Fixpoint xvrun (w : vworld V) (ops : list (xvop V)) : res (vworld V * list (xvout V)) :=
    match ops with
    | [] => Ok (w, [])
    | o :: ops => do (w, x) <- xvstep w o; do (w, xs) <- xvrun w ops; Ok (w, x :: xs)
    end.
End model.
