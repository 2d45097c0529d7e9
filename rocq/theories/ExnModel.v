(* Nullable (Source/Primitives/Nullable.h:19-228) when a constructor or an assignment of T throws.  Nothing is caught,
   so the exception leaves the operation at that point. *)
From Verif Require Import Base TupModel NulModel.

Inductive xnop (V : Type) :=
| NPlain (o : nop V)                  (* an operation in which T does not throw *)
| NNewThrows (x : nat)                (* 40-75, the construction of object throws: x does not come to exist, ~Nullable is not called *)
| NSetThrows (mv : bool) (x : nat) (v : V)        (* 97-112, mv: 117-132; v is what the assignment of T has left in object *)
| NAssignThrows (mv : bool) (x y : nat) (v : V).  (* 137-159, mv: 164-188; simplification: a move that throws leaves y as it was *)
Arguments NPlain {V}. Arguments NNewThrows {V}. Arguments NSetThrows {V}. Arguments NAssignThrows {V}.
Inductive xnout (V : Type) := NRet (o : nout V) | NThrown.
Arguments NRet {V}. Arguments NThrown {V}.

Section model.
  Context {V : Type} (copy_assignable move_assignable : bool) (cmpv : V -> V -> ord) (eqv : V -> V -> bool).
  (* 97-112, 117-132, 143-156, 170-185: object = value throws, or new (&object)T(value) throws after Reset() and before initialized = true *)
  Definition set_throws (mv : bool) (w : nworld V) (x : nat) (v : V) : res (nworld V) :=
    do b <- is_init w x;
    if (if mv then move_assignable else copy_assignable) && b then assign w x v else reset w x.
  Definition xnstep (w : nworld V) (o : xnop V) : res (nworld V * xnout V) :=
    match o with
    | NPlain o => do (w, r) <- nstep copy_assignable move_assignable cmpv eqv w o; Ok (w, NRet r)
    | NNewThrows x => do _ <- fresh w x true; Ok (w, NThrown)
    | NSetThrows mv x v => do w <- set_throws mv w x v; Ok (w, NThrown)
    | NAssignThrows mv x y v =>
        do b <- is_init w y;
        if negb b then do w <- reset w x; Ok (w, NRet NUnit)          (* T is not used *)
        else if Nat.eqb x y then Ok (w, NRet NUnit)
        else do w <- set_throws mv w x v; Ok (w, NThrown)
    end.
  Fixpoint xnrun (w : nworld V) (ops : list (xnop V)) : res (nworld V * list (xnout V)) :=
    match ops with
    | [] => Ok (w, [])
    | o :: ops => do (w, x) <- xnstep w o; do (w, xs) <- xnrun w ops; Ok (w, x :: xs)
    end.
End model.
