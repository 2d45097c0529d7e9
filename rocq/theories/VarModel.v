(* Variant (Source/Primitives/Variant.h:64-521) over any number of variables of one Variant type.
   An alternative is known by its position; what matters of its type is whether it is copy constructible, move
   constructible and copy assignable.  Its constructors and assignments do not throw.
   Variables hold values of one type V; the alternative says which C++ type a value has. *)
From Verif Require Import Base.

Record alt := mkAlt { copyable : bool; movable : bool; assignable : bool }.
(* the bytes of buffer: no object, or an object of alternative i *)
Inductive content (V : Type) := Raw | Live (i : nat) (v : V).
Arguments Raw {V}. Arguments Live {V}.
Record variant (V : Type) := mkV { index : nat; buffer : content V }.
Arguments mkV {V}. Arguments index {V}. Arguments buffer {V}.
(* construction and destruction of the object of alternative i inside of variable x, latest first *)
Inductive life := Construct (x i : nat) | Destroy (x i : nat).
Record vworld (V : Type) := mkVW { vars : list (option (variant V)); lives : list life }.
Arguments mkVW {V}. Arguments vars {V}. Arguments lives {V}.

Inductive vop (V : Type) :=
| VNew (x i : nat) (v : V)       (* 281-286 (i = 0), 300-335 *)
| VCopy (x y : nat)              (* 288-292 *)
| VMove (x y : nat)              (* 294-298 *)
| VDrop (x : nat)                (* 337-340 *)
| VAssign (x y : nat)            (* 342-358 *)
| VMoveAssign (x y : nat)        (* 360-376 *)
| VSet (x i : nat) (v : V)       (* 378-439, a value outside of all variables *)
| VSetFrom (x y i : nat)         (* x = y.Get<T>() *)
| VSetPart (x i : nat) (v : V)   (* x = r, where r refers to a part, of type i and value v, of the object in x *)
| VIndex (x : nat)               (* 441-444 *)
| VGet (x i : nat)               (* 446-471 *)
| VTryGet (x i : nat)            (* 473-486 *)
| VApply (x : nat)               (* 488-498 *)
| VTryApply (x : nat) (prefers : nat -> bool).   (* 500-520; prefers i: overload resolution picks the callback for alternative i *)
Arguments VNew {V}. Arguments VCopy {V}. Arguments VMove {V}. Arguments VDrop {V}. Arguments VAssign {V}. Arguments VMoveAssign {V}.
Arguments VSet {V}. Arguments VSetFrom {V}. Arguments VSetPart {V}. Arguments VIndex {V}. Arguments VGet {V}. Arguments VTryGet {V}.
Arguments VApply {V}. Arguments VTryApply {V}.
(* results; VCalls: the calls of the client's callback and the returned bool (true for Apply) *)
Inductive vout (V : Type) := VUnit | VRaised | VNat (i : nat) | VVal (v : option V) | VCalls (l : list (nat * V)) (b : bool).
Arguments VUnit {V}. Arguments VRaised {V}. Arguments VNat {V}. Arguments VVal {V}. Arguments VCalls {V}.

Section model.
  Context {V : Type} (alts : list alt) (moved : nat -> V -> V).   (* moved i v: what is left in a moved-from object *)

  Definition var (w : vworld V) (x : nat) : res (variant V) :=
    match nth_error (vars w) x with Some (Some n) => Ok n | _ => UB end.
  Definition put (w : vworld V) (x : nat) (n : variant V) : vworld V := mkVW (upd (vars w) x (Some n)) (lives w).
  (* new (buffer)T(v) for the T of alternative i *)
  Definition construct (w : vworld V) (x i : nat) (v : V) : res (vworld V) :=
    do n <- var w x;
    match buffer n with
    | Raw => Ok (mkVW (upd (vars w) x (Some (mkV (index n) (Live i v)))) (Construct x i :: lives w))
    | Live _ _ => UB
    end.
  (* the object of type i in the buffer of x, through reinterpret_cast *)
  Definition object (w : vworld V) (x i : nat) : res V :=
    do n <- var w x; match buffer n with Live j v => if Nat.eqb i j then Ok v else UB | Raw => UB end.
  Definition destroy (w : vworld V) (x i : nat) : res (vworld V) :=
    do _ <- object w x i; do n <- var w x;
    Ok (mkVW (upd (vars w) x (Some (mkV (index n) Raw))) (Destroy x i :: lives w)).
  Definition assign (w : vworld V) (x i : nat) (v : V) : res (vworld V) :=
    do _ <- object w x i; do n <- var w x; Ok (put w x (mkV (index n) (Live i v))).
  (* read by const T&, by T&& *)
  Definition by_copy (y : nat) (w : vworld V) (i : nat) : res (vworld V * V) := do v <- object w y i; Ok (w, v).
  Definition by_move (y : nat) (w : vworld V) (i : nat) : res (vworld V * V) :=
    do v <- object w y i; do n <- var w y; Ok (put w y (mkV (index n) (Live i (moved i v))), v).

  (* 221-249: the folds (VariantElement<Is, TElements>::i_XXX(index, ...) || ...); able is the if constexpr of i_XXX *)
  Fixpoint any (able : alt -> bool) (I : nat) (l : list alt) (idx : nat) (act : nat -> res (vworld V)) : res (option (vworld V)) :=
    match l with
    | [] => Ok None
    | a :: l =>
        if able a && Nat.eqb I idx then do w <- act I; Ok (Some w)
        else any able (S I) l idx act
    end.
  Definition dtor (w : vworld V) (x : nat) : res (option (vworld V)) :=
    do n <- var w x; any (fun _ => true) 0 alts (index n) (fun i => destroy w x i).
  Definition ctor_from (able : alt -> bool) (get : vworld V -> nat -> res (vworld V * V)) (w : vworld V) (x : nat) : res (option (vworld V)) :=
    do n <- var w x; any able 0 alts (index n) (fun i => do (w, v) <- get w i; construct w x i v).
  Definition assign_from (able : alt -> bool) (get : vworld V -> nat -> res (vworld V * V)) (w : vworld V) (x : nat) : res (option (vworld V)) :=
    do n <- var w x; any able 0 alts (index n) (fun i => do (w, v) <- get w i; assign w x i v).
  Definition fresh (w : vworld V) (x i : nat) : res (vworld V) :=
    match nth_error (vars w) x with
    | Some None => Ok (put w x (mkV i Raw))
    | _ => UB
    end.
  Definition set_index (w : vworld V) (x i : nat) : res (vworld V) :=
    do n <- var w x; Ok (put w x (mkV i (buffer n))).
  (* a constructor that throws leaves no variable *)
  Definition new_from (able : alt -> bool) (get : vworld V -> nat -> res (vworld V * V)) (w : vworld V) (x y : nat) : res (vworld V * vout V) :=
    do n <- var w y;
    do w1 <- fresh w x (index n);
    do r <- ctor_from able get w1 x;
    match r with Some w => Ok (w, VUnit) | None => Ok (w, VRaised) end.
  (* 342-376 *)
  Definition assign_variant (same other : alt -> bool) (get : vworld V -> nat -> res (vworld V * V)) (w : vworld V) (x y : nat) : res (vworld V * vout V) :=
    if Nat.eqb x y then Ok (w, VUnit)
    else
      do nx <- var w x; do ny <- var w y;
      if Nat.eqb (index nx) (index ny) then
        do r <- assign_from same get w x;
        match r with Some w => Ok (w, VUnit) | None => Ok (w, VRaised) end
      else
        do r <- dtor w x;
        match r with
        | None => Ok (w, VRaised)
        | Some w =>
            do w <- set_index w x (index ny);
            do r <- ctor_from other get w x;
            match r with Some w => Ok (w, VUnit) | None => Ok (w, VRaised) end
        end.
  (* 378-439: the alternative is known when compiling *)
  Definition set_value (get : vworld V -> res V) (w : vworld V) (x i : nat) : res (vworld V * vout V) :=
    do n <- var w x;
    if Nat.eqb (index n) i then do v <- get w; do w <- assign w x i v; Ok (w, VUnit)
    else
      do r <- dtor w x;
      match r with
      | None => Ok (w, VRaised)
      | Some w => do w <- set_index w x i; do v <- get w; do w <- construct w x i v; Ok (w, VUnit)
      end.
  (* 480-486 *)
  Definition try_get (w : vworld V) (x i : nat) : res (option V) :=
    do n <- var w x; if Nat.eqb (index n) i then do v <- object w x i; Ok (Some v) else Ok None.
  (* 207-219: the callback is called with the object of each i_Apply that matches *)
  Fixpoint any_apply (I : nat) (l : list alt) (idx : nat) (w : vworld V) (x : nat) : res (option (nat * V)) :=
    match l with
    | [] => Ok None
    | _ :: l => if Nat.eqb I idx then do v <- object w x I; Ok (Some (I, v)) else any_apply (S I) l idx w x
    end.
  Definition vstep (w : vworld V) (o : vop V) : res (vworld V * vout V) :=
    match o with
    | VNew x i v => do w <- fresh w x i; do w <- construct w x i v; Ok (w, VUnit)
    | VCopy x y => new_from copyable (by_copy y) w x y
    | VMove x y => new_from movable (by_move y) w x y
    | VDrop x =>
        do r <- dtor w x;
        match r with Some w => Ok (mkVW (upd (vars w) x None) (lives w), VUnit) | None => Ok (w, VRaised) end
    | VAssign x y => assign_variant assignable copyable (by_copy y) w x y
    | VMoveAssign x y => assign_variant movable movable (by_move y) w x y
    | VSet x i v => set_value (fun _ => Ok v) w x i
    | VSetFrom x y i =>
        do r <- try_get w y i;
        match r with
        | None => Ok (w, VRaised)
        | Some _ => set_value (fun w => object w y i) w x i
        end
    | VSetPart x i v => set_value (fun w => do n <- var w x; match buffer n with Raw => UB | Live _ _ => Ok v end) w x i
    | VIndex x => do n <- var w x; Ok (w, VNat (index n))
    | VGet x i => do r <- try_get w x i; Ok (w, match r with Some v => VVal (Some v) | None => VRaised end)
    | VTryGet x i => do r <- try_get w x i; Ok (w, VVal r)
    | VApply x =>
        do n <- var w x;
        do r <- any_apply 0 alts (index n) w x;
        Ok (w, match r with Some c => VCalls [c] true | None => VRaised end)
    | VTryApply x prefers =>
        do n <- var w x;
        do r <- any_apply 0 alts (index n) w x;
        Ok (w, match r with
               | Some (i, v) => if prefers i then VCalls [(i, v)] true else VCalls [] false
               | None => VRaised
               end)
    end.
  Fixpoint vrun (w : vworld V) (ops : list (vop V)) : res (vworld V * list (vout V)) :=
    match ops with
    | [] => Ok (w, [])
    | o :: ops => do (w, x) <- vstep w o; do (w, xs) <- vrun w ops; Ok (w, x :: xs)
    end.
  Definition vinit (n : nat) : vworld V := mkVW (repeat None n) [].
End model.
