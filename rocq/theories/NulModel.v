(* Nullable (Source/Primitives/Nullable.h:19-228) over any number of variables.
   The element type T is given by its values, by whether it is copy and move assignable, and by its comparison.
   Constructors and assignments of T do not throw. *)
From Verif Require Import Base TupModel.

(* the bytes of the union: no T object, an object, an object that was moved from *)
Inductive cell (V : Type) := Raw | Live (v : V) | Moved.
Arguments Raw {V}. Arguments Live {V}. Arguments Moved {V}.
Record nullable (V : Type) := mkN { object : cell V; initialized : bool }.
Arguments mkN {V}. Arguments object {V}. Arguments initialized {V}.
(* what happens to the T objects inside of Nullable variables, latest first *)
Inductive life := Construct (x : nat) | Destroy (x : nat).
Record nworld (V : Type) := mkNW { vars : list (option (nullable V)); lives : list life }.
Arguments mkNW {V}. Arguments vars {V}. Arguments lives {V}.

Inductive nop (V : Type) :=
| NNew (x : nat)                 (* 34-36 Nullable() *)
| NValue (x : nat) (v : V)       (* 40-52 from a T, by copying or moving *)
| NCopy (x y : nat)              (* 56-63 *)
| NMove (x y : nat)              (* 67-75 *)
| NDrop (x : nat)                (* 77-80 *)
| NReset (x : nat)               (* 85-92 *)
| NSet (x : nat) (v : V)         (* 97-112, a T outside of all variables *)
| NSetMove (x : nat) (v : V)     (* 117-132 *)
| NSetFrom (x y : nat)           (* 97-112, x = y.Value() *)
| NAssign (x y : nat)            (* 137-159 *)
| NMoveAssign (x y : nat)        (* 164-188 *)
| NBool (x : nat)                (* 216-219 *)
| NGet (x : nat)                 (* 223-227 *)
| NCompare (x y : nat)           (* 197-205 *)
| NEqual (x y : nat).            (* 207-212 *)
Arguments NNew {V}. Arguments NValue {V}. Arguments NCopy {V}. Arguments NMove {V}. Arguments NDrop {V}. Arguments NReset {V}.
Arguments NSet {V}. Arguments NSetMove {V}. Arguments NSetFrom {V}. Arguments NAssign {V}. Arguments NMoveAssign {V}.
Arguments NBool {V}. Arguments NGet {V}. Arguments NCompare {V}. Arguments NEqual {V}.
Inductive nout (V : Type) := NUnit | NRaised | NB (b : bool) | NV (v : V) | NO (o : ord).
Arguments NUnit {V}. Arguments NRaised {V}. Arguments NB {V}. Arguments NV {V}. Arguments NO {V}.

Section model.
  Context {V : Type} (copy_assignable move_assignable : bool) (cmpv : V -> V -> ord) (eqv : V -> V -> bool).

  Definition var (w : nworld V) (x : nat) : res (nullable V) :=
    match nth_error (vars w) x with Some (Some n) => Ok n | _ => UB end.
  Definition put (w : nworld V) (x : nat) (n : nullable V) : nworld V := mkNW (upd (vars w) x (Some n)) (lives w).
  (* new (&object)T(v): over a T object it would lose that object *)
  Definition construct (w : nworld V) (x : nat) (v : V) : res (nworld V) :=
    do n <- var w x;
    match object n with
    | Raw => Ok (mkNW (upd (vars w) x (Some (mkN (Live v) (initialized n)))) (Construct x :: lives w))
    | _ => UB
    end.
  (* object.~T() *)
  Definition destroy (w : nworld V) (x : nat) : res (nworld V) :=
    do n <- var w x;
    match object n with
    | Raw => UB
    | _ => Ok (mkNW (upd (vars w) x (Some (mkN Raw (initialized n)))) (Destroy x :: lives w))
    end.
  (* object = v *)
  Definition assign (w : nworld V) (x : nat) (v : V) : res (nworld V) :=
    do n <- var w x;
    match object n with
    | Raw => UB
    | _ => Ok (put w x (mkN (Live v) (initialized n)))
    end.
  (* the value of the object of y, by const T& or by std::move *)
  Definition value (w : nworld V) (y : nat) : res V :=
    do n <- var w y; match object n with Live v => Ok v | _ => UB end.
  Definition take (w : nworld V) (y : nat) : res (nworld V * V) :=
    do v <- value w y; do n <- var w y; Ok (put w y (mkN Moved (initialized n)), v).
  Definition set_init (w : nworld V) (x : nat) (b : bool) : res (nworld V) :=
    do n <- var w x; Ok (put w x (mkN (object n) b)).
  Definition is_init (w : nworld V) (x : nat) : res bool := do n <- var w x; Ok (initialized n).

  (* 85-92 *)
  Definition reset (w : nworld V) (x : nat) : res (nworld V) :=
    do b <- is_init w x;
    if b then do w <- destroy w x; set_init w x false else Ok w.
  (* the storage of a new variable *)
  Definition fresh (w : nworld V) (x : nat) (b : bool) : res (nworld V) :=
    match nth_error (vars w) x with
    | Some None => Ok (mkNW (upd (vars w) x (Some (mkN Raw b))) (lives w))
    | _ => UB
    end.
  (* 97-132: `get` reads the operand when it is used; `able` is the if constexpr *)
  Definition set_value (able : bool) (w : nworld V) (x : nat) (get : nworld V -> res (nworld V * V)) : res (nworld V) :=
    do b <- is_init w x;
    if able && b then do (w, v) <- get w; assign w x v
    else
      do w <- reset w x;
      do (w, v) <- get w;
      do w <- construct w x v;
      set_init w x true.
  Definition nstep (w : nworld V) (o : nop V) : res (nworld V * nout V) :=
    match o with
    | NNew x => do w <- fresh w x false; Ok (w, NUnit)
    | NValue x v => do w <- fresh w x true; do w <- construct w x v; Ok (w, NUnit)
    | NCopy x y =>
        do b <- is_init w y;
        do w <- fresh w x b;
        if b then do v <- value w y; do w <- construct w x v; Ok (w, NUnit) else Ok (w, NUnit)
    | NMove x y =>
        do b <- is_init w y;
        do w <- fresh w x b;
        if b then do (w, v) <- take w y; do w <- construct w x v; do w <- reset w y; Ok (w, NUnit) else Ok (w, NUnit)
    | NDrop x => do w <- reset w x; Ok (mkNW (upd (vars w) x None) (lives w), NUnit)
    | NReset x => do w <- reset w x; Ok (w, NUnit)
    | NSet x v => do w <- set_value copy_assignable w x (fun w => Ok (w, v)); Ok (w, NUnit)
    | NSetMove x v => do w <- set_value move_assignable w x (fun w => Ok (w, v)); Ok (w, NUnit)
    | NSetFrom x y =>
        do b <- is_init w y;
        if b then do w <- set_value copy_assignable w x (fun w => do v <- value w y; Ok (w, v)); Ok (w, NUnit)
        else Ok (w, NRaised)
    | NAssign x y =>
        do b <- is_init w y;
        if negb b then do w <- reset w x; Ok (w, NUnit)
        else if Nat.eqb x y then Ok (w, NUnit)
        else do w <- set_value copy_assignable w x (fun w => do v <- value w y; Ok (w, v)); Ok (w, NUnit)
    | NMoveAssign x y =>
        do b <- is_init w y;
        if negb b then do w <- reset w x; Ok (w, NUnit)
        else if Nat.eqb x y then Ok (w, NUnit)
        else
          do b <- is_init w x;
          if move_assignable && b then
            do (w, v) <- take w y; do w <- assign w x v; do w <- reset w y; Ok (w, NUnit)
          else
            do w <- reset w x;
            do (w, v) <- take w y;
            do w <- construct w x v;
            do w <- reset w y;
            do w <- set_init w x true;
            Ok (w, NUnit)
    | NBool x => do b <- is_init w x; Ok (w, NB b)
    | NGet x => do b <- is_init w x; if b then do v <- value w x; Ok (w, NV v) else Ok (w, NRaised)
    | NCompare x y =>
        do a <- is_init w x; do b <- is_init w y;
        if a && b then do u <- value w x; do v <- value w y; Ok (w, NO (cmpv u v))
        else if a then Ok (w, NO Greater)
        else if b then Ok (w, NO Less)
        else Ok (w, NO Equal)
    | NEqual x y =>
        do a <- is_init w x; do b <- is_init w y;
        if a && b then do u <- value w x; do v <- value w y; Ok (w, NB (eqv u v))
        else Ok (w, NB (Bool.eqb a b))
    end.
  Fixpoint nrun (w : nworld V) (ops : list (nop V)) : res (nworld V * list (nout V)) :=
    match ops with
    | [] => Ok (w, [])
    | o :: ops => do (w, x) <- nstep w o; do (w, xs) <- nrun w ops; Ok (w, x :: xs)
    end.
  Definition ninit (n : nat) : nworld V := mkNW (repeat None n) [].
End model.
