(* Shared vocabulary of all models: outcomes and bounds-checked list access. *)
From Coq Require Export List ZArith Lia Bool.
Export ListNotations.

(* Outcome of running a piece of C++:
   - [Ok a]     normal result;
   - [Err]      CHECK_ERROR threw vl::Error (Source/Basic.h:173-177);
   - [UB]       undefined behaviour (out-of-bounds access, reading an
                uninitialised or freed location, ...);
   - [NoFuel]   the fuel given to a modelled loop ran out (never a C++ result;
                every theorem excludes it). *)
Inductive res (A : Type) : Type :=
| Ok (a : A)
| Err
| UB
| NoFuel.
Arguments Ok {A} a.
Arguments Err {A}.
Arguments UB {A}.
Arguments NoFuel {A}.

Definition bind {A B : Type} (m : res A) (f : A -> res B) : res B :=
  match m with
  | Ok a => f a
  | Err => Err
  | UB => UB
  | NoFuel => NoFuel
  end.

Notation "'do' x <- m ; f" := (bind m (fun x => f))
  (at level 200, x pattern, m at level 100, f at level 200, right associativity).

(* CHECK_ERROR(cond, ...) : Source/Basic.h:173 *)
Definition check {A : Type} (b : bool) (k : res A) : res A := if b then k else Err.

(* Array access through a C++ index: outside the array it is UB. *)
Definition znth {A : Type} (l : list A) (i : Z) : option A :=
  if (i <? 0)%Z then None else nth_error l (Z.to_nat i).

Definition zlen {A : Type} (l : list A) : Z := Z.of_nat (length l).

Fixpoint upd {A : Type} (l : list A) (n : nat) (x : A) : list A :=
  match l, n with
  | [], _ => []
  | _ :: l', O => x :: l'
  | y :: l', S n' => y :: upd l' n' x
  end.

Definition aget {A : Type} (l : list A) (i : Z) : res A :=
  match znth l i with Some x => Ok x | None => UB end.

Definition aset {A : Type} (l : list A) (i : Z) (x : A) : res (list A) :=
  if ((0 <=? i) && (i <? zlen l))%Z then Ok (upd l (Z.to_nat i) x) else UB.
