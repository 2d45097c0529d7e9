(* Global storages: Source/GlobalStorage.h:39-109, GlobalStorage.cpp:18-70.
   A storage is a number. What its InitializeResource and FinalizeResource do to other storages is given by
   prog, which may depend on everything that has happened so far. Threads are not modelled. *)
From Verif Require Import Base.

Inductive act :=
| Get (s : nat)          (* the function Get##NAME, GlobalStorage.h:100-105 *)
| FinalizeAll            (* FinalizeGlobalStorage, GlobalStorage.cpp:27-35 *)
| Throw                  (* an exception that leaves the function *)
| AtExit                 (* the destruction of the function-local statics, in reverse order of construction *)
| Walk (i : nat)         (* the loop of FinalizeGlobalStorage, at the i-th descriptor *)
| Gone (s : nat).        (* the end of ~NAME *)
Inductive gev := EInit (s : nat) | EFin (s : nat).
(* reg: the linked list of descriptors (GlobalStorage.cpp:18-25), which is also the order of construction;
   ini: the member initialized; gone: the destroyed storages; glog: the runs of the two functions, when they start *)
Record gw := mkGW { reg : list nat; ini : list nat; gone : list nat; glog : list gev }.
Definition gw0 := mkGW [] [] [] [].
Definition mem (s : nat) (l : list nat) : bool := existsb (Nat.eqb s) l.
Definition del (s : nat) (l : list nat) : list nat := filter (fun x => negb (Nat.eqb s x)) l.
(* the static of Get##NAME: constructed, and registered, at the first call (GlobalStorage.h:76-80) *)
Definition construct (s : nat) (w : gw) : gw :=
  if mem s (reg w) then w else mkGW (reg w ++ [s]) (ini w) (gone w) (glog w).
(* the last constructed storage that is not destroyed *)
Fixpoint last_alive (l : list nat) (g : list nat) : option nat :=
  match l with
  | [] => None
  | s :: r => match last_alive r g with Some x => Some x | None => if mem s g then None else Some s end
  end.
Definition in_exit (k : list act) : bool := existsb (fun a => match a with Gone _ => true | _ => false end) k.

Inductive next := Next (k : list act) (w : gw) | Thrown (w : gw) | Bad (r : res unit).
Section step.
  Context (prog : bool -> nat -> list gev -> list act).     (* true: InitializeResource *)
  (* GlobalStorage.cpp:54-61: the flag is set before the call *)
  Definition ensure_init (s : nat) (k : list act) (w : gw) : next :=
    if mem s (ini w) then Next k w
    else let w := mkGW (reg w) (s :: ini w) (gone w) (glog w ++ [EInit s]) in Next (prog true s (glog w) ++ k) w.
  (* GlobalStorage.cpp:63-70: the flag is cleared before the call *)
  Definition ensure_fin (s : nat) (k : list act) (w : gw) : next :=
    if mem s (ini w)
    then let w := mkGW (reg w) (del s (ini w)) (gone w) (glog w ++ [EFin s]) in Next (prog false s (glog w) ++ k) w
    else Next k w.
  (* one step; k is what remains to be executed afterwards *)
  Definition gstep (a : act) (k : list act) (w : gw) : next :=
    match a with
    | Get s => if mem s (gone w) then Bad UB else ensure_init s k (construct s w)
    | FinalizeAll => Next (Walk 0 :: k) w
    | Walk i =>
        match nth_error (reg w) i with
        | None => Next k w
        | Some s => if mem s (gone w) then Bad UB else ensure_fin s (Walk (S i) :: k) w
        end
    | Throw => if in_exit k then Bad Err else Thrown w          (* an exception leaving a destructor: std::terminate *)
    | AtExit =>
        match last_alive (reg w) (gone w) with
        | None => Next k w
        | Some s => ensure_fin s (Gone s :: AtExit :: k) w      (* ~NAME, GlobalStorage.h:81-84 *)
        end
    | Gone s => Next k (mkGW (reg w) (ini w) (s :: gone w) (glog w))
    end.
  (* executions: the configurations that follow one another *)
  Inductive exec : list act -> gw -> list act -> gw -> Prop :=
  | E_here k w : exec k w k w
  | E_step a k w k1 w1 k2 w2 : gstep a k w = Next k1 w1 -> exec k1 w1 k2 w2 -> exec (a :: k) w k2 w2.
  (* a program: calls at top level, which go on after an exception *)
  Inductive reach : gw -> Prop :=
  | R_start : reach gw0
  | R_call a w k' w' : reach w -> exec [a] w k' w' -> reach w'
  | R_thrown a w t k' w' w2 : reach w -> exec [a] w (t :: k') w' -> gstep t k' w' = Thrown w2 -> reach w2.
End step.
