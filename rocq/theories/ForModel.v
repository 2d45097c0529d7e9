(* Range-based for loops over enumerables: Source/Collections/OperationForEach.h:24-176 and
   Operation.h:1014-1041.  The loop
     for (auto v : xs) body
   is, by the language, { auto it = begin(xs); auto e = end(xs); for (; it != e; ++it) { auto v = *it; body } }
   and the destructor of [it] runs on every way out, but not when its constructor throws. *)
From Verif Require Import Base LzyModel.
Open Scope Z_scope.

(* What the body does with a value: go on (also by continue), leave the loop (break, return,
   goto), or throw. *)
Inductive decision := Continue | Leave | Throw.
(* How the loop ended: at the end of the sequence, by Leave, by Throw, or because Next or
   Current raised an error. *)
Inductive ending := Finished | Left | Threw | Failed.

(* RangeBasedForLoopIterator : OperationForEach.h:24-75 (without the member index), and
   RangeBasedForLoopIteratorWithIndex : OperationForEach.h:93-147 *)
Record iter (A : Type) := Iter { ptr : option (enum A); idx : Z }.
Arguments Iter {A}. Arguments ptr {A}. Arguments idx {A}.

(* what a run of the loop leaves behind: the values the body saw, how often an enumerator was
   created and deleted, and the ending *)
Record report (V : Type) := Report { seen : list V; made : Z; freed : Z; how : ending }.
Arguments Report {V}. Arguments seen {V}. Arguments made {V}. Arguments freed {V}. Arguments how {V}.

(* operator++ : OperationForEach.h:42-49, 113-121; the answer is the iterator and how many
   enumerators it deleted, or None when Next raised *)
Definition advance (fuel : nat) {A : Type} (it : iter A) : res (option (iter A * Z)) :=
  match ptr it with
  | None => UB
  | Some e =>
      match next fuel e with
      | Ok (true, e') => Ok (Some (Iter (Some e') (idx it + 1), 0))
      | Ok (false, _) => Ok (Some (Iter None (idx it + 1), 1))
      | Err => Ok None
      | UB => UB
      | NoFuel => NoFuel
      end
  end.
(* the destructor : OperationForEach.h:37-40, 108-111; how many enumerators it deletes *)
Definition destroy {A : Type} (it : iter A) : Z := match ptr it with Some _ => 1 | None => 0 end.

(* the loop with an iterator already at hand; d enumerators deleted so far; [star] is
   operator* applied to Current() and index : OperationForEach.h:51-54, 123-126; the body may
   look at everything it saw before *)
Fixpoint go (fuel : nat) {A V : Type} (star : A -> Z -> V) (body : list V -> V -> decision) (it : iter A) (vs : list V) (d : Z)
  : res (report V) :=
  match fuel with
  | O => NoFuel
  | S f =>
      match ptr it with
      | None => Ok (Report vs 1 (d + destroy it) Finished)                     (* it == end *)
      | Some e =>
          match current e with
          | Ok x =>
              let v := star x (idx it) in
              let vs' := vs ++ [v] in
              match body vs v with
              | Leave => Ok (Report vs' 1 (d + destroy it) Left)
              | Throw => Ok (Report vs' 1 (d + destroy it) Threw)
              | Continue =>
                  do r <- advance f it;
                  match r with
                  | Some (it', k) => go f star body it' vs' (d + k)
                  | None => Ok (Report vs' 1 (d + destroy it) Failed)
                  end
              end
          | Err => Ok (Report vs 1 (d + destroy it) Failed)
          | UB => UB
          | NoFuel => NoFuel
          end
      end
  end.
(* begin(xs): the constructor creates the enumerator and calls operator++;
   OperationForEach.h:31-35, 101-106.  When it throws no destructor runs. *)
Definition loop (fuel : nat) {A V : Type} (star : A -> Z -> V) (body : list V -> V -> decision) (e : enum A) : res (report V) :=
  do r <- advance fuel (Iter (Some e) (-1));
  match r with
  | Some (it, k) => go fuel star body it [] k
  | None => Ok (Report [] 1 0 Failed)
  end.

(* for (auto x : xs) *)
Definition for_each (fuel : nat) {A : Type} (body : list A -> A -> decision) (e : enum A) : res (report A) :=
  loop fuel (fun x _ => x) body e.
(* for (auto [x, i] : indexed(xs)) *)
Definition for_indexed (fuel : nat) {A : Type} (body : list (A * Z) -> A * Z -> decision) (e : enum A) : res (report (A * Z)) :=
  loop fuel (fun x i => (x, i)) body e.
