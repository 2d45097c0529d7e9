(* Aggregate, First, Last and GroupBy of lazy lists whose functions have effects; SelectMany is in
   LzeModel.v (PMany).  Source/Collections/Operation.h. *)
From Verif Require Import Base LzeModel.
From Verif Require LzyModel.
Open Scope Z_scope.

Section Lzg.
Variables V St : Type.
Notation enum := (enum V St).
Notation pipe := (pipe V St).

(* what a call of the function given to Aggregate does: None, it throws *)
Definition combiner (R : Type) : Type := R -> V -> St -> St * option R.

(* while(enumerator->Next()) result = f(result, enumerator->Current()) : Operation.h:491-494; the
   loop of Aggregate(init, f), for(auto& t : *this) init = f(init, t), 520-523, does the same *)
Fixpoint combine_loop {R : Type} (fuel : nat) (f : combiner R) (acc : R) (e : enum) (s : St) : res (option R * St) :=
  match fuel with
  | O => NoFuel
  | S n =>
      do (be, s) <- next n e s;
      let (b, e) := (be : pulled * enum) in
      match b with
      | Yes => do x <- current e;
               match f acc x s with
               | (s, Some r) => combine_loop n f r e s
               | (s, None) => Ok (None, s)
               end
      | No => Ok (Some acc, s)
      | Threw => Ok (None, s)
      end
  end.
(* Aggregate(init, f) : Operation.h:517-525 *)
Definition aggregate_from {R : Type} (fuel : nat) (f : combiner R) (init : R) (p : pipe) (s : St) : res (option R * St) :=
  on_pipe None (combine_loop fuel f init) (build fuel p s).
(* Next() once, and the value if there is one; then k.  Some None: the list is empty, Error *)
Definition head_then (fuel : nat) (k : V -> enum -> St -> res (option V * St)) (e : enum) (s : St) : res (option (option V) * St) :=
  do (be, s) <- next fuel e s;
  let (b, e) := (be : pulled * enum) in
  match b with
  | Yes => do x <- current e; do (o, s) <- k x e s; Ok (match o with Some v => Some (Some v) | None => None end, s)
  | No => Ok (Some None, s)
  | Threw => Ok (None, s)
  end.
(* Aggregate(f) : Operation.h:482-496 *)
Definition aggregate (fuel : nat) (f : combiner V) (p : pipe) (s : St) : res (option (option V) * St) :=
  on_pipe None (head_then fuel (combine_loop fuel f)) (build fuel p s).
(* Last() : Operation.h:619-635; the loop takes every value instead of the one before *)
Definition last (fuel : nat) (p : pipe) (s : St) : res (option (option V) * St) :=
  on_pipe None (head_then fuel (combine_loop fuel (fun _ x s => (s, Some x)))) (build fuel p s).
(* First(defaultValue) and Last(defaultValue) : Operation.h:608-616, 640-648 *)
Definition first_or (fuel : nat) (d : V) (p : pipe) (s : St) : res (option V * St) :=
  do (o, s) <- first fuel p s; Ok (match o with Some (Some v) => Some v | Some None => Some d | None => None end, s).
Definition last_or (fuel : nat) (d : V) (p : pipe) (s : St) : res (option V * St) :=
  on_pipe None (combine_loop fuel (fun _ x s => (s, Some x)) d) (build fuel p s).

(* ---- GroupBy : Operation.h:930-943 -------------------------------------------------------
   The keys are Select(f).Distinct(), the group of a key k is self.Where(k == f(t)), where self
   is a copy of the lazy list: both read the enumerator that the lazy list was built with.  The
   pair of a key and a group is made when the loop over the groups reaches it.  Simplified: keys
   and values are of the one type [V]; k == f(t) is the comparison that Distinct uses. *)
Definition belongs (c : V -> V -> comparison) (f : selector V St) (k : V) (v : V) (s : St) : St * option bool :=
  match f v s with
  | (s, Some k') => (s, Some (match c k k' with Eq => true | _ => false end))
  | (s, None) => (s, None)
  end.
Definition keys (c : V -> V -> comparison) (f : selector V St) (e : enum) : enum := EDistinct (ESelect e f None) c [] None.
Definition group (c : V -> V -> comparison) (f : selector V St) (e : enum) (k : V) : enum := EWhere e (belongs c f k) (-1).
(* for (auto g : list.GroupBy(f)) { header(g.key); for (auto x : g.value) body(g.key, x); } :
   OperationForEach.h:24-75.  If the inner body leaves its loop, the outer loop goes on. *)
Fixpoint groups_loop (fuel : nat) (c : V -> V -> comparison) (f : selector V St) (self : enum)
    (header : code V St) (body : V -> code V St) (e : enum) (s : St) : res (verdict * St) :=
  match fuel with
  | O => NoFuel
  | S n =>
      do (be, s) <- next n e s;
      let (b, e) := (be : pulled * enum) in
      match b with
      | Yes =>
          do k <- current e;
          match header k s with
          | (s, Some true) =>
              do (v, s) <- loop n (body k) (group c f self k) s;
              match v with
              | Escaped => Ok (Escaped, s)
              | _ => groups_loop n c f self header body e s
              end
          | (s, Some false) => Ok (Broke, s)
          | (s, None) => Ok (Escaped, s)
          end
      | No => Ok (Finished, s)
      | Threw => Ok (Escaped, s)
      end
  end.
Definition for_groups (fuel : nat) (c : V -> V -> comparison) (f : selector V St) (p : pipe)
    (header : code V St) (body : V -> code V St) (s : St) : res (verdict * St) :=
  on_pipe Escaped (fun e s => groups_loop fuel c f e header body (keys c f e) s) (build fuel p s).
End Lzg.
Arguments combine_loop {V St R}. Arguments aggregate_from {V St R}. Arguments head_then {V St}. Arguments aggregate {V St}.
Arguments last {V St}. Arguments first_or {V St}. Arguments last_or {V St}. Arguments belongs {V St}. Arguments keys {V St}.
Arguments group {V St}. Arguments groups_loop {V St}. Arguments for_groups {V St}.
