(* What Aggregate, First, Last, SelectMany and GroupBy mean for functions with effects: the
   processes of LzeSpec.v. *)
From Verif Require Import Base SrtSpec LzyModel LzySpec LzeModel LzeSpec LzgModel.
Open Scope Z_scope.

Section Meaning.
Context {V St : Type}.
Notation process := (proc V St).

(* the code that makes a value, then f, then the code that makes the next value *)
Fixpoint folding {R : Type} (f : R -> V -> St -> St * option R) (acc : R) (p : process) (s : St) : St * option R :=
  match p with
  | Stop => ret acc s
  | Emit v p => bindm (f acc v s) (fun r => folding f r p)
  | Do c k => bindm (c s) (fun x => folding f acc (k x))
  end.
(* the first value is where folding starts; Some None: there is none *)
Fixpoint folding1 (f : V -> V -> St -> St * option V) (p : process) (s : St) : St * option (option V) :=
  match p with
  | Stop => ret None s
  | Emit v p => bindm (folding f v p s) (fun r => ret (Some r))
  | Do c k => bindm (c s) (fun x => folding1 f (k x))
  end.
Definition final (l : list V) : option V := match rev l with [] => None | v :: _ => Some v end.
Definition else_ (d : V) (o : option V) : V := match o with Some v => v | None => d end.

(* the body runs for the values of each part, one part after the other, until it leaves the loop *)
Fixpoint run_all (body : code V St) (l : list process) (s : St) : verdict * St :=
  match l with
  | [] => (Finished, s)
  | p :: l => match run body p s with (Finished, s) => run_all body l s | r => r end
  end.

(* f makes, whatever the state is, a list without effects *)
Definition lists (f : V -> St -> St * option (pipe V St)) (g : V -> list V) : Prop := forall v s, snd (f v s) = Some (PList (g v)).
(* enumerators inside one another *)
Fixpoint depth (e : enum V St) : nat :=
  match e with
  | EConcat e1 e2 _ _ => S (Nat.max (depth e1) (depth e2))
  | ESelect e _ _ | EWhere e _ _ | ETake e _ | ESkip e _ _ | ERepeat e _ _ _ | EDistinct e _ _ _ | EIntExc e _ _ _ _ => S (depth e)
  | EPair e1 e2 _ _ => S (Nat.max (depth e1) (depth e2))
  | _ => 1%nat
  end.

(* the values whose key is k; the key function is called for every value again *)
Definition with_key (c : V -> V -> comparison) (f : selector V St) (k : V) : predicate V St :=
  fun v s => bindm (f v s) (fun k' => ret (match c k k' with Eq => true | _ => false end)).
(* the loop over the groups: a key, the values of its group, the next key *)
Definition grouping (c : V -> V -> comparison) (f : selector V St) (header : code V St) (body : V -> code V St) (a : process) : process -> St -> verdict * St :=
  run (fun k s => bindm (header k s) (fun b s =>
         if b : bool then match run (body k) (those (with_key c f k) a) s with (Escaped, s) => (s, None) | (_, s) => (s, Some true) end
         else ret false s)).
Definition looping_groups (c : V -> V -> comparison) (f : selector V St) (p : pipe V St) (header : code V St) (body : V -> code V St) (s : St) : verdict * St :=
  match meaning p s with
  | (s, Some a) => grouping c f header body a (fresh c [] (selecting f a)) s
  | (s, None) => (Escaped, s)
  end.
End Meaning.

(* code that does nothing to the state, code that writes a log, a function that counts its calls *)
Definition idle {V St : Type} (v : V) (s : St) : St * option bool := (s, Some true).
Definition quiet {V St X : Type} (g : V -> X) (v : V) (s : St) : St * option X := (s, Some (g v)).
Definition counted {V X : Type} (g : V -> X) (v : V) (s : nat) : nat * option X := (S s, Some (g v)).
Definition note_key {V : Type} (k : V) (s : list (V * option V)) : list (V * option V) * option bool := (s ++ [(k, None)], Some true).
Definition note_value {V : Type} (k v : V) (s : list (V * option V)) : list (V * option V) * option bool := (s ++ [(k, Some v)], Some true).
(* the keys in the order of their first values; under each its values in order *)
Definition groups_of {V : Type} (c : V -> V -> comparison) (g : V -> V) (l : list V) : list (V * option V) :=
  flat_map (fun k => (k, None) :: map (fun v => (k, Some v)) (filter (fun v => match c k (g v) with Eq => true | _ => false end) l)) (distinct c (map g l)).

(* a key function whose results depend on its calls: numbers from a counter *)
Definition ticket (v : nat) (s : nat * list (nat * option nat)) : nat * list (nat * option nat) * option nat := (S (fst s), snd s, Some (fst s)).
Definition beside {X V : Type} (f : V -> list X -> list X * option bool) (v : V) (s : nat * list X) : nat * list X * option bool :=
  (fst s, fst (f v (snd s)), snd (f v (snd s))).

(* for the examples: f makes a lazy list that calls a function itself *)
Definition maker (v : Z) (s : list (Z * Z)) : list (Z * Z) * option (pipe Z (list (Z * Z))) :=
  (s ++ [(1, v)], Some (PSelect (PList [v; v + 1]) (logged 2 (fun w => w * 10)))).
Definition lister (v : Z) (s : list (Z * Z)) : list (Z * Z) * option (pipe Z (list (Z * Z))) := (s ++ [(1, v)], Some (PList [v; v + 1])).
