(* Collection references: Source/Collections/Interfaces.h:142-180 (EnumerableBase, TryGetCollectionReference), and the
   constructors and assignments of Array, List, SortedList, Dictionary, Group and LazyList, none of which passes the source to
   EnumerableBase (List.h:349-371, 477-502, 558-560, 777-783; Dictionary.h:126-138, 406-419; Operation.h:246-307).
   Simplifications: a reference is a number with a dynamic type; its own lifetime belongs to Ptr (C38); OnDisposed does not
   itself use the collections. *)
From Verif Require Import Base.

Record ref := Ref { id : nat; kind : nat }.
(* a collection is alive with its member colref, or destroyed *)
Inductive coll := Alive (colref : option ref) | Destroyed.
Inductive op :=
| New                                (* a new collection: constructed empty, copied or moved from another one *)
| AssignFrom (c d : nat)             (* c = std::move(d) *)
| Set_ (c : nat) (r : option ref)    (* SetCollectionReference; None is a null Ptr *)
| Get (c : nat) | TryGet (c k : nat)
| Destroy (c : nat).
Inductive out := Unit | Raised | Got (r : option ref) | Bad (* not a collection that is alive *).
(* an OnDisposed call: the collection whose destructor made it, and the reference *)
Definition event := (nat * ref)%type.
Definition step (s : list coll) (o : op) : list coll * out * list event :=
  match o with
  | New => (s ++ [Alive None], Unit, [])
  | AssignFrom c d =>
      match nth_error s c, nth_error s d with
      | Some (Alive _), Some (Alive _) => (s, Unit, [])
      | _, _ => (s, Bad, [])
      end
  | Set_ c r =>                                                         (* Interfaces.h:175-179 *)
      match nth_error s c with
      | Some (Alive None) => (upd s c (Alive r), Unit, [])
      | Some (Alive (Some _)) => (s, Raised, [])
      | _ => (s, Bad, [])
      end
  | Get c =>                                                            (* Interfaces.h:170-173 *)
      match nth_error s c with Some (Alive r) => (s, Got r, []) | _ => (s, Bad, []) end
  | TryGet c k =>                                                       (* Interfaces.h:142-150 *)
      match nth_error s c with
      | Some (Alive None) => (s, Got None, [])
      | Some (Alive (Some r)) => (s, if (kind r =? k)%nat then Got (Some r) else Raised, [])
      | _ => (s, Bad, [])
      end
  | Destroy c =>                                                        (* Interfaces.h:160-163 *)
      match nth_error s c with
      | Some (Alive (Some r)) => (upd s c Destroyed, Unit, [(c, r)])
      | Some (Alive None) => (upd s c Destroyed, Unit, [])
      | _ => (s, Bad, [])
      end
  end.
Fixpoint run (s : list coll) (os : list op) : list coll * list out * list event :=
  match os with
  | [] => (s, [], [])
  | o :: os => let '(s, r, e) := step s o in let '(s, rs, es) := run s os in (s, r :: rs, e ++ es)
  end.
