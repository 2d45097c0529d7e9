(* What the destructor of an object sees of the collection that gives up the last reference to it. *)
From Verif Require Import Base RenModel.

Section Ren.
Variables (K V : Type) (keq : K -> K -> bool) (veq : V -> V -> bool).

(* A collection at rest. *)
Definition holds (l : list (option V)) : view V := View (length l) (map Full l).

Definition dholds (m : list (K * option V)) : dview K V := DView (map fst m) (holds (map snd m)).

Definition gholds (m : list (K * list (option V))) : gview K V := map (fun p => (fst p, Some (holds (snd p)))) m.

(* What Get gives for the indexes below Count(): an element, or undefined behaviour. *)
Definition look (w : view V) : list (res (option V)) := map (get V w) (seq 0 (vcount w)).

(* What operator[] gives for the keys. *)
Definition dlook (d : dview K V) : list (K * res (option V)) := map (fun k => (k, d_get K V keq d k)) (dkeys d).

(* What Keys() and operator[] give, and reading the lists. *)
Definition glook (g : gview K V) : list (K * res (list (res (option V)))) :=
  map (fun p => (fst p, do w <- g_get K V keq g (fst p); Ok (look w))) g.

Definition saw {W S : Type} (f : W -> S) (l : list (V * W)) : list (V * S) := map (fun p => (fst p, f (snd p))) l.

(* A Ptr of the list refers to the object. *)
Definition refers (l : list (option V)) (v : V) : bool :=
  existsb (fun o => match o with Some u => veq u v | None => false end) l.

(* The objects that die when the elements d are given up one after another while the elements keep
   stay, out are the objects with other references: each is given with what its destructor sees,
   which may depend on its position in d. *)
Definition dying {S : Type} (out : V -> bool) (keep d : list (option V)) (see : nat -> S) : list (V * S) :=
  flat_map (fun i => match nth_error d i with
                     | Some (Some v) => if out v || refers keep v || refers (skipn (Datatypes.S i) d) v then [] else [(v, see i)]
                     | _ => []
                     end) (seq 0 (length d)).

(* Removing d from l1 ++ d ++ l2: as long as there are elements of l2 to move, the destructor of the
   i-th element of d sees the old Count(), the first i elements of l2 already in their new places,
   itself, the rest of d, i null pointers, and the rest of l2; after that it sees the result. *)
Definition during_remove (l1 d l2 : list (option V)) (i : nat) : list (res (option V)) :=
  if (i <? length l2)%nat
  then map Ok l1 ++ map Ok (firstn i l2) ++ UB :: map Ok (skipn (S i) d) ++ repeat (Ok None) i ++ map Ok (skipn i l2)
  else map Ok l1 ++ map Ok l2.

(* Destroying the elements in order without changing Count(). *)
Definition during_end (d : list (option V)) (i : nat) : list (res (option V)) :=
  repeat UB (S i) ++ map Ok (skipn (S i) d).

(* A map where every key reads the value of the next smaller one. *)
Definition shifted (m : list (K * option V)) : list (K * res (option V)) :=
  combine (map fst m) (UB :: map Ok (map snd m)).

Definition right (m : list (K * option V)) : list (K * res (option V)) := map (fun p => (fst p, Ok (snd p))) m.

Definition gright (m : list (K * list (option V))) : list (K * res (list (res (option V)))) :=
  map (fun p => (fst p, Ok (map Ok (snd p)))) m.

Definition all_values (m : list (K * list (option V))) : list (option V) := flat_map snd m.

(* Deleting all lists one after another: the lists before are deleted. *)
Fixpoint during_clear (out : V -> bool) (m1 m2 : list (K * list (option V))) : list (V * list (K * res (list (res (option V))))) :=
  match m2 with
  | [] => []
  | (k, l) :: m =>
      dying out (all_values m) l (fun i => map (fun p => (fst p, UB)) m1 ++ (k, Ok (during_end l i)) :: gright m) ++
      during_clear out (m1 ++ [(k, l)]) m
  end.

(* The elements l, but for at most the object v that is being destroyed. *)
Definition but_one (v : V) (l : list (option V)) (s : list (res (option V))) : Prop :=
  s = map Ok l \/ exists l1 l2, l = l1 ++ Some v :: l2 /\ s = map Ok l1 ++ UB :: map Ok l2.

(* Every destructor sees the elements before or after the operation. *)
Definition before_or_after (before after : list (option V)) (lg : list (V * list (res (option V)))) : Prop :=
  Forall (fun p => but_one (fst p) before (snd p) \/ but_one (fst p) after (snd p)) lg.

End Ren.
