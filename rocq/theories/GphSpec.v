(* Directed graphs: an edge u -> w means that w depends on u. *)
From Coq Require Export Permutation.
From Verif Require Import Base SrtSpec DctSpec GphModel.
Open Scope nat_scope.

Definition outs_of (g : graph) (v : nat) : list nat := nth v (gouts g) [].
Definition ins_of (g : graph) (v : nat) : list nat := nth v (gins g) [].

(* w depends on u directly *)
Definition depends (g : graph) (w u : nat) : Prop := In u (ins_of g w).
(* the edge lists are mutually inverse and stay inside the graph *)
Definition well_formed (g : graph) : Prop :=
  length (gins g) = gn g /\ length (gouts g) = gn g /\
  (forall u w, In u (ins_of g w) <-> In w (outs_of g u)) /\
  (forall u w, In u (ins_of g w) -> u < gn g /\ w < gn g).

(* w depends on u through some chain (possibly empty) *)
Inductive depends_on (g : graph) : nat -> nat -> Prop :=
| dep_refl : forall u, depends_on g u u
| dep_step : forall w x u, depends g w x -> depends_on g x u -> depends_on g w u.

Definition slice (b : list nat) (c : nat * nat) : list nat := firstn (snd c) (skipn (fst c) b).

(* ---- building the graph ---------------------------------------------------------- *)
(* the position of x in items *)
Fixpoint place {T : Type} (eqb : T -> T -> bool) (items : list T) (x : T) : nat :=
  match items with [] => 0 | y :: ys => if eqb y x then 0 else S (place eqb ys x) end.
Definition present {T : Type} (eqb : T -> T -> bool) (items : list T) (x : T) : Prop :=
  exists y, In y items /\ eqb y x = true.
(* the pairs of the dependency group as pairs of positions, in the order of the group *)
Definition edges_of {T : Type} (eqb : T -> T -> bool) (items : list T) (dep : fmap T (list T)) : list (nat * nat) :=
  map (fun p => (place eqb items (fst p), place eqb items (snd p))) (pairs_of T T dep).
(* comparing equal is being equal *)
Definition linear {T : Type} (c : T -> T -> comparison) : Prop :=
  total_order c /\ forall a b, c a b = Eq <-> a = b.
(* item position p belongs to node i *)
Definition belongs (its : list (list (option nat))) (i p : nat) : Prop := In (Some p) (nth i its []).
(* the items have the same sub class, or are the same item *)
Definition same_class {T S : Type} (sub : fmap T S) (a b : T) : Prop :=
  a = b \/ exists s, In (a, s) sub /\ In (b, s) sub.
