(* What an exception leaves of a group. *)
From Verif Require Import Base LstModel LstSpec SrtModel SrtSpec DctModel DctSpec ExcModel ExcSpec ExgModel.
Open Scope Z_scope.

Section Spec.
  Variable K V : Type.
  Variable c : K -> K -> comparison.

  (* the container p belongs to a key of the group *)
  Definition held (g : group K V) (p : nat) : Prop := exists ps, lst_shows nat (gvals g) ps /\ In p ps.
  (* the keys, or the values of some key, are fewer than their count *)
  Definition group_torn (g : group K V) : Prop :=
    torn K (gkeys g) \/ exists p x, held g p /\ nth_error (gheap g) p = Some (Some x) /\ torn V x.
  (* an operation that reads, and the key that it reads *)
  Definition asks (o : gop K V) (k : K) : Prop :=
    o = GContains k \/ o = GValueCount k \/ (exists v, o = GContainsValue k v) \/ exists i, o = GValueAt k i.
  (* the values of a key, none if the key is not there *)
  Definition values_at (k : K) (m : fmap K (list V)) : list V :=
    match lookup K (list V) c k m with Some vs => vs | None => [] end.
End Spec.
