(* What containers hold, whatever their capacities say (LmSpec.holds), and the operations of a group of which some
   cannot get a new container. *)
From Verif Require Import Base LstModel LstSpec SrtModel SrtSpec DctModel DctSpec LmModel LmSpec.
Open Scope Z_scope.

Section Spec.
  Variable K V : Type.
  Variable c : K -> K -> comparison.
  Variable veq : V -> V -> bool.
  Definition d_holds (d : dict K V) (m : fmap K V) : Prop :=
    holds K (keys d) (map fst m) /\ holds V (vals d) (map snd m) /\ ascending_keys K V c m.
  Definition g_holds (g : group K V) (m : fmap K (list V)) : Prop :=
    exists ps, holds K (gkeys g) (map fst m) /\ holds nat (gvals g) ps /\
      Forall2 (fun p kv => exists x, nth_error (gheap g) p = Some (Some x) /\ holds V x (snd kv)) ps m /\
      NoDup ps /\ (forall p x, nth_error (gheap g) p = Some (Some x) -> In p ps) /\
      ascending_keys K (list V) c m /\ Forall (fun kv => snd kv <> []) m.
  (* a pair with a new key and no memory for its container: std::bad_alloc, nothing changes *)
  Definition short_step (m : fmap K (list V)) (o : gop K V) (no_new : bool) : fmap K (list V) * option (dout K V) :=
    match o with
    | GAdd k v => match lookup K (list V) c k m with
                  | None => if no_new then (m, None) else let '(m, r) := mg_step K V c veq m o in (m, Some r)
                  | Some _ => let '(m, r) := mg_step K V c veq m o in (m, Some r)
                  end
    | _ => let '(m, r) := mg_step K V c veq m o in (m, Some r)
    end.
  Fixpoint short_run (m : fmap K (list V)) (p : list (gop K V * (nat -> bool))) : fmap K (list V) * list (option (dout K V)) :=
    match p with
    | [] => (m, [])
    | (o, f) :: p' => let '(m', r) := short_step m o (f 0%nat) in let '(m'', rs) := short_run m' p' in (m'', r :: rs)
    end.
End Spec.
(* nothing fails; only the allocation number n *)
Definition enough : nat -> bool := fun _ => false.
Definition only (n : nat) : nat -> bool := Nat.eqb n.
