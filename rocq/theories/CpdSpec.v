(* What copying pairs means. *)
From Verif Require Import Base LzyModel LzySpec LstModel LstSpec SrtModel SrtSpec DctModel DctSpec CpyModel CpySpec CpdModel.
Open Scope Z_scope.

Section Pairs.
  Variable K V : Type.
  Variable c : K -> K -> comparison.

  (* the source holds exactly the pairs l *)
  Definition psrc_shows (s : psrc K V) (l : list (K * V)) : Prop :=
    match s with PSrc s => src_shows s l | PDict d => d_shows K V c d l end.
  Definition esrc_shows (s : esrc K V) (l : list (K * V)) : Prop :=
    match s with ELazy p => tame p /\ denote p = l | EGroup g => exists m, g_shows K V c g m /\ l = pairs_of K V m end.

  (* the pairs are put into a map one after the other *)
  Definition put_all (m : fmap K V) (l : list (K * V)) : fmap K V := fold_left (fun m p => put K V c (fst p) (snd p) m) l m.
  Definition group_put (m : fmap K (list V)) (p : K * V) : fmap K (list V) :=
    put K (list V) c (fst p) (match lookup K (list V) c (fst p) m with Some vs => vs ++ [snd p] | None => [snd p] end) m.
  Definition group_put_all (m : fmap K (list V)) (l : list (K * V)) : fmap K (list V) := fold_left group_put l m.

  (* the values given for the key k, in order *)
  Definition values_for (k : K) (l : list (K * V)) : list V :=
    map snd (filter (fun p => match c (fst p) k with Eq => true | _ => false end) l).
  Definition values_in (k : K) (m : fmap K (list V)) : list V := match lookup K (list V) c k m with Some vs => vs | None => [] end.
  (* the last of them, if any *)
  Definition last_for (k : K) (l : list (K * V)) (old : option V) : option V :=
    fold_left (fun _ v => Some v) (values_for k l) old.
End Pairs.
