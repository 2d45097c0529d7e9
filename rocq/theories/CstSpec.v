(* How many elements sorted lists and dictionaries move, and how much memory they hold. *)
From Verif Require Import Base LstModel LstSpec SrtModel SrtSpec DctModel DctSpec.
Open Scope Z_scope.

Section Sorted.
  Variable A : Type.
  Variable c : A -> A -> comparison.
  (* how many elements are greater than a, and how many are not less than a *)
  Definition greater (l : list A) (a : A) : Z := zlen (filter (fun x => match c x a with Gt => true | _ => false end) l).
  Definition not_less (l : list A) (a : A) : Z := zlen (filter (fun x => match c x a with Lt => false | _ => true end) l).
  (* the elements behind the place where a statement inserts or removes: at least, at most.
     They differ only in the number of elements that compare equal. *)
  Definition least_behind (l : list A) (o : sop A) (r : out A) : Z :=
    match o, r with
    | SAdd a, _ => greater l a
    | SRemove a, RBool true => greater l a
    | SRemoveAt i, RBool true => zlen l - i - 1
    | SRemoveRange i n, RBool true => zlen l - i - n
    | _, _ => 0
    end.
  Definition most_behind (l : list A) (o : sop A) (r : out A) : Z :=
    match o, r with
    | SAdd a, _ => not_less l a
    | SRemove a, RBool true => not_less l a - 1
    | SRemoveAt i, RBool true => zlen l - i - 1
    | SRemoveRange i n, RBool true => zlen l - i - n
    | _, _ => 0
    end.
  (* a history as in SrtSpec, with the sum of these numbers and the largest number of elements *)
  Inductive ok_costs : list A -> list (sop A) -> list A -> list (out A) -> Z -> Z -> Z -> Prop :=
  | costs_nil : forall l, ok_costs l [] l [] 0 0 (zlen l)
  | costs_cons : forall l o l' r os l'' rs least most peak,
      ok_step A c l o l' r -> ascending A c l' -> ok_costs l' os l'' rs least most peak ->
      ok_costs l (o :: os) l'' (r :: rs) (least_behind l o r + least) (most_behind l o r + most) (Z.max (zlen l) peak).
End Sorted.

Section Dict.
  Variable K V : Type.
  Variable c : K -> K -> comparison.
  (* the keys behind the key that a statement adds or removes *)
  Definition keys_behind (m : fmap K V) (o : dop K V) : Z :=
    match o with
    | DAdd k _ | DSet k _ => match lookup K V c k m with None => greater K c (map fst m) k | Some _ => 0 end
    | DRemove k => match lookup K V c k m with None => 0 | Some _ => greater K c (map fst m) k end
    | _ => 0
    end.
  Fixpoint all_keys_behind (m : fmap K V) (os : list (dop K V)) : Z :=
    match os with [] => 0 | o :: os' => keys_behind m o + all_keys_behind (fst (md_step K V c m o)) os' end.
  (* the largest number of keys at any time *)
  Fixpoint most_keys (m : fmap K V) (os : list (dop K V)) : Z :=
    match os with [] => zlen m | o :: os' => Z.max (zlen m) (most_keys (fst (md_step K V c m o)) os') end.
  (* the keys of a map are added one by one *)
  Definition add_all (m : fmap K V) : list (dop K V) := map (fun kv => DAdd (fst kv) (snd kv)) m.
End Dict.
(* for examples: five keys, two of them again, one removed *)
Definition five_keys : fmap Z Z := [(1, 10); (2, 20); (3, 30); (4, 40); (5, 50)].
Definition key_program : list (dop Z Z) :=
  [DAdd 3 30; DAdd 1 10; DSet 5 50; DSet 3 31; DAdd 1 11; DRemove 1; DRemove 7; DAdd 4 40; DGet 4].
Definition sorted_program : list (sop Z) := [SAdd 3; SAdd 1; SAdd 3; SAdd 2; SRemove 3; SRemove 9; SRemoveAt 0; SIndexOf 3].
