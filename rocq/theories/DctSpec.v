(* Finite maps as association lists in ascending key order.  Two keys are the same when
   they compare equal. *)
From Coq Require Export Sorted.
From Verif Require Import Base LstModel LstSpec SrtModel SrtSpec DctModel.
Open Scope Z_scope.

Section Map.
  Variable K V : Type.
  Variable c : K -> K -> comparison.

  Definition fmap := list (K * V).
  Definition ascending_keys (m : fmap) : Prop := StronglySorted (fun a b => c a b = Lt) (map fst m).

  Fixpoint lookup (k : K) (m : fmap) : option V :=
    match m with
    | [] => None
    | (k0, v0) :: m' => match c k0 k with Eq => Some v0 | _ => lookup k m' end
    end.
  (* an existing key keeps its place and gets the new value *)
  Fixpoint put (k : K) (v : V) (m : fmap) : fmap :=
    match m with
    | [] => [(k, v)]
    | (k0, v0) :: m' => match c k0 k with
                        | Lt => (k0, v0) :: put k v m'
                        | Eq => (k0, v) :: m'
                        | Gt => (k, v) :: m
                        end
    end.
  Fixpoint del (k : K) (m : fmap) : fmap :=
    match m with
    | [] => []
    | (k0, v0) :: m' => match c k0 k with Eq => m' | _ => (k0, v0) :: del k m' end
    end.
End Map.

Section Spec.
  Variable K V : Type.
  Variable c : K -> K -> comparison.
  Variable veq : V -> V -> bool.
  Notation lookup := (lookup K V c).

  Definition md_step_raw (m : fmap K V) (o : dop K V) : res (fmap K V * dout K V) :=
    match o with
    | DAdd k v => match lookup k m with Some _ => Err | None => Ok (put K V c k v m, OBool true) end
    | DSet k v => Ok (put K V c k v m, OBool true)
    | DRemove k => match lookup k m with Some _ => Ok (del K V c k m, OBool true) | None => Ok (m, OBool false) end
    | DClear => Ok ([], OBool true)
    | DGet k => match lookup k m with Some v => Ok (m, OVal v) | None => Err end
    | DContains k => Ok (m, OBool (match lookup k m with Some _ => true | None => false end))
    | DCount => Ok (m, OInt (zlen m))
    | DKeyAt i => match znth m i with Some (k, _) => Ok (m, OKey k) | None => Err end
    | DValueAt i => match znth m i with Some (_, v) => Ok (m, OVal v) | None => Err end
    end.
  Definition md_step (m : fmap K V) (o : dop K V) : fmap K V * dout K V :=
    match md_step_raw m o with Ok r => r | _ => (m, OError) end.
  Fixpoint md_run (m : fmap K V) (os : list (dop K V)) : fmap K V * list (dout K V) :=
    match os with
    | [] => (m, [])
    | o :: os' => let '(m', r) := md_step m o in let '(m'', rs) := md_run m' os' in (m'', r :: rs)
    end.
  Definition d_shows (d : dict K V) (m : fmap K V) : Prop :=
    lst_shows K (keys d) (map fst m) /\ lst_shows V (vals d) (map snd m) /\ ascending_keys K V c m.

  (* ---- groups: maps to non-empty sequences ---------------------------------- *)
  Notation gmap := (fmap K (list V)).
  Notation glookup := (DctSpec.lookup K (list V) c).
  Fixpoint remove_first (v : V) (l : list V) : list V :=
    match l with [] => [] | x :: l' => if veq x v then l' else x :: remove_first v l' end.
  Definition mg_step_raw (m : gmap) (o : gop K V) : res (gmap * dout K V) :=
    match o with
    | GAdd k v =>
        Ok (put K (list V) c k (match glookup k m with Some vs => vs ++ [v] | None => [v] end) m, OBool true)
    | GRemove k => match glookup k m with Some _ => Ok (del K _ c k m, OBool true) | None => Ok (m, OBool false) end
    | GRemoveValue k v =>
        (* true whenever the key exists: see C23 *)
        match glookup k m with
        | Some vs => Ok (match remove_first v vs with
                         | [] => del K _ c k m
                         | vs' => put K _ c k vs' m end, OBool true)
        | None => Ok (m, OBool false)
        end
    | GClear => Ok ([], OBool true)
    | GContains k => Ok (m, OBool (match glookup k m with Some _ => true | None => false end))
    | GContainsValue k v =>
        Ok (m, OBool (match glookup k m with Some vs => existsb (fun x => veq x v) vs | None => false end))
    | GCount => Ok (m, OInt (zlen m))
    | GKeyAt i => match znth m i with Some (k, _) => Ok (m, OKey k) | None => Err end
    | GValueCount k => match glookup k m with Some vs => Ok (m, OInt (zlen vs)) | None => Err end
    | GValueAt k i =>
        match glookup k m with
        | Some vs => match znth vs i with Some v => Ok (m, OVal v) | None => Err end
        | None => Err
        end
    end.
  Definition mg_step (m : gmap) (o : gop K V) : gmap * dout K V :=
    match mg_step_raw m o with Ok r => r | _ => (m, OError) end.
  Fixpoint mg_run (m : gmap) (os : list (gop K V)) : gmap * list (dout K V) :=
    match os with
    | [] => (m, [])
    | o :: os' => let '(m', r) := mg_step m o in let '(m'', rs) := mg_run m' os' in (m'', r :: rs)
    end.
  (* the group holds the map; every value container on the heap belongs to exactly one key *)
  Definition g_shows (g : group K V) (m : gmap) : Prop :=
    exists ps,
      lst_shows K (gkeys g) (map fst m) /\ lst_shows nat (gvals g) ps /\
      Forall2 (fun p kv => exists x, nth_error (gheap g) p = Some (Some x) /\ lst_shows V x (snd kv)) ps m /\
      NoDup ps /\ (forall p x, nth_error (gheap g) p = Some (Some x) -> In p ps) /\
      ascending_keys K (list V) c m /\ Forall (fun kv => snd kv <> []) m.

  (* positions 0, 1, 2, ... attached to a list *)
  Definition numbered {B : Type} (l : list B) : list (Z * B) :=
    combine (map Z.of_nat (seq 0 (length l))) l.
  (* the pairs of a group in enumeration order *)
  Definition pairs_of (m : gmap) : list (K * V) := flat_map (fun kv => map (pair (fst kv)) (snd kv)) m.
End Spec.

(* the join of two maps: keys of both, ascending, with both value sequences *)
Section JoinSpec.
  Variable K V W : Type.
  Variable c : K -> K -> comparison.
  Definition joined (a : fmap K (list V)) (b : fmap K (list W)) : list (K * (list V * list W)) :=
    flat_map (fun kv => match lookup K (list W) c (fst kv) b with
                        | Some ws => [(fst kv, (snd kv, ws))]
                        | None => []
                        end) a.
  Definition only_first (a : fmap K (list V)) (b : fmap K (list W)) : list (K * list V) :=
    filter (fun kv => match lookup K (list W) c (fst kv) b with Some _ => false | None => true end) a.
  Definition only_second (a : fmap K (list V)) (b : fmap K (list W)) : list (K * list W) :=
    filter (fun kv => match lookup K (list V) c (fst kv) a with Some _ => false | None => true end) b.
  Definition accepts (es : list (event K V W)) :=
    flat_map (fun e => match e with Accept k vs ws => [(k, (vs, ws))] | _ => [] end) es.
  Definition discards1 (es : list (event K V W)) :=
    flat_map (fun e => match e with Discard1 k vs => [(k, vs)] | _ => [] end) es.
  Definition discards2 (es : list (event K V W)) :=
    flat_map (fun e => match e with Discard2 k ws => [(k, ws)] | _ => [] end) es.
End JoinSpec.
Definition event_key {K V W : Type} (e : event K V W) : K :=
  match e with Discard1 k _ => k | Discard2 k _ => k | Accept k _ _ => k end.
