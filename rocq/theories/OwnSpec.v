(* Which value an operation sees when its argument is an element of the container.  A call with such an argument
   amounts to a call with a copy of some element, or is undefined. *)
From Verif Require Import Base LstModel LstSpec SrtModel SrtSpec DctModel DctSpec EnuModel EnuSpec OwnModel.
Open Scope Z_scope.

Section Lists.
  Variable A : Type.
  Variable eqb : A -> A -> bool.
  (* inserting at position i, where there is room for `room` elements: elements behind position i have moved on by the time the
     argument is read; the one at position i is gone, and all are if there is no room *)
  Definition seen_by_insert (l : list A) (room i j : Z) : res A :=
    match znth l j with
    | None => Err
    | Some a =>
        if negb ((0 <=? i) && (i <=? zlen l)) then Err
        else if room <=? zlen l then UB
        else if j <? i then Ok a
        else if j =? i then UB
        else match znth l (j - 1) with Some b => Ok b | None => UB end
    end.
  Definition own (l : list A) (j : Z) : res A := match znth l j with Some a => Ok a | None => Err end.
  (* the call with a copy *)
  Definition resolved (l : list A) (room : Z) (o : oop A) : res (op A) :=
    match o with
    | OList o => Ok o
    | OAddOwn j => do a <- seen_by_insert l room (zlen l) j; Ok (LAdd 0 a)
    | OInsertOwn i j => do a <- seen_by_insert l room i j; Ok (LInsert 0 i a)
    | OSetOwn i j => do a <- own l j; Ok (LSet 0 i a)
    | ORemoveOwn j => do a <- own l j; Ok (LRemove 0 a)
    | OIndexOfOwn j => do a <- own l j; Ok (LIndexOf 0 a)
    | OContainsOwn j => do a <- own l j; Ok (LContains 0 a)
    end.
  Definition osstep (t : list A * Z) (o : oop A) : res ((list A * Z) * out A) :=
    match resolved (fst t) (snd t) o with
    | Ok o =>
        if on_list A o then
          match sstep A eqb [Some (fst t)] o with
          | Ok ([Some l], r) => Ok ((l, room_after A (snd t) o r l), r)
          | _ => UB
          end
        else UB
    | Err => Ok (t, RError)
    | _ => UB
    end.
  Fixpoint osrun (t : list A * Z) (os : list (oop A)) : res ((list A * Z) * list (out A)) :=
    match os with
    | [] => Ok (t, [])
    | o :: os => do (t, r) <- osstep t o; do (t, rs) <- osrun t os; Ok (t, r :: rs)
    end.
  Definition sensible_o (o : oop A) : Prop := match o with OList o => sensible A o | _ => True end.
  (* arguments in place are only given to operations that do not insert *)
  Definition no_insert (o : oop A) : Prop :=
    match o with OAddOwn _ | OInsertOwn _ _ => False | OList o => on_list A o = true | _ => True end.
End Lists.

Section Dicts.
  Variable K V : Type.
  Variable c : K -> K -> comparison.
  (* the entries whose keys are between k and k', in order *)
  Definition between (k k' : K) (m : fmap K V) : fmap K V :=
    filter (fun p => match c k (fst p), c (fst p) k' with Lt, Lt => true | _, _ => false end) m.
  (* adding key k with d[k'] as the value: if k comes before k', the value seen is the one of the last key between them *)
  Definition seen_by_add (m : fmap K V) (room : Z) (k k' : K) : res V :=
    match lookup K V c k' m with
    | None => Err
    | Some v =>
        if room <=? zlen m then UB
        else match c k' k with
             | Lt => Ok v
             | _ => match rev (between k k' m) with p :: _ => Ok (snd p) | [] => UB end
             end
    end.
  Definition dresolved (m : fmap K V) (room : Z) (o : odop K V) : res (dop K V) :=
    match o with
    | ODict o => Ok o
    | ODAddOwn k k' =>
        match lookup K V c k m with
        | Some _ => Err                              (* the key exists, or k' does not *)
        | None => do v <- seen_by_add m room k k'; Ok (DAdd k v)
        end
    | ODSetOwn k k' =>
        match lookup K V c k m with
        | Some _ => match lookup K V c k' m with Some v => Ok (DSet k v) | None => Err end
        | None => do v <- seen_by_add m room k k'; Ok (DSet k v)
        end
    | ODAddKey i v => match znth m i with Some (k, _) => Ok (DAdd k v) | None => Err end
    | ODSetKey i v => match znth m i with Some (k, _) => Ok (DSet k v) | None => Err end
    | ODRemoveKey i => match znth m i with Some (k, _) => Ok (DRemove k) | None => Err end
    end.
  Definition odsstep (t : fmap K V * Z) (o : odop K V) : res ((fmap K V * Z) * dout K V) :=
    match dresolved (fst t) (snd t) o with
    | Ok o => let '(m, r) := md_step K V c (fst t) o in Ok ((m, mroom_after K V (snd t) o r m), r)
    | Err => Ok (t, OError)
    | _ => UB
    end.
  Fixpoint odsrun (t : fmap K V * Z) (os : list (odop K V)) : res ((fmap K V * Z) * list (dout K V)) :=
    match os with
    | [] => Ok (t, [])
    | o :: os => do (t, r) <- odsstep t o; do (t, rs) <- odsrun t os; Ok (t, r :: rs)
    end.
End Dicts.
