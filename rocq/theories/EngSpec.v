(* What enumerators of a group, and references to its keys and values, mean while the group changes. *)
From Verif Require Import Base LstModel LstSpec SrtModel SrtSpec DctModel DctSpec EnuSpec EngModel.
Open Scope Z_scope.

Section GroupEnum.
  Variable K V : Type.
  Variable c : K -> K -> comparison.
  Variable veq : V -> V -> bool.

  (* the values of a key: which container they are in, the room it has, how many times its values have moved to other
     storage, and the values themselves *)
  Record box := mkBox { bid : nat; broom : Z; bgen : nat; bvals : list V }.
  (* The map from keys to boxes; the room for keys and how many times the keys have moved; the number of containers
     made so far; the enumerators.  An enumerator is the position of a key and of one of its values, with the places
     of the key and the value that were there when it moved there. *)
  Definition pos : Type := Z * Z * option (kplace * vplace).
  Record hst := mkHst { hm : fmap K box; hroom : Z; hgen : nat; hnext : nat; hes : list pos }.

  Definition moved (room room' : Z) (n : nat) : nat := if room' =? room then n else S n.
  Definition contents (m : fmap K box) : fmap K (list V) := map (fun kb => (fst kb, bvals (snd kb))) m.
  Notation find_key k m := (lookup K box c k m).

  Definition add_to (b : box) (v : V) : box :=
    let l := bvals b ++ [v] in
    let room := grown (broom b) (zlen l) in
    mkBox (bid b) room (moved (broom b) room (bgen b)) l.
  Definition take_from (b : box) (v : V) : box :=
    if existsb (fun x => veq x v) (bvals b) then
      let l := remove_first V veq v (bvals b) in
      let room := shrunk (broom b) (zlen l) in
      mkBox (bid b) room (moved (broom b) room (bgen b)) l
    else b.
  Definition set_box (t : hst) (k : K) (b : box) : hst := mkHst (put K box c k b (hm t)) (hroom t) (hgen t) (hnext t) (hes t).
  Definition new_box (t : hst) (k : K) (v : V) : hst :=
    let m := put K box c k (mkBox (hnext t) (grown 0 1) 0 [v]) (hm t) in
    let room := grown (hroom t) (zlen m) in
    mkHst m room (moved (hroom t) room (hgen t)) (S (hnext t)) (hes t).
  Definition drop_box (t : hst) (k : K) : hst :=
    let m := del K box c k (hm t) in
    let room := shrunk (hroom t) (zlen m) in
    mkHst m room (moved (hroom t) room (hgen t)) (hnext t) (hes t).

  Definition h_add (t : hst) (k : K) (v : V) : hst :=
    match find_key k (hm t) with Some b => set_box t k (add_to b v) | None => new_box t k v end.
  Definition h_remove (t : hst) (k : K) : hst :=
    match find_key k (hm t) with Some _ => drop_box t k | None => t end.
  Definition h_remove_value (t : hst) (k : K) (v : V) : hst :=
    match find_key k (hm t) with
    | Some b => match remove_first V veq v (bvals b) with [] => drop_box t k | _ => set_box t k (take_from b v) end
    | None => t
    end.
  (* a method of the group called with the caller's values; its result is that of C22 *)
  Definition h_group (t : hst) (o : gop K V) : hst :=
    match o with
    | GAdd k v => h_add t k v
    | GRemove k => h_remove t k
    | GRemoveValue k v => h_remove_value t k v
    | GClear => mkHst [] 0 (moved (hroom t) 0 (hgen t)) (hnext t) (hes t)
    | _ => t
    end.

  (* the value at the place of a reference, if it is still there *)
  Definition key_there (t : hst) (p : kplace) : res K :=
    if Nat.eqb (fst p) (hgen t) then match znth (hm t) (snd p) with Some (k, _) => Ok k | None => UB end else UB.
  Definition value_there (t : hst) (p : vplace) : res V :=
    let '(q, n, j) := p in
    match find (fun kb => Nat.eqb (bid (snd kb)) q) (hm t) with
    | Some (_, b) => if Nat.eqb n (bgen b) then match znth (bvals b) j with Some v => Ok v | None => UB end else UB
    | None => UB
    end.
  Definition current (t : hst) (e : nat) : res (kplace * vplace) :=
    match nth_error (hes t) e with Some (_, _, Some p) => Ok p | Some (_, _, None) => Err | None => UB end.
  Definition key_arg (t : hst) (a : karg K) : res (kref K) :=
    match a with
    | KVal k => Ok (KNow k)
    | KOf e => do p <- current t e; Ok (KRef (fst p))
    | KAt i => match znth (hm t) i with Some _ => Ok (KRef (hgen t, i)) | None => Err end
    end.
  Definition value_arg (t : hst) (a : varg K V) : res (vref V) :=
    match a with
    | VVal v => Ok (VNow v)
    | VOf e => do p <- current t e; Ok (VRef (snd p))
    | VAt k i => match find_key k (hm t) with
                 | Some b => match znth (bvals b) i with Some _ => Ok (VRef (bid b, bgen b, i)) | None => Err end
                 | None => Err
                 end
    end.
  Definition key_now (t : hst) (a : kref K) : res K := match a with KNow k => Ok k | KRef p => key_there t p end.
  Definition value_now (t : hst) (a : vref V) : res V := match a with VNow v => Ok v | VRef p => value_there t p end.
  (* adding a value of the same key: there must be room for it where it is *)
  Definition stays (b : box) (a : vref V) : bool :=
    match a with VRef (q, _, _) => negb (Nat.eqb (bid b) q) || (zlen (bvals b) <? broom b) | VNow _ => true end.

  (* the position after (k, v) *)
  Definition following (m : fmap K box) (k v : Z) : Z * Z * bool :=
    let k := if k =? -1 then 0 else k in
    match znth m k with
    | None => (k, v, false)
    | Some (_, b) =>
        if v + 1 <? zlen (bvals b) then (k, v + 1, true)
        else if k + 1 <? zlen m then (k + 1, 0, true) else (k + 1, -1, false)
    end.
  Definition place (t : hst) (k v : Z) : option (kplace * vplace) :=
    match znth (hm t) k with Some (_, b) => Some ((hgen t, k), (bid b, bgen b, v)) | None => None end.
  (* how many values come before those of key number k *)
  Definition before (m : fmap K box) (k : Z) : Z := zlen (pairs_of K V (contents (ztake (K * box) k m))).

  Definition h_move (t : hst) (e : nat) (p : pos) : hst := mkHst (hm t) (hroom t) (hgen t) (hnext t) (upd (hes t) e p).
  Definition with_pos (t : hst) (e : nat) (f : Z -> Z -> option (kplace * vplace) -> res (hst * hres K V)) : res (hst * hres K V) :=
    match nth_error (hes t) e with Some (k, v, p) => f k v p | None => UB end.

  Definition hsstep_raw (t : hst) (o : heop K V) : res (hst * hres K V) :=
    match o with
    | HGroup o => Ok (h_group t o, HRes (snd (mg_step K V c veq (contents (hm t)) o)))
    | HAdd ka va =>
        do ka <- key_arg t ka; do va <- value_arg t va; do k <- key_now t ka; do v <- value_now t va;
        if match find_key k (hm t) with Some b => stays b va | None => true end
        then Ok (h_add t k v, HRes (OBool true)) else UB
    | HRemove ka =>
        do ka <- key_arg t ka;
        match hm t with
        | [] => Ok (t, HRes (OBool false))
        | _ => do k <- key_now t ka;
               Ok (h_remove t k, HRes (OBool (match find_key k (hm t) with Some _ => true | None => false end)))
        end
    | HRemoveValue ka va =>
        do ka <- key_arg t ka; do va <- value_arg t va;
        match hm t with
        | [] => Ok (t, HRes (OBool false))
        | _ => do k <- key_now t ka;
               match find_key k (hm t) with
               | Some _ => do v <- value_now t va; Ok (h_remove_value t k v, HRes (OBool true))
               | None => Ok (t, HRes (OBool false))
               end
        end
    | HNew e => with_pos t e (fun _ _ _ => Ok (h_move t e (-1, -1, None), HNone))
    (* a clone stands where the original stands but has no current element *)
    | HClone e f => match nth_error (hes t) e with
                    | Some _ => with_pos t f (fun k v _ => Ok (h_move t e (k, v, None), HNone))
                    | None => UB
                    end
    (* past the end, the current element stays *)
    | HNext e => with_pos t e (fun k v p =>
        let '(k, v, b) := following (hm t) k v in
        Ok (h_move t e (k, v, if b then place t k v else p), HRes (OBool b)))
    | HIndex e => with_pos t e (fun k v _ =>
        Ok (t, HRes (OInt (if (0 <=? k) && (k <? zlen (hm t)) then before (hm t) k + v else -1))))
    (* the position is reset, then the error is raised *)
    | HReset e => with_pos t e (fun _ _ p => Ok (h_move t e (-1, -1, p), HError))
    | HKey e => do p <- current t e; do k <- key_there t (fst p); Ok (t, HRes (OKey k))
    | HValue e => do p <- current t e; do v <- value_there t (snd p); Ok (t, HRes (OVal v))
    end.
  Definition hsstep (t : hst) (o : heop K V) : res (hst * hres K V) :=
    match hsstep_raw t o with Err => Ok (t, HError) | r => r end.
  Fixpoint hsrun (t : hst) (os : list (heop K V)) : res (hst * list (hres K V)) :=
    match os with
    | [] => Ok (t, [])
    | o :: os => do (t, r) <- hsstep t o; do (t, rs) <- hsrun t os; Ok (t, r :: rs)
    end.
  Definition hsstart (n : nat) : hst := mkHst [] 0 0 0 (repeat (-1, -1, None) n).

  (* the group holds the map, in the containers and storage described *)
  Definition h_shows (s : gst K V) (t : hst) : Prop :=
    g_shows K V c (gx s) (contents (hm t)) /\ cap (gkeys (gx s)) = hroom t /\ gkgen s = hgen t /\
    lst_shows nat (gvals (gx s)) (map (fun kb => bid (snd kb)) (hm t)) /\
    Forall (fun kb => exists x, nth_error (gheap (gx s)) (bid (snd kb)) = Some (Some x) /\
                                cap x = broom (snd kb) /\ gvgen s (bid (snd kb)) = bgen (snd kb)) (hm t) /\
    map (fun x => (ek x, ev x, ec x)) (ges s) = hes t.

  (* Operations that do not use the element an enumerator stands on.  Keys and values of the group may be given to its
     methods, but a value is not added to the key it belongs to. *)
  Definition own_key (a : karg K) : Prop := match a with KOf _ => False | _ => True end.
  Definition own_value (a : varg K V) : Prop := match a with VOf _ => False | _ => True end.
  Definition apart (ka : karg K) (va : varg K V) : Prop :=
    match va with VAt k' _ => match ka with KVal k => c k k' <> Eq | _ => False end | _ => True end.
  Definition no_current (n : nat) (o : heop K V) : Prop :=
    match o with
    | HGroup _ => True
    | HAdd ka va => own_key ka /\ own_value va /\ apart ka va
    | HRemove ka => own_key ka
    | HRemoveValue ka va => own_key ka /\ own_value va
    | HNew e | HNext e | HIndex e | HReset e => (e < n)%nat
    | HClone e f => (e < n)%nat /\ (f < n)%nat
    | HKey _ | HValue _ => False
    end.
  (* operations on other keys than k *)
  Definition elsewhere (k : K) (o : heop K V) : Prop :=
    match o with
    | HGroup (GAdd k' _) | HGroup (GRemove k') | HGroup (GRemoveValue k' _) => c k' k <> Eq
    | HGroup GClear => False
    | HGroup _ => True
    | HAdd (KVal k') _ | HRemove (KVal k') | HRemoveValue (KVal k') _ => c k' k <> Eq
    | HAdd _ _ | HRemove _ | HRemoveValue _ _ => False
    | _ => True
    end.
  (* operations that move the enumerator e *)
  Definition moves_enum (e : nat) (o : heop K V) : Prop :=
    match o with HNew e' | HClone e' _ | HNext e' | HReset e' => e = e' | _ => False end.
End GroupEnum.
Arguments mkBox {V}. Arguments bid {V}. Arguments broom {V}. Arguments bgen {V}. Arguments bvals {V}.
Arguments mkHst {K V}. Arguments hm {K V}. Arguments hroom {K V}. Arguments hgen {K V}. Arguments hnext {K V}. Arguments hes {K V}.

(* an enumerator is moved to the first value of the key 0, and values of other keys are added *)
Definition visit_then_add_keys (last : heop Z Z) (ks : list Z) : list (heop Z Z) :=
  [HGroup (GAdd 0 7); HNext 0] ++ map (fun k => HGroup (GAdd k 1)) ks ++ [last].
