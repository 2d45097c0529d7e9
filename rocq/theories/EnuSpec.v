(* What enumerators and references mean while the container changes, on plain sequences and maps. *)
From Verif Require Import Base LstModel LstSpec SrtModel SrtSpec DctModel DctSpec EnuModel.
Open Scope Z_scope.

(* The number of elements there is room for: a container that must hold more gets room for a quarter
   more, one left with at most eight elements in at most half of its room gives room away. *)
Definition grown (cap n : Z) : Z := if n <=? cap then cap else n * 5 / 4 + 1.
Definition shrunk (cap n : Z) : Z :=
  if (n <=? cap / 2) && (n <=? 8) && (n <? cap * 5 / 8) then cap * 5 / 8 else cap.

Section ListEnum.
  Variable A : Type.
  Variable eqb : A -> A -> bool.

  (* contents, room, how many times the elements were moved to other storage; an enumerator is an
     index; a reference is an index in the storage of its time *)
  Record sst := mkSst { sl : list A; sroom : Z; sgen : nat; sens : list Z; srefs : list (option (nat * Z)) }.

  Definition room_after (room : Z) (o : op A) (r : out A) (l : list A) : Z :=
    match o with
    | LAdd _ _ | LInsert _ _ _ => grown room (zlen l)
    | LRemoveAt _ _ | LRemoveRange _ _ _ | LRemove _ _ =>
        match r with RBool true => shrunk room (zlen l) | _ => room end
    | LClear _ => 0
    | _ => room
    end.
  (* a reference is usable if the elements are where they were and there is an element at its index *)
  Definition usable (t : sst) (r : nat) (i : Z) : Prop :=
    nth_error (srefs t) r = Some (Some (sgen t, i)) /\ 0 <= i < zlen (sl t).

  Definition srefer (t : sst) (r : nat) (i : Z) : res (sst * out A) :=
    if (0 <=? i) && (i <? zlen (sl t)) then
      match nth_error (srefs t) r with
      | Some _ => Ok (mkSst (sl t) (sroom t) (sgen t) (sens t) (upd (srefs t) r (Some (sgen t, i))), RNone)
      | None => UB
      end
    else Ok (t, RError).
  Definition spos (t : sst) (r : nat) : option Z :=
    match nth_error (srefs t) r with
    | Some (Some (g, i)) => if Nat.eqb g (sgen t) && (i <? zlen (sl t)) then Some i else None
    | _ => None
    end.
  Definition with_enum (t : sst) (e : nat) (f : Z -> sst * out A) : res (sst * out A) :=
    match nth_error (sens t) e with Some i => Ok (f i) | None => UB end.
  Definition move_to (t : sst) (e : nat) (i : Z) : sst := mkSst (sl t) (sroom t) (sgen t) (upd (sens t) e i) (srefs t).

  Definition ssstep (t : sst) (o : eop A) : res (sst * out A) :=
    match o with
    | EList o =>
        if on_list A o then
          match sstep A eqb [Some (sl t)] o with
          | Ok ([Some l], r) =>
              let room := room_after (sroom t) o r l in
              Ok (mkSst l room (if room =? sroom t then sgen t else S (sgen t)) (sens t) (srefs t), r)
          | _ => UB
          end
        else UB
    | ENew e | EReset e => with_enum t e (fun _ => (move_to t e (-1), RNone))
    | EClone e f => match nth_error (sens t) e with
                    | Some _ => with_enum t f (fun i => (move_to t e i, RNone))
                    | None => UB
                    end
    | ENext e => with_enum t e (fun i => (move_to t e (i + 1), RBool (i + 1 <? zlen (sl t))))
    | EIndex e => with_enum t e (fun i => (t, RInt i))
    | ECurrent r e => match nth_error (sens t) e with Some i => srefer t r i | None => UB end
    | ERefer r i => srefer t r i
    | ERead r => match spos t r with
                 | Some i => match znth (sl t) i with Some a => Ok (t, RVal a) | None => UB end
                 | None => UB
                 end
    | EWrite r a => match spos t r with
                    | Some i => Ok (mkSst (ztake A i (sl t) ++ a :: zdrop A (i + 1) (sl t)) (sroom t) (sgen t) (sens t) (srefs t), RNone)
                    | None => UB
                    end
    end.
  Fixpoint ssrun (t : sst) (os : list (eop A)) : res (sst * list (out A)) :=
    match os with
    | [] => Ok (t, [])
    | o :: os => do (t, r) <- ssstep t o; do (t, rs) <- ssrun t os; Ok (t, r :: rs)
    end.
  Definition sstart (n m : nat) : sst := mkSst [] 0 0 (repeat (-1) n) (repeat None m).

  (* the sizes given to RemoveRange are sensible *)
  Definition sensible (o : op A) : Prop :=
    match o with LRemoveRange _ i n => 0 <= n /\ i + n < 2 ^ 63 | _ => True end.
  Definition sensible_e (o : eop A) : Prop := match o with EList o => sensible o | _ => True end.
  (* the enumerators and references used exist, and no reference is read or written *)
  Definition no_reference (n m : nat) (o : eop A) : Prop :=
    match o with
    | EList o => on_list A o = true
    | ENew e | ENext e | EIndex e | EReset e => (e < n)%nat
    | EClone e f => (e < n)%nat /\ (f < n)%nat
    | ECurrent r e => (r < m)%nat /\ (e < n)%nat
    | ERefer r _ => (r < m)%nat
    | ERead _ | EWrite _ _ => False
    end.
  Definition e_shows (s : est A) (t : sst) : Prop :=
    lst_shows A (lx s) (sl t) /\ cap (lx s) = sroom t /\ gen s = sgen t /\ ens s = sens t /\ refs s = srefs t.
  (* operations that keep the storage, whatever the list *)
  Definition in_place (o : eop A) : Prop :=
    match o with
    | EList (LAdd _ _) | EList (LInsert _ _ _) | EList (LRemoveAt _ _) | EList (LRemoveRange _ _ _)
    | EList (LRemove _ _) | EList (LClear _) => False
    | _ => True
    end.
  Definition rebinds (r : nat) (o : eop A) : Prop :=
    match o with ECurrent r' _ | ERefer r' _ => r = r' | _ => False end.

  (* ---- loops over a list whose body changes the list ---- *)
  Fixpoint slops (l : list A) (os : list (op A)) : res (list A) :=
    match os with
    | [] => Ok l
    | o :: os => if on_list A o then
                   match sstep A eqb [Some l] o with Ok ([Some l], _) => slops l os | _ => UB end
                 else UB
    end.
  (* the next round is for the element that is then at position i *)
  Fixpoint sloop (fuel : nat) (body : Z -> A -> list (op A)) (l : list A) (i : Z) : res (list A * list A) :=
    match fuel with
    | O => NoFuel
    | S fuel =>
        match znth l i with
        | Some a => do l <- slops l (body i a); do (vs, l) <- sloop fuel body l (i + 1); Ok (a :: vs, l)
        | None => Ok ([], l)
        end
    end.
  (* bodies *)
  Definition appends (f : A -> list A) (_ : Z) (a : A) : list (op A) := map (LAdd 0) (f a).
  Definition removes (p : A -> bool) (i : Z) (a : A) : list (op A) := if p a then [LRemoveAt 0 i] else [].
  Definition prepends (b : A) (_ : Z) (_ : A) : list (op A) := [LInsert 0 0 b].
  Definition queries (o : op A) : Prop :=
    match o with LGet 0 _ | LCount 0 | LIndexOf 0 _ | LContains 0 _ => True | _ => False end%nat.
  Definition replaces (f : A -> A) (i : Z) (a : A) : list (op A) := [LSet 0 i (f a)].
  (* an element that was removed makes the loop pass over its successor *)
  Fixpoint seen (fuel : nat) (p : A -> bool) (l : list A) : list A :=
    match fuel, l with
    | S fuel, a :: l => a :: seen fuel p (if p a then tl l else l)
    | _, _ => []
    end.
  Fixpoint left_over (fuel : nat) (p : A -> bool) (l : list A) : list A :=
    match fuel, l with
    | S fuel, a :: l => if p a then match l with b :: l => b :: left_over fuel p l | [] => [] end else a :: left_over fuel p l
    | _, _ => []
    end.
End ListEnum.

Arguments mkSst {A}. Arguments sl {A}. Arguments sroom {A}. Arguments sgen {A}. Arguments sens {A}. Arguments srefs {A}.

Section DictEnum.
  Variable K V : Type.
  Variable c : K -> K -> comparison.

  Record mst := mkMst { ml : fmap K V; mroom : Z; mgen : nat; mes : list (Z * option (nat * Z)) }.
  Definition mroom_after (room : Z) (o : dop K V) (r : dout K V) (m : fmap K V) : Z :=
    match o with
    | DAdd _ _ | DSet _ _ => grown room (zlen m)
    | DRemove _ => match r with OBool true => shrunk room (zlen m) | _ => room end
    | DClear => 0
    | _ => room
    end.
  Definition with_den (t : mst) (e : nat) (f : Z -> option (nat * Z) -> res (mst * dres K V)) : res (mst * dres K V) :=
    match nth_error (mes t) e with Some (i, p) => f i p | None => UB end.
  Definition mset (t : mst) (e : nat) (i : Z) (p : option (nat * Z)) : mst := mkMst (ml t) (mroom t) (mgen t) (upd (mes t) e (i, p)).

  Definition mstep (t : mst) (o : deop K V) : res (mst * dres K V) :=
    match o with
    | FDict _ _ o =>
        let '(m, r) := md_step K V c (ml t) o in
        let room := mroom_after (mroom t) o r m in
        Ok (mkMst m room (if room =? mroom t then mgen t else S (mgen t)) (mes t), DRes K V r)
    | FNew _ _ e => with_den t e (fun _ _ => Ok (mset t e (-1) None, DNone K V))
    (* a clone stands where the original stands but has no current element *)
    | FClone _ _ e f => match nth_error (mes t) e with
                        | Some _ => with_den t f (fun i _ => Ok (mset t e i None, DNone K V))
                        | None => UB
                        end
    (* past the end, the current element stays *)
    | FNext _ _ e => with_den t e (fun i p =>
        let b := i + 1 <? zlen (ml t) in
        Ok (mset t e (i + 1) (if b then Some (mgen t, i + 1) else p), DRes K V (OBool b)))
    | FIndex _ _ e => with_den t e (fun i _ => Ok (t, DRes K V (OInt i)))
    (* the index is reset, then the error is raised *)
    | FReset _ _ e => with_den t e (fun _ p => Ok (mset t e (-1) p, DError K V))
    | FCurrent _ _ e => with_den t e (fun _ p =>
        match p with
        | None => Ok (t, DError K V)
        | Some (g, i) => if Nat.eqb g (mgen t) then
                           match znth (ml t) i with Some (k, v) => Ok (t, DPair K V k v) | None => UB end
                         else UB
        end)
    end.
  Fixpoint mrun (t : mst) (os : list (deop K V)) : res (mst * list (dres K V)) :=
    match os with
    | [] => Ok (t, [])
    | o :: os => do (t, r) <- mstep t o; do (t, rs) <- mrun t os; Ok (t, r :: rs)
    end.
  Definition mstart (n : nat) : mst := mkMst [] 0 0 (repeat (-1, None) n).
  Definition no_current (n : nat) (o : deop K V) : Prop :=
    match o with
    | FDict _ _ _ => True
    | FNew _ _ e | FNext _ _ e | FIndex _ _ e | FReset _ _ e => (e < n)%nat
    | FClone _ _ e f => (e < n)%nat /\ (f < n)%nat
    | FCurrent _ _ _ => False
    end.
  Definition m_shows (s : dst K V) (t : mst) : Prop :=
    d_shows K V c (dx K V s) (ml t) /\ cap (keys (dx K V s)) = mroom t /\ cap (vals (dx K V s)) = mroom t /\
    kgen K V s = vgen K V s /\ kgen K V s = mgen t /\
    des K V s = map (fun ip => mkDen (fst ip) (option_map (fun gi => (gi, gi)) (snd ip))) (mes t).
End DictEnum.

(* outputs of a run, or how it went wrong *)
Definition outs {S O : Type} (r : res (S * list O)) : res (list O) := do (_, os) <- r; Ok os.

(* programs for the refutations: numbers 0 .. n-1 are added, element 0 is referred to, some other elements are removed *)
Definition add_then_remove (n : nat) (js : list Z) : list (eop Z) :=
  map (fun k => EList (LAdd 0 (Z.of_nat k))) (seq 0 n) ++ [ERefer 0 0] ++ map (fun j => EList (LRemoveAt 0 j)) js ++ [ERead 0].
(* one key is added and visited, others are added, the pair visited is read *)
Definition visit_then_add (ks : list Z) : list (deop Z Z) :=
  [FDict Z Z (DAdd 0 0); FNext Z Z 0] ++ map (fun k => FDict Z Z (DAdd k k)) ks ++ [FCurrent Z Z 0].
