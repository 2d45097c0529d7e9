(* Group with any comparison of its keys and any equality of its values: Source/Collections/Dictionary.h:272-608.  Comparisons as in AnyModel and LeqModel,
   value containers on the heap as in DctModel.group. *)
From Verif Require Import Base LstModel SrtModel DctModel AnyModel LeqModel.
Open Scope Z_scope.

Section Ang.
  Context (A V St : Type).
  Context (cmp : St -> A -> A -> St * option comparison) (less : St -> A -> A -> St * option bool).
  Context (veq : St -> V -> V -> St * option bool).        (* operator== of the values; None: it throws *)
  Notation group := (group A V).

  (* target->Add(value) : Dictionary.h:393 *)
  Definition append (g : group) (p : nat) (v : V) (st : St) : res (group * St * dout A V) :=
    do x <- late (deref A V g p); do x <- late (insert V x (count x) v); Ok (setcell A V g p (Some x), st, OBool true).
  (* an operation on the value container of position i *)
  Definition at_index (g : group) (i : Z) (st : St) (f : lst V -> res (dout A V)) : res (group * St * dout A V) :=
    match g_by_index A V g i with
    | Ok x => do r <- f x; Ok (g, st, r)
    | Err => Ok (g, st, OError) | UB => UB | NoFuel => NoFuel
    end.
  Definition agstep (g : group) (st : St) (o : gop A V) : res (group * St * dout A V) :=
    let find k (found : St -> Z -> res (group * St * dout A V)) :=
      do (st, r) <- ainternal A St cmp (gkeys g) k st;
      match r with Some (i, _) => found st i | None => Ok (g, st, OError) end in
    match o with
    | GAdd k v =>                                                          (* AddInternal : 375-395 *)
        find k (fun st i =>
          if i =? -1 then
            (* target = new ValueContainer; keys.Add may throw: nobody deletes target *)
            let p := length (gheap g) in
            let g := mkGroup (gkeys g) (gvals g) (gheap g ++ [Some empty_lst]) in
            do (st, r) <- aadd A St cmp less (gkeys g) k st;
            match r with
            | None => Ok (g, st, OError)
            | Some (ks, j) => do vs <- late (insert nat (gvals g) j p); append (mkGroup ks vs (gheap g)) p v st
            end
          else do p <- late (get nat (gvals g) i); append g p v st)
    | GRemove k =>                                                         (* Remove(key) : 550-566 *)
        find k (fun st i =>
          if negb (i =? -1) then
            do ks <- late (remove_at A (gkeys g) i);
            do p <- late (get nat (gvals g) i);
            do vs <- late (remove_at nat (gvals g) i);
            do g <- late (delete A V (mkGroup ks vs (gheap g)) p);
            Ok (g, st, OBool true)
          else Ok (g, st, OBool false))
    | GRemoveValue k v =>                                                  (* Remove(key, value) : 575-595 *)
        find k (fun st i =>
          if negb (i =? -1) then
            do p <- late (get nat (gvals g) i);
            do x <- late (deref A V g p);
            do (st, q) <- late (eindex V V St veq x v st);                   (* target->Remove(value) : List.h:628-640 *)
            match q with
            | None => Ok (g, st, OError)
            | Some j =>
                do x <- late (if (j >=? 0) && (j <? count x) then remove_at V x j else Ok x);
                let g := setcell A V g p (Some x) in
                if count x =? 0 then
                  do ks <- late (remove_at A (gkeys g) i);
                  do vs <- late (remove_at nat (gvals g) i);
                  do g <- late (delete A V (mkGroup ks vs (gheap g)) p);
                  Ok (g, st, OBool true)
                else Ok (g, st, OBool true)
            end
          else Ok (g, st, OBool false))
    | GClear => do g <- late (g_clear A V g); Ok (g, st, OBool true)       (* Clear : 598-607 *)
    | GContains k => find k (fun st i => Ok (g, st, OBool (negb (i =? -1))))
    | GContainsValue k v =>                                                (* 476-488 *)
        find k (fun st i =>
          if negb (i =? -1) then
            match g_by_index A V g i with
            | Ok x =>
                do (st, q) <- late (eindex V V St veq x v st);
                Ok (g, st, match q with Some j => OBool (negb (j =? -1)) | None => OError end)
            | Err => Ok (g, st, OError) | UB => UB | NoFuel => NoFuel
            end
          else Ok (g, st, OBool false))
    | GCount => Ok (g, st, OInt (count (gkeys g)))
    | GKeyAt i => match get A (gkeys g) i with Ok k => Ok (g, st, OKey k) | Err => Ok (g, st, OError) | UB => UB | NoFuel => NoFuel end
    | GValueCount k => find k (fun st i => at_index g i st (fun x => Ok (OInt (count x))))
    | GValueAt k j =>
        find k (fun st i => at_index g i st (fun x =>
          match get V x j with Ok v => Ok (OVal v) | Err => Ok OError | UB => UB | NoFuel => NoFuel end))
    end.
  Fixpoint agrun (g : group) (st : St) (os : list (gop A V)) : res (group * St * list (dout A V)) :=
    match os with
    | [] => Ok (g, st, [])
    | o :: os => do (g, st, r) <- agstep g st o; do (g, st, rs) <- agrun g st os; Ok (g, st, r :: rs)
    end.
  (* ~Group : 400-403, Clear and then the destructors of the two lists.  Result: the heap afterwards *)
  Definition agdestroy (g : group) : res (list (option (lst V))) :=
    do g <- late (g_clear A V g); do _ <- late (destruct nat (gvals g)); do _ <- late (destruct A (gkeys g)); Ok (gheap g).
End Ang.
