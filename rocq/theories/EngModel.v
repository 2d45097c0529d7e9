(* Enumerators of Group, and references to its keys and values, while the group changes; such references as arguments
   of the group's own methods: Source/Collections/Dictionary.h:272-608. *)
From Verif Require Import Base LstModel SrtModel DctModel.
Open Scope Z_scope.

Section GroupEnum.
  Variable K V : Type.
  Variable cmp : K -> K -> option comparison.
  Variable veq : V -> V -> bool.

  (* A reference to a key is a buffer of the key list and a slot, a reference to a value is a value container, a buffer
     of it and a slot.  Buffers are numbered, as in EnuModel: the number grows whenever the buffer is replaced, which
     the code does exactly when it changes the capacity (List.h:133-161, 534-543).  Containers are numbered by DctModel
     and their numbers are not used again. *)
  Definition kplace : Type := nat * Z.
  Definition vplace : Type := nat * nat * Z.
  (* keyIndex, valueIndex, current : Dictionary.h:284-287; current is empty or a pair of references *)
  Record gen := mkGen { ek : Z; ev : Z; ec : option (kplace * vplace) }.
  (* the group, the number of the buffer of the keys, the numbers of the buffers of the containers, the enumerators *)
  Record gst := mkGst { gx : group K V; gkgen : nat; gvgen : nat -> nat; ges : list gen }.

  (* the numbers after an operation *)
  Definition kgen_after (g g' : group K V) (n : nat) : nat := if cap (gkeys g') =? cap (gkeys g) then n else S n.
  Definition vgen_after (g g' : group K V) (n : nat -> nat) (p : nat) : nat :=
    match nth_error (gheap g) p, nth_error (gheap g') p with
    | Some (Some x), Some (Some y) => if cap y =? cap x then n p else S (n p)
    | _, _ => n p
    end.
  Definition with_group (s : gst) (g : group K V) : gst :=
    mkGst g (kgen_after (gx s) g (gkgen s)) (vgen_after (gx s) g (gvgen s)) (ges s).

  (* arguments: a value of the caller's, or a reference that an enumerator, Keys() or Get has given *)
  Inductive karg := KVal (k : K) | KOf (e : nat) | KAt (i : Z).          (* k, e->Current().key, g.Keys()[i] *)
  Inductive varg := VVal (v : V) | VOf (e : nat) | VAt (k : K) (i : Z).  (* v, e->Current().value, g[k][i] *)
  Inductive heop :=
  | HGroup (o : gop K V)              (* a method of the group, with the caller's values *)
  | HAdd (k : karg) (v : varg)        (* g.Add(k, v) *)
  | HRemove (k : karg)                (* g.Remove(k) *)
  | HRemoveValue (k : karg) (v : varg)
  | HNew (e : nat)                    (* e = g.CreateEnumerator(), the old e is deleted *)
  | HClone (e f : nat)                (* e = f->Clone() *)
  | HNext (e : nat)
  | HIndex (e : nat)
  | HReset (e : nat)
  | HKey (e : nat)                    (* the value of e->Current().key *)
  | HValue (e : nat).                 (* the value of e->Current().value *)
  Inductive hres := HRes (r : dout K V) | HNone | HError.

  Definition gen_of (s : gst) (e : nat) : res gen := match nth_error (ges s) e with Some x => Ok x | None => UB end.
  Definition set_gen (s : gst) (e : nat) (x : gen) : gst := mkGst (gx s) (gkgen s) (gvgen s) (upd (ges s) e x).

  (* current.Value() : Dictionary.h:313-316; an error without a current element *)
  Definition cur (s : gst) (e : nat) : res (kplace * vplace) :=
    do x <- gen_of s e; match ec x with Some p => Ok p | None => Err end.
  (* reading a reference: the buffer must still be there *)
  Definition key_at (s : gst) (p : kplace) : res K :=
    if Nat.eqb (fst p) (gkgen s) then read K (buf (gkeys (gx s))) (snd p) else UB.
  Definition value_at (s : gst) (p : vplace) : res V :=
    let '(q, n, j) := p in
    do x <- deref K V (gx s) q;
    if Nat.eqb n (gvgen s q) then read V (buf x) j else UB.

  (* binding an argument to a reference *)
  Inductive kref := KNow (k : K) | KRef (p : kplace).
  Inductive vref := VNow (v : V) | VRef (p : vplace).
  Definition kbind (s : gst) (a : karg) : res kref :=
    match a with
    | KVal k => Ok (KNow k)
    | KOf e => do p <- cur s e; Ok (KRef (fst p))
    | KAt i => if (i >=? 0) && (i <? count (gkeys (gx s))) then Ok (KRef (gkgen s, i)) else Err
    end.
  Definition vbind (s : gst) (a : varg) : res vref :=
    match a with
    | VVal v => Ok (VNow v)
    | VOf e => do p <- cur s e; Ok (VRef (snd p))
    | VAt k i =>
        do n <- s_index_of K cmp (gkeys (gx s)) k;
        do q <- get nat (gvals (gx s)) n;
        do x <- deref K V (gx s) q;
        if (i >=? 0) && (i <? count x) then Ok (VRef (q, gvgen s q, i)) else Err
    end.
  Definition kread (s : gst) (a : kref) : res K := match a with KNow k => Ok k | KRef p => key_at s p end.
  Definition vread (s : gst) (a : vref) : res V := match a with VNow v => Ok v | VRef p => value_at s p end.

  (* AddInternal : Dictionary.h:375-395.  The key is read by IndexOf, and again by keys.Add if there is no such key; a
     reference into the keys has then been overwritten or moved (taken as undefined).  The value is read by
     target->Add, after the elements of the target have moved. *)
  Definition add_arg (s : gst) (ka : kref) (va : vref) : res (group K V) :=
    let g := gx s in
    do k <- kread s ka;
    do i <- s_index_of K cmp (gkeys g) k;
    do (g, p) <-
      (if i =? -1 then
         match ka with
         | KRef _ => UB
         | KNow _ =>
             let p := length (gheap g) in
             do (ks, j) <- s_add K cmp (gkeys g) k;
             do vs <- late (insert nat (gvals g) j p);
             Ok (mkGroup ks vs (gheap g ++ [Some empty_lst]), p)
         end
       else do p <- get nat (gvals g) i; Ok (g, p));
    do x <- late (deref K V g p);
    do v <- vread s va;
    do x <- late (match va with
                  | VRef (q, _, j) => if Nat.eqb p q then insert_own V x (count x) j else insert V x (count x) v
                  | VNow v => insert V x (count x) v
                  end);
    Ok (setcell K V g p (Some x)).

  (* UpdateCurrent : Dictionary.h:289-299; false: an error was raised *)
  Definition update_gen (s : gst) (x : gen) : res (gen * bool) :=
    if ek x <? count (gkeys (gx s)) then
      match get nat (gvals (gx s)) (ek x) with
      | Ok p =>
          do z <- deref K V (gx s) p;
          if ev x <? count z then
            if (ek x >=? 0) && (ev x >=? 0) then
              Ok (mkGen (ek x) (ev x) (Some ((gkgen s, ek x), (p, gvgen s p, ev x))), true)
            else Ok (x, false)
          else Ok (x, true)
      | Err => Ok (x, false)
      | UB => UB
      | NoFuel => NoFuel
      end
    else Ok (x, true).
  (* Next : Dictionary.h:335-357; None: an error was raised *)
  Fixpoint next_loop (s : gst) (x : gen) (fuel : nat) : res (gen * option bool) :=
    match fuel with
    | O => NoFuel
    | S fuel =>
        if ek x <? count (gkeys (gx s)) then
          let x := mkGen (ek x) (ev x + 1) (ec x) in
          match get nat (gvals (gx s)) (ek x) with
          | Ok p =>
              do z <- deref K V (gx s) p;
              if ev x <? count z then
                do (x, ok) <- update_gen s x;
                Ok (x, if ok then Some true else None)
              else next_loop s (mkGen (ek x + 1) (-1) (ec x)) fuel
          | Err => Ok (x, None)
          | UB => UB
          | NoFuel => NoFuel
          end
        else Ok (x, Some false)
    end.
  (* Index : Dictionary.h:318-333 is g_index of DctModel *)

  Definition hstep_raw (s : gst) (o : heop) : res (gst * hres) :=
    match o with
    | HGroup o => do (g, r) <- g_step K V cmp veq (gx s) o; Ok (with_group s g, HRes r)
    | HAdd ka va =>
        do ka <- kbind s ka; do va <- vbind s va;
        do g <- add_arg s ka va; Ok (with_group s g, HRes (OBool true))
    | HRemove ka =>                             (* 550-566: the key is not used after IndexOf, which compares it with
                                                   some key if there is one *)
        do ka <- kbind s ka;
        if count (gkeys (gx s)) =? 0 then Ok (s, HRes (OBool false)) else
        do k <- kread s ka;
        do (g, b) <- g_remove K V cmp (gx s) k; Ok (with_group s g, HRes (OBool b))
    | HRemoveValue ka va =>                     (* 575-595: neither is used after the two IndexOf; without the key the
                                                   value is not read *)
        do ka <- kbind s ka; do va <- vbind s va;
        if count (gkeys (gx s)) =? 0 then Ok (s, HRes (OBool false)) else
        do k <- kread s ka;
        do i <- s_index_of K cmp (gkeys (gx s)) k;
        if i =? -1 then Ok (s, HRes (OBool false)) else
        do v <- vread s va;
        do (g, b) <- g_remove_value K V cmp veq (gx s) k v; Ok (with_group s g, HRes (OBool b))
    | HNew e => do _ <- gen_of s e; Ok (set_gen s e (mkGen (-1) (-1) None), HNone)                      (* 301-306 *)
    | HClone e f => do _ <- gen_of s e; do x <- gen_of s f; Ok (set_gen s e (mkGen (ek x) (ev x) None), HNone)   (* 308-311 *)
    | HNext e =>
        do x <- gen_of s e;
        let x := if ek x =? -1 then mkGen 0 (ev x) (ec x) else x in
        do (x, b) <- next_loop s x (S (S (Z.to_nat (count (gkeys (gx s))))));
        Ok (set_gen s e x, match b with Some b => HRes (OBool b) | None => HError end)
    | HIndex e => do x <- gen_of s e; do i <- g_index K V (gx s) (mkGEnum (ek x) (ev x) None); Ok (s, HRes (OInt i))
    | HReset e =>                                                                                        (* 359-364 *)
        do x <- gen_of s e;
        do (x, ok) <- update_gen s (mkGen (-1) (-1) (ec x));
        Ok (set_gen s e x, if ok then HNone else HError)
    | HKey e => do p <- cur s e; do k <- key_at s (fst p); Ok (s, HRes (OKey k))
    | HValue e => do p <- cur s e; do v <- value_at s (snd p); Ok (s, HRes (OVal v))
    end.
  (* an error raised in the other operations changes nothing *)
  Definition hstep (s : gst) (o : heop) : res (gst * hres) :=
    match hstep_raw s o with Err => Ok (s, HError) | r => r end.
  Fixpoint hrun (s : gst) (os : list heop) : res (gst * list hres) :=
    match os with
    | [] => Ok (s, [])
    | o :: os => do (s, r) <- hstep s o; do (s, rs) <- hrun s os; Ok (s, r :: rs)
    end.
  (* n new enumerators of an empty group *)
  Definition hstart (n : nat) : gst := mkGst empty_group 0 (fun _ => O) (repeat (mkGen (-1) (-1) None) n).
End GroupEnum.

Arguments mkGst {K V}. Arguments gx {K V}. Arguments gkgen {K V}. Arguments gvgen {K V}. Arguments ges {K V}.
Arguments KVal {K}. Arguments KOf {K}. Arguments KAt {K}. Arguments VVal {K V}. Arguments VOf {K V}. Arguments VAt {K V}.
Arguments HGroup {K V}. Arguments HAdd {K V}. Arguments HRemove {K V}. Arguments HRemoveValue {K V}. Arguments HNew {K V}.
Arguments HClone {K V}. Arguments HNext {K V}. Arguments HIndex {K V}. Arguments HReset {K V}. Arguments HKey {K V}. Arguments HValue {K V}.
Arguments HRes {K V}. Arguments HNone {K V}. Arguments HError {K V}.
Arguments KNow {K}. Arguments KRef {K}. Arguments VNow {V}. Arguments VRef {V}.
