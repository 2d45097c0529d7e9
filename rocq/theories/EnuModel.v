(* Enumerators of List and Dictionary, and references to elements, while the container
   changes: Source/Collections/List.h:218-263, Source/Collections/Dictionary.h:29-79. *)
From Verif Require Import Base LstModel SrtModel DctModel.
Open Scope Z_scope.

Section ListEnum.
  Variable A : Type.
  Variable eqb : A -> A -> bool.

  (* methods of a list variable 0 that can be called while it is enumerated *)
  Definition on_list (o : op A) : bool :=
    match o with
    | LAdd 0 _ | LInsert 0 _ _ | LRemoveAt 0 _ | LRemoveRange 0 _ _ | LRemove 0 _ | LClear 0
    | LSet 0 _ _ | LGet 0 _ | LCount 0 | LIndexOf 0 _ | LContains 0 _ => true
    | _ => false
    end%nat.

  (* A reference to an element is a buffer and a slot.  Buffers are numbered: `gen` grows
     whenever buffer is replaced, which the code does exactly when it changes capacity
     (InsertUninitializedItems List.h:151-161, ReleaseUnnecessaryBuffer List.h:133-145,
     Clear List.h:534-543).  Enumerators are their index (List.h:224-225). *)
  Record est := mkEst { lx : lst A; gen : nat; ens : list Z; refs : list (option (nat * Z)) }.

  Inductive eop :=
  | EList (o : op A)            (* a method of the list *)
  | ENew (e : nat)              (* e = list.CreateEnumerator(), the old e is deleted *)
  | EClone (e f : nat)          (* e = f->Clone() *)
  | ENext (e : nat)
  | EIndex (e : nat)
  | EReset (e : nat)
  | ECurrent (r e : nat)        (* const T& r = e->Current(); *)
  | ERefer (r : nat) (i : Z)    (* T& r = list[i]; *)
  | ERead (r : nat)             (* the value of r *)
  | EWrite (r : nat) (a : A).   (* r = a *)

  Definition enum (s : est) (e : nat) : res Z := match nth_error (ens s) e with Some i => Ok i | None => UB end.
  Definition set_enum (s : est) (e : nat) (i : Z) : est := mkEst (lx s) (gen s) (upd (ens s) e i) (refs s).
  (* the slot that a reference refers to; the buffer must still be there *)
  Definition target (s : est) (r : nat) : res Z :=
    match nth_error (refs s) r with
    | Some (Some (g, i)) => if Nat.eqb g (gen s) then Ok i else UB
    | _ => UB
    end.
  (* Get, operator[] : List.h:286-299, 669-673 give a reference *)
  Definition refer (s : est) (r : nat) (i : Z) : res (est * out A) :=
    if (i >=? 0) && (i <? count (lx s)) then
      match nth_error (refs s) r with
      | Some _ => Ok (mkEst (lx s) (gen s) (ens s) (upd (refs s) r (Some (gen s, i))), RNone)
      | None => UB
      end
    else Err.

  Definition estep_raw (s : est) (o : eop) : res (est * out A) :=
    match o with
    | EList o =>
        if on_list o then
          do (vs, r) <- step A eqb [Some (lx s)] o;
          match vs with
          | [Some y] => Ok (mkEst y (if cap y =? cap (lx s) then gen s else S (gen s)) (ens s) (refs s), r)
          | _ => UB
          end
        else UB
    | ENew e => do _ <- enum s e; Ok (set_enum s e (-1), RNone)                 (* 228-232, 271-274 *)
    | EClone e f => do _ <- enum s e; do i <- enum s f; Ok (set_enum s e i, RNone)     (* 234-237 *)
    | ENext e =>                                                                (* 249-253 *)
        do i <- enum s e;
        Ok (set_enum s e (i + 1), RBool ((i + 1 >=? 0) && (i + 1 <? count (lx s))))
    | EIndex e => do i <- enum s e; Ok (s, RInt i)                              (* 244-247 *)
    | EReset e => do _ <- enum s e; Ok (set_enum s e (-1), RNone)               (* 255-258 *)
    | ECurrent r e => do i <- enum s e; refer s r i                             (* 239-242 *)
    | ERefer r i => refer s r i
    | ERead r => do i <- target s r; do a <- read A (buf (lx s)) i; Ok (s, RVal a)
    | EWrite r a =>
        do i <- target s r; do m <- assign A (buf (lx s)) i (Live a);
        Ok (mkEst (mkLst m (count (lx s)) (cap (lx s)) (moves (lx s))) (gen s) (ens s) (refs s), RNone)
    end.
  Definition estep (s : est) (o : eop) : res (est * out A) :=
    match estep_raw s o with Err => Ok (s, RError) | r => r end.
  Fixpoint erun (s : est) (os : list eop) : res (est * list (out A)) :=
    match os with
    | [] => Ok (s, [])
    | o :: os => do (s, r) <- estep s o; do (s, rs) <- erun s os; Ok (s, r :: rs)
    end.
  (* n new enumerators of an empty list, m references not bound yet *)
  Definition estart (n m : nat) : est := mkEst empty_lst 0 (repeat (-1) n) (repeat None m).

  (* for (T x : list) { body }: while(e->Next()) with the value of e->Current(); the body calls
     methods of the list.  Returns the values x had and the list. *)
  Fixpoint lops (x : lst A) (os : list (op A)) : res (lst A) :=
    match os with
    | [] => Ok x
    | o :: os => if on_list o then
                   do (vs, _) <- step A eqb [Some x] o;
                   match vs with [Some y] => lops y os | _ => UB end
                 else UB
    end.
  Fixpoint eloop (fuel : nat) (body : Z -> A -> list (op A)) (x : lst A) (i : Z) : res (list A * lst A) :=
    match fuel with
    | O => NoFuel
    | S fuel =>
        let i := i + 1 in
        if (i >=? 0) && (i <? count x) then
          do a <- get A x i;
          do x <- lops x (body i a);
          do (vs, x) <- eloop fuel body x i;
          Ok (a :: vs, x)
        else Ok ([], x)
    end.
End ListEnum.

Arguments mkEst {A}. Arguments lx {A}. Arguments gen {A}. Arguments ens {A}. Arguments refs {A}.
Arguments EList {A}. Arguments ENew {A}. Arguments EClone {A}. Arguments ENext {A}. Arguments EIndex {A}. Arguments EReset {A}.
Arguments ECurrent {A}. Arguments ERefer {A}. Arguments ERead {A}. Arguments EWrite {A}.

Section DictEnum.
  Variable K V : Type.
  Variable cmp : K -> K -> option comparison.

  (* index and current of an enumerator, Dictionary.h:31-33: current is empty or a pair of references, into the
     buffer of the keys and into the buffer of the values *)
  Record den := mkDen { di : Z; dc : option ((nat * Z) * (nat * Z)) }.
  (* the dictionary, the numbers of the two buffers, the enumerators *)
  Record dst := mkDst { dx : dict K V; kgen : nat; vgen : nat; des : list den }.

  Inductive deop :=
  | FDict (o : dop K V)          (* a method of the dictionary *)
  | FNew (e : nat)
  | FClone (e f : nat)
  | FNext (e : nat)
  | FIndex (e : nat)
  | FReset (e : nat)
  | FCurrent (e : nat).          (* read both members of e->Current() *)
  Inductive dres := DRes (r : dout K V) | DPair (k : K) (v : V) | DNone | DError.

  Definition den_of (s : dst) (e : nat) : res den := match nth_error (des s) e with Some x => Ok x | None => UB end.
  Definition set_den (s : dst) (e : nat) (x : den) : dst := mkDst (dx s) (kgen s) (vgen s) (upd (des s) e x).
  (* UpdateCurrent : 36-42; an error leaves the new index behind *)
  Definition update_cur (s : dst) (x : den) : den * bool :=
    if di x <? count (keys (dx s)) then
      if (di x >=? 0) && (di x <? count (vals (dx s))) then (mkDen (di x) (Some ((kgen s, di x), (vgen s, di x))), true)
      else (x, false)
    else (x, true).

  Definition dstep (s : dst) (o : deop) : res (dst * dres) :=
    match o with
    | FDict o =>
        do (d, r) <- d_step K V cmp (dx s) o;
        Ok (mkDst d (if cap (keys d) =? cap (keys (dx s)) then kgen s else S (kgen s))
                    (if cap (vals d) =? cap (vals (dx s)) then vgen s else S (vgen s)) (des s), DRes r)
    | FNew e => do _ <- den_of s e; Ok (set_den s e (mkDen (-1) None), DNone)          (* 44-48 *)
    | FClone e f => do _ <- den_of s e; do x <- den_of s f; Ok (set_den s e (mkDen (di x) None), DNone)    (* 50-53 *)
    | FNext e =>                                                                        (* 65-70 *)
        do x <- den_of s e;
        let '(x, ok) := update_cur s (mkDen (di x + 1) (dc x)) in
        let s := set_den s e x in
        if ok then Ok (s, DRes (OBool ((di x >=? 0) && (di x <? count (keys (dx s)))))) else Ok (s, DError)
    | FIndex e => do x <- den_of s e; Ok (s, DRes (OInt (di x)))                        (* 60-63 *)
    | FReset e =>                                                                       (* 72-76 *)
        do x <- den_of s e;
        let '(x, ok) := update_cur s (mkDen (-1) (dc x)) in
        Ok (set_den s e x, if ok then DNone else DError)
    | FCurrent e =>                                                                     (* 55-58 *)
        do x <- den_of s e;
        match dc x with
        | None => Ok (s, DError)
        | Some ((g, i), (h, j)) =>
            if Nat.eqb g (kgen s) && Nat.eqb h (vgen s) then
              do k <- read K (buf (keys (dx s))) i;
              do v <- read V (buf (vals (dx s))) j;
              Ok (s, DPair k v)
            else UB
        end
    end.
  Fixpoint drun (s : dst) (os : list deop) : res (dst * list dres) :=
    match os with
    | [] => Ok (s, [])
    | o :: os => do (s, r) <- dstep s o; do (s, rs) <- drun s os; Ok (s, r :: rs)
    end.
  Definition dstart (n : nat) : dst := mkDst (empty_dict) 0 0 (repeat (mkDen (-1) None) n).
End DictEnum.
