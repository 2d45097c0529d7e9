(* Event: Source/Primitives/Event.h:24-104, over the SortedList of SrtModel.
   A handler (EventHandlerImpl) is the number of its creation; its address is chosen by the allocator and given
   in the operation that creates it. The list is sorted by address (Ptr compares addresses, Pointer.h).
   Simplification: the arguments of the event are one value of type V. *)
From Verif Require Import Base LstModel SrtModel.
Open Scope Z_scope.

Section event.
  Context (V : Type) (moved : V).             (* what is left of a value that was moved away *)
  (* Event.h:28-46 *)
  Record handler := mkH { hfn : nat; haddr : Z; hattached : bool }.
  Notation entry := (Z * nat)%type.
  Record ew := mkEW { evs : list (lst entry); hs : list handler }.
  Definition ecmp (a b : entry) : option comparison := Some (fst a ?= fst b).

  (* what a callback may do: everything but raise events *)
  Inductive cop :=
  | EAdd (e : nat) (f : nat) (a : Z)         (* Add: 54-59; a is the address of the new handler *)
  | ERemove (e : nat) (h : nat)              (* Remove: 83-92 *)
  | EAttached (h : nat)                      (* IsAttached: 40-43 *)
  | EDrop (h : nat)                          (* the last Ptr to the handler outside the event goes away *)
  | ERenew (e : nat).                        (* the event is destroyed, a new one takes its place *)
  Inductive eout := OHandle (h : nat) | OBool (b : bool) | OUnit | OCalls (l : list (nat * nat * V)).
  Definition cstep (w : ew) (o : cop) : res (ew * eout) :=
    match o with
    | EAdd e f a =>
        match nth_error (evs w) e with
        | None => UB
        | Some x =>
            let h := length (hs w) in
            do (y, _) <- s_add entry ecmp x (a, h);
            Ok (mkEW (upd (evs w) e y) (hs w ++ [mkH f a true]), OHandle h)
        end
    | ERemove e h =>
        match nth_error (evs w) e, nth_error (hs w) h with
        | Some x, Some r =>
            do i <- s_index_of entry ecmp x (haddr r, h);
            if i =? -1 then Ok (w, OBool false)
            else
              do y <- remove_at entry x i;
              Ok (mkEW (upd (evs w) e y) (upd (hs w) h (mkH (hfn r) (haddr r) false)), OBool true)
        | _, _ => UB
        end
    | EAttached h => match nth_error (hs w) h with Some r => Ok (w, OBool (hattached r)) | None => UB end
    | EDrop h => Ok (w, OUnit)
    | ERenew e => match nth_error (evs w) e with Some _ => Ok (mkEW (upd (evs w) e empty_lst) (hs w), OUnit) | None => UB end
    end.
  Fixpoint crun (w : ew) (os : list cop) : res ew :=
    match os with [] => Ok w | o :: os => do (w, _) <- cstep w o; crun w os end.

  Section raise.
    (* what the callback f does, when it is called in the world w *)
    Context (beh : nat -> ew -> list cop).
    (* operator(): 96-103. The loop variable is i; the argument is forwarded to every handler, so when it is an
       rvalue and the parameter is passed by value (rv), the first call moves it away. *)
    Fixpoint raise (fuel : nat) (e : nat) (i : Z) (v : V) (rv : bool) (w : ew) : res (ew * list (nat * nat * V)) :=
      match nth_error (evs w) e with
      | None => UB
      | Some x =>
          if i <? count x then
            match fuel with
            | O => NoFuel
            | S fuel =>
                do p <- get entry x i;
                match nth_error (hs w) (snd p) with
                | None => UB
                | Some r =>
                    do w <- crun w (beh (hfn r) w);
                    do (w, cs) <- raise fuel e (i + 1) (if rv then moved else v) rv w;
                    Ok (w, (snd p, hfn r, v) :: cs)
                end
            end
          else Ok (w, [])
      end.
  End raise.
  Inductive eop := Do (o : cop) | ERaise (e : nat) (v : V) (rv : bool).
  (* histories in which callbacks leave the events alone *)
  Definition estep (w : ew) (o : eop) : res (ew * eout) :=
    match o with
    | Do o => cstep w o
    | ERaise e v rv => do (w, cs) <- raise (fun _ _ => []) (length (hs w)) e 0 v rv w; Ok (w, OCalls cs)
    end.
  Fixpoint erun (w : ew) (os : list eop) : res (ew * list eout) :=
    match os with [] => Ok (w, []) | o :: os => do (w, r) <- estep w o; do (w, rs) <- erun w os; Ok (w, r :: rs) end.
  Definition events (n : nat) : ew := mkEW (repeat empty_lst n) [].
End event.
Arguments Do {V}. Arguments ERaise {V}. Arguments OHandle {V}. Arguments OBool {V}. Arguments OUnit {V}. Arguments OCalls {V}.
