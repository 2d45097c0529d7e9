(* Array when the constructions of its elements throw, moves included: Source/Collections/List.h:27-121, 309-452.

   husk e: the value a move leaves in its source (e itself when moves are copies).  A construction that throws leaves its
   source as it was.  alive counts the element objects that exist, in reach or not, blocks the blocks of memory.
   Simplifications: destructors do not throw; memory does not run out (C75); sizes are nat, a negative size is Err (C16). *)
From Verif Require Import Base.
Open Scope nat_scope.

Section model.
  Context {A : Type} (husk : A -> A) (dflt : A).
  Notation cells := (list (option A)).                   (* None: a place without an object *)
  Record arr := mkArr { buf : option cells; cnt : nat }.
  Record aw := mkAW { var : option arr; alive : nat; blocks : nat }.
  (* the constructions of one operation: the one after k others throws *)
  Notation plan := (option nat).
  Definition throws_now (k : plan) : bool := match k with Some O => true | _ => false end.
  Definition next (k : plan) : plan := option_map pred k.

  (* AllocateBuffer: 109-114 *)
  Definition alloc (n : nat) : option cells := if n =? 0 then None else Some (repeat None n).
  Definition size_of (b : option cells) : nat := match b with Some _ => 1 | None => 0 end.
  Definition cells_of (b : option cells) : cells := match b with Some c => c | None => [] end.
  Definition construct (c : cells) (i : nat) (a : A) : res cells :=
    match nth_error c i with Some None => Ok (upd c i (Some a)) | _ => UB end.
  (* CallMoveCtors: 55-69, from place i on; the result says whether a construction threw *)
  Fixpoint move_ctors (n i : nat) (new old : cells) (k : plan) (al : nat) : res (cells * cells * plan * nat * bool) :=
    match n with
    | O => Ok (new, old, k, al, false)
    | S n =>
        match nth_error old i with
        | Some (Some a) =>
            if throws_now k then Ok (new, old, k, al, true)
            else do new <- construct new i a; move_ctors n (S i) new (upd old i (Some (husk a))) (next k) (S al)
        | _ => UB
        end
    end.
  (* CallDefaultCtors: 27-37 *)
  Fixpoint default_ctors (n i : nat) (new : cells) (k : plan) (al : nat) : res (cells * plan * nat * bool) :=
    match n with
    | O => Ok (new, k, al, false)
    | S n =>
        if throws_now k then Ok (new, k, al, true)
        else do new <- construct new i dflt; default_ctors n (S i) new (next k) (S al)
    end.
  (* CallCopyCtors: 39-53 *)
  Fixpoint copy_ctors (src : list A) (i : nat) (new : cells) (k : plan) (al : nat) : res (cells * plan * nat * bool) :=
    match src with
    | [] => Ok (new, k, al, false)
    | a :: src =>
        if throws_now k then Ok (new, k, al, true)
        else do new <- construct new i a; copy_ctors src (S i) new (next k) (S al)
    end.
  (* CallDtors: 97-107 *)
  Fixpoint dtors (n i : nat) (c : cells) (al : nat) : res (cells * nat) :=
    match n with
    | O => Ok (c, al)
    | S n => match nth_error c i with Some (Some _) => dtors n (S i) (upd c i None) (pred al) | _ => UB end
    end.

  Inductive aop :=
  | ANew (n : nat) (k : plan)                 (* Array(vint): 319-325 *)
  | AFrom (src : list A) (k : plan)           (* Array(const T*, vint): 331-337 *)
  | AResize (n : nat) (k : plan)              (* Resize: 431-451 *)
  | ASet (i : nat) (a : A) (threw : bool)     (* Set: 399-415; if the assignment threw, a is what it left *)
  | AGet (i : nat) | ACount                   (* 275-300 *)
  | ADelete.                                  (* ~Array: 339-346 *)
  Inductive aout := AUnit | AVal (a : A) | ANum (n : nat) | AThrown.
  Definition astep (w : aw) (o : aop) : res (aw * aout) :=
    match o, var w with
    | ANew n k, None =>
        let b := alloc n in
        do (c, _, al, t) <- default_ctors n 0 (cells_of b) k (alive w);
        if t then Ok (mkAW None al (blocks w + size_of b), AThrown)               (* the destructor is not called *)
        else Ok (mkAW (Some (mkArr (option_map (fun _ => c) b) n)) al (blocks w + size_of b), AUnit)
    | AFrom src k, None =>
        let b := alloc (length src) in
        do (c, _, al, t) <- copy_ctors src 0 (cells_of b) k (alive w);
        if t then Ok (mkAW None al (blocks w + size_of b), AThrown)
        else Ok (mkAW (Some (mkArr (option_map (fun _ => c) b) (length src))) al (blocks w + size_of b), AUnit)
    | AResize n k, Some x =>
        let b := alloc n in
        do (new, old, k, al, t) <- move_ctors (if n <? cnt x then n else cnt x) 0 (cells_of b) (cells_of (buf x)) k (alive w);
        let stopped := fun al => Ok (mkAW (Some (mkArr (option_map (fun _ => old) (buf x)) (cnt x))) al (blocks w + size_of b), AThrown) in
        if t then stopped al
        else
          do (new, _, al, t) <- (if n <? cnt x then Ok (new, k, al, false) else default_ctors (n - cnt x) (cnt x) new k al);
          if t then stopped al
          else
            do (_, al) <- dtors (cnt x) 0 old al;
            Ok (mkAW (Some (mkArr (option_map (fun _ => new) b) n)) al (blocks w + size_of b - size_of (buf x)), AUnit)
    | ASet i a t, Some x =>
        if i <? cnt x then
          match nth_error (cells_of (buf x)) i with
          | Some (Some _) => Ok (mkAW (Some (mkArr (option_map (fun c => upd c i (Some a)) (buf x)) (cnt x))) (alive w) (blocks w), if t then AThrown else AUnit)
          | _ => UB
          end
        else Err
    | AGet i, Some x =>
        if i <? cnt x then match nth_error (cells_of (buf x)) i with Some (Some a) => Ok (w, AVal a) | _ => UB end else Err
    | ACount, Some x => Ok (w, ANum (cnt x))
    | ADelete, Some x =>
        do (_, al) <- dtors (match buf x with Some _ => cnt x | None => 0 end) 0 (cells_of (buf x)) (alive w);
        Ok (mkAW None al (blocks w - size_of (buf x)), AUnit)
    | _, _ => UB
    end.
  Fixpoint arun (w : aw) (os : list aop) : res (aw * list aout) :=
    match os with [] => Ok (w, []) | o :: os => do (w, r) <- astep w o; do (w, rs) <- arun w os; Ok (w, r :: rs) end.
  Definition astart : aw := mkAW None 0 0.
End model.
Arguments arr : clear implicits. Arguments aw : clear implicits. Arguments aop : clear implicits. Arguments aout : clear implicits.
