(* List when the moves of its elements throw: Source/Collections/List.h.  A class with a
   copy constructor and no move constructor is such a type: its "moves" are copies.

   husk e: the value a move leaves in its source (e itself when moves are copies).
   torn e e': what an assignment that throws leaves in its target, which was e, when the
   source is e'.  A construction or assignment that throws leaves its source as it was.

   Placement new over an element that was not destroyed and free of a buffer with such
   elements are no errors here: the elements are forgotten, and alive still counts them.
   Simplifications: destructors do not throw; the construction of the new element from the
   argument of Add and Insert does not throw (C65 covers it); the number of uninitialised
   items is 1, as in all calls. *)
From Verif Require Import Base.
Open Scope Z_scope.

Section Throwing.
  Variable E : Type.
  Variable husk : E -> E.
  Variable torn : E -> E -> E.

  (* None: raw memory; [] is nullptr *)
  Definition tmem := list (option E).
  (* elements constructed and not destroyed; buffers taken from malloc and not freed *)
  Record ledger := mkG { alive : Z; blocks : Z }.
  (* Some n: move number n (from 0) of the statement throws *)
  Definition plan := option nat.
  Definition throws (f : plan) : bool := match f with Some O => true | _ => false end.
  Definition later (f : plan) : plan := match f with Some (S n) => Some n | _ => None end.
  (* how a piece of code ends: normally, with what is left of the plan, or by the exception *)
  Inductive ending := Through (f : plan) | Thrown.

  Definition elem (m : tmem) (i : Z) : res E :=
    do s <- aget m i; match s with Some e => Ok e | None => UB end.
  (* placement new *)
  Definition put (m : tmem) (i : Z) (e : E) : res tmem := aset m i (Some e).
  Definition assign (m : tmem) (i : Z) (e : E) : res tmem := do _ <- elem m i; aset m i (Some e).
  Definition destroy (m : tmem) (i : Z) : res tmem := do _ <- elem m i; aset m i None.
  Definition more (g : ledger) (n : Z) : ledger := mkG (alive g + n) (blocks g).

  (* CallMoveCtors between two buffers : List.h:55-69 *)
  Fixpoint across (g : ledger) (f : plan) (dst : tmem) (di : Z) (src : tmem) (si : Z) (n : nat) : res (ledger * tmem * tmem * ending) :=
    match n with
    | O => Ok (g, dst, src, Through f)
    | S n' =>
        if throws f then Ok (g, dst, src, Thrown) else
        do e <- elem src si;
        do src <- assign src si (husk e);
        do dst <- put dst di e;
        across (more g 1) (later f) dst (di + 1) src (si + 1) n'
    end.
  (* CallMoveCtors inside one buffer : List.h:55-69 *)
  Fixpoint within (g : ledger) (f : plan) (m : tmem) (di si : Z) (n : nat) : res (ledger * tmem * ending) :=
    match n with
    | O => Ok (g, m, Through f)
    | S n' =>
        if throws f then Ok (g, m, Thrown) else
        do e <- elem m si;
        do m <- assign m si (husk e);
        do m <- put m di e;
        within (more g 1) (later f) m (di + 1) (si + 1) n'
    end.
  (* one assignment m[di] = std::move(m[si]) *)
  Definition shift (f : plan) (m : tmem) (di si : Z) : res (tmem * bool) :=
    do e <- elem m si;
    do old <- elem m di;
    if throws f then do m <- assign m di (torn old e); Ok (m, true) else
    do m <- assign m si (husk e);
    do m <- assign m di e;
    Ok (m, false).
  (* CallMoveAssignmentsOverlapped : List.h:71-95 *)
  Fixpoint shift_fwd (f : plan) (m : tmem) (di si : Z) (n : nat) : res (tmem * ending) :=
    match n with
    | O => Ok (m, Through f)
    | S n' =>
        do (m, stop) <- shift f m di si;
        if stop then Ok (m, Thrown) else shift_fwd (later f) m (di + 1) (si + 1) n'
    end.
  Fixpoint shift_bwd (f : plan) (m : tmem) (di si : Z) (n : nat) : res (tmem * ending) :=
    match n with
    | O => Ok (m, Through f)
    | S n' =>
        do (m, stop) <- shift f m (di + Z.of_nat n') (si + Z.of_nat n');
        if stop then Ok (m, Thrown) else shift_bwd (later f) m di si n'
    end.
  Definition shifts (f : plan) (m : tmem) (di si n : Z) : res (tmem * ending) :=
    if di <? si then shift_fwd f m di si (Z.to_nat n)
    else if di >? si then shift_bwd f m di si (Z.to_nat n)
    else Ok (m, Through f).
  (* CallDtors : List.h:97-107 *)
  Fixpoint dtors (g : ledger) (m : tmem) (i : Z) (n : nat) : res (ledger * tmem) :=
    match n with
    | O => Ok (g, m)
    | S n' => do m <- destroy m i; dtors (more g (-1)) m (i + 1) n'
    end.
  (* AllocateBuffer : List.h:109-114; malloc succeeds *)
  Definition allocate (g : ledger) (size : Z) : ledger * tmem :=
    if size <=? 0 then (g, []) else (mkG (alive g) (blocks g + 1), repeat None (Z.to_nat size)).
  (* DeallocateBuffer : List.h:116-121 *)
  Definition release (g : ledger) (m : tmem) : ledger :=
    match m with [] => g | _ => mkG (alive g) (blocks g - 1) end.

  (* buffer, count, capacity *)
  Record tlist := mkT { tbuf : tmem; tcount : Z; tcap : Z }.
  Definition tempty : tlist := mkT [] 0 0.

  (* ReleaseUnnecessaryBuffer : List.h:123-147, with newCount the count of the list *)
  Definition shrink (g : ledger) (f : plan) (x : tlist) (old_count : Z) : res (ledger * tlist * ending) :=
    match tbuf x with
    | [] => Ok (g, x, Through f)
    | _ =>
        let n := tcount x in
        do (g, m) <- (if n <? old_count then dtors g (tbuf x) n (Z.to_nat (old_count - n)) else Ok (g, tbuf x));
        if (n <=? tcap x / 2) && (n <=? 8) then
          let newcap := tcap x * 5 / 8 in
          if n <? newcap then
            let (g, nb) := allocate g newcap in
            do (g, nb, m, e) <- across g f nb 0 m 0 (Z.to_nat n);
            match e with
            | Thrown => Ok (g, mkT m n (tcap x), Thrown)             (* nothing refers to newBuffer any more *)
            | Through f =>
                do (g, m) <- dtors g m 0 (Z.to_nat n);
                Ok (release g m, mkT nb n newcap, Through f)
            end
          else Ok (g, mkT m n (tcap x), Through f)
        else Ok (g, mkT m n (tcap x), Through f)
    end.
  (* InsertUninitializedItems : List.h:149-179, with insertCount = 1 *)
  Definition make_room (g : ledger) (f : plan) (x : tlist) (index : Z) : res (ledger * tlist * ending) :=
    let n := tcount x in
    if n + 1 >? tcap x then
      let newcap := if n + 1 <? tcap x then tcap x else (n + 1) * 5 / 4 + 1 in
      let (g, nb) := allocate g newcap in
      do (g, nb, m, e) <- across g f nb 0 (tbuf x) 0 (Z.to_nat index);
      match e with
      | Thrown => Ok (g, mkT m n (tcap x), Thrown)
      | Through f =>
          do (g, nb, m, e) <- across g f nb (index + 1) m index (Z.to_nat (n - index));
          match e with
          | Thrown => Ok (g, mkT m n (tcap x), Thrown)
          | Through f =>
              do (g, m) <- dtors g m 0 (Z.to_nat n);
              Ok (release g m, mkT nb (n + 1) newcap, Through f)
          end
      end
    else if index <? n then
      if 1 >=? n - index then
        do (g, m, e) <- within g f (tbuf x) (index + 1) index (Z.to_nat (n - index));
        match e with
        | Thrown => Ok (g, mkT m n (tcap x), Thrown)
        | Through f =>
            do (g, m) <- dtors g m index (Z.to_nat (n - index));
            Ok (g, mkT m (n + 1) (tcap x), Through f)
        end
      else
        do (g, m, e) <- within g f (tbuf x) n (n - 1) 1;
        match e with
        | Thrown => Ok (g, mkT m n (tcap x), Thrown)
        | Through f =>
            do (m, e) <- shifts f m (index + 1) index (n - index - 1);
            match e with
            | Thrown => Ok (g, mkT m n (tcap x), Thrown)             (* the element at count is forgotten *)
            | Through f =>
                do (g, m) <- dtors g m index 1;
                Ok (g, mkT m (n + 1) (tcap x), Through f)
            end
        end
    else Ok (g, mkT (tbuf x) (n + 1) (tcap x), Through f).
  (* Insert : List.h:605-625 *)
  Definition insert (g : ledger) (f : plan) (x : tlist) (i : Z) (a : E) : res (ledger * tlist * bool) :=
    if (i >=? 0) && (i <=? tcount x) then
      do (g, x, e) <- make_room g f x i;
      match e with
      | Thrown => Ok (g, x, true)
      | Through _ => do m <- put (tbuf x) i a; Ok (more g 1, mkT m (tcount x) (tcap x), false)
      end
    else Err.
  (* RemoveAt : List.h:507-515 *)
  Definition remove_at (g : ledger) (f : plan) (x : tlist) (i : Z) : res (ledger * tlist * bool) :=
    if (i >=? 0) && (i <? tcount x) then
      do (m, e) <- shifts f (tbuf x) i (i + 1) (tcount x - i - 1);
      match e with
      | Thrown => Ok (g, mkT m (tcount x) (tcap x), true)
      | Through f =>
          do (g, x, e) <- shrink g f (mkT m (tcount x - 1) (tcap x)) (tcount x);
          Ok (g, x, match e with Thrown => true | Through _ => false end)
      end
    else Err.
  (* RemoveRange : List.h:521-530; index + _count is a signed 64-bit addition *)
  Definition remove_range (g : ledger) (f : plan) (x : tlist) (i n : Z) : res (ledger * tlist * bool) :=
    if (i >=? 0) && (i <=? tcount x) then
      if negb ((- 2 ^ 63 <=? i + n) && (i + n <? 2 ^ 63)) then UB else
      if (i + n >=? 0) && (i + n <=? tcount x) then
        do (m, e) <- shifts f (tbuf x) i (i + n) (tcount x - i - n);
        match e with
        | Thrown => Ok (g, mkT m (tcount x) (tcap x), true)
        | Through f =>
            do (g, x, e) <- shrink g f (mkT m (tcount x - n) (tcap x)) (tcount x);
            Ok (g, x, match e with Thrown => true | Through _ => false end)
        end
      else Err
    else Err.
  (* Clear : List.h:534-543 *)
  Definition clear (g : ledger) (x : tlist) : res (ledger * tlist) :=
    do (g, m) <- dtors g (tbuf x) 0 (Z.to_nat (tcount x)); Ok (release g m, tempty).
  (* ~ListBase : List.h:467-474 *)
  Definition destruct (g : ledger) (x : tlist) : res ledger :=
    match tbuf x with
    | [] => Ok g
    | _ => do (g, m) <- dtors g (tbuf x) 0 (Z.to_nat (tcount x)); Ok (release g m)
    end.
  (* Get, operator[] : List.h:286-299; Set : List.h:646-662 *)
  Definition get (x : tlist) (i : Z) : res E := if (i >=? 0) && (i <? tcount x) then elem (tbuf x) i else Err.
  Definition set (x : tlist) (i : Z) (a : E) : res tlist :=
    if (i >=? 0) && (i <? tcount x) then do m <- assign (tbuf x) i a; Ok (mkT m (tcount x) (tcap x)) else Err.

  (* ---- programs ------------------------------------------------------------------------- *)
  Inductive top :=
  | TNew (v : nat)                   (* List<T> v; *)
  | TMoveNew (v w : nat)             (* List<T> v(std::move(w)); *)
  | TMoveAssign (v w : nat)          (* v = std::move(w); *)
  | TDestroy (v : nat)
  | TAdd (v : nat) (a : E)
  | TInsert (v : nat) (i : Z) (a : E)
  | TRemoveAt (v : nat) (i : Z)
  | TRemoveRange (v : nat) (i n : Z)
  | TClear (v : nat)
  | TSet (v : nat) (i : Z) (a : E)
  | TGet (v : nat) (i : Z)
  | TCount (v : nat).
  (* YThrown: the exception of an element reaches the caller *)
  Inductive tout := YNone | YError | YThrown | YInt (z : Z) | YBool (b : bool) | YVal (e : E).
  Record tworld := mkW { tvars : list (option tlist); books : ledger }.
  Definition tinit (n : nat) : tworld := mkW (repeat None n) (mkG 0 0).
  Definition tvar (w : tworld) (v : nat) : res tlist :=
    match nth_error (tvars w) v with Some (Some x) => Ok x | _ => UB end.
  Definition tfree (w : tworld) (v : nat) : res unit :=
    match nth_error (tvars w) v with Some None => Ok tt | _ => UB end.

  Definition tstep_raw (w : tworld) (o : top) (f : plan) : res (tworld * tout) :=
    match o with
    | TNew v => do _ <- tfree w v; Ok (mkW (upd (tvars w) v (Some tempty)) (books w), YNone)
    | TMoveNew v u =>                                              (* List.h:476-484 *)
        do _ <- tfree w v; do x <- tvar w u;
        Ok (mkW (upd (upd (tvars w) v (Some x)) u (Some tempty)) (books w), YNone)
    | TMoveAssign v u =>                                           (* List.h:486-502 *)
        do x <- tvar w v; do y <- tvar w u;
        do g <- destruct (books w) x;
        Ok (mkW (upd (upd (tvars w) v (Some y)) u (Some tempty)) g, YNone)
    | TDestroy v => do x <- tvar w v; do g <- destruct (books w) x; Ok (mkW (upd (tvars w) v None) g, YNone)
    | TAdd v a =>
        do x <- tvar w v; do (g, y, t) <- insert (books w) f x (tcount x) a;
        Ok (mkW (upd (tvars w) v (Some y)) g, if t : bool then YThrown else YInt (tcount x))
    | TInsert v i a =>
        do x <- tvar w v; do (g, y, t) <- insert (books w) f x i a;
        Ok (mkW (upd (tvars w) v (Some y)) g, if t : bool then YThrown else YInt i)
    | TRemoveAt v i =>
        do x <- tvar w v; do (g, y, t) <- remove_at (books w) f x i;
        Ok (mkW (upd (tvars w) v (Some y)) g, if t : bool then YThrown else YBool true)
    | TRemoveRange v i n =>
        do x <- tvar w v; do (g, y, t) <- remove_range (books w) f x i n;
        Ok (mkW (upd (tvars w) v (Some y)) g, if t : bool then YThrown else YBool true)
    | TClear v => do x <- tvar w v; do (g, y) <- clear (books w) x; Ok (mkW (upd (tvars w) v (Some y)) g, YBool true)
    | TSet v i a => do x <- tvar w v; do y <- set x i a; Ok (mkW (upd (tvars w) v (Some y)) (books w), YBool true)
    | TGet v i => do x <- tvar w v; do e <- get x i; Ok (w, YVal e)
    | TCount v => do x <- tvar w v; Ok (w, YInt (tcount x))
    end.
  Definition tstep (w : tworld) (o : top) (f : plan) : res (tworld * tout) :=
    match tstep_raw w o f with Err => Ok (w, YError) | r => r end.
  Fixpoint trun (w : tworld) (p : list (top * plan)) : res (tworld * list tout) :=
    match p with
    | [] => Ok (w, [])
    | (o, f) :: p' => do (w', y) <- tstep w o f; do (w'', ys) <- trun w' p'; Ok (w'', y :: ys)
    end.
End Throwing.
Arguments mkT {E}. Arguments tbuf {E}. Arguments tcount {E}. Arguments tcap {E}.
Arguments tempty {E}. Arguments mkW {E}. Arguments tvars {E}. Arguments books {E}. Arguments tinit {E}.
Arguments TNew {E}. Arguments TMoveNew {E}. Arguments TMoveAssign {E}. Arguments TDestroy {E}. Arguments TAdd {E}. Arguments TInsert {E}.
Arguments TRemoveAt {E}. Arguments TRemoveRange {E}. Arguments TClear {E}. Arguments TSet {E}. Arguments TGet {E}. Arguments TCount {E}.
Arguments YNone {E}. Arguments YError {E}. Arguments YThrown {E}. Arguments YInt {E}. Arguments YBool {E}. Arguments YVal {E}.
