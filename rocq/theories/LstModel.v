(* Array and List: Source/Collections/List.h *)
From Verif Require Import Base.
Open Scope Z_scope.

Section Containers.
  Variable A : Type.
  Variable eqb : A -> A -> bool.            (* operator== of the elements *)
  (* value made by the default constructor; None for trivially constructible types,
     whose storage is left uninitialised *)
  Variable dflt : option A.

  (* A slot of a buffer: raw memory, a constructed element holding a value, or a
     constructed element whose value is unspecified (moved from, or uninitialised). *)
  Inductive slot := Raw | Moved | Live (a : A).
  Definition is_raw (s : slot) : bool := match s with Raw => true | _ => false end.

  (* A buffer; [] is nullptr (AllocateBuffer never returns an empty block). *)
  Definition mem := list slot.

  (* ---- memory_management : List.h:25-208 --------------------------------- *)
  (* Every access is checked: constructing over a live element, assigning, moving from
     or destroying a raw slot and leaving the buffer are UB.  For trivially movable
     types the code uses memcpy/memmove, which leave the source untouched; here the
     source then counts as unspecified, which the theorems never rely on. *)

  (* placement new at slot i *)
  Definition construct (m : mem) (i : Z) (s : slot) : res mem :=
    do old <- aget m i; if is_raw old then aset m i s else UB.
  (* std::move(m[i]) as the source of a construction or assignment *)
  Definition move_out (m : mem) (i : Z) : res (mem * slot) :=
    do s <- aget m i; if is_raw s then UB else do m <- aset m i Moved; Ok (m, s).
  (* m[i] = s *)
  Definition assign (m : mem) (i : Z) (s : slot) : res mem :=
    do old <- aget m i; if is_raw old then UB else aset m i s.
  (* m[i].~T() *)
  Definition destroy (m : mem) (i : Z) : res mem :=
    do old <- aget m i; if is_raw old then UB else aset m i Raw.

  (* CallDefaultCtors : List.h:27-37 *)
  Fixpoint default_ctors (m : mem) (i : Z) (n : nat) : res mem :=
    match n with
    | O => Ok m
    | S n' =>
        do m <- construct m i (match dflt with Some d => Live d | None => Moved end);
        default_ctors m (i + 1) n'
    end.
  (* CallCopyCtors from values outside the buffer : List.h:39-53 *)
  Fixpoint copy_ctors (m : mem) (i : Z) (xs : list A) : res mem :=
    match xs with
    | [] => Ok m
    | x :: xs' => do m <- construct m i (Live x); copy_ctors m (i + 1) xs'
    end.
  (* CallMoveCtors between two buffers : List.h:55-69 *)
  Fixpoint move_across (dst : mem) (di : Z) (src : mem) (si : Z) (n : nat) : res (mem * mem) :=
    match n with
    | O => Ok (dst, src)
    | S n' =>
        do (src, s) <- move_out src si;
        do dst <- construct dst di s;
        move_across dst (di + 1) src (si + 1) n'
    end.
  (* CallMoveCtors inside one buffer : List.h:55-69 *)
  Fixpoint move_within (m : mem) (di si : Z) (n : nat) : res mem :=
    match n with
    | O => Ok m
    | S n' =>
        do (m, s) <- move_out m si;
        do m <- construct m di s;
        move_within m (di + 1) (si + 1) n'
    end.
  (* CallMoveAssignmentsOverlapped : List.h:71-95 *)
  Fixpoint assign_fwd (m : mem) (di si : Z) (n : nat) : res mem :=
    match n with
    | O => Ok m
    | S n' =>
        do (m, s) <- move_out m si;
        do m <- assign m di s;
        assign_fwd m (di + 1) (si + 1) n'
    end.
  (* i = count - 1, count - 2, ..., 0 *)
  Fixpoint assign_bwd (m : mem) (di si : Z) (n : nat) : res mem :=
    match n with
    | O => Ok m
    | S n' =>
        do (m, s) <- move_out m (si + Z.of_nat n');
        do m <- assign m (di + Z.of_nat n') s;
        assign_bwd m di si n'
    end.
  Definition assign_overlapped (m : mem) (di si n : Z) : res mem :=
    if di <? si then assign_fwd m di si (Z.to_nat n)
    else if di >? si then assign_bwd m di si (Z.to_nat n)
    else Ok m.
  (* CallDtors : List.h:97-107 *)
  Fixpoint dtors (m : mem) (i : Z) (n : nat) : res mem :=
    match n with
    | O => Ok m
    | S n' => do m <- destroy m i; dtors m (i + 1) n'
    end.
  (* AllocateBuffer : List.h:109-114; malloc is assumed to succeed *)
  Definition allocate (size : Z) : mem := if size <=? 0 then [] else repeat Raw (Z.to_nat size).
  (* DeallocateBuffer : List.h:116-121.  Freeing a buffer that still holds an element
     would lose it without running its destructor: counted as UB. *)
  Definition deallocate (m : mem) : res unit := if forallb is_raw m then Ok tt else UB.

  (* A list: buffer, count, capacity (List.h:265-266, 463) and, for C17 only, the number
     of element moves made so far. *)
  Record lst := mkLst { buf : mem; count : Z; cap : Z; moves : Z }.
  Definition empty_lst := mkLst [] 0 0 0.

  (* ReleaseUnnecessaryBuffer : List.h:123-146 (called with newCount = count) *)
  Definition release (x : lst) (old_count : Z) : res lst :=
    match buf x with
    | [] => Ok x
    | _ =>
        let n := count x in
        do m <- (if n <? old_count then dtors (buf x) n (Z.to_nat (old_count - n)) else Ok (buf x));
        if (n <=? cap x / 2) && (n <=? 8) then
          let newcap := cap x * 5 / 8 in
          if n <? newcap then
            do (nb, m) <- move_across (allocate newcap) 0 m 0 (Z.to_nat n);
            do m <- dtors m 0 (Z.to_nat n);
            do _ <- deallocate m;
            Ok (mkLst nb n newcap (moves x + n))
          else Ok (mkLst m n (cap x) (moves x))
        else Ok (mkLst m n (cap x) (moves x))
    end.

  (* InsertUninitializedItems : List.h:148-178 *)
  Definition insert_uninitialized (x : lst) (index k : Z) : res lst :=
    let n := count x in
    let newcount := n + k in
    if newcount >? cap x then
      let newcap := if newcount <? cap x then cap x else newcount * 5 / 4 + 1 in
      do (nb, m) <- move_across (allocate newcap) 0 (buf x) 0 (Z.to_nat index);
      do (nb, m) <- move_across nb (index + k) m index (Z.to_nat (n - index));
      do m <- dtors m 0 (Z.to_nat n);
      do _ <- deallocate m;
      Ok (mkLst nb newcount newcap (moves x + n))
    else if index <? n then
      if k >=? n - index then
        do m <- move_within (buf x) (index + k) index (Z.to_nat (n - index));
        do m <- dtors m index (Z.to_nat (n - index));
        Ok (mkLst m newcount (cap x) (moves x + (n - index)))
      else
        do m <- move_within (buf x) n (n - k) (Z.to_nat k);
        do m <- assign_overlapped m (index + k) index (n - index - k);
        do m <- dtors m index (Z.to_nat k);
        Ok (mkLst m newcount (cap x) (moves x + (n - index)))
    else Ok (mkLst (buf x) newcount (cap x) (moves x)).

  (* ---- ListBase and List : List.h:458-674 --------------------------------- *)
  (* Insert : List.h:605-623; the copy and the move overload differ in the source only *)
  Definition insert (x : lst) (i : Z) (a : A) : res lst :=
    if (i >=? 0) && (i <=? count x) then
      do x <- insert_uninitialized x i 1;
      do m <- copy_ctors (buf x) i [a];
      Ok (mkLst m (count x) (cap x) (moves x))
    else Err.
  (* Insert(i, list[j]) : the argument is a reference into the list's own buffer.
     operator[] checks j; the reference dangles if the buffer is reallocated. *)
  Definition insert_own (x : lst) (i j : Z) : res lst :=
    if (j >=? 0) && (j <? count x) then
      if (i >=? 0) && (i <=? count x) then
        do y <- insert_uninitialized x i 1;
        if negb (cap y =? cap x) then UB else
        do s <- aget (buf y) j;
        match s with
        | Live a => do m <- copy_ctors (buf y) i [a]; Ok (mkLst m (count y) (cap y) (moves y))
        | _ => UB
        end
      else Err
    else Err.
  (* RemoveAt : List.h:507-515 *)
  Definition remove_at (x : lst) (i : Z) : res lst :=
    if (i >=? 0) && (i <? count x) then
      do m <- assign_overlapped (buf x) i (i + 1) (count x - i - 1);
      release (mkLst m (count x - 1) (cap x) (moves x + (count x - i - 1))) (count x)
    else Err.
  (* RemoveRange : List.h:521-530; index + _count is a signed 64-bit addition *)
  Definition remove_range (x : lst) (i n : Z) : res lst :=
    if (i >=? 0) && (i <=? count x) then
      if negb ((- 2 ^ 63 <=? i + n) && (i + n <? 2 ^ 63)) then UB else
      if (i + n >=? 0) && (i + n <=? count x) then
        do m <- assign_overlapped (buf x) i (i + n) (count x - i - n);
        release (mkLst m (count x - n) (cap x) (moves x + (count x - i - n))) (count x)
      else Err
    else Err.
  (* Clear : List.h:534-543 *)
  Definition clear (x : lst) : res lst :=
    do m <- dtors (buf x) 0 (Z.to_nat (count x));
    do _ <- deallocate m;
    Ok (mkLst [] 0 0 (moves x)).
  (* ~ListBase : List.h:467-474 *)
  Definition destruct (x : lst) : res unit :=
    match buf x with
    | [] => Ok tt
    | _ => do m <- dtors (buf x) 0 (Z.to_nat (count x)); deallocate m
    end.
  (* reading an element whose value is unspecified counts as UB *)
  Definition read (m : mem) (i : Z) : res A :=
    do s <- aget m i; match s with Live a => Ok a | _ => UB end.
  (* Get, operator[] : List.h:286-299 *)
  Definition get (x : lst) (i : Z) : res A :=
    if (i >=? 0) && (i <? count x) then read (buf x) i else Err.
  (* Set : List.h:646-662 *)
  Definition set (x : lst) (i : Z) (a : A) : res lst :=
    if (i >=? 0) && (i <? count x) then
      do m <- assign (buf x) i (Live a); Ok (mkLst m (count x) (cap x) (moves x))
    else Err.
  (* IndexOf : List.h:573-583 *)
  Fixpoint index_loop (m : mem) (a : A) (i : Z) (n : nat) : res Z :=
    match n with
    | O => Ok (-1)
    | S n' => do y <- read m i; if eqb y a then Ok i else index_loop m a (i + 1) n'
    end.
  Definition index_of (x : lst) (a : A) : res Z := index_loop (buf x) a 0 (Z.to_nat (count x)).
  (* Remove : List.h:628-640 *)
  Definition remove (x : lst) (a : A) : res (lst * bool) :=
    do i <- index_of x a;
    if (i >=? 0) && (i <? count x) then do x <- remove_at x i; Ok (x, true) else Ok (x, false).

  (* ---- programs over list variables --------------------------------------- *)
  Inductive op :=
  | LNew (v : nat)                   (* List<T> v; *)
  | LMoveNew (v w : nat)             (* List<T> v(std::move(w)); *)
  | LMoveAssign (v w : nat)          (* v = std::move(w); *)
  | LDestroy (v : nat)
  | LAdd (v : nat) (a : A)
  | LInsert (v : nat) (i : Z) (a : A)
  | LRemoveAt (v : nat) (i : Z)
  | LRemoveRange (v : nat) (i n : Z)
  | LRemove (v : nat) (a : A)
  | LClear (v : nat)
  | LSet (v : nat) (i : Z) (a : A)
  | LGet (v : nat) (i : Z)
  | LCount (v : nat)
  | LIndexOf (v : nat) (a : A)
  | LContains (v : nat) (a : A).

  Inductive out := RNone | RError | RInt (z : Z) | RBool (b : bool) | RVal (a : A).

  (* storage locations; None = no object there *)
  Definition vars := list (option lst).
  Definition var (s : vars) (v : nat) : res lst :=
    match nth_error s v with Some (Some x) => Ok x | _ => UB end.
  Definition free_var (s : vars) (v : nat) : res unit :=
    match nth_error s v with Some None => Ok tt | _ => UB end.

  Definition step_raw (s : vars) (o : op) : res (vars * out) :=
    match o with
    | LNew v => do _ <- free_var s v; Ok (upd s v (Some empty_lst), RNone)
    | LMoveNew v w =>                                       (* List.h:477-485 *)
        do _ <- free_var s v; do y <- var s w;
        Ok (upd (upd s v (Some y)) w (Some empty_lst), RNone)
    | LMoveAssign v w =>                                    (* List.h:488-502 *)
        do x <- var s v; do y <- var s w;
        do _ <- destruct x;
        (* this->buffer = _move.buffer, then _move.buffer = nullptr: for v = w the last
           assignment wins *)
        Ok (upd (upd s v (Some y)) w (Some empty_lst), RNone)
    | LDestroy v => do x <- var s v; do _ <- destruct x; Ok (upd s v None, RNone)
    | LAdd v a =>                                           (* List.h:588-599 *)
        do x <- var s v; do y <- insert x (count x) a; Ok (upd s v (Some y), RInt (count x))
    | LInsert v i a => do x <- var s v; do y <- insert x i a; Ok (upd s v (Some y), RInt i)
    | LRemoveAt v i => do x <- var s v; do y <- remove_at x i; Ok (upd s v (Some y), RBool true)
    | LRemoveRange v i n =>
        do x <- var s v; do y <- remove_range x i n; Ok (upd s v (Some y), RBool true)
    | LRemove v a => do x <- var s v; do (y, b) <- remove x a; Ok (upd s v (Some y), RBool b)
    | LClear v => do x <- var s v; do y <- clear x; Ok (upd s v (Some y), RBool true)
    | LSet v i a => do x <- var s v; do y <- set x i a; Ok (upd s v (Some y), RBool true)
    | LGet v i => do x <- var s v; do a <- get x i; Ok (s, RVal a)
    | LCount v => do x <- var s v; Ok (s, RInt (count x))
    | LIndexOf v a => do x <- var s v; do i <- index_of x a; Ok (s, RInt i)
    | LContains v a => do x <- var s v; do i <- index_of x a; Ok (s, RBool (negb (i =? -1)))
    end.
  (* every CHECK_ERROR precedes the first change *)
  Definition step (s : vars) (o : op) : res (vars * out) :=
    match step_raw s o with Err => Ok (s, RError) | r => r end.
  Fixpoint run (s : vars) (os : list op) : res (vars * list out) :=
    match os with
    | [] => Ok (s, [])
    | o :: os' => do (s', r) <- step s o; do (s'', rs) <- run s' os'; Ok (s'', r :: rs)
    end.

  (* ---- Array : List.h:308-450 --------------------------------------------- *)
  Record arr := mkArr { abuf : mem; acount : Z }.
  Definition empty_arr := mkArr [] 0.

  (* Array(vint) : List.h:319-325 *)
  Definition a_new (size : Z) : res arr :=
    if size >=? 0 then
      do m <- default_ctors (allocate size) 0 (Z.to_nat size); Ok (mkArr m size)
    else Err.
  (* Array(const T*, vint) : List.h:331-337; reading past the source is the caller's fault *)
  Definition a_from (src : list A) (size : Z) : res arr :=
    if size >=? 0 then
      if size <=? zlen src then
        do m <- copy_ctors (allocate size) 0 (firstn (Z.to_nat size) src); Ok (mkArr m size)
      else UB
    else Err.
  (* ~Array : List.h:339-346 *)
  Definition a_destruct (x : arr) : res unit :=
    match abuf x with
    | [] => Ok tt
    | _ => do m <- dtors (abuf x) 0 (Z.to_nat (acount x)); deallocate m
    end.
  (* Get : List.h:286-299 *)
  Definition a_get (x : arr) (i : Z) : res A :=
    if (i >=? 0) && (i <? acount x) then read (abuf x) i else Err.
  (* Set : List.h:399-415 *)
  Definition a_set (x : arr) (i : Z) (a : A) : res arr :=
    if (i >=? 0) && (i <? acount x) then
      do m <- assign (abuf x) i (Live a); Ok (mkArr m (acount x))
    else Err.
  (* IndexOf : List.h:383-393 *)
  Definition a_index_of (x : arr) (a : A) : res Z := index_loop (abuf x) a 0 (Z.to_nat (acount x)).
  (* Resize : List.h:431-449 *)
  Definition a_resize (x : arr) (size : Z) : res arr :=
    if size >=? 0 then
      let nb := allocate size in
      do (nb, m) <-
        (if size <? acount x then move_across nb 0 (abuf x) 0 (Z.to_nat size)
         else
           do (nb, m) <- move_across nb 0 (abuf x) 0 (Z.to_nat (acount x));
           do nb <- default_ctors nb (acount x) (Z.to_nat (size - acount x));
           Ok (nb, m));
      do m <- dtors m 0 (Z.to_nat (acount x));
      do _ <- deallocate m;
      Ok (mkArr nb size)
    else Err.

  Inductive aop :=
  | ANew (v : nat) (size : Z)
  | AFrom (v : nat) (src : list A) (size : Z)
  | AMoveNew (v w : nat)
  | AMoveAssign (v w : nat)
  | ADestroy (v : nat)
  | ASet (v : nat) (i : Z) (a : A)
  | AResize (v : nat) (size : Z)
  | AGet (v : nat) (i : Z)
  | ACount (v : nat)
  | AIndexOf (v : nat) (a : A)
  | AContains (v : nat) (a : A).

  Definition avars := list (option arr).
  Definition avar (s : avars) (v : nat) : res arr :=
    match nth_error s v with Some (Some x) => Ok x | _ => UB end.
  Definition afree (s : avars) (v : nat) : res unit :=
    match nth_error s v with Some None => Ok tt | _ => UB end.
  Definition astep_raw (s : avars) (o : aop) : res (avars * out) :=
    match o with
    | ANew v n => do _ <- afree s v; do x <- a_new n; Ok (upd s v (Some x), RNone)
    | AFrom v src n => do _ <- afree s v; do x <- a_from src n; Ok (upd s v (Some x), RNone)
    | AMoveNew v w =>                                       (* List.h:349-355 *)
        do _ <- afree s v; do y <- avar s w;
        Ok (upd (upd s v (Some y)) w (Some empty_arr), RNone)
    | AMoveAssign v w =>                                    (* List.h:358-370 *)
        do x <- avar s v; do y <- avar s w; do _ <- a_destruct x;
        Ok (upd (upd s v (Some y)) w (Some empty_arr), RNone)
    | ADestroy v => do x <- avar s v; do _ <- a_destruct x; Ok (upd s v None, RNone)
    | ASet v i a => do x <- avar s v; do y <- a_set x i a; Ok (upd s v (Some y), RBool true)
    | AResize v n => do x <- avar s v; do y <- a_resize x n; Ok (upd s v (Some y), RNone)
    | AGet v i => do x <- avar s v; do a <- a_get x i; Ok (s, RVal a)
    | ACount v => do x <- avar s v; Ok (s, RInt (acount x))
    | AIndexOf v a => do x <- avar s v; do i <- a_index_of x a; Ok (s, RInt i)
    | AContains v a => do x <- avar s v; do i <- a_index_of x a; Ok (s, RBool (negb (i =? -1)))
    end.
  Definition astep (s : avars) (o : aop) : res (avars * out) :=
    match astep_raw s o with Err => Ok (s, RError) | r => r end.
  Fixpoint arun (s : avars) (os : list aop) : res (avars * list out) :=
    match os with
    | [] => Ok (s, [])
    | o :: os' => do (s', r) <- astep s o; do (s'', rs) <- arun s' os'; Ok (s'', r :: rs)
    end.
End Containers.

Arguments Raw {A}. Arguments Moved {A}. Arguments Live {A} a.
Arguments mkLst {A}. Arguments buf {A}. Arguments count {A}. Arguments cap {A}. Arguments moves {A}.
Arguments empty_lst {A}. Arguments mkArr {A}. Arguments abuf {A}. Arguments acount {A}.
Arguments empty_arr {A}.
Arguments RNone {A}. Arguments RError {A}. Arguments RInt {A}. Arguments RBool {A}. Arguments RVal {A}.
Arguments LNew {A}. Arguments LMoveNew {A}. Arguments LMoveAssign {A}. Arguments LDestroy {A}.
Arguments LAdd {A}. Arguments LInsert {A}. Arguments LRemoveAt {A}. Arguments LRemoveRange {A}.
Arguments LRemove {A}. Arguments LClear {A}. Arguments LSet {A}. Arguments LGet {A}.
Arguments LCount {A}. Arguments LIndexOf {A}. Arguments LContains {A}.
Arguments ANew {A}. Arguments AFrom {A}. Arguments AMoveNew {A}. Arguments AMoveAssign {A}.
Arguments ADestroy {A}. Arguments ASet {A}. Arguments AResize {A}. Arguments AGet {A}.
Arguments ACount {A}. Arguments AIndexOf {A}. Arguments AContains {A}.
