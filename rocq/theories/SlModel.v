(* Lists of strings: List<WString> of Source/Collections/List.h over the strings of
   Source/Strings/String.h (StrModel).

   A string object lives at an address: a number in the table [vars] of StrModel.  The
   first [nv] addresses are the named string variables of the program; the buffers of
   lists are ranges of further addresses.  AllocateBuffer hands out addresses never used
   before; raw storage is an address without an object.  Every constructor, assignment
   and destructor call that the list code makes on an element is a statement of StrModel
   on addresses, so it changes the reference counters of the strings involved.

   Simplifications: those of StrModel and LstModel (one thread, allocation succeeds). *)
From Verif Require Import Base StrModel.
Open Scope Z_scope.

(* buffer, count, capacity: List.h:265-266, 463.  With capacity 0 the buffer is nullptr. *)
Record slist := mkSl { base : nat; cnt : Z; room : Z }.
Definition empty_list : slist := mkSl 0 0 0.

(* &buffer[i] *)
Definition adr (b : nat) (i : Z) : nat := (b + Z.to_nat i)%nat.

(* ---- memory_management : List.h:25-208 ------------------------------------- *)
(* CallMoveCtors : List.h:55-69 *)
Fixpoint move_ctors (db : nat) (di : Z) (sb : nat) (si : Z) (n : nat) : list op :=
  match n with
  | O => []
  | S n' => OInit (adr db di) (EMove (adr sb si)) :: move_ctors db (di + 1) sb (si + 1) n'
  end.
(* CallMoveAssignmentsOverlapped : List.h:71-95; elements are assigned from the front when
   moving towards the front, from the back otherwise *)
Fixpoint assign_fwd (b : nat) (di si : Z) (n : nat) : list op :=
  match n with
  | O => []
  | S n' => OMoveAssign (adr b di) (adr b si) :: assign_fwd b (di + 1) (si + 1) n'
  end.
Fixpoint assign_bwd (b : nat) (di si : Z) (n : nat) : list op :=
  match n with
  | O => []
  | S n' => OMoveAssign (adr b (di + Z.of_nat n')) (adr b (si + Z.of_nat n')) :: assign_bwd b di si n'
  end.
Definition assign_overlapped (b : nat) (di si n : Z) : list op :=
  if di <? si then assign_fwd b di si (Z.to_nat n)
  else if di >? si then assign_bwd b di si (Z.to_nat n)
  else [].
(* CallDtors : List.h:97-107 *)
Fixpoint dtors (b : nat) (i : Z) (n : nat) : list op :=
  match n with
  | O => []
  | S n' => ODestroy (adr b i) :: dtors b (i + 1) n'
  end.

(* addresses a statement of the list code works on *)
Definition touched (o : op) : list nat :=
  match o with
  | OInit d (EMove u) => [d; u]
  | OMoveAssign d u => [d; u]
  | ODestroy d => [d]
  | _ => []
  end.
(* inside one of the buffers (start, size) *)
Definition inside (sp : list (nat * Z)) (a : nat) : bool :=
  existsb (fun p => (fst p <=? a)%nat && (Z.of_nat a <? Z.of_nat (fst p) + snd p)) sp.

(* Running element statements; leaving the buffers in use is UB. *)
Fixpoint elems (sp : list (nat * Z)) (p : list op) (s : state) : res state :=
  match p with
  | [] => Ok s
  | o :: p' =>
      if forallb (inside sp) (touched o) then do (s, _) <- step s o; elems sp p' s else UB
  end.

(* string objects, and the buffers (start, size) that are allocated *)
Record store := mkSt { objs : state; live : list (nat * Z) }.
(* an allocated buffer, or nullptr *)
Definition held (m : store) (p : nat * Z) : bool :=
  (snd p =? 0) || existsb (fun q => (fst q =? fst p)%nat && (snd q =? snd p)) (live m).
(* element statements on buffers; working on a buffer that is not allocated is UB *)
Definition exec (sp : list (nat * Z)) (p : list op) (m : store) : res store :=
  if forallb (held m) sp then do s <- elems sp p (objs m); Ok (mkSt s (live m)) else UB.

(* AllocateBuffer : List.h:109-114 *)
Definition allocate (m : store) (size : Z) : store * nat :=
  let s := objs m in
  (mkSt (mkState (hp s) (vars s ++ repeat None (Z.to_nat size))) ((length (vars s), size) :: live m),
   length (vars s)).
(* DeallocateBuffer : List.h:116-121; nullptr is ignored.  Freeing a buffer that is not
   allocated is UB; freeing a buffer that still holds a string would lose its share of the
   counter and is counted as UB. *)
Definition no_object (s : state) (a : nat) : bool :=
  match nth_error (vars s) a with Some None => true | _ => false end.
Definition deallocate (m : store) (b : nat) (size : Z) : res store :=
  if size =? 0 then Ok m else
  if held m (b, size) && forallb (no_object (objs m)) (seq b (Z.to_nat size)) then
    Ok (mkSt (objs m) (filter (fun q => negb (fst q =? b)%nat) (live m)))
  else UB.

(* ReleaseUnnecessaryBuffer : List.h:123-146 (called with newCount = count) *)
Definition release (s : store) (x : slist) (old_count : Z) : res (store * slist) :=
  if room x =? 0 then Ok (s, x) else
  let n := cnt x in
  let b := base x in
  do s <- (if n <? old_count then exec [(b, room x)] (dtors b n (Z.to_nat (old_count - n))) s else Ok s);
  if (n <=? room x / 2) && (n <=? 8) then
    let newcap := room x * 5 / 8 in
    if n <? newcap then
      let (s, nb) := allocate s newcap in
      do s <- exec [(nb, newcap); (b, room x)]
                (move_ctors nb 0 b 0 (Z.to_nat n) ++ dtors b 0 (Z.to_nat n)) s;
      do s <- deallocate s b (room x);
      Ok (s, mkSl nb n newcap)
    else Ok (s, x)
  else Ok (s, x).

(* InsertUninitializedItems : List.h:148-178 *)
Definition insert_uninitialized (s : store) (x : slist) (index k : Z) : res (store * slist) :=
  let n := cnt x in
  let b := base x in
  let newcount := n + k in
  if newcount >? room x then
    let newcap := if newcount <? room x then room x else newcount * 5 / 4 + 1 in
    let (s, nb) := allocate s newcap in
    do s <- exec [(nb, newcap); (b, room x)]
              (move_ctors nb 0 b 0 (Z.to_nat index) ++
               move_ctors nb (index + k) b index (Z.to_nat (n - index)) ++
               dtors b 0 (Z.to_nat n)) s;
    do s <- deallocate s b (room x);
    Ok (s, mkSl nb newcount newcap)
  else if index <? n then
    if k >=? n - index then
      do s <- exec [(b, room x)]
                (move_ctors b (index + k) b index (Z.to_nat (n - index)) ++
                 dtors b index (Z.to_nat (n - index))) s;
      Ok (s, mkSl b newcount (room x))
    else
      do s <- exec [(b, room x)]
                (move_ctors b n b (n - k) (Z.to_nat k) ++
                 assign_overlapped b (index + k) index (n - index - k) ++
                 dtors b index (Z.to_nat k)) s;
      Ok (s, mkSl b newcount (room x))
  else Ok (s, mkSl b newcount (room x)).

(* ---- ListBase and List : List.h:458-674 ------------------------------------- *)
(* Insert(vint, const T& ) and Insert(vint, T&& ) : List.h:605-623.  [u] is the address of
   the argument; [mv] says which overload.  An argument that lies in the list's own buffer
   is invalid when the buffer was replaced (C66): with a new buffer, using it is UB. *)
Definition insert (s : store) (x : slist) (i : Z) (u : nat) (mv : bool) : res (store * slist) :=
  if (i >=? 0) && (i <=? cnt x) then
    do (s, y) <- insert_uninitialized s x i 1;
    if negb (base y =? base x)%nat && inside [(base x, room x)] u then UB else
    if held s (base y, room y) && inside [(base y, room y)] (adr (base y) i) then
      do (t, _) <- step (objs s) (OInit (adr (base y) i) (if mv then EMove u else ECopy u));
      Ok (mkSt t (live s), y)
    else UB
  else Err.
(* RemoveAt : List.h:507-515 *)
Definition remove_at (s : store) (x : slist) (i : Z) : res (store * slist) :=
  if (i >=? 0) && (i <? cnt x) then
    do s <- exec [(base x, room x)] (assign_overlapped (base x) i (i + 1) (cnt x - i - 1)) s;
    release s (mkSl (base x) (cnt x - 1) (room x)) (cnt x)
  else Err.
(* RemoveRange : List.h:521-530; index + _count is a signed 64-bit addition *)
Definition remove_range (s : store) (x : slist) (i n : Z) : res (store * slist) :=
  if (i >=? 0) && (i <=? cnt x) then
    if negb ((- 2 ^ 63 <=? i + n) && (i + n <? 2 ^ 63)) then UB else
    if (i + n >=? 0) && (i + n <=? cnt x) then
      do s <- exec [(base x, room x)] (assign_overlapped (base x) i (i + n) (cnt x - i - n)) s;
      release s (mkSl (base x) (cnt x - n) (room x)) (cnt x)
    else Err
  else Err.
(* Clear : List.h:534-543 *)
Definition clear (s : store) (x : slist) : res (store * slist) :=
  do s <- exec [(base x, room x)] (dtors (base x) 0 (Z.to_nat (cnt x))) s;
  do s <- deallocate s (base x) (room x);
  Ok (s, empty_list).
(* ~ListBase : List.h:467-474 *)
Definition destruct (s : store) (x : slist) : res store :=
  if room x =? 0 then Ok s else
  do s <- exec [(base x, room x)] (dtors (base x) 0 (Z.to_nat (cnt x))) s;
  do s <- deallocate s (base x) (room x);
  Ok s.
(* Set(vint, const T& ), Set(vint, T&& ) : List.h:646-662 *)
Definition set (s : store) (x : slist) (i : Z) (u : nat) (mv : bool) : res store :=
  if (i >=? 0) && (i <? cnt x) then
    if held s (base x, room x) && inside [(base x, room x)] (adr (base x) i) then
      do (t, _) <- step (objs s) (if mv then OMoveAssign (adr (base x) i) u else OAssign (adr (base x) i) u);
      Ok (mkSt t (live s))
    else UB
  else Err.
(* IndexOf : List.h:573-583, with operator== of strings (String.h:67-70) *)
Fixpoint index_loop (s : state) (b u : nat) (i : Z) (n : nat) : res Z :=
  match n with
  | O => Ok (-1)
  | S n' =>
      do (_, r) <- step s (OCompare (adr b i) u);
      match r with
      | RCmp Eq => Ok i
      | RCmp _ => index_loop s b u (i + 1) n'
      | _ => UB
      end
  end.
Definition index_of (s : store) (x : slist) (u : nat) : res Z :=
  if held s (base x, room x) then index_loop (objs s) (base x) u 0 (Z.to_nat (cnt x)) else UB.
(* Remove : List.h:628-640 *)
Definition remove (s : store) (x : slist) (u : nat) : res (store * slist * bool) :=
  do i <- index_of s x u;
  if (i >=? 0) && (i <? cnt x) then do (s, x) <- remove_at s x i; Ok (s, x, true) else Ok (s, x, false).

(* ---- programs ----------------------------------------------------------------- *)
(* A string handed to a list: a named variable, or the reference list[i]. *)
Inductive arg := AVar (w : nat) | AItem (l : nat) (i : Z).

Inductive lop :=
| TStr (o : op)                              (* a statement about named string variables *)
| TNew (l : nat)                             (* List<WString> l; *)
| TMoveNew (l m : nat)                       (* List<WString> l(std::move(m)); *)
| TMoveAssign (l m : nat)                    (* l = std::move(m); *)
| TDestroy (l : nat)
| TAdd (l : nat) (a : arg) (mv : bool)       (* l.Add(a); or l.Add(std::move(a)); *)
| TInsert (l : nat) (i : Z) (a : arg) (mv : bool)
| TSet (l : nat) (i : Z) (a : arg) (mv : bool)
| TRemoveAt (l : nat) (i : Z)
| TRemoveRange (l : nat) (i n : Z)
| TRemove (l : nat) (a : arg)
| TClear (l : nat)
| TRead (d l : nat) (i : Z)                  (* d = l[i]; *)
| TIndexOf (l : nat) (a : arg)
| TContains (l : nat) (a : arg)
| TCount (l : nat).

Inductive tout := TOut (r : out) | TBool (b : bool).

(* objects and buffers, number of named variables, list variables (None = no list there) *)
Record world := mkW { mem : store; nv : nat; lists : list (option slist) }.
Definition start_world (n m : nat) : world := mkW (mkSt (init n) []) n (repeat None m).
Definition strs (w : world) : state := objs (mem w).

Definition lvar (w : world) (l : nat) : res slist :=
  match nth_error (lists w) l with Some (Some x) => Ok x | _ => UB end.
Definition lfree (w : world) (l : nat) : res unit :=
  match nth_error (lists w) l with Some None => Ok tt | _ => UB end.
(* the address of an argument; operator[] checks the index (List.h:668-672) *)
Definition address (w : world) (a : arg) : res nat :=
  match a with
  | AVar v => if (v <? nv w)%nat then Ok v else UB
  | AItem l i =>
      do x <- lvar w l;
      if (i >=? 0) && (i <? cnt x) then
        if held (mem w) (base x, room x) then Ok (adr (base x) i) else UB
      else Err
  end.

(* the variables a statement mentions *)
Definition expr_vars (e : expr) : list nat :=
  match e with
  | EEmpty | ELit _ | ETakeOver _ _ | EChar _ | ECopyFrom _ _ | EUnmanaged _ => []
  | ECopy w | EMove w | ELeft w _ | ERight w _ | ESub w _ _ | ERemove w _ _
  | EConcatLit w _ | ELitConcat _ w => [w]
  | EInsert w _ x | EConcat w x => [w; x]
  end.
Definition op_vars (o : op) : list nat :=
  match o with
  | OInit v e | OSet v e => v :: expr_vars e
  | OAssign v w | OMoveAssign v w | OCompare v w => [v; w]
  | ODestroy v | OBuffer v | OAt v _ | OLength v | OIndexOf v _ => [v]
  end.

Definition put (w : world) (s : store) (l : nat) (x : option slist) : world :=
  mkW s (nv w) (upd (lists w) l x).

Definition step_raw (w : world) (o : lop) : res (world * tout) :=
  let s := mem w in
  match o with
  | TStr o =>
      if forallb (fun v => (v <? nv w)%nat) (op_vars o) then
        do (t, r) <- StrModel.step_raw (objs s) o; Ok (mkW (mkSt t (live s)) (nv w) (lists w), TOut r)
      else UB
  | TNew l => do _ <- lfree w l; Ok (put w s l (Some empty_list), TOut RNone)
  | TMoveNew l m =>                                        (* List.h:477-485 *)
      do _ <- lfree w l; do y <- lvar w m;
      Ok (put (put w s l (Some y)) s m (Some empty_list), TOut RNone)
  | TMoveAssign l m =>                                     (* List.h:488-502 *)
      do x <- lvar w l; do y <- lvar w m;
      do s <- destruct s x;
      Ok (put (put w s l (Some y)) s m (Some empty_list), TOut RNone)
  | TDestroy l => do x <- lvar w l; do s <- destruct s x; Ok (put w s l None, TOut RNone)
  | TAdd l a mv =>                                         (* List.h:588-599 *)
      do x <- lvar w l; do u <- address w a;
      do (s, y) <- insert s x (cnt x) u mv; Ok (put w s l (Some y), TOut (RInt (cnt x)))
  | TInsert l i a mv =>
      do x <- lvar w l; do u <- address w a;
      do (s, y) <- insert s x i u mv; Ok (put w s l (Some y), TOut (RInt i))
  | TSet l i a mv =>
      do x <- lvar w l; do u <- address w a;
      do s <- set s x i u mv; Ok (put w s l (Some x), TBool true)
  | TRemoveAt l i =>
      do x <- lvar w l; do (s, y) <- remove_at s x i; Ok (put w s l (Some y), TBool true)
  | TRemoveRange l i n =>
      do x <- lvar w l; do (s, y) <- remove_range s x i n; Ok (put w s l (Some y), TBool true)
  | TRemove l a =>
      do x <- lvar w l; do u <- address w a;
      do (s, y, b) <- remove s x u; Ok (put w s l (Some y), TBool b)
  | TClear l => do x <- lvar w l; do (s, y) <- clear s x; Ok (put w s l (Some y), TBool true)
  | TRead d l i =>
      do v <- address w (AVar d); do u <- address w (AItem l i);
      do (t, r) <- StrModel.step_raw (objs s) (OAssign v u); Ok (mkW (mkSt t (live s)) (nv w) (lists w), TOut r)
  | TIndexOf l a =>
      do x <- lvar w l; do u <- address w a; do i <- index_of s x u; Ok (w, TOut (RInt i))
  | TContains l a =>
      do x <- lvar w l; do u <- address w a; do i <- index_of s x u;
      Ok (w, TBool (negb (i =? -1)))
  | TCount l => do x <- lvar w l; Ok (w, TOut (RInt (cnt x)))
  end.
(* every CHECK_ERROR precedes the first change *)
Definition step (w : world) (o : lop) : res (world * tout) :=
  match step_raw w o with Err => Ok (w, TOut RError) | r => r end.
Fixpoint run (w : world) (os : list lop) : res (world * list tout) :=
  match os with
  | [] => Ok (w, [])
  | o :: os' => do (w', r) <- step w o; do (w'', rs) <- run w' os'; Ok (w'', r :: rs)
  end.
