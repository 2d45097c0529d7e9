(* Dictionaries from strings to strings: Dictionary<WString, WString> of
   Source/Collections/Dictionary.h over the lists of strings of SlModel.

   Dictionary variable d is its two members: list variable 2d of SlModel is keys (a
   SortedList), list variable 2d+1 is values (a List).  Searches compare string objects at
   addresses; insertions and removals are those of SlModel, so every step is a statement on
   string objects that changes reference counters.

   Simplifications: those of SlModel.  Add(Pair) and enumeration are not here. *)
From Verif Require Import Base StrModel SlModel.
From Verif Require DctModel.
Open Scope Z_scope.

Notation late := DctModel.late.

Definition kcell (d : nat) : nat := (2 * d)%nat.
Definition vcell (d : nat) : nat := (2 * d + 1)%nat.

(* ---- SortedList<WString> ------------------------------------------------------- *)
(* buffer[i] <=> item, operator<=> of strings (String.h:67-70) *)
Definition compare_at (s : state) (b : nat) (i : Z) (u : nat) : res comparison :=
  do (_, r) <- StrModel.step s (OCompare (adr b i) u);
  match r with RCmp c => Ok c | _ => UB end.
(* IndexOfInternal : List.h:698-727.  Result: (returned value, reference parameter);
   lo, hi, index are the variables start, end, index.  The ordering of strings is a
   std::strong_ordering, so the check for unordered keys is compiled out. *)
Fixpoint search (s : state) (b u : nat) (lo hi index : Z) (fuel : nat) : res (Z * Z) :=
  match fuel with
  | O => NoFuel
  | S fuel' =>
      if lo <=? hi then
        let index := lo + Z.quot (hi - lo) 2 in
        do c <- compare_at s b index u;
        match c with
        | Lt => search s b u (index + 1) hi index fuel'
        | Gt => search s b u lo (index - 1) index fuel'
        | Eq => Ok (index, index)
        end
      else Ok (-1, index)
  end.
Definition index_of_internal (s : store) (x : slist) (u : nat) : res (Z * Z) :=
  if held s (base x, room x) then search (objs s) (base x) u 0 (cnt x - 1) (-1) (Z.to_nat (cnt x + 1)) else UB.
(* IndexOf : List.h:797-801 *)
Definition s_index_of (s : store) (x : slist) (u : nat) : res Z :=
  do (r, _) <- index_of_internal s x u; Ok r.
(* Insert : List.h:729-743; no range check, so out of range is UB *)
Definition s_insert (s : store) (x : slist) (i : Z) (u : nat) (mv : bool) : res (store * slist) :=
  late (insert s x i u mv).
(* AddInternal : List.h:745-774; the last result is the index *)
Definition s_add (s : store) (x : slist) (u : nat) (mv : bool) : res (store * slist * Z) :=
  if cnt x =? 0 then do (s, y) <- s_insert s x 0 u mv; Ok (s, y, 0)
  else
    do (_, oi) <- index_of_internal s x u;
    if (oi >=? 0) && (oi <? cnt x) then
      do c <- compare_at (objs s) (base x) oi u;
      let oi := match c with Lt => oi + 1 | _ => oi end in
      do (s, y) <- s_insert s x oi u mv; Ok (s, y, oi)
    else Err.

(* ---- programs -------------------------------------------------------------------- *)
(* A string handed to a dictionary: a named variable as a const reference or as an rvalue
   reference; Keys()[i], Values()[i] or e[v], which are const references. *)
Inductive darg :=
| PVar (v : nat)
| PMove (v : nat)
| PKey (e : nat) (i : Z)
| PVal (e : nat) (i : Z)
| PAt (e : nat) (v : nat).
Definition moved (a : darg) : bool := match a with PMove _ => true | _ => false end.

Inductive dop :=
| MStr (o : op)
| MNew (d : nat)
| MMoveNew (d e : nat)                  (* Dictionary d(std::move(e)); *)
| MMoveAssign (d e : nat)               (* d = std::move(e); *)
| MDestroy (d : nat)
| MAdd (d : nat) (k v : darg)
| MSet (d : nat) (k v : darg)
| MRemove (d : nat) (k : darg)
| MClear (d : nat)
| MLoad (x : nat) (a : darg)            (* x = a; for a const reference a *)
| MContains (d : nat) (k : darg)        (* d.Keys().Contains(k) *)
| MCount (d : nat).

(* the address of an argument.  Get and operator[] : Dictionary.h:169-180; values.Get(-1)
   raises an error *)
Definition daddress (w : world) (a : darg) : res nat :=
  match a with
  | PVar v | PMove v => address w (AVar v)
  | PKey e i => address w (AItem (kcell e) i)
  | PVal e i => address w (AItem (vcell e) i)
  | PAt e v =>
      do u <- address w (AVar v); do x <- lvar w (kcell e);
      do i <- s_index_of (mem w) x u; address w (AItem (vcell e) i)
  end.

(* keys.Add(key), values.Insert(index, value): the end of AddInternal and one branch of
   SetInternal, Dictionary.h:97-98, 115-116.  Both arguments are addresses: the second is
   used after the first was perhaps moved from. *)
Definition d_insert (w : world) (d : nat) (x y : slist) (uk : nat) (mk : bool) (uv : nat) (mv : bool) : res world :=
  do (s, x, j) <- s_add (mem w) x uk mk;
  let w := put w s (kcell d) (Some x) in
  do (s, y) <- late (insert (mem w) y j uv mv);
  Ok (put w s (vcell d) (Some y)).
(* AddInternal : Dictionary.h:107-119 *)
Definition d_add (w : world) (d : nat) (uk : nat) (mk : bool) (uv : nat) (mv : bool) : res world :=
  do x <- lvar w (kcell d); do y <- lvar w (vcell d);
  do i <- s_index_of (mem w) x uk;
  if negb (i =? -1) then Err else d_insert w d x y uk mk uv mv.
(* SetInternal : Dictionary.h:87-105 *)
Definition d_set (w : world) (d : nat) (uk : nat) (mk : bool) (uv : nat) (mv : bool) : res world :=
  do x <- lvar w (kcell d); do y <- lvar w (vcell d);
  do i <- s_index_of (mem w) x uk;
  if i =? -1 then d_insert w d x y uk mk uv mv
  else
    (* values[index] = value *)
    do s <- set (mem w) y i uv mv; Ok (put w s (vcell d) (Some y)).

(* two list statements one after the other, the first on keys *)
Definition both (w : world) (a b : lop) : res world :=
  do (w, _) <- SlModel.step_raw w a; do (w, _) <- late (SlModel.step_raw w b); Ok w.

Definition step_raw (w : world) (o : dop) : res (world * tout) :=
  match o with
  | MStr o => SlModel.step_raw w (TStr o)
  | MNew d => do w <- both w (TNew (kcell d)) (TNew (vcell d)); Ok (w, TOut RNone)
  | MMoveNew d e =>                                        (* Dictionary.h:126-130 *)
      do w <- both w (TMoveNew (kcell d) (kcell e)) (TMoveNew (vcell d) (vcell e)); Ok (w, TOut RNone)
  | MMoveAssign d e =>                                     (* Dictionary.h:133-138 *)
      do w <- both w (TMoveAssign (kcell d) (kcell e)) (TMoveAssign (vcell d) (vcell e)); Ok (w, TOut RNone)
  | MDestroy d =>                                          (* members in reverse order *)
      do w <- both w (TDestroy (vcell d)) (TDestroy (kcell d)); Ok (w, TOut RNone)
  | MAdd d k v =>
      do uk <- daddress w k; do uv <- daddress w v;
      do w <- d_add w d uk (moved k) uv (moved v); Ok (w, TBool true)
  | MSet d k v =>
      do uk <- daddress w k; do uv <- daddress w v;
      do w <- d_set w d uk (moved k) uv (moved v); Ok (w, TBool true)
  | MRemove d k =>                                         (* Dictionary.h:243-257 *)
      do u <- daddress w k; do x <- lvar w (kcell d);
      do i <- s_index_of (mem w) x u;
      if negb (i =? -1) then
        do w <- both w (TRemoveAt (kcell d) i) (TRemoveAt (vcell d) i); Ok (w, TBool true)
      else Ok (w, TBool false)
  | MClear d =>                                            (* Dictionary.h:260-265 *)
      do w <- both w (TClear (kcell d)) (TClear (vcell d)); Ok (w, TBool true)
  | MLoad x a =>
      do v <- address w (AVar x); do u <- daddress w a;
      do (t, r) <- StrModel.step_raw (objs (mem w)) (OAssign v u);
      Ok (mkW (mkSt t (live (mem w))) (nv w) (lists w), TOut r)
  | MContains d k =>                                       (* List.h:789-792 *)
      do u <- daddress w k; do x <- lvar w (kcell d);
      do i <- s_index_of (mem w) x u; Ok (w, TBool (negb (i =? -1)))
  | MCount d => do x <- lvar w (kcell d); Ok (w, TOut (RInt (cnt x)))
  end.
(* every CHECK_ERROR precedes the first change *)
Definition step (w : world) (o : dop) : res (world * tout) :=
  match step_raw w o with Err => Ok (w, TOut RError) | r => r end.
Fixpoint run (w : world) (os : list dop) : res (world * list tout) :=
  match os with
  | [] => Ok (w, [])
  | o :: os' => do (w', r) <- step w o; do (w'', rs) <- run w' os'; Ok (w'', r :: rs)
  end.
Definition start (n m : nat) : world := start_world n (2 * m).
