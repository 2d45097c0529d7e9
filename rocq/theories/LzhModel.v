(* Lazy lists and enumerators as objects in memory: who owns which enumerator, when it is
   cloned, shared and deleted.  Source/Collections/Operation.h:225-943 (LazyList),
   OperationEnumerable.h, OperationSequence.h, OperationSelect.h, OperationWhere.h,
   OperationConcat.h, OperationPair.h, OperationSet.h, OperationCopyFrom.h:88-103.

   Simplifications: all element types are Z, so Pairwise joins its two values with a given
   function; numbers are unbounded; the container of From(...) does not change while it is in
   use; SortedList members are lists (C19).  Selectors and predicates are arbitrary and may
   throw (None). *)
From Verif Require Import Base.
Open Scope Z_scope.

(* The class of an enumerator and its data members other than the pointers to other enumerators *)
Inductive kind :=
| KEmpty                                               (* EmptyEnumerator : OperationEnumerable.h:21-51 *)
| KCont (l : list Z) (i : Z)                           (* ContainerEnumerator : OperationEnumerable.h:123-166 *)
| KOnce (l : list Z) (i : Z)                           (* enumerators of Dictionary and Group, whose Reset raises *)
| KRange (s n c : Z)                                   (* RangeEnumerator : OperationEnumerable.h:58-116 *)
| KReverse (l : list Z) (i : Z)                        (* ReverseEnumerator : OperationSequence.h:279-331 *)
| KSelect (f : Z -> option Z) (c : option Z)           (* SelectEnumerator : OperationSelect.h:21-73 *)
| KWhere (p : Z -> option bool) (i : Z)                (* WhereEnumerator : OperationWhere.h:19-73 *)
| KTake (n : Z)                                        (* TakeEnumerator : OperationSequence.h:22-69 *)
| KSkip (n : Z) (s : bool)                             (* SkipEnumerator : OperationSequence.h:76-136 *)
| KRepeat (n i r : Z)                                  (* RepeatEnumerator : OperationSequence.h:143-205 *)
| KDistinct (d : list Z) (c : option Z)                (* DistinctEnumerator : OperationSequence.h:212-272 *)
| KIntExc (r : list Z) (x : bool) (i : Z)              (* IntersectExceptEnumerator : OperationSet.h:22-82 *)
| KConcat (i : Z) (t : bool)                           (* ConcatEnumerator : OperationConcat.h:20-98 *)
| KPair (f : Z -> Z -> Z) (c : option Z).              (* PairwiseEnumerator : OperationPair.h:20-79 *)

(* The virtual methods, except Clone and the destructor.  The answer of a call is a number;
   1 stands for true and 0 for false. *)
Inductive method := Next | Reset | Current | Index | Evaluated.
Inductive which := One | Two.                          (* enumerator or enumerator1, enumerator2 *)

(* The body of a method: what it does to its own members and which calls it makes *)
Inductive code :=
| Return (z : Z)
| Raise                                                (* an exception *)
| Store (k : kind) (c : code)                          (* assign the data members *)
| Call (w : which) (m : method) (c : Z -> code)
| Again.                                               (* go round the loop of Next *)
Definition yes : Z := 1.
Definition no : Z := 0.
Definition truth (b : bool) : code := Return (if b then yes else no).
Definition ask (w : which) (m : method) (c : bool -> code) : code := Call w m (fun z => c (z =? yes)).
Definition fetch (o : option Z) : code := match o with Some z => Return z | None => Raise end.
Definition among (l : list Z) (x : Z) : bool := existsb (Z.eqb x) l.

(* for(vint i=0;i<count;i++) if(!enumerator->Next()) return false; : OperationSequence.h:116-122 *)
Fixpoint skipping (n : nat) (c : code) : code :=
  match n with O => c | S n' => ask One Next (fun b => if b then skipping n' c else truth false) end.

Definition next_code (k : kind) : code :=
  match k with
  | KEmpty => truth false
  | KCont l i => Store (KCont l (i + 1)) (truth ((i + 1 >=? 0) && (i + 1 <? zlen l)))
  | KOnce l i => Store (KOnce l (i + 1)) (truth ((i + 1 >=? 0) && (i + 1 <? zlen l)))
  | KRange s n c => if (s - 1 <=? c) && (c <? s + n - 1) then Store (KRange s n (c + 1)) (truth true) else truth false
  | KReverse l i => Store (KReverse l (i + 1)) (truth (i + 1 <? zlen l))
  | KSelect f c =>
      ask One Next (fun b =>
        if b then Call One Current (fun x => match f x with Some y => Store (KSelect f (Some y)) (truth true) | None => Raise end)
        else truth false)
  | KWhere p i =>
      ask One Next (fun b =>
        if b then Call One Current (fun x =>
          match p x with Some true => Store (KWhere p (i + 1)) (truth true) | Some false => Again | None => Raise end)
        else truth false)
  | KTake n => Call One Index (fun i => if i >=? n - 1 then truth false else Call One Next Return)
  | KSkip n s =>
      if s then Call One Next Return
      else Store (KSkip n true) (skipping (Z.to_nat n) (Call One Next Return))
  | KRepeat n i r =>
      if r <? n then
        ask One Next (fun b => if b then Store (KRepeat n (i + 1) r) (truth true)
                               else Store (KRepeat n i (r + 1)) (Call One Reset (fun _ => Again)))
      else truth false
  | KDistinct d c =>
      ask One Next (fun b =>
        if b then Call One Current (fun x => if among d x then Again else Store (KDistinct (x :: d) (Some x)) (truth true))
        else truth false)
  | KIntExc r x i =>
      ask One Next (fun b =>
        if b then Call One Current (fun v => if Bool.eqb (among r v) x then Store (KIntExc r x (i + 1)) (truth true) else Again)
        else truth false)
  | KConcat i t =>
      Store (KConcat (i + 1) t)
        (if t then Call Two Next Return
         else ask One Next (fun b => if b then truth true else Store (KConcat (i + 1) true) (Call Two Next Return)))
  | KPair f c =>
      ask One Next (fun b1 => if b1 then
        ask Two Next (fun b2 => if b2 then
          Call One Current (fun x => Call Two Current (fun y => Store (KPair f (Some (f x y))) (truth true)))
          else truth false) else truth false)
  end.
Definition reset_code (k : kind) : code :=
  match k with
  | KEmpty => Return no
  | KCont l i => Store (KCont l (-1)) (Return no)
  | KOnce l i => Raise
  | KRange s n c => Store (KRange s n (s - 1)) (Return no)
  | KReverse l i => Store (KReverse l (-1)) (Return no)
  | KSelect f c => Call One Reset Return
  | KWhere p i => Call One Reset (fun _ => Store (KWhere p (-1)) (Return no))
  | KTake n => Call One Reset Return
  | KSkip n s => Call One Reset (fun _ => Store (KSkip n false) (Return no))
  | KRepeat n i r => Call One Reset (fun _ => Store (KRepeat n (-1) 0) (Return no))
  | KDistinct d c => Call One Reset (fun _ => Store (KDistinct [] c) (Return no))
  | KIntExc r x i => Call One Reset (fun _ => Store (KIntExc r x (-1)) (Return no))
  | KConcat i t => Call One Reset (fun _ => Call Two Reset (fun _ => Store (KConcat (-1) false) (Return no)))
  | KPair f c => Call One Reset (fun _ => Call Two Reset Return)
  end.
(* containers raise for an index out of range, Nullable::Value raises when it is empty *)
Definition current_code (k : kind) : code :=
  match k with
  | KEmpty => Raise
  | KCont l i => fetch (znth l i)
  | KOnce l i => fetch (znth l i)
  | KRange s n c => Return c
  | KReverse l i => fetch (znth l (zlen l - 1 - i))
  | KSelect f c => fetch c
  | KWhere p i => Call One Current Return
  | KTake n => Call One Current Return
  | KSkip n s => Call One Current Return
  | KRepeat n i r => Call One Current Return
  | KDistinct d c => fetch c
  | KIntExc r x i => Call One Current Return
  | KConcat i t => Call (if t then Two else One) Current Return
  | KPair f c => fetch c
  end.
Definition index_code (k : kind) : code :=
  match k with
  | KEmpty => Return (-1)
  | KCont l i => Return i
  | KOnce l i => Return i
  | KRange s n c => Return (c - s)
  | KReverse l i => Return i
  | KSelect f c => Call One Index Return
  | KWhere p i => Return i
  | KTake n => Call One Index Return
  | KSkip n s => Call One Index (fun i => Return (i - n))
  | KRepeat n i r => Return i
  | KDistinct d c => Return (zlen d - 1)
  | KIntExc r x i => Return i
  | KConcat i t => Return i
  | KPair f c => Call One Index Return
  end.
Definition evaluated_code (k : kind) : code :=
  match k with
  | KEmpty | KCont _ _ | KOnce _ _ | KRange _ _ _ | KReverse _ _ => truth true
  | KSelect _ _ | KWhere _ _ | KDistinct _ _ | KIntExc _ _ _ => truth false      (* Interfaces.h:65 *)
  | KTake _ | KSkip _ _ | KRepeat _ _ _ => Call One Evaluated Return
  | KConcat _ _ | KPair _ _ => ask One Evaluated (fun b => if b then Call Two Evaluated Return else truth false)
  end.
Definition method_code (m : method) (k : kind) : code :=
  match m with
  | Next => next_code k | Reset => reset_code k | Current => current_code k
  | Index => index_code k | Evaluated => evaluated_code k
  end.

(* ---- memory ------------------------------------------------------------------------------ *)
(* an enumerator object and its owned pointers; None in the heap: deleted *)
Inductive cell := Cell (k : kind) (one two : option nat).
Definition heap : Type := list (option cell).
Definition get (h : heap) (p : nat) : option cell := match nth_error h p with Some (Some c) => Some c | _ => None end.
Definition alloc (h : heap) (c : cell) : heap * nat := (h ++ [Some c], length h).
Definition set_kind (h : heap) (p : nat) (k : kind) : res heap :=
  match get h p with Some (Cell _ a b) => Ok (upd h p (Some (Cell k a b))) | None => UB end.
Definition child (w : which) (h : heap) (p : nat) : res nat :=
  match get h p with
  | Some (Cell _ a b) => match (match w with One => a | Two => b end) with Some q => Ok q | None => UB end
  | None => UB
  end.

(* running a method body of the object at p; the second part of the answer is None when an
   exception came out *)
Fixpoint interp (call : heap -> nat -> method -> res (heap * option Z)) (again : heap -> res (heap * option Z)) (p : nat) (c : code) (h : heap)
  : res (heap * option Z) :=
  match c with
  | Return z => Ok (h, Some z)
  | Raise => Ok (h, None)
  | Store k c => do h <- set_kind h p k; interp call again p c h
  | Call w m c =>
      do q <- child w h p;
      do (h, r) <- call h q m;
      match r with Some z => interp call again p (c z) h | None => Ok (h, None) end
  | Again => again h
  end.
Fixpoint exec (fuel : nat) (h : heap) (p : nat) (m : method) : res (heap * option Z) :=
  match fuel with
  | O => NoFuel
  | S f =>
      match get h p with
      | Some (Cell k _ _) => interp (exec f) (fun h => exec f h p m) p (method_code m k) h
      | None => UB                                          (* a deleted object *)
      end
  end.

(* Clone(): every class copies its members and clones what it owns *)
Fixpoint clone (fuel : nat) (h : heap) (p : option nat) : res (heap * option nat) :=
  match p with
  | None => Ok (h, None)
  | Some q =>
      match fuel with
      | O => NoFuel
      | S f =>
          match get h q with
          | None => UB
          | Some (Cell k a b) =>
              do (h, a') <- clone f h a;
              do (h, b') <- clone f h b;
              let (h, r) := alloc h (Cell k a' b') in Ok (h, Some r)
          end
      end
  end.
(* delete: the destructors delete what they own *)
Fixpoint del (fuel : nat) (h : heap) (p : option nat) : res heap :=
  match p with
  | None => Ok h
  | Some q =>
      match fuel with
      | O => NoFuel
      | S f =>
          match get h q with
          | None => UB
          | Some (Cell k a b) =>
              do h <- del f h a;
              do h <- del f h b;
              match get h q with Some _ => Ok (upd h q None) | None => UB end
          end
      end
  end.
(* the recursion is never deeper than the number of objects *)
Definition clone_all (h : heap) (p : nat) : res (heap * nat) :=
  do (h, r) <- clone (S (length h)) h (Some p); match r with Some q => Ok (h, q) | None => UB end.
Definition delete_all (h : heap) (p : nat) : res heap := del (S (length h)) h (Some p).

(* ---- the program's variables ------------------------------------------------------------- *)
(* control blocks of Ptr<IEnumerator<T>>: counter and object; None: deleted *)
Notation block := (option (Z * nat)) (only parsing).
(* a variable of type LazyList<T>: no object (None), an empty Ptr, or a control block *)
Notation lvar := (option (option nat)) (only parsing).
(* a variable of type IEnumerator<T>*, owning its object *)
Notation evar := (option nat) (only parsing).
Record state := State { hp : heap; blocks : list block; lz : list lvar; en : list evar }.
Definition init (nl ne : nat) : state := State [] [] (repeat None nl) (repeat None ne).
Definition with_heap (s : state) (h : heap) : state := State h (blocks s) (lz s) (en s).

(* Ptr(T *pointer) : Pointer.h:135-145 *)
Definition new_block (s : state) (p : nat) : state * nat := (State (hp s) (blocks s ++ [Some (1, p)]) (lz s) (en s), length (blocks s)).
Definition set_lazy (s : state) (i : nat) (v : lvar) : state := State (hp s) (blocks s) (upd (lz s) i v) (en s).
Definition set_enum (s : state) (e : nat) (v : evar) : state := State (hp s) (blocks s) (lz s) (upd (en s) e v).
(* Inc, Dec : Pointer.h:89-110 *)
Definition acquire (s : state) (c : option nat) : res state :=
  match c with
  | None => Ok s
  | Some c =>
      match nth_error (blocks s) c with
      | Some (Some (n, p)) => Ok (State (hp s) (upd (blocks s) c (Some (n + 1, p))) (lz s) (en s))
      | _ => UB
      end
  end.
Definition release (s : state) (c : option nat) : res state :=
  match c with
  | None => Ok s
  | Some c =>
      match nth_error (blocks s) c with
      | Some (Some (n, p)) =>
          if n - 1 =? 0 then do h <- delete_all (hp s) p; Ok (State h (upd (blocks s) c None) (lz s) (en s))
          else Ok (State (hp s) (upd (blocks s) c (Some (n - 1, p))) (lz s) (en s))
      | _ => UB
      end
  end.
(* LazyList(IEnumerator<T>* enumerator) : Operation.h:246-249 *)
Definition make_lazy (s : state) (i p : nat) : state := let (s, c) := new_block s p in set_lazy s i (Some (Some c)).
(* xs() : Operation.h:230-240 *)
Definition xs (s : state) (v : option nat) : res (state * nat) :=
  match v with
  | None => let (h, p) := alloc (hp s) (Cell KEmpty None None) in Ok (with_heap s h, p)
  | Some c =>
      match nth_error (blocks s) c with
      | Some (Some (n, p)) => do (h, q) <- clone_all (hp s) p; Ok (with_heap s h, q)
      | _ => UB
      end
  end.
(* while (enumerator->Next()) ds.Add(enumerator->Current()) : OperationCopyFrom.h:97-101 *)
Fixpoint copy_loop (fuel : nat) (h : heap) (p : nat) (acc : list Z) : res (heap * option (list Z)) :=
  match fuel with
  | O => NoFuel
  | S f =>
      do (h, r) <- exec f h p Next;
      match r with
      | None => Ok (h, None)
      | Some b =>
          if b =? yes then
            do (h, r) <- exec f h p Current;
            match r with None => Ok (h, None) | Some v => copy_loop f h p (acc ++ [v]) end
          else Ok (h, Some acc)
      end
  end.
(* CopyFrom(list, lazyList): the enumerator is held by a Ptr and deleted on every way out *)
Definition copy_from (fuel : nat) (s : state) (v : option nat) : res (state * option (list Z)) :=
  do (s, p) <- xs s v;
  do (h, r) <- copy_loop fuel (hp s) p [];
  do h <- delete_all h p;
  Ok (with_heap s h, r).

Inductive source := SList (l : list Z) | SOnce (l : list Z) | SRange (start count : Z).
Definition source_kind (x : source) : kind :=
  match x with SList l => KCont l (-1) | SOnce l => KOnce l (-1) | SRange s n => KRange s n (s - 1) end.
Inductive unary := USelect (f : Z -> option Z) | UWhere (p : Z -> option bool) | UTake (n : Z) | USkip (n : Z) | URepeat (n : Z) | UDistinct.
Definition unary_kind (u : unary) : kind :=
  match u with
  | USelect f => KSelect f None | UWhere p => KWhere p (-1) | UTake n => KTake n | USkip n => KSkip n false
  | URepeat n => KRepeat n (-1) 0 | UDistinct => KDistinct [] None
  end.
Inductive binary := BConcat | BPairwise (f : Z -> Z -> Z).
Definition binary_kind (b : binary) : kind := match b with BConcat => KConcat (-1) false | BPairwise f => KPair f None end.

Inductive op :=
| LEmpty (i : nat)                       (* LazyList<T> i; : Operation.h:291-293 *)
| LSource (i : nat) (x : source)         (* LazyList<T> i = From(...) or Range(...) : 253-263, 951-1008 *)
| LCopy (i j : nat)                      (* LazyList<T> i(j); : 267-271 *)
| LMove (i j : nat)                      (* LazyList<T> i(std::move(j)); : 275-279 *)
| LAssign (i j : nat)                    (* i = j; : 295-300 *)
| LMoveAssign (i j : nat)                (* i = std::move(j); : 302-307 *)
| LDrop (i : nat)                        (* end of life of i *)
| LUnary (i : nat) (u : unary) (j : nat)       (* i = j.Select(f) ... : 328-350, 702-752 *)
| LBinary (i : nat) (b : binary) (j k : nat)   (* i = j.Concat(k), j.Pairwise(k) : 686-689, 787-791 *)
| LSetOp (i : nat) (keep : bool) (j k : nat)   (* new IntersectExceptEnumerator(j.xs(), k) : 805-825;
                                                  Intersect and Except are this, then Distinct, then the
                                                  end of life of the intermediate list *)
| LReverse (i j : nat)                   (* i = j.Reverse() : 764-767 *)
| LEvaluate (i j : nat) (force : bool)   (* i = j.Evaluate(force) : 861-877 *)
| LAdopt (i e : nat)                     (* LazyList<T> i(e); takes over the enumerator e : 246-249 *)
| ECreate (e i : nat)                    (* e = i.CreateEnumerator(); : 309-312 *)
| EClone (e f : nat)                     (* e = f->Clone(); *)
| ECall (e : nat) (m : method)           (* e->Next(), e->Current(), ... *)
| EDelete (e : nat).                     (* delete e; *)

(* what the caller sees; OBad: the program may not do this now (such an op is skipped) *)
Inductive out := ODone | OAnswer (z : Z) | ORaised | OBad.
Definition bad (s : state) : res (state * out) := Ok (s, OBad).
Definition free {X : Type} (l : list (option X)) (i : nat) : bool := match nth_error l i with Some None => true | _ => false end.
Definition look {X : Type} (l : list (option X)) (i : nat) : option X := match nth_error l i with Some (Some x) => Some x | _ => None end.

Definition step (fuel : nat) (s : state) (o : op) : res (state * out) :=
  match o with
  | LEmpty i => if free (lz s) i then Ok (set_lazy s i (Some None), ODone) else bad s
  | LSource i x =>
      if free (lz s) i then
        let (h, p) := alloc (hp s) (Cell (source_kind x) None None) in Ok (make_lazy (with_heap s h) i p, ODone)
      else bad s
  | LCopy i j =>
      match free (lz s) i, look (lz s) j with
      | true, Some v => do s <- acquire s v; Ok (set_lazy s i (Some v), ODone)
      | _, _ => bad s
      end
  | LMove i j =>                                  (* copy the Ptr, then assign nullptr to the source *)
      match free (lz s) i, look (lz s) j with
      | true, Some v =>
          do s <- acquire s v; let s := set_lazy s i (Some v) in
          do s <- release s v; Ok (set_lazy s j (Some None), ODone)
      | _, _ => bad s
      end
  | LAssign i j =>                                (* Ptr::operator= : Pointer.h:241-254, nothing for itself *)
      match look (lz s) i, look (lz s) j with
      | Some w, Some v =>
          if (i =? j)%nat then Ok (s, ODone)
          else do s <- release s w; do s <- acquire s v; Ok (set_lazy s i (Some v), ODone)
      | _, _ => bad s
      end
  | LMoveAssign i j =>
      match look (lz s) i, look (lz s) j with
      | Some w, Some v =>
          do s <- (if (i =? j)%nat then Ok s else do s <- release s w; do s <- acquire s v; Ok (set_lazy s i (Some v)));
          do s <- release s v; Ok (set_lazy s j (Some None), ODone)
      | _, _ => bad s
      end
  | LDrop i =>
      match look (lz s) i with
      | Some v => do s <- release s v; Ok (set_lazy s i None, ODone)
      | None => bad s
      end
  | LUnary i u j =>
      match free (lz s) i, look (lz s) j with
      | true, Some v =>
          do (s, p) <- xs s v;
          let (h, q) := alloc (hp s) (Cell (unary_kind u) (Some p) None) in Ok (make_lazy (with_heap s h) i q, ODone)
      | _, _ => bad s
      end
  | LBinary i b j k =>
      match free (lz s) i, look (lz s) j, look (lz s) k with
      | true, Some v, Some w =>
          do (s, p) <- xs s v;
          do (s, p2) <- xs s w;
          let (h, q) := alloc (hp s) (Cell (binary_kind b) (Some p) (Some p2)) in Ok (make_lazy (with_heap s h) i q, ODone)
      | _, _, _ => bad s
      end
  | LSetOp i keep j k =>                           (* no destructor runs when the constructor throws *)
      match free (lz s) i, look (lz s) j, look (lz s) k with
      | true, Some v, Some w =>
          do (s, p) <- xs s v;
          do (s, r) <- copy_from fuel s w;
          match r with
          | Some vs =>
              let (h, q) := alloc (hp s) (Cell (KIntExc vs keep (-1)) (Some p) None) in Ok (make_lazy (with_heap s h) i q, ODone)
          | None => Ok (s, ORaised)
          end
      | _, _, _ => bad s
      end
  | LReverse i j =>
      match free (lz s) i, look (lz s) j with
      | true, Some v =>
          do (s, r) <- copy_from fuel s v;
          match r with
          | Some vs => let (h, q) := alloc (hp s) (Cell (KReverse vs (-1)) None None) in Ok (make_lazy (with_heap s h) i q, ODone)
          | None => Ok (s, ORaised)
          end
      | _, _ => bad s
      end
  | LEvaluate i j force =>
      match free (lz s) i, look (lz s) j with
      | true, Some None => Ok (set_lazy s i (Some None), ODone)
      | true, Some (Some c) =>
          match nth_error (blocks s) c with
          | Some (Some (n, p)) =>
              do (h, r) <- (if force then Ok (hp s, Some no) else exec fuel (hp s) p Evaluated);
              let s := with_heap s h in
              match r with
              | None => Ok (s, ORaised)
              | Some b =>
                  if b =? yes then do s <- acquire s (Some c); Ok (set_lazy s i (Some (Some c)), ODone)
                  else
                    do (s, r) <- copy_from fuel s (Some c);
                    match r with
                    | Some vs => let (h, q) := alloc (hp s) (Cell (KCont vs (-1)) None None) in Ok (make_lazy (with_heap s h) i q, ODone)
                    | None => Ok (s, ORaised)
                    end
              end
          | _ => UB
          end
      | _, _ => bad s
      end
  | LAdopt i e =>
      match free (lz s) i, look (en s) e with
      | true, Some p => Ok (make_lazy (set_enum s e None) i p, ODone)
      | _, _ => bad s
      end
  | ECreate e i =>
      match free (en s) e, look (lz s) i with
      | true, Some v => do (s, p) <- xs s v; Ok (set_enum s e (Some p), ODone)
      | _, _ => bad s
      end
  | EClone e f =>
      match free (en s) e, look (en s) f with
      | true, Some p => do (h, q) <- clone_all (hp s) p; Ok (set_enum (with_heap s h) e (Some q), ODone)
      | _, _ => bad s
      end
  | ECall e m =>
      match look (en s) e with
      | Some p => do (h, r) <- exec fuel (hp s) p m; Ok (with_heap s h, match r with Some z => OAnswer z | None => ORaised end)
      | None => bad s
      end
  | EDelete e =>
      match look (en s) e with
      | Some p => do h <- delete_all (hp s) p; Ok (set_enum (with_heap s h) e None, ODone)
      | None => bad s
      end
  end.
Fixpoint run (fuel : nat) (s : state) (ops : list op) : res (state * list out) :=
  match ops with
  | [] => Ok (s, [])
  | o :: ops => do (s, x) <- step fuel s o; do (s, xs) <- run fuel s ops; Ok (s, x :: xs)
  end.
