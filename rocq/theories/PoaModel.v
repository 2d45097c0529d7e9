(* PushOnlyAllocator (Source/Collections/List.h:841-886). *)
From Verif Require Import Base.
Open Scope Z_scope.

(* the heap: blocks of objects (None: a deleted block); a pointer is a block and a column *)
Definition heap (V : Type) := list (option (list V)).
Definition ptr : Type := nat * Z.
Definition load {V} (h : heap V) (p : ptr) : res V :=
  match nth_error h (fst p) with Some (Some c) => aget c (snd p) | _ => UB end.
Definition store {V} (h : heap V) (p : ptr) (v : V) : res (heap V) :=
  match nth_error h (fst p) with
  | Some (Some c) => do c <- aset c (snd p) v; Ok (upd h (fst p) (Some c))
  | _ => UB
  end.
(* new T[n]: an exception when n is negative; v is what the default constructor leaves *)
Definition alloc {V} (v : V) (h : heap V) (n : Z) : res (heap V * nat) :=
  if n <? 0 then Err else Ok (h ++ [Some (repeat v (Z.to_nat n))], length h).
(* delete[] *)
Definition free {V} (h : heap V) (b : nat) : res (heap V) :=
  match nth_error h b with Some (Some _) => Ok (upd h b None) | _ => UB end.

(* 844-847: blockSize, allocatedSize, blocks.  List<T*> is its list of elements *)
Record poa := mkPoa { bsize : Z; allocated : Z; blocks : list nat }.
(* 852-856 *)
Definition poa_new (bs : Z) : poa := mkPoa bs 0 [].
(* 866-875 Get.  The address of an element outside of the block is undefined. *)
Definition poa_get (a : poa) (i : Z) : res (option ptr) :=
  if i >=? allocated a then Ok None
  else if bsize a =? 0 then UB
  else
    let row := Z.quot i (bsize a) in
    let col := Z.rem i (bsize a) in
    match znth (blocks a) row with
    | None => Err
    | Some b => if (0 <=? col) && (col <? bsize a) then Ok (Some (b, col)) else UB
    end.
(* 877-885 Create *)
Definition poa_create {V} (v : V) (h : heap V) (a : poa) : res (heap V * poa * option ptr) :=
  do (h, bl) <- (if allocated a =? zlen (blocks a) * bsize a
                 then do (h, b) <- alloc v h (bsize a); Ok (h, blocks a ++ [b])
                 else Ok (h, blocks a));
  let a := mkPoa (bsize a) (allocated a + 1) bl in
  do p <- poa_get a (allocated a - 1);
  Ok (h, a, p).
(* 858-864 the destructor *)
Fixpoint free_all {V} (h : heap V) (l : list nat) : res (heap V) :=
  match l with [] => Ok h | b :: l => do h <- free h b; free_all h l end.
Definition poa_destroy {V} (h : heap V) (a : poa) : res (heap V) := free_all h (blocks a).

(* a client of the allocator, which keeps the pointers it was given *)
Inductive pop (V : Type) :=
| PCreate
| PGet (i : Z)
| PWrite (k : nat) (v : V)     (* *p = v, where p is the result of the k-th Create *)
| PRead (k : nat)
| POther (n : nat).            (* other code allocates n objects *)
Arguments PCreate {V}. Arguments PGet {V}. Arguments PWrite {V}. Arguments PRead {V}. Arguments POther {V}.
Inductive pout (V : Type) := PPtr (p : option ptr) | PVal (v : V) | PUnit.
Arguments PPtr {V}. Arguments PVal {V}. Arguments PUnit {V}.
Record pworld (V : Type) := mkPW { pheap : heap V; pal : poa; kept : list ptr }.
Arguments mkPW {V}. Arguments pheap {V}. Arguments pal {V}. Arguments kept {V}.
Definition pinit V (bs : Z) : pworld V := mkPW [] (poa_new bs) [].
Definition pstep {V} (d : V) (w : pworld V) (o : pop V) : res (pworld V * pout V) :=
  match o with
  | PCreate =>
      do (h, a, p) <- poa_create d (pheap w) (pal w);
      Ok (mkPW h a (kept w ++ match p with Some p => [p] | None => [] end), PPtr p)
  | PGet i => do p <- poa_get (pal w) i; Ok (w, PPtr p)
  | PWrite k v =>
      match nth_error (kept w) k with
      | None => UB
      | Some p => do h <- store (pheap w) p v; Ok (mkPW h (pal w) (kept w), PUnit)
      end
  | PRead k =>
      match nth_error (kept w) k with
      | None => UB
      | Some p => do v <- load (pheap w) p; Ok (w, PVal v)
      end
  | POther n => do (h, _) <- alloc d (pheap w) (Z.of_nat n); Ok (mkPW h (pal w) (kept w), PUnit)
  end.
Fixpoint prun {V} (d : V) (w : pworld V) (ops : list (pop V)) : res (pworld V * list (pout V)) :=
  match ops with
  | [] => Ok (w, [])
  | o :: ops => do (w, x) <- pstep d w o; do (w, xs) <- prun d w ops; Ok (w, x :: xs)
  end.
