(* ByteObjectMap and bom_helper (Source/Collections/List.h:888-959). *)
From Verif Require Import Base PoaModel.
Open Scope Z_scope.

(* what a TreeNode* (or the T* stored in its place) contains; Junk: memory nobody wrote *)
Inductive word := Junk | Null | Node (p : ptr) | Obj (v : nat).
(* 890-893 TreeNode.  new TreeNode[n] leaves the pointers uninitialised. *)
Definition node := list word.
Definition raw_node : node := [Junk; Junk; Junk; Junk].
(* any number of maps that use one allocator: memory, allocator, the root of every map *)
Record bom := mkBom { bheap : heap node; bal : poa; roots : list word }.
Definition bom_new (bs : Z) (maps : nat) : bom := mkBom [] (poa_new bs) (repeat Null maps).

(* a TreeNode*& : the root of a map, or a slot of a node *)
Inductive place := Root (m : nat) | Slot (p : ptr) (j : Z).
Definition peek (w : bom) (r : place) : res word :=
  match r with
  | Root m => match nth_error (roots w) m with Some x => Ok x | None => UB end
  | Slot p j => do n <- load (bheap w) p; aget n j
  end.
Definition poke (w : bom) (r : place) (x : word) : res bom :=
  match r with
  | Root m => match nth_error (roots w) m with
              | Some _ => Ok (mkBom (bheap w) (bal w) (upd (roots w) m x))
              | None => UB
              end
  | Slot p j =>
      do n <- load (bheap w) p; do n <- aset n j x; do h <- store (bheap w) p n; Ok (mkBom h (bal w) (roots w))
  end.
(* (index >> (2 * (Index - 1))) % 4 *)
Definition fragment (d : nat) (index : Z) : Z := Z.shiftr index (2 * (Z.of_nat d - 1)) mod 4.
(* 898-907 Accessor<Index>::Get and 925-928 Accessor<0>::Get *)
Fixpoint acc_get (w : bom) (d : nat) (root : word) (index : Z) : res word :=
  match d with
  | O => match root with Junk => UB | _ => Ok root end
  | S d' =>
      match root with
      | Null => Ok Null
      | Node p =>
          do n <- load (bheap w) p;
          do x <- aget n (fragment d index);
          match x with
          | Junk => UB
          | Null => Ok Null
          | _ => acc_get w d' x index
          end
      | Junk | Obj _ => UB
      end
  end.
(* 909-919 Accessor<Index>::Set and 930-933 Accessor<0>::Set *)
Fixpoint acc_set (w : bom) (d : nat) (root : place) (index : Z) (value : word) : res bom :=
  match d with
  | O => poke w root value
  | S d' =>
      do x <- peek w root;
      do w <- match x with
              | Junk => UB
              | Null =>
                  do (h, a, p) <- poa_create raw_node (bheap w) (bal w);
                  match p with
                  | None => UB
                  | Some p =>
                      do w <- poke (mkBom h a (roots w)) root (Node p);
                      do h <- store (bheap w) p [Null; Null; Null; Null];   (* memset *)
                      Ok (mkBom h (bal w) (roots w))
                  end
              | _ => Ok w
              end;
      do x <- peek w root;
      match x with
      | Node p => acc_set w d' (Slot p (fragment d index)) index value
      | _ => UB
      end
  end.
(* 950-953 Get; 955-958 Set *)
Definition bom_get (w : bom) (m : nat) (index : Z) : res word :=
  do r <- peek w (Root m); acc_get w 4 r index.
Definition bom_set (w : bom) (m : nat) (index : Z) (value : word) : res bom :=
  acc_set w 4 (Root m) index value.

Inductive bop := BSet (m : nat) (index : Z) (v : option nat) | BGet (m : nat) (index : Z) | BCreate.
Definition val (v : option nat) : word := match v with Some v => Obj v | None => Null end.
(* BCreate: other code uses the allocator *)
Definition bstep (w : bom) (o : bop) : res (bom * option word) :=
  match o with
  | BSet m i v => do w <- bom_set w m i (val v); Ok (w, None)
  | BGet m i => do x <- bom_get w m i; Ok (w, Some x)
  | BCreate => do (h, a, _) <- poa_create raw_node (bheap w) (bal w); Ok (mkBom h a (roots w), None)
  end.
Fixpoint brun (w : bom) (ops : list bop) : res (bom * list (option word)) :=
  match ops with
  | [] => Ok (w, [])
  | o :: ops => do (w, x) <- bstep w o; do (w, xs) <- brun w ops; Ok (w, x :: xs)
  end.
