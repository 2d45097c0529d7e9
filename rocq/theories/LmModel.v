(* List and Array when malloc fails: Source/Collections/List.h.  AllocateBuffer (109-114)
   returns the result of malloc unchecked, and computes the number of bytes in size_t.
   The functions of LstModel that allocate are repeated here with a flag bad: malloc fails
   while the statement runs (no statement allocates twice).  A buffer [] is nullptr.
   Simplifications: those of LstModel. *)
From Verif Require Import Base LstModel.
Open Scope Z_scope.

Section Lists.
  Variable A : Type.
  Variable eqb : A -> A -> bool.

  (* AllocateBuffer : List.h:109-114 *)
  Definition m_alloc (bad : bool) (size : Z) : mem A := if bad then [] else allocate A size.

  (* ReleaseUnnecessaryBuffer : List.h:123-147 *)
  Definition m_release (bad : bool) (x : lst A) (old_count : Z) : res (lst A) :=
    match buf x with
    | [] => Ok x
    | _ =>
        let n := count x in
        do m <- (if n <? old_count then dtors A (buf x) n (Z.to_nat (old_count - n)) else Ok (buf x));
        if (n <=? cap x / 2) && (n <=? 8) then
          let newcap := cap x * 5 / 8 in
          if n <? newcap then
            do (nb, m) <- move_across A (m_alloc bad newcap) 0 m 0 (Z.to_nat n);
            do m <- dtors A m 0 (Z.to_nat n);
            do _ <- deallocate A m;
            Ok (mkLst nb n newcap (moves x + n))
          else Ok (mkLst m n (cap x) (moves x))
        else Ok (mkLst m n (cap x) (moves x))
    end.
  (* InsertUninitializedItems : List.h:149-179, when it allocates; otherwise as in LstModel *)
  Definition m_insert_uninitialized (bad : bool) (x : lst A) (index k : Z) : res (lst A) :=
    let n := count x in
    let newcount := n + k in
    if newcount >? cap x then
      let newcap := if newcount <? cap x then cap x else newcount * 5 / 4 + 1 in
      do (nb, m) <- move_across A (m_alloc bad newcap) 0 (buf x) 0 (Z.to_nat index);
      do (nb, m) <- move_across A nb (index + k) m index (Z.to_nat (n - index));
      do m <- dtors A m 0 (Z.to_nat n);
      do _ <- deallocate A m;
      Ok (mkLst nb newcount newcap (moves x + n))
    else insert_uninitialized A x index k.
  (* Insert : List.h:605-625 *)
  Definition m_insert (bad : bool) (x : lst A) (i : Z) (a : A) : res (lst A) :=
    if (i >=? 0) && (i <=? count x) then
      do x <- m_insert_uninitialized bad x i 1;
      do m <- copy_ctors A (buf x) i [a];
      Ok (mkLst m (count x) (cap x) (moves x))
    else Err.
  (* RemoveAt : List.h:507-515 *)
  Definition m_remove_at (bad : bool) (x : lst A) (i : Z) : res (lst A) :=
    if (i >=? 0) && (i <? count x) then
      do m <- assign_overlapped A (buf x) i (i + 1) (count x - i - 1);
      m_release bad (mkLst m (count x - 1) (cap x) (moves x + (count x - i - 1))) (count x)
    else Err.
  (* RemoveRange : List.h:521-530 *)
  Definition m_remove_range (bad : bool) (x : lst A) (i n : Z) : res (lst A) :=
    if (i >=? 0) && (i <=? count x) then
      if negb ((- 2 ^ 63 <=? i + n) && (i + n <? 2 ^ 63)) then UB else
      if (i + n >=? 0) && (i + n <=? count x) then
        do m <- assign_overlapped A (buf x) i (i + n) (count x - i - n);
        m_release bad (mkLst m (count x - n) (cap x) (moves x + (count x - i - n))) (count x)
      else Err
    else Err.
  (* Remove : List.h:628-641 *)
  Definition m_remove (bad : bool) (x : lst A) (a : A) : res (lst A * bool) :=
    do i <- index_of A eqb x a;
    if (i >=? 0) && (i <? count x) then do x <- m_remove_at bad x i; Ok (x, true) else Ok (x, false).

  Definition m_step_raw (s : vars A) (o : op A) (bad : bool) : res (vars A * out A) :=
    match o with
    | LAdd v a => do x <- var A s v; do y <- m_insert bad x (count x) a; Ok (upd s v (Some y), RInt (count x))
    | LInsert v i a => do x <- var A s v; do y <- m_insert bad x i a; Ok (upd s v (Some y), RInt i)
    | LRemoveAt v i => do x <- var A s v; do y <- m_remove_at bad x i; Ok (upd s v (Some y), RBool true)
    | LRemoveRange v i n => do x <- var A s v; do y <- m_remove_range bad x i n; Ok (upd s v (Some y), RBool true)
    | LRemove v a => do x <- var A s v; do (y, b) <- m_remove bad x a; Ok (upd s v (Some y), RBool b)
    | _ => step_raw A eqb s o                       (* these do not allocate *)
    end.
  Definition m_step (s : vars A) (o : op A) (bad : bool) : res (vars A * out A) :=
    match m_step_raw s o bad with Err => Ok (s, RError) | r => r end.
  Fixpoint m_run (s : vars A) (p : list (op A * bool)) : res (vars A * list (out A)) :=
    match p with
    | [] => Ok (s, [])
    | (o, bad) :: p' => do (s', r) <- m_step s o bad; do (s'', rs) <- m_run s' p'; Ok (s'', r :: rs)
    end.

  (* the number of elements that fit into malloc(sizeof(T) * size), List.h:113, with sz the
     size of an element; size is converted to size_t (64 bits) and the product wraps *)
  Definition slots (sz size : Z) : Z := ((sz * size) mod 2 ^ 64) / sz.
  (* Array(vint) : List.h:319-325, for a trivially constructible element type: the elements
     are not touched (CallDefaultCtors, 27-37) *)
  Definition m_array (sz size : Z) : res (arr A) :=
    if size >=? 0 then Ok (mkArr (if size <=? 0 then [] else repeat Moved (Z.to_nat (slots sz size))) size) else Err.
End Lists.
