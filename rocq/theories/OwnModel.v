(* Arguments that refer to elements of the container itself, e.g. list.Add(list[0]), dict.Add(k, dict[k2])
   (Source/Collections/List.h, Source/Collections/Dictionary.h).  All parameters are const references, so an argument
   is a slot of the container's buffer, read whenever the operation reads it.  The buffer is replaced exactly when the
   capacity changes; a slot of the old buffer is then gone. *)
From Verif Require Import Base LstModel SrtModel DctModel EnuModel.
Open Scope Z_scope.

Section Lists.
  Variable A : Type.
  Variable eqb : A -> A -> bool.

  (* operations on one list, called x *)
  Inductive oop :=
  | OList (o : op A)
  | OAddOwn (j : Z)                (* x.Add(x[j]) : List.h:588-591, 605-611 *)
  | OInsertOwn (i j : Z)           (* x.Insert(i, x[j]) : List.h:605-611 *)
  | OSetOwn (i j : Z)              (* x.Set(i, x[j]) : List.h:646-651; x[j] is read by the assignment *)
  | ORemoveOwn (j : Z)             (* x.Remove(x[j]) : List.h:628-640; the argument is not read after IndexOf *)
  | OIndexOfOwn (j : Z)            (* x.IndexOf(x[j]) : List.h:573-583 *)
  | OContainsOwn (j : Z).          (* x.Contains(x[j]) : List.h:565-568 *)
  Definition ostep_raw (x : lst A) (o : oop) : res (lst A * out A) :=
    match o with
    | OList o =>
        if on_list A o then
          do (vs, r) <- step A eqb [Some x] o;
          match vs with [Some y] => Ok (y, r) | _ => UB end
        else UB
    | OAddOwn j => do y <- insert_own A x (count x) j; Ok (y, RInt (count x))
    | OInsertOwn i j => do y <- insert_own A x i j; Ok (y, RInt i)
    | OSetOwn i j => do a <- get A x j; do y <- set A x i a; Ok (y, RBool true)
    | ORemoveOwn j => do a <- get A x j; do (y, b) <- remove A eqb x a; Ok (y, RBool b)
    | OIndexOfOwn j => do a <- get A x j; do i <- index_of A eqb x a; Ok (x, RInt i)
    | OContainsOwn j => do a <- get A x j; do i <- index_of A eqb x a; Ok (x, RBool (negb (i =? -1)))
    end.
  Definition ostep (x : lst A) (o : oop) : res (lst A * out A) :=
    match ostep_raw x o with Err => Ok (x, RError) | r => r end.
  Fixpoint orun (x : lst A) (os : list oop) : res (lst A * list (out A)) :=
    match os with
    | [] => Ok (x, [])
    | o :: os => do (x, r) <- ostep x o; do (x, rs) <- orun x os; Ok (x, r :: rs)
    end.
End Lists.
Arguments OList {A}. Arguments OAddOwn {A}. Arguments OInsertOwn {A}. Arguments OSetOwn {A}. Arguments ORemoveOwn {A}.
Arguments OIndexOfOwn {A}. Arguments OContainsOwn {A}.

Section Sorted.
  Variable A : Type.
  Variable cmp : A -> A -> option comparison.
  (* SortedList Insert(vint, const T&) : List.h:729-735, item refers to slot j *)
  Definition s_insert_own (x : lst A) (i j : Z) : res (lst A) :=
    do y <- insert_uninitialized A x i 1;
    if negb (cap y =? cap x) then UB else
    do a <- read A (buf y) j;
    do m <- copy_ctors A (buf y) i [a];
    Ok (mkLst m (count y) (cap y) (moves y)).
  (* x.Add(x[j]) : List.h:745-774, 806-809 *)
  Definition s_add_own (x : lst A) (j : Z) : res (lst A * Z) :=
    do a <- get A x j;
    if count x =? 0 then do y <- s_insert_own x 0 j; Ok (y, 0)
    else
      do (_, oi) <- index_of_internal A cmp x a;
      if (oi >=? 0) && (oi <? count x) then
        do b <- read A (buf x) oi;
        let oi := match cmp b a with Some Lt => oi + 1 | _ => oi end in
        do y <- s_insert_own x oi j; Ok (y, oi)
      else Err.
End Sorted.

Section Dicts.
  Variable K V : Type.
  Variable cmp : K -> K -> option comparison.
  Variable veq : V -> V -> bool.

  (* d[k'] : Dictionary.h:169-180; the slot it refers to *)
  Definition d_slot (d : dict K V) (k : K) : res Z :=
    do j <- s_index_of K cmp (keys d) k; do _ <- get V (vals d) j; Ok j.
  (* d.Add(k, d[k']) : Dictionary.h:107-119 *)
  Definition d_add_own (d : dict K V) (k k' : K) : res (dict K V) :=
    do j <- d_slot d k';
    do i <- s_index_of K cmp (keys d) k;
    if negb (i =? -1) then Err else
    do (ks, p) <- s_add K cmp (keys d) k;
    do vs <- late (insert_own V (vals d) p j);
    Ok (mkDict ks vs).
  (* d.Set(k, d[k']) : Dictionary.h:87-105 *)
  Definition d_set_own (d : dict K V) (k k' : K) : res (dict K V) :=
    do j <- d_slot d k';
    do i <- s_index_of K cmp (keys d) k;
    if i =? -1 then
      do (ks, p) <- s_add K cmp (keys d) k;
      do vs <- late (insert_own V (vals d) p j);
      Ok (mkDict ks vs)
    else do v <- read V (buf (vals d)) j; do vs <- set V (vals d) i v; Ok (mkDict (keys d) vs).
  Inductive odop :=
  | ODict (o : dop K V)
  | ODAddOwn (k k' : K)
  | ODSetOwn (k k' : K)
  | ODAddKey (i : Z) (v : V)       (* d.Add(d.Keys()[i], v) : Dictionary.h:107-119 *)
  | ODSetKey (i : Z) (v : V)       (* d.Set(d.Keys()[i], v) : Dictionary.h:87-105 *)
  | ODRemoveKey (i : Z).           (* d.Remove(d.Keys()[i]) : Dictionary.h:243-257; the argument is not read after IndexOf *)
  Definition od_step_raw (d : dict K V) (o : odop) : res (dict K V * dout K V) :=
    match o with
    | ODict o => d_step K V cmp d o
    | ODAddOwn k k' => do d <- d_add_own d k k'; Ok (d, OBool true)
    | ODSetOwn k k' => do d <- d_set_own d k k'; Ok (d, OBool true)
    | ODAddKey i v =>
        do k <- get K (keys d) i;
        do n <- s_index_of K cmp (keys d) k;
        if negb (n =? -1) then Err else
        do (ks, p) <- s_add_own K cmp (keys d) i;
        do vs <- late (insert V (vals d) p v);
        Ok (mkDict ks vs, OBool true)
    | ODSetKey i v =>
        do k <- get K (keys d) i;
        do n <- s_index_of K cmp (keys d) k;
        if n =? -1 then
          do (ks, p) <- s_add_own K cmp (keys d) i;
          do vs <- late (insert V (vals d) p v);
          Ok (mkDict ks vs, OBool true)
        else do vs <- set V (vals d) n v; Ok (mkDict (keys d) vs, OBool true)
    | ODRemoveKey i => do k <- get K (keys d) i; do (d, b) <- d_remove K V cmp d k; Ok (d, OBool b)
    end.
  Definition od_step (d : dict K V) (o : odop) : res (dict K V * dout K V) :=
    match od_step_raw d o with Err => Ok (d, OError) | r => r end.
  Fixpoint od_run (d : dict K V) (os : list odop) : res (dict K V * list (dout K V)) :=
    match os with
    | [] => Ok (d, [])
    | o :: os => do (d, r) <- od_step d o; do (d, rs) <- od_run d os; Ok (d, r :: rs)
    end.

  (* g.Add(k, g[k'][j]) : Dictionary.h:375-395; q is the container that holds the argument *)
  Definition g_add_own (g : group K V) (k k' : K) (j : Z) : res (group K V) :=
    do i' <- s_index_of K cmp (gkeys g) k';
    do q <- get nat (gvals g) i';
    do z <- deref K V g q;
    do _ <- get V z j;
    do i <- s_index_of K cmp (gkeys g) k;
    do (g, p) <-
      (if i =? -1 then
         let p := length (gheap g) in
         do (ks, n) <- s_add K cmp (gkeys g) k;
         do vs <- late (insert nat (gvals g) n p);
         Ok (mkGroup ks vs (gheap g ++ [Some empty_lst]), p)
       else do p <- get nat (gvals g) i; Ok (g, p));
    do x <- late (deref K V g p);
    do y <- (if Nat.eqb p q then late (insert_own V x (count x) j)
             else do z <- late (deref K V g q); do v <- read V (buf z) j; late (insert V x (count x) v));
    Ok (setcell K V g p (Some y)).
  (* g.Remove(k, g[k][j]) : Dictionary.h:575-595, List.h:628-640; the argument is not read after IndexOf *)
  Definition g_remove_own (g : group K V) (k : K) (j : Z) : res (group K V * bool) :=
    do x <- g_get K V cmp g k;
    do v <- get V x j;
    g_remove_value K V cmp veq g k v.
End Dicts.
Arguments ODict {K V}. Arguments ODAddOwn {K V}. Arguments ODSetOwn {K V}. Arguments ODAddKey {K V}. Arguments ODSetKey {K V}. Arguments ODRemoveKey {K V}.
