(* SortedList, Dictionary and Group when memory runs out: Source/Collections/List.h:682-835,
   Source/Collections/Dictionary.h.  The functions of SrtModel and DctModel that change a container, on top of the
   lists of LmModel whose malloc fails.  A statement allocates at most four times; f says which of these fail:
   f 0 the new ValueContainer of Group::Add, f 1 the keys (or the SortedList), f 2 the values, f 3 the values of
   one key.  A new that fails throws std::bad_alloc; a malloc that fails returns nullptr.
   Simplifications: those of SrtModel, DctModel and LmModel; copies of keys and values do not fail. *)
From Verif Require Import Base LstModel SrtModel DctModel LmModel.
Open Scope Z_scope.

Section Sorted.
  Variable A : Type.
  Variable eqb : A -> A -> bool.
  Variable cmp : A -> A -> option comparison.
  (* Insert : List.h:729-743 *)
  Definition ms_insert (bad : bool) (x : lst A) (i : Z) (a : A) : res (lst A) :=
    do x <- m_insert_uninitialized A bad x i 1;
    do m <- copy_ctors A (buf x) i [a];
    Ok (mkLst m (count x) (cap x) (moves x)).
  (* AddInternal : List.h:745-774 *)
  Definition ms_add (bad : bool) (x : lst A) (a : A) : res (lst A * Z) :=
    if count x =? 0 then do y <- ms_insert bad x 0 a; Ok (y, 0)
    else
      do (_, oi) <- index_of_internal A cmp x a;
      if (oi >=? 0) && (oi <? count x) then
        do b <- read A (buf x) oi;
        let oi := match cmp b a with Some Lt => oi + 1 | _ => oi end in
        do y <- ms_insert bad x oi a; Ok (y, oi)
      else Err.
  (* Remove : List.h:822-834 *)
  Definition ms_remove (bad : bool) (x : lst A) (a : A) : res (lst A * bool) :=
    do i <- s_index_of A cmp x a;
    if (i >=? 0) && (i <? count x) then do y <- m_remove_at A bad x i; Ok (y, true) else Ok (x, false).
  Definition ms_step_raw (x : lst A) (o : sop A) (f : nat -> bool) : res (lst A * out A) :=
    match o with
    | SAdd a => do (y, i) <- ms_add (f 1%nat) x a; Ok (y, RInt i)
    | SRemove a => do (y, b) <- ms_remove (f 1%nat) x a; Ok (y, RBool b)
    | SRemoveAt i => do y <- m_remove_at A (f 1%nat) x i; Ok (y, RBool true)
    | SRemoveRange i n => do y <- m_remove_range A (f 1%nat) x i n; Ok (y, RBool true)
    | _ => s_step_raw A cmp x o                    (* these do not allocate *)
    end.
  Definition ms_step (x : lst A) (o : sop A) (f : nat -> bool) : res (lst A * out A) :=
    match ms_step_raw x o f with Err => Ok (x, RError) | r => r end.
  Fixpoint ms_run (x : lst A) (p : list (sop A * (nat -> bool))) : res (lst A * list (out A)) :=
    match p with
    | [] => Ok (x, [])
    | (o, f) :: p' => do (y, r) <- ms_step x o f; do (z, rs) <- ms_run y p'; Ok (z, r :: rs)
    end.
End Sorted.

Section Dict.
  Variable K V : Type.
  Variable cmp : K -> K -> option comparison.
  Variable veq : V -> V -> bool.

  (* AddInternal : Dictionary.h:107-119 *)
  Definition md_add (f : nat -> bool) (d : dict K V) (k : K) (v : V) : res (dict K V) :=
    do i <- s_index_of K cmp (keys d) k;
    if negb (i =? -1) then Err else
    do (ks, j) <- ms_add K cmp (f 1%nat) (keys d) k;
    do vs <- late (m_insert V (f 2%nat) (vals d) j v);
    Ok (mkDict ks vs).
  (* SetInternal : Dictionary.h:87-105 *)
  Definition md_set (f : nat -> bool) (d : dict K V) (k : K) (v : V) : res (dict K V) :=
    do i <- s_index_of K cmp (keys d) k;
    if i =? -1 then
      do (ks, j) <- ms_add K cmp (f 1%nat) (keys d) k;
      do vs <- late (m_insert V (f 2%nat) (vals d) j v);
      Ok (mkDict ks vs)
    else do vs <- set V (vals d) i v; Ok (mkDict (keys d) vs).
  (* Remove : Dictionary.h:243-257 *)
  Definition md_remove (f : nat -> bool) (d : dict K V) (k : K) : res (dict K V * bool) :=
    do i <- s_index_of K cmp (keys d) k;
    if negb (i =? -1) then
      do ks <- m_remove_at K (f 1%nat) (keys d) i;
      do vs <- late (m_remove_at V (f 2%nat) (vals d) i);
      Ok (mkDict ks vs, true)
    else Ok (d, false).
  Definition dm_step_raw (d : dict K V) (o : dop K V) (f : nat -> bool) : res (dict K V * dout K V) :=
    match o with
    | DAdd k v => do d <- md_add f d k v; Ok (d, OBool true)
    | DSet k v => do d <- md_set f d k v; Ok (d, OBool true)
    | DRemove k => do (d, b) <- md_remove f d k; Ok (d, OBool b)
    | _ => d_step_raw K V cmp d o                  (* these do not allocate *)
    end.
  Definition dm_step (d : dict K V) (o : dop K V) (f : nat -> bool) : res (dict K V * dout K V) :=
    match dm_step_raw d o f with Err => Ok (d, OError) | r => r end.
  Fixpoint dm_run (d : dict K V) (p : list (dop K V * (nat -> bool))) : res (dict K V * list (dout K V)) :=
    match p with
    | [] => Ok (d, [])
    | (o, f) :: p' => do (d', r) <- dm_step d o f; do (d'', rs) <- dm_run d' p'; Ok (d'', r :: rs)
    end.

  (* AddInternal : Dictionary.h:375-395; false: new has thrown, at 384, before anything was changed *)
  Definition mg_add (f : nat -> bool) (g : group K V) (k : K) (v : V) : res (group K V * bool) :=
    do i <- s_index_of K cmp (gkeys g) k;
    if (i =? -1) && f 0%nat then Ok (g, false) else
    do (g, p) <-
      (if i =? -1 then
         let p := length (gheap g) in
         do (ks, j) <- ms_add K cmp (f 1%nat) (gkeys g) k;
         do vs <- late (m_insert nat (f 2%nat) (gvals g) j p);
         Ok (mkGroup ks vs (gheap g ++ [Some empty_lst]), p)
       else do p <- get nat (gvals g) i; Ok (g, p));
    do x <- late (deref K V g p);
    do x <- late (m_insert V (f 3%nat) x (count x) v);
    Ok (setcell K V g p (Some x), true).
  (* Remove(key) : Dictionary.h:550-566 *)
  Definition mg_remove (f : nat -> bool) (g : group K V) (k : K) : res (group K V * bool) :=
    do i <- s_index_of K cmp (gkeys g) k;
    if negb (i =? -1) then
      do ks <- m_remove_at K (f 1%nat) (gkeys g) i;
      do p <- late (get nat (gvals g) i);
      do vs <- late (m_remove_at nat (f 2%nat) (gvals g) i);
      do g <- late (delete K V (mkGroup ks vs (gheap g)) p);
      Ok (g, true)
    else Ok (g, false).
  (* Remove(key, value) : Dictionary.h:575-595 *)
  Definition mg_remove_value (f : nat -> bool) (g : group K V) (k : K) (v : V) : res (group K V * bool) :=
    do i <- s_index_of K cmp (gkeys g) k;
    if negb (i =? -1) then
      do p <- get nat (gvals g) i;
      do x <- deref K V g p;
      do (x, _) <- m_remove V veq (f 3%nat) x v;
      let g := setcell K V g p (Some x) in
      if count x =? 0 then
        do ks <- late (m_remove_at K (f 1%nat) (gkeys g) i);
        do vs <- late (m_remove_at nat (f 2%nat) (gvals g) i);
        do g <- late (delete K V (mkGroup ks vs (gheap g)) p);
        Ok (g, true)
      else Ok (g, true)
    else Ok (g, false).
  (* None: the statement has thrown std::bad_alloc *)
  Definition gm_step_raw (g : group K V) (o : gop K V) (f : nat -> bool) : res (group K V * option (dout K V)) :=
    match o with
    | GAdd k v => do (g, b) <- mg_add f g k v; Ok (g, if b then Some (OBool true) else None)
    | GRemove k => do (g, b) <- mg_remove f g k; Ok (g, Some (OBool b))
    | GRemoveValue k v => do (g, b) <- mg_remove_value f g k v; Ok (g, Some (OBool b))
    | _ => do (g, r) <- g_step_raw K V cmp veq g o; Ok (g, Some r)                  (* these do not allocate *)
    end.
  Definition gm_step (g : group K V) (o : gop K V) (f : nat -> bool) : res (group K V * option (dout K V)) :=
    match gm_step_raw g o f with Err => Ok (g, Some OError) | r => r end.
  Fixpoint gm_run (g : group K V) (p : list (gop K V * (nat -> bool))) : res (group K V * list (option (dout K V))) :=
    match p with
    | [] => Ok (g, [])
    | (o, f) :: p' => do (g', r) <- gm_step g o f; do (g'', rs) <- gm_run g' p'; Ok (g'', r :: rs)
    end.
End Dict.
