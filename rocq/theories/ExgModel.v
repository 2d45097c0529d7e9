(* What is left behind when the client's copy constructor of a key, a value or an element throws in the middle of an
   operation of Group (Source/Collections/Dictionary.h) or SortedList (Source/Collections/List.h).  No function of
   these files catches anything.  Simplification: as in ExcModel, moves and destructors of elements do not throw;
   neither does `new ValueContainer`. *)
From Verif Require Import Base LstModel SrtModel DctModel ExcModel.
Open Scope Z_scope.

Section GroupExceptions.
  Variable K V : Type.
  Variable cmp : K -> K -> option comparison.
  Variable veq : V -> V -> bool.

  Inductive xgop :=
  | XGroup (o : gop K V)
  | XGAddKeyThrows (k : K) (v : V)      (* Add(k, v), in which the copy of the key throws, if there is one *)
  | XGAddValueThrows (k : K) (v : V).   (* Add(k, v), in which the copy of the value throws *)
  Inductive xgout := XGRet (o : dout K V) | XGThrown.

  (* AddInternal : Dictionary.h:375-395, the exception leaves keys.Add; target is not stored anywhere else.  The key
     of a pair is only copied when it is new *)
  Definition g_add_key_throws (g : group K V) (k : K) (v : V) : res (group K V * xgout) :=
    do i <- s_index_of K cmp (gkeys g) k;
    if i =? -1 then
      do ks <- s_add_throws K cmp (gkeys g) k;
      Ok (mkGroup ks (gvals g) (gheap g ++ [Some empty_lst]), XGThrown)
    else do g <- g_add K V cmp g k v; Ok (g, XGRet (OBool true)).
  (* AddInternal : Dictionary.h:375-395, the exception leaves target->Add *)
  Definition g_add_value_throws (g : group K V) (k : K) : res (group K V) :=
    do i <- s_index_of K cmp (gkeys g) k;
    do (g, p) <-
      (if i =? -1 then
         let p := length (gheap g) in
         do (ks, j) <- s_add K cmp (gkeys g) k;
         do vs <- late (insert nat (gvals g) j p);
         Ok (mkGroup ks vs (gheap g ++ [Some empty_lst]), p)
       else do p <- get nat (gvals g) i; Ok (g, p));
    do x <- late (deref K V g p);
    do x <- late (insert_throws V x (count x));
    Ok (setcell K V g p (Some x)).
  Definition xg_step_raw (g : group K V) (o : xgop) : res (group K V * xgout) :=
    match o with
    | XGroup o => do (g, r) <- g_step K V cmp veq g o; Ok (g, XGRet r)
    | XGAddKeyThrows k v => g_add_key_throws g k v
    | XGAddValueThrows k _ => do g <- g_add_value_throws g k; Ok (g, XGThrown)
    end.
  Definition xg_step (g : group K V) (o : xgop) : res (group K V * xgout) :=
    match xg_step_raw g o with Err => Ok (g, XGRet OError) | r => r end.
  Fixpoint xg_run (g : group K V) (os : list xgop) : res (group K V * list xgout) :=
    match os with
    | [] => Ok (g, [])
    | o :: os' => do (g', r) <- xg_step g o; do (g'', rs) <- xg_run g' os'; Ok (g'', r :: rs)
    end.
  (* ~Group : Dictionary.h:400-403, then the members are destroyed, values first (372-373) *)
  Definition g_destruct (g : group K V) : res (group K V) :=
    do g <- g_clear K V g; do _ <- destruct nat (gvals g); do _ <- destruct K (gkeys g); Ok g.
End GroupExceptions.
Arguments XGroup {K V}. Arguments XGAddKeyThrows {K V}. Arguments XGAddValueThrows {K V}.
Arguments XGRet {K V}. Arguments XGThrown {K V}.

Section SortedExceptions.
  Variable A : Type.
  Variable cmp : A -> A -> option comparison.
  Inductive xsop := XSorted (o : sop A) | XSAddThrows (a : A).   (* AddInternal : List.h:729-774 *)
  Inductive xsout := XSRet (o : out A) | XSThrown.
  Definition xs_step_raw (x : lst A) (o : xsop) : res (lst A * xsout) :=
    match o with
    | XSorted o => do (y, r) <- s_step A cmp x o; Ok (y, XSRet r)
    | XSAddThrows a => do y <- s_add_throws A cmp x a; Ok (y, XSThrown)
    end.
  Definition xs_step (x : lst A) (o : xsop) : res (lst A * xsout) :=
    match xs_step_raw x o with Err => Ok (x, XSRet RError) | r => r end.
  Fixpoint xs_run (x : lst A) (os : list xsop) : res (lst A * list xsout) :=
    match os with
    | [] => Ok (x, [])
    | o :: os' => do (y, r) <- xs_step x o; do (z, rs) <- xs_run y os'; Ok (z, r :: rs)
    end.
End SortedExceptions.
Arguments XSorted {A}. Arguments XSAddThrows {A}. Arguments XSRet {A}. Arguments XSThrown {A}.
