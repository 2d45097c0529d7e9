(* What is left behind when the client's copy constructor, default constructor or copy assignment of an element
   throws in the middle of an operation of List, Array and Dictionary (Source/Collections/List.h,
   Source/Collections/Dictionary.h).  No function of these files catches anything, so the exception leaves the
   operation at that point.  Simplification: moves and destructors of elements do not throw. *)
From Verif Require Import Base LstModel SrtModel DctModel.
Open Scope Z_scope.

(* ThrownAt x: the exception passes through, and x is what it leaves *)
Inductive left_by (X : Type) := Done (x : X) | ThrownAt (x : X).
Arguments Done {X}. Arguments ThrownAt {X}.

Section Exceptions.
  Variable A : Type.
  Variable eqb : A -> A -> bool.
  Variable dflt : option A.

  (* List<T>::Insert(vint, const T&) : List.h:605-623; InsertUninitializedItems (List.h:148-178) has already counted
     the new slot when CallCopyCtors throws *)
  Definition insert_throws (x : lst A) (i : Z) : res (lst A) :=
    if (i >=? 0) && (i <=? count x) then insert_uninitialized A x i 1 else Err.
  (* Set : List.h:646-662; a is what the copy assignment left in the element before it threw *)
  Definition set_throws (x : lst A) (i : Z) (a : A) : res (lst A) := set A x i a.

  (* CallDefaultCtors : List.h:27-37, in which constructor number k throws *)
  Fixpoint default_ctors_x (m : mem A) (i : Z) (n k : nat) : res (left_by (mem A)) :=
    match n with
    | O => Ok (Done m)
    | S n' =>
        match k with
        | O => Ok (ThrownAt m)
        | S k' => do m <- construct A m i (match dflt with Some d => Live d | None => Moved end); default_ctors_x m (i + 1) n' k'
        end
    end.
  (* CallCopyCtors : List.h:39-53, in which constructor number k throws *)
  Fixpoint copy_ctors_x (m : mem A) (i : Z) (xs : list A) (k : nat) : res (left_by (mem A)) :=
    match xs with
    | [] => Ok (Done m)
    | x :: xs' =>
        match k with
        | O => Ok (ThrownAt m)
        | S k' => do m <- construct A m i (Live x); copy_ctors_x m (i + 1) xs' k'
        end
    end.
  (* Array(vint) : List.h:319-325.  Done: the array; ThrownAt: there is no array, ~Array is not called, and nothing
     refers to the buffer any more *)
  Definition a_new_x (size : Z) (k : nat) : res (arr A + mem A) :=
    if size >=? 0 then
      do r <- default_ctors_x (allocate A size) 0 (Z.to_nat size) k;
      Ok (match r with Done m => inl (mkArr m size) | ThrownAt m => inr m end)
    else Err.
  (* Array(const T*, vint) : List.h:331-337 *)
  Definition a_from_x (src : list A) (size : Z) (k : nat) : res (arr A + mem A) :=
    if size >=? 0 then
      if size <=? zlen src then
        do r <- copy_ctors_x (allocate A size) 0 (firstn (Z.to_nat size) src) k;
        Ok (match r with Done m => inl (mkArr m size) | ThrownAt m => inr m end)
      else UB
    else Err.
  (* Resize : List.h:431-449; the second component is newBuffer, if the exception leaves it behind *)
  Definition a_resize_x (x : arr A) (size : Z) (k : nat) : res (arr A * option (mem A)) :=
    if size >=? 0 then
      let nb := allocate A size in
      if size <? acount x then do y <- a_resize A dflt x size; Ok (y, None)
      else
        do (nb, m) <- move_across A nb 0 (abuf x) 0 (Z.to_nat (acount x));
        do r <- default_ctors_x nb (acount x) (Z.to_nat (size - acount x)) k;
        match r with
        | Done nb =>
            do m <- dtors A m 0 (Z.to_nat (acount x)); do _ <- deallocate A m; Ok (mkArr nb size, None)
        | ThrownAt nb => Ok (mkArr m (acount x), Some nb)
        end
    else Err.

  (* ---- programs with lists and arrays ---------------------------------------- *)
  (* `lost`: buffers that nothing refers to any more, latest first *)
  Record xworld := mkXW { xl : vars A; xa : avars A; lost : list (mem A) }.
  Inductive xop :=
  | XList (o : op A)
  | XInsertThrows (v : nat) (i : Z)
  | XAddThrows (v : nat)                                (* Add : List.h:588-599 *)
  | XSetThrows (v : nat) (i : Z) (a : A)
  | XArr (o : aop A)
  | XArrNew (v : nat) (size : Z) (k : nat)              (* constructor call number k throws, if there are so many *)
  | XArrFrom (v : nat) (src : list A) (size : Z) (k : nat)
  | XArrResize (v : nat) (size : Z) (k : nat)
  | XArrSetThrows (v : nat) (i : Z) (a : A).
  (* the result of an operation, or the exception of the element *)
  Inductive xout := XRet (o : out A) | XThrown.

  Definition xstep_raw (w : xworld) (o : xop) : res (xworld * xout) :=
    match o with
    | XList o => do (s, r) <- step A eqb (xl w) o; Ok (mkXW s (xa w) (lost w), XRet r)
    | XInsertThrows v i =>
        do x <- var A (xl w) v; do y <- insert_throws x i; Ok (mkXW (upd (xl w) v (Some y)) (xa w) (lost w), XThrown)
    | XAddThrows v =>
        do x <- var A (xl w) v; do y <- insert_throws x (count x); Ok (mkXW (upd (xl w) v (Some y)) (xa w) (lost w), XThrown)
    | XSetThrows v i a =>
        do x <- var A (xl w) v; do y <- set_throws x i a; Ok (mkXW (upd (xl w) v (Some y)) (xa w) (lost w), XThrown)
    | XArr o => do (s, r) <- astep A eqb dflt (xa w) o; Ok (mkXW (xl w) s (lost w), XRet r)
    | XArrNew v n k =>
        do _ <- afree A (xa w) v; do r <- a_new_x n k;
        match r with
        | inl x => Ok (mkXW (xl w) (upd (xa w) v (Some x)) (lost w), XRet RNone)
        | inr m => Ok (mkXW (xl w) (xa w) (m :: lost w), XThrown)
        end
    | XArrFrom v src n k =>
        do _ <- afree A (xa w) v; do r <- a_from_x src n k;
        match r with
        | inl x => Ok (mkXW (xl w) (upd (xa w) v (Some x)) (lost w), XRet RNone)
        | inr m => Ok (mkXW (xl w) (xa w) (m :: lost w), XThrown)
        end
    | XArrResize v n k =>
        do x <- avar A (xa w) v; do (y, m) <- a_resize_x x n k;
        match m with
        | None => Ok (mkXW (xl w) (upd (xa w) v (Some y)) (lost w), XRet RNone)
        | Some m => Ok (mkXW (xl w) (upd (xa w) v (Some y)) (m :: lost w), XThrown)
        end
    | XArrSetThrows v i a =>
        do x <- avar A (xa w) v; do y <- a_set A x i a; Ok (mkXW (xl w) (upd (xa w) v (Some y)) (lost w), XThrown)
    end.
  (* every CHECK_ERROR precedes the first change *)
  Definition xstep (w : xworld) (o : xop) : res (xworld * xout) :=
    match xstep_raw w o with Err => Ok (w, XRet RError) | r => r end.
  Fixpoint xrun (w : xworld) (os : list xop) : res (xworld * list xout) :=
    match os with
    | [] => Ok (w, [])
    | o :: os' => do (w', r) <- xstep w o; do (w'', rs) <- xrun w' os'; Ok (w'', r :: rs)
    end.
  Definition xstart (n m : nat) : xworld := mkXW (repeat None n) (repeat None m) [].
End Exceptions.

Section DictExceptions.
  Variable K V : Type.
  Variable cmp : K -> K -> option comparison.

  (* SortedList AddInternal, Insert : List.h:729-774, in which the copy constructor throws *)
  Definition s_add_throws (x : lst K) (a : K) : res (lst K) :=
    if count x =? 0 then insert_uninitialized K x 0 1
    else
      do (_, oi) <- index_of_internal K cmp x a;
      if (oi >=? 0) && (oi <? count x) then
        do b <- read K (buf x) oi;
        let oi := match cmp b a with Some Lt => oi + 1 | _ => oi end in
        insert_uninitialized K x oi 1
      else Err.
  Inductive xdop :=
  | XDict (o : dop K V)
  | XDAddKeyThrows (k : K)             (* AddInternal : Dictionary.h:107-119, the copy of the key throws; Set of a key that is not there is the same *)
  | XDAddValueThrows (k : K)           (* AddInternal, the copy of the value throws *)
  | XDSetValueThrows (k : K) (v : V).  (* SetInternal : Dictionary.h:87-105, the copy or the assignment of the value throws; v is what the assignment left *)
  Inductive xdout := XDRet (o : dout K V) | XDThrown.
  Definition xd_step_raw (d : dict K V) (o : xdop) : res (dict K V * xdout) :=
    match o with
    | XDict o => do (d, r) <- d_step K V cmp d o; Ok (d, XDRet r)
    | XDAddKeyThrows k =>
        do i <- s_index_of K cmp (keys d) k;
        if negb (i =? -1) then Err else
        do ks <- s_add_throws (keys d) k; Ok (mkDict ks (vals d), XDThrown)
    | XDAddValueThrows k =>
        do i <- s_index_of K cmp (keys d) k;
        if negb (i =? -1) then Err else
        do (ks, j) <- s_add K cmp (keys d) k;
        do vs <- late (insert_throws V (vals d) j); Ok (mkDict ks vs, XDThrown)
    | XDSetValueThrows k v =>
        do i <- s_index_of K cmp (keys d) k;
        if i =? -1 then
          do (ks, j) <- s_add K cmp (keys d) k;
          do vs <- late (insert_throws V (vals d) j); Ok (mkDict ks vs, XDThrown)
        else do vs <- set V (vals d) i v; Ok (mkDict (keys d) vs, XDThrown)
    end.
  Definition xd_step (d : dict K V) (o : xdop) : res (dict K V * xdout) :=
    match xd_step_raw d o with Err => Ok (d, XDRet OError) | r => r end.
  Fixpoint xd_run (d : dict K V) (os : list xdop) : res (dict K V * list xdout) :=
    match os with
    | [] => Ok (d, [])
    | o :: os' => do (d', r) <- xd_step d o; do (d'', rs) <- xd_run d' os'; Ok (d'', r :: rs)
    end.
  (* ~Dictionary: the members are destroyed, values first (Dictionary.h:84-85) *)
  Definition d_destruct (d : dict K V) : res unit :=
    do _ <- destruct V (vals d); destruct K (keys d).
End DictExceptions.

Arguments mkXW {A}. Arguments xl {A}. Arguments xa {A}. Arguments lost {A}.
Arguments XList {A}. Arguments XInsertThrows {A}. Arguments XAddThrows {A}. Arguments XSetThrows {A}. Arguments XArr {A}.
Arguments XArrNew {A}. Arguments XArrFrom {A}. Arguments XArrResize {A}. Arguments XArrSetThrows {A}.
Arguments XRet {A}. Arguments XThrown {A}.
Arguments XDict {K V}. Arguments XDAddKeyThrows {K V}. Arguments XDAddValueThrows {K V}.
Arguments XDSetValueThrows {K V}. Arguments XDRet {K V}. Arguments XDThrown {K V}.
