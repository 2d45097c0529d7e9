(* What the list and array operations mean, on plain sequences.  Shares with the model
   only the syntax of programs (op, aop, out). *)
From Verif Require Import Base LstModel.
Open Scope Z_scope.

Section Spec.
  Variable A : Type.
  Variable eqb : A -> A -> bool.
  Variable dflt : option A.

  Definition ztake (i : Z) (l : list A) := firstn (Z.to_nat i) l.
  Definition zdrop (i : Z) (l : list A) := skipn (Z.to_nat i) l.
  (* position of the first element equal to a, or -1 *)
  Fixpoint first_pos (a : A) (l : list A) : Z :=
    match l with
    | [] => -1
    | x :: l' => if eqb x a then 0 else
                 let r := first_pos a l' in if r =? -1 then -1 else r + 1
    end.

  Definition seqs := list (option (list A)).
  Definition sread (s : seqs) (v : nat) : res (list A) :=
    match nth_error s v with Some (Some l) => Ok l | _ => UB end.
  Definition sfree (s : seqs) (v : nat) : res unit :=
    match nth_error s v with Some None => Ok tt | _ => UB end.

  Definition sinsert (l : list A) (i : Z) (a : A) : res (list A) :=
    if (0 <=? i) && (i <=? zlen l) then Ok (ztake i l ++ a :: zdrop i l) else Err.
  (* elements [i, i+n); a negative n is a client error here, see C18 *)
  Definition sremove (l : list A) (i n : Z) : res (list A) :=
    if (0 <=? i) && (i <=? zlen l) then
      if negb ((- 2 ^ 63 <=? i + n) && (i + n <? 2 ^ 63)) then UB else
      if i + n <? 0 then Err else if n <? 0 then UB else
      if i + n <=? zlen l then Ok (ztake i l ++ zdrop (i + n) l) else Err
    else Err.
  Definition sset (l : list A) (i : Z) (a : A) : res (list A) :=
    if (0 <=? i) && (i <? zlen l) then Ok (ztake i l ++ a :: zdrop (i + 1) l) else Err.

  Definition sstep_raw (s : seqs) (o : op A) : res (seqs * out A) :=
    match o with
    | LNew v => do _ <- sfree s v; Ok (upd s v (Some []), RNone)
    | LMoveNew v w =>
        do _ <- sfree s v; do l <- sread s w; Ok (upd (upd s v (Some l)) w (Some []), RNone)
    | LMoveAssign v w =>
        do _ <- sread s v; do l <- sread s w; Ok (upd (upd s v (Some l)) w (Some []), RNone)
    | LDestroy v => do _ <- sread s v; Ok (upd s v None, RNone)
    | LAdd v a => do l <- sread s v; Ok (upd s v (Some (l ++ [a])), RInt (zlen l))
    | LInsert v i a => do l <- sread s v; do m <- sinsert l i a; Ok (upd s v (Some m), RInt i)
    | LRemoveAt v i =>
        do l <- sread s v;
        if (0 <=? i) && (i <? zlen l) then
          Ok (upd s v (Some (ztake i l ++ zdrop (i + 1) l)), RBool true)
        else Err
    | LRemoveRange v i n =>
        do l <- sread s v; do m <- sremove l i n; Ok (upd s v (Some m), RBool true)
    | LRemove v a =>
        do l <- sread s v;
        let i := first_pos a l in
        if i =? -1 then Ok (s, RBool false)
        else Ok (upd s v (Some (ztake i l ++ zdrop (i + 1) l)), RBool true)
    | LClear v => do _ <- sread s v; Ok (upd s v (Some []), RBool true)
    | LSet v i a => do l <- sread s v; do m <- sset l i a; Ok (upd s v (Some m), RBool true)
    | LGet v i =>
        do l <- sread s v;
        match znth l i with Some a => Ok (s, RVal a) | None => Err end
    | LCount v => do l <- sread s v; Ok (s, RInt (zlen l))
    | LIndexOf v a => do l <- sread s v; Ok (s, RInt (first_pos a l))
    | LContains v a => do l <- sread s v; Ok (s, RBool (existsb (fun x => eqb x a) l))
    end.
  Definition sstep (s : seqs) (o : op A) : res (seqs * out A) :=
    match sstep_raw s o with Err => Ok (s, RError) | r => r end.
  Fixpoint srun (s : seqs) (os : list (op A)) : res (seqs * list (out A)) :=
    match os with
    | [] => Ok (s, [])
    | o :: os' => do (s', r) <- sstep s o; do (s'', rs) <- srun s' os'; Ok (s'', r :: rs)
    end.

  (* Exactly the slots below the count hold elements, with the values of l; all other
     slots of the buffer are raw. *)
  Definition lst_shows (x : lst A) (l : list A) : Prop :=
    count x = zlen l /\ zlen (buf x) = cap x /\
    exists k, buf x = map Live l ++ repeat Raw k.
  Definition shows (s : vars A) (t : seqs) : Prop :=
    Forall2 (fun x l => match x, l with
                        | Some x, Some l => lst_shows x l
                        | None, None => True
                        | _, _ => False end) s t.

  (* ---- arrays: an element may have no specified value (None) ---------------- *)
  Definition aseqs := list (option (list (option A))).
  Definition asread (s : aseqs) (v : nat) : res (list (option A)) :=
    match nth_error s v with Some (Some l) => Ok l | _ => UB end.
  Definition asfree (s : aseqs) (v : nat) : res unit :=
    match nth_error s v with Some None => Ok tt | _ => UB end.
  (* searching looks at the elements up to the match; meeting an unspecified one is a
     client error *)
  Fixpoint afirst_pos (a : A) (l : list (option A)) : res Z :=
    match l with
    | [] => Ok (-1)
    | None :: _ => UB
    | Some x :: l' => if eqb x a then Ok 0 else
                      do r <- afirst_pos a l'; Ok (if r =? -1 then -1 else r + 1)
    end.
  Definition asstep_raw (s : aseqs) (o : aop A) : res (aseqs * out A) :=
    match o with
    | ANew v n =>
        do _ <- asfree s v;
        if 0 <=? n then Ok (upd s v (Some (repeat dflt (Z.to_nat n))), RNone) else Err
    | AFrom v src n =>
        do _ <- asfree s v;
        if n <? 0 then Err else if n <=? zlen src then
          Ok (upd s v (Some (map Some (ztake n src))), RNone) else UB
    | AMoveNew v w =>
        do _ <- asfree s v; do l <- asread s w; Ok (upd (upd s v (Some l)) w (Some []), RNone)
    | AMoveAssign v w =>
        do _ <- asread s v; do l <- asread s w; Ok (upd (upd s v (Some l)) w (Some []), RNone)
    | ADestroy v => do _ <- asread s v; Ok (upd s v None, RNone)
    | ASet v i a =>
        do l <- asread s v;
        if (0 <=? i) && (i <? zlen l) then
          Ok (upd s v (Some (upd l (Z.to_nat i) (Some a))), RBool true) else Err
    | AResize v n =>
        do l <- asread s v;
        if n <? 0 then Err else
          Ok (upd s v (Some (firstn (Z.to_nat n) l ++ repeat dflt (Z.to_nat (n - zlen l)))), RNone)
    | AGet v i =>
        do l <- asread s v;
        match znth l i with Some (Some a) => Ok (s, RVal a) | Some None => UB | None => Err end
    | ACount v => do l <- asread s v; Ok (s, RInt (zlen l))
    | AIndexOf v a => do l <- asread s v; do i <- afirst_pos a l; Ok (s, RInt i)
    | AContains v a => do l <- asread s v; do i <- afirst_pos a l; Ok (s, RBool (negb (i =? -1)))
    end.
  Definition asstep (s : aseqs) (o : aop A) : res (aseqs * out A) :=
    match asstep_raw s o with Err => Ok (s, RError) | r => r end.
  Fixpoint asrun (s : aseqs) (os : list (aop A)) : res (aseqs * list (out A)) :=
    match os with
    | [] => Ok (s, [])
    | o :: os' => do (s', r) <- asstep s o; do (s'', rs) <- asrun s' os'; Ok (s'', r :: rs)
    end.
  (* every slot of an array holds a constructed element *)
  Definition slot_shows (s : slot A) (e : option A) : Prop :=
    match e with Some a => s = Live a | None => s <> Raw end.
  Definition arr_shows (x : arr A) (l : list (option A)) : Prop :=
    acount x = zlen l /\ Forall2 slot_shows (abuf x) l.
  Definition ashows (s : avars A) (t : aseqs) : Prop :=
    Forall2 (fun x l => match x, l with
                        | Some x, Some l => arr_shows x l
                        | None, None => True
                        | _, _ => False end) s t.

  (* Slots below the count hold an element with a value, all others are raw. *)
  Definition exact_slots (x : lst A) : Prop :=
    0 <= count x <= zlen (buf x) /\
    forall i, 0 <= i < zlen (buf x) ->
      (i < count x -> exists a, znth (buf x) i = Some (Live a)) /\
      (count x <= i -> znth (buf x) i = Some Raw).
  (* every slot of an array's buffer holds an element *)
  Definition exact_aslots (x : arr A) : Prop :=
    acount x = zlen (abuf x) /\ forall i, znth (abuf x) i <> Some Raw.
  (* n appends to a new list *)
  Definition append_all (x : lst A) (l : list A) : res (lst A) :=
    fold_left (fun r a => do x <- r; insert A x (count x) a) l (Ok x).
End Spec.
