(* What lists show when moves of their elements throw, on plain sequences with the capacity
   of the list, and what is lost.  Shares with the model only the syntax of programs. *)
From Verif Require Import Base LstModel LstSpec LmSpec TmModel.
Open Scope Z_scope.

Section Spec.
  Variable E : Type.
  Variable husk : E -> E.
  Variable torn : E -> E -> E.

  (* the number of the move that throws, if it is one of n moves *)
  Definition hits (f : plan) (n : nat) : option nat :=
    match f with Some k => if (k <? n)%nat then Some k else None | None => None end.
  (* the plan after n moves *)
  Definition past (f : plan) (n : nat) : plan := match f with Some k => Some (k - n)%nat | None => None end.

  (* the first k elements have been moved away, and the list still has them *)
  Definition hollowed (k : nat) (l : list E) : list E := map husk (firstn k l) ++ skipn k l.
  (* k elements from the end have been moved up by one, and then an assignment threw: the last
     element is gone *)
  Definition pushed (k : nat) (l : list E) : list E :=
    match skipn (length l - k - 1) l with
    | y :: x :: r => firstn (length l - k) l ++ torn (husk x) y :: removelast (x :: r)
    | _ => l
    end.
  (* k elements behind i have been moved down by one, and then an assignment threw: element i
     is gone if k > 0 *)
  Definition pulled (i k : nat) (l : list E) : list E :=
    firstn i l ++ firstn k (skipn (S i) l) ++
    match skipn (i + k) l with
    | x :: y :: r => torn (if (k =? 0)%nat then x else husk x) y :: y :: r
    | r => r
    end.

  (* k elements behind the n elements at i have been moved down by n, and then an assignment threw:
     the n places in front of the elements not moved hold what is left of the removed elements,
     and then what the moves left behind *)
  Definition dragged (i n k : nat) (l : list E) : list E :=
    firstn i l ++ firstn k (skipn (i + n) l) ++
    match firstn n (skipn k (firstn n (skipn i l) ++ map husk (skipn (i + n) l))), skipn (i + n + k) l with
    | x :: w, y :: r => torn x y :: w ++ y :: r
    | _, _ => []
    end.

  (* elements and capacity of a list; lost elements and buffers; whether it throws *)
  Record change := mkC { cl : list E; cc : Z; le : nat; lb : nat; thrown : bool }.
  Definition inserted (f : plan) (l : list E) (c i : Z) (a : E) : change :=
    let l' := ztake E i l ++ a :: zdrop E i l in
    if c <? zlen l + 1 then
      match hits f (length l) with
      | Some k => mkC (hollowed k l) c k 1 true
      | None => mkC l' ((zlen l + 1) * 5 / 4 + 1) 0 0 false
      end
    else
      match hits f (length l - Z.to_nat i) with
      | Some O => mkC l c 0 0 true
      | Some k => mkC (pushed k l) c 1 0 true
      | None => mkC l' c 0 0 false
      end.
  Definition removed (f : plan) (l : list E) (c i : Z) : change :=
    let l' := ztake E i l ++ zdrop E (i + 1) l in
    let n := (length l - Z.to_nat i - 1)%nat in
    match hits f n with
    | Some k => mkC (pulled (Z.to_nat i) k l) c 0 0 true
    | None =>
        if shrinks c (zlen l - 1) then
          match hits (past f n) (length l') with
          | Some k => mkC (hollowed k l') c k 1 true
          | None => mkC l' (c * 5 / 8) 0 0 false
          end
        else mkC l' c 0 0 false
    end.

  Definition removed_range (f : plan) (l : list E) (c i n : Z) : change :=
    let l' := ztake E i l ++ zdrop E (i + n) l in
    let m := if n =? 0 then O else (length l - Z.to_nat i - Z.to_nat n)%nat in
    match hits f m with
    | Some k => mkC (dragged (Z.to_nat i) (Z.to_nat n) k l) c 0 0 true
    | None =>
        if shrinks c (zlen l - n) then
          match hits (past f m) (length l') with
          | Some k => mkC (hollowed k l') c k 1 true
          | None => mkC l' (c * 5 / 8) 0 0 false
          end
        else mkC l' c 0 0 false
    end.

  (* variables; lost elements and buffers *)
  Record sworld := mkS { svars : list (option (list E * Z)); selems : nat; sbufs : nat }.
  Definition sinit (n : nat) : sworld := mkS (repeat None n) 0 0.
  Definition svar (s : sworld) (v : nat) : res (list E * Z) :=
    match nth_error (svars s) v with Some (Some x) => Ok x | _ => UB end.
  Definition svfree (s : sworld) (v : nat) : res unit :=
    match nth_error (svars s) v with Some None => Ok tt | _ => UB end.
  Definition changed (s : sworld) (v : nat) (h : change) (y : tout E) : sworld * tout E :=
    (mkS (upd (svars s) v (Some (cl h, cc h))) (selems s + le h) (sbufs s + lb h), if thrown h then YThrown else y).
  Definition keep (s : sworld) vs : sworld := mkS vs (selems s) (sbufs s).

  Definition tsstep_raw (s : sworld) (o : top E) (f : plan) : res (sworld * tout E) :=
    match o with
    | TNew v => do _ <- svfree s v; Ok (keep s (upd (svars s) v (Some ([], 0))), YNone)
    | TMoveNew v w =>
        do _ <- svfree s v; do x <- svar s w; Ok (keep s (upd (upd (svars s) v (Some x)) w (Some ([], 0))), YNone)
    | TMoveAssign v w =>
        do _ <- svar s v; do x <- svar s w; Ok (keep s (upd (upd (svars s) v (Some x)) w (Some ([], 0))), YNone)
    | TDestroy v => do _ <- svar s v; Ok (keep s (upd (svars s) v None), YNone)
    | TAdd v a => do (l, c) <- svar s v; Ok (changed s v (inserted f l c (zlen l) a) (YInt (zlen l)))
    | TInsert v i a =>
        do (l, c) <- svar s v;
        if (0 <=? i) && (i <=? zlen l) then Ok (changed s v (inserted f l c i a) (YInt i)) else Err
    | TRemoveAt v i =>
        do (l, c) <- svar s v;
        if (0 <=? i) && (i <? zlen l) then Ok (changed s v (removed f l c i) (YBool true)) else Err
    | TRemoveRange v i n =>
        do (l, c) <- svar s v;
        if (0 <=? i) && (i <=? zlen l) then
          if negb ((- 2 ^ 63 <=? i + n) && (i + n <? 2 ^ 63)) then UB else                (* signed overflow *)
          if (i + n <? 0) || (zlen l <? i + n) then Err else
          if n <? 0 then UB else Ok (changed s v (removed_range f l c i n) (YBool true))
        else Err
    | TClear v => do _ <- svar s v; Ok (keep s (upd (svars s) v (Some ([], 0))), YBool true)
    | TSet v i a =>
        do (l, c) <- svar s v; do m <- sset E l i a; Ok (keep s (upd (svars s) v (Some (m, c))), YBool true)
    | TGet v i => do (l, c) <- svar s v; match znth l i with Some e => Ok (s, YVal e) | None => Err end
    | TCount v => do (l, c) <- svar s v; Ok (s, YInt (zlen l))
    end.
  Definition tsstep (s : sworld) (o : top E) (f : plan) : res (sworld * tout E) :=
    match tsstep_raw s o f with Err => Ok (s, YError) | r => r end.
  Fixpoint tsrun (s : sworld) (p : list (top E * plan)) : res (sworld * list (tout E)) :=
    match p with
    | [] => Ok (s, [])
    | (o, f) :: p' => do (s', y) <- tsstep s o f; do (s'', ys) <- tsrun s' p'; Ok (s'', y :: ys)
    end.

  (* the first count slots hold the elements l; the slots behind may hold forgotten ones *)
  Definition tshows (x : tlist E) (l : list E) (c : Z) : Prop :=
    tcount x = zlen l /\ tcap x = c /\ zlen (tbuf x) = c /\ exists r, tbuf x = map Some l ++ r.
  Definition all_show (w : tworld E) (s : sworld) : Prop :=
    Forall2 (fun x y => match x, y with
                        | Some x, Some (l, c) => tshows x l c
                        | None, None => True
                        | _, _ => False end) (tvars w) (svars s).
  (* elements in lists; lists that own a buffer *)
  Definition listed (vs : list (option (list E * Z))) : Z :=
    fold_right (fun x n => match x with Some (l, _) => zlen l + n | None => n end) 0 vs.
  Definition owning (vs : list (option (list E * Z))) : Z :=
    fold_right (fun x n => match x with Some (_, c) => if 0 <? c then 1 + n else n | None => n end) 0 vs.

  (* the same statement and result in the vocabulary of LstModel *)
  Definition plain (o : top E) : op E :=
    match o with
    | TNew v => LNew v | TMoveNew v w => LMoveNew v w | TMoveAssign v w => LMoveAssign v w | TDestroy v => LDestroy v
    | TAdd v a => LAdd v a | TInsert v i a => LInsert v i a | TRemoveAt v i => LRemoveAt v i | TRemoveRange v i n => LRemoveRange v i n | TClear v => LClear v
    | TSet v i a => LSet v i a | TGet v i => LGet v i | TCount v => LCount v
    end.
  Definition answer (y : out E) : tout E :=
    match y with RNone => YNone | RError => YError | RInt z => YInt z | RBool b => YBool b | RVal e => YVal e end.
  (* variable v shows l, with capacity c *)
  Definition holds_list (w : tworld E) (v : nat) (l : list E) (c : Z) : Prop :=
    exists x, nth_error (tvars w) v = Some (Some x) /\ tshows x l c.
  (* the other variables are the same *)
  Definition others_same (w w' : tworld E) (v : nat) : Prop :=
    forall u, u <> v -> nth_error (tvars w') u = nth_error (tvars w) u.
End Spec.
Arguments mkC {E}. Arguments cl {E}. Arguments cc {E}. Arguments le {E}. Arguments lb {E}. Arguments thrown {E}.
Arguments mkS {E}. Arguments svars {E}. Arguments selems {E}. Arguments sbufs {E}. Arguments sinit {E}. Arguments keep {E}.
Arguments tshows {E}. Arguments all_show {E}. Arguments listed {E}. Arguments owning {E}. Arguments svar {E}. Arguments svfree {E}. Arguments changed {E}. Arguments plain {E}. Arguments answer {E}. Arguments holds_list {E}. Arguments others_same {E}.
