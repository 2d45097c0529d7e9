(* Dictionary<K, Ptr<T>> : Source/Collections/Dictionary.h:68-266 over List<Ptr<T>> (LpModel) and SortedList<K> (SrtModel).

   Dictionaries live on the stack and as members of objects.  The values of dictionary l are the list with number l of LpModel,
   so that the buffers, the counters and the objects that a value keeps or deletes are those of LpModel; the keys are plain
   values in a sorted list of their own.  Every list of LpModel is the value list of a dictionary here.

   Simplifications: those of LpModel, and the key lists of a deleted object are not destroyed, since nothing can reach them and
   keys have no destructors that matter. *)
From Verif Require Import Base.
From Verif Require LstModel SrtModel DctModel.
From Verif Require Import RcModel LpModel.
Open Scope nat_scope.

Section Pd.
  Variable K : Type.
  Variable cmp : K -> K -> option comparison.

  (* the values of all dictionaries with everything else, and the keys of each dictionary (Dictionary.h:84-85) *)
  Record pst := mkP { lp : LpModel.lst; ks : list (LstModel.lst K) }.
  Definition init_p (n : nat) : pst := mkP (init_l n) [].

  (* a Ptr given by reference: a variable or member, or dictionary[key] *)
  Inductive source := FromVar (u : nat) | FromDict (m : nat) (k : K).
  Inductive pop :=
  | VNew (v : nat)                                  (* Ptr<T> v; *)
  | VMake (v k m : nat)                             (* auto v = MakePtr<T>(); T has k Ptr members and m Dictionary<K, Ptr<T>> members *)
  | VCopy (v : nat) (a : source)                    (* Ptr<T> v(a); *)
  | VAssign (v : nat) (a : source)                  (* v = a; *)
  | VNull (v : nat)                                 (* v = nullptr; *)
  | VEnd (v : nat)                                  (* the end of the scope of v *)
  | DNew                                            (* a dictionary on the stack; it gets the next number *)
  | DEnd (l : nat)                                  (* the end of its scope *)
  | DAdd (l : nat) (k : K) (a : source) (mv : bool) (* l.Add(k, a), l.Add(k, std::move(a)) *)
  | DSet (l : nat) (k : K) (a : source) (mv : bool) (* l.Set(k, a), l.Set(k, std::move(a)) *)
  | DRemove (l : nat) (k : K)
  | DClear (l : nat)
  | DMove (l m : nat)                               (* l = std::move(m) *)
  | DHas (l : nat) (k : K).                         (* l.Keys().Contains(k) *)
  (* what the caller sees: a return value, or the Error of CHECK_ERROR *)
  Inductive pout := Done | Said (b : bool) | Raised.

  Definition keys_of (s : pst) (l : nat) : res (LstModel.lst K) :=
    do _ <- lget (rc (lp s)) (ls (lp s)) l;
    match nth_error (ks s) l with Some x => Ok x | None => UB end.
  (* keys.IndexOf *)
  Definition position (s : pst) (l : nat) (k : K) : res Z :=
    do x <- keys_of s l; SrtModel.s_index_of K cmp x k.
  (* Get, operator[] : Dictionary.h:169-180, values.Get fails for -1; the result is a const reference, so moving from it copies *)
  Definition resolve (s : pst) (a : source) (mv : bool) : res (arg * bool) :=
    match a with
    | FromVar u => Ok (AVar u, mv)
    | FromDict m k => do i <- position s m k; if (i <? 0)%Z then Err else Ok (AItem m (Z.to_nat i), false)
    end.
  (* keys.Add, then values.Insert : Dictionary.h:97-98, 115-116; an error of Insert would leave a key without a value *)
  Definition add_new (s : pst) (l : nat) (k : K) (a : arg) (mv : bool) : res pst :=
    do x <- keys_of s l;
    do (x, j) <- SrtModel.s_add K cmp x k;
    do t <- DctModel.late (lstep (lp s) (LInsert l (Z.to_nat j) a mv));
    Ok (mkP t (upd (ks s) l x)).
  Definition values (s : pst) (o : lop) : res pst := do t <- lstep (lp s) o; Ok (mkP t (ks s)).

  Definition pstep_raw (s : pst) (o : pop) : res (pst * pout) :=
    match o with
    | VNew v => do s <- values s (MNew v); Ok (s, Done)
    | VMake v k m =>
        do t <- lstep (lp s) (MMake v k m);
        Ok (mkP t (ks s ++ repeat (LstModel.empty_lst) m), Done)
    | VCopy v a => do (u, _) <- resolve s a false; do s <- values s (MCopy v u); Ok (s, Done)
    | VAssign v a => do (u, _) <- resolve s a false; do s <- values s (MAssign v u); Ok (s, Done)
    | VNull v => do s <- values s (MSetNull v); Ok (s, Done)
    | VEnd v => do s <- values s (MEnd v); Ok (s, Done)
    | DNew => do t <- lstep (lp s) LNew; Ok (mkP t (ks s ++ [LstModel.empty_lst]), Done)
    | DEnd l =>                                                     (* ~Dictionary : Dictionary.h:123, members in reverse order *)
        do t <- lstep (lp s) (LEnd l);
        Ok (mkP t (upd (ks s) l (LstModel.empty_lst)), Done)
    | DAdd l k a mv =>                                              (* AddInternal : Dictionary.h:107-119 *)
        do (u, mv) <- resolve s a mv;
        do i <- position s l k;
        if negb (i =? -1)%Z then Err else
        do s <- add_new s l k u mv; Ok (s, Said true)
    | DSet l k a mv =>                                              (* SetInternal : Dictionary.h:87-105 *)
        do (u, mv) <- resolve s a mv;
        do i <- position s l k;
        if (i =? -1)%Z then do s <- add_new s l k u mv; Ok (s, Said true)
        else do s <- values s (LSet l (Z.to_nat i) u mv); Ok (s, Said true)
    | DRemove l k =>                                                (* Dictionary.h:243-257 *)
        do i <- position s l k;
        if negb (i =? -1)%Z then
          do x <- keys_of s l;
          do x <- LstModel.remove_at K x i;
          do t <- DctModel.late (lstep (lp s) (LRemove l (Z.to_nat i) 1));
          Ok (mkP t (upd (ks s) l x), Said true)
        else Ok (s, Said false)
    | DClear l =>                                                   (* Dictionary.h:260-265 *)
        do x <- keys_of s l;
        do x <- LstModel.clear K x;
        do t <- DctModel.late (lstep (lp s) (LClear l));
        Ok (mkP t (upd (ks s) l x), Said true)
    | DMove l m =>                                                  (* Dictionary.h:133-138, List.h:488-502 for the keys *)
        do _ <- keys_of s l;
        do y <- keys_of s m;
        do t <- lstep (lp s) (LMove l m);
        Ok (mkP t (upd (upd (ks s) l y) m (LstModel.empty_lst)), Done)
    | DHas l k => do i <- position s l k; Ok (s, Said (negb (i =? -1)%Z))
    end.
  (* an Error leaves everything as it was: all checks come first *)
  Definition pstep (s : pst) (o : pop) : res (pst * pout) :=
    match pstep_raw s o with Err => Ok (s, Raised) | r => r end.
  Fixpoint prun (s : pst) (os : list pop) : res (pst * list pout) :=
    match os with
    | [] => Ok (s, [])
    | o :: os => do (s, r) <- pstep s o; do (s, rs) <- prun s os; Ok (s, r :: rs)
    end.
End Pd.
Arguments mkP {K}. Arguments lp {K}. Arguments ks {K}. Arguments init_p {K}.
Arguments FromVar {K}. Arguments FromDict {K}. Arguments VNew {K}. Arguments VMake {K}. Arguments VCopy {K}. Arguments VAssign {K}.
Arguments VNull {K}. Arguments VEnd {K}. Arguments DNew {K}. Arguments DEnd {K}. Arguments DAdd {K}. Arguments DSet {K}.
Arguments DRemove {K}. Arguments DClear {K}. Arguments DMove {K}. Arguments DHas {K}.
