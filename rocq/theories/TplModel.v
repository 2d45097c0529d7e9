(* Construction, assignment and access of Tuple: Source/Primitives/Tuple.h:14-96 (elements), 125-175 (TupleBase), 199-299
   (Tuple).  An element of type T holds its object (14-54), an element of type T& holds a pointer (56-96).  Comparison is
   in TupModel.

   Memory is a list of objects of one type V; addresses are never reused.  Simplification: conversions between different
   element types keep the value, and constness is not modelled: copying from const U into an element of type T& compiles only
   when T is const or both tuples have the same type (then the compiler's own copy does the same).  Pair has the same constructors and assignments for value types (Pair.h:64-93). *)
From Verif Require Import Base.
Open Scope nat_scope.

Inductive cell (V : Type) := Dead | Raw | Val (x : V).       (* Raw: exists, but has no value yet *)
Arguments Dead {V}. Arguments Raw {V}. Arguments Val {V}.
(* an element of a tuple variable: its object is at address a, or it refers to address a *)
Inductive elem := Own (a : nat) | Ref (a : nat).
(* GetElement() : Tuple.h:45-53, 87-95 *)
Definition at_ (e : elem) : nat := match e with Own a => a | Ref a => a end.

Section Tpl.
Context {V : Type}.
(* what is left in an object after its value was moved away; the value of x after x = std::move(x) *)
Context (gone self : V -> V).

Record st := mkSt { mem : list (cell V); tup : list (option (list elem)) }.
Definition init (n : nat) : st := mkSt [] (repeat None n).

Definition load (m : list (cell V)) (a : nat) : res V :=
  match nth_error m a with Some (Val x) => Ok x | _ => UB end.
Definition store (m : list (cell V)) (a : nat) (x : V) : res (list (cell V)) :=
  match nth_error m a with Some Dead => UB | None => UB | _ => Ok (upd m a (Val x)) end.

(* The elements of a new tuple from addresses, each an lvalue or an rvalue: Tuple.h:21-25, 63-67 through 137-153 *)
Fixpoint build (refs : list bool) (src : list (nat * bool)) (m : list (cell V)) : res (list (cell V) * list elem) :=
  match refs, src with
  | [], [] => Ok (m, [])
  | r :: refs, (a, mv) :: src =>
      do (m, e) <-
        (if r then Ok (m, Ref a)                              (* element(&_element), 65 *)
         else do x <- load m a;                               (* element(std::forward<U&&>(_element)), 23 *)
              let b := length m in
              let m := m ++ [Val x] in
              do m <- (if mv : bool then store m a (gone x) else Ok m);
              Ok (m, Own b));
      do (m, es) <- build refs src m;
      Ok (m, e :: es)
  | _, _ => UB                                                (* does not compile *)
  end.

(* AssignCopy, AssignMove : Tuple.h:27-37, 69-79 for the elements in order, 155-175 *)
Fixpoint assign (mv : bool) (es us : list elem) (m : list (cell V)) : res (list (cell V) * list elem) :=
  match es, us with
  | [], [] => Ok (m, [])
  | e :: es, u :: us =>
      do (m, e) <-
        (match e with
         | Ref _ => Ok (m, Ref (at_ u))                       (* element = &value.GetElement(), 72, 78 *)
         | Own a =>
             do x <- load m (at_ u);
             if mv then                                       (* element = std::move(value.GetElement()), 36 *)
               if Nat.eqb a (at_ u) then do m <- store m a (self x); Ok (m, e)
               else do m <- store m a x; do m <- store m (at_ u) (gone x); Ok (m, e)
             else do m <- store m a x; Ok (m, e)              (* element = value.GetElement(), 30 *)
         end);
      do (m, es) <- assign mv es us m;
      Ok (m, e :: es)
  | _, _ => UB
  end.

(* a new tuple variable whose elements are default constructed: Tuple.h:214, 135, 19.  None: a type like int, which is left
   without a value *)
Fixpoint defaults (ds : list (option V)) (b : nat) : list (cell V) * list elem :=
  match ds with
  | [] => ([], [])
  | d :: ds => let '(m, es) := defaults ds (S b) in
               (match d with Some x => Val x | None => Raw end :: m, Own b :: es)
  end.

(* ~Tuple: the objects of its elements end *)
Fixpoint free (es : list elem) (m : list (cell V)) : list (cell V) :=
  match es with
  | [] => m
  | Own a :: es => free es (upd m a Dead)
  | Ref _ :: es => free es m
  end.

(* what a constructor argument refers to: a variable outside of tuples, or get<i>() of a tuple *)
Inductive arg := AVar (a : nat) | AElem (w i : nat).
Inductive op :=
| TVar (x : V)                                                (* a new variable outside of tuples *)
| TEnd (a : nat)                                              (* it goes out of scope *)
| TDefault (v : nat) (ds : list (option V))                   (* Tuple<...> v; *)
| TNew (v : nat) (refs : list bool) (args : list (arg * bool))(* Tuple<...> v(x, std::move(y), ...); 216-223 *)
| TFrom (v : nat) (refs : list bool) (w : nat) (mv : bool)    (* Tuple<...> v(w); or v(std::move(w)); 225-241 *)
| TAssign (v w : nat) (mv : bool)                             (* v = w; or v = std::move(w); 243-255 *)
| TPut (v i : nat) (x : V)                                    (* v.get<i>() = x; 271-283 *)
| TGet (v i : nat)                                            (* v.get<i>() *)
| TRead (a : nat)                                             (* the value of a variable *)
| TDrop (v : nat).                                            (* v goes out of scope *)

Definition tget (s : st) (v : nat) : res (list elem) := match nth_error (tup s) v with Some (Some es) => Ok es | _ => UB end.
Definition where_ (s : st) (v i : nat) : res nat := do es <- tget s v; match nth_error es i with Some e => Ok (at_ e) | None => UB end.
Definition fresh (s : st) (v : nat) : res unit := match nth_error (tup s) v with Some None => Ok tt | _ => UB end.
Definition resolve (s : st) (x : arg) : res nat := match x with AVar a => if Nat.ltb a (length (mem s)) then Ok a else UB | AElem w i => where_ s w i end.
Fixpoint resolves (s : st) (l : list (arg * bool)) : res (list (nat * bool)) :=
  match l with
  | [] => Ok []
  | (x, mv) :: l => do a <- resolve s x; do r <- resolves s l; Ok ((a, mv) :: r)
  end.

Definition step (s : st) (o : op) : res (st * option V) :=
  match o with
  | TVar x => Ok (mkSt (mem s ++ [Val x]) (tup s), None)
  | TEnd a => match nth_error (mem s) a with Some (Val _) => Ok (mkSt (upd (mem s) a Dead) (tup s), None) | _ => UB end
  | TDefault v ds =>
      do _ <- fresh s v;
      let '(m, es) := defaults ds (length (mem s)) in
      Ok (mkSt (mem s ++ m) (upd (tup s) v (Some es)), None)
  | TNew v refs args =>
      do _ <- fresh s v;
      do src <- resolves s args;
      do (m, es) <- build refs src (mem s);
      Ok (mkSt m (upd (tup s) v (Some es)), None)
  | TFrom v refs w mv =>
      do _ <- fresh s v;
      do us <- tget s w;
      do (m, es) <- build refs (map (fun u => (at_ u, mv)) us) (mem s);
      Ok (mkSt m (upd (tup s) v (Some es)), None)
  | TAssign v w mv =>
      do es <- tget s v;
      do us <- tget s w;
      do (m, es) <- assign mv es us (mem s);
      Ok (mkSt m (upd (tup s) v (Some es)), None)
  | TPut v i x => do a <- where_ s v i; do m <- store (mem s) a x; Ok (mkSt m (tup s), None)
  | TGet v i => do a <- where_ s v i; do x <- load (mem s) a; Ok (s, Some x)
  | TRead a => do x <- load (mem s) a; Ok (s, Some x)
  | TDrop v => do es <- tget s v; Ok (mkSt (free es (mem s)) (upd (tup s) v None), None)
  end.
Fixpoint run (s : st) (os : list op) : res (st * list (option V)) :=
  match os with
  | [] => Ok (s, [])
  | o :: os => do (s, r) <- step s o; do (s, rs) <- run s os; Ok (s, r :: rs)
  end.
End Tpl.
Arguments st : clear implicits.
Arguments op : clear implicits.
