(* Graphs of shared objects in several threads: Ptr (Source/Primitives/Pointer.h:31-312) with INCRC and
   DECRC (Source/Basic.h:135-136) as atomic steps.

   Objects are numbered and have Ptr members; every thread has Ptr variables of its own.  A statement of a
   thread is cut into steps, one for every access to a counter and for every other access to memory another
   thread may see; the steps of the threads interleave in any order (fetch_add and fetch_sub have the default
   memory order).

   A Ptr is the number of the object or empty.  A Ptr that is being assigned counts as empty from the moment its
   Dec begins until the Inc of the assignment is done: nobody can look at it in between, because two
   operations on one Ptr that overlap in time, one of which changes it, are a data race of the client.
   Err is such a race.  UB is an access to a deleted counter or a destroyed object. *)
From Verif Require Import Base.
Open Scope Z_scope.

Inductive stmt :=
| New (y : nat) (ms : list nat)  (* y = Ptr<T>(new T(m1, m2, ...)): the members are copies of variables *)
| Copy (y x : nat)               (* y = x *)
| Move (y x : nat)               (* y = std::move(x) *)
| Reset (y : nat)                (* y = nullptr *)
| Load (y x f : nat)             (* if (x) y = x->f *)
| Store (x f y : nat)            (* if (x) x->f = y *)
| Take (y x f : nat)             (* if (x) y = std::move(x->f) *)
| Use (x : nat).                 (* if (x) x->g() *)

(* what is left of Ptr::Dec and of the deletions it started *)
Inductive task :=
| TDec (o : nat)                 (* DECRC(counter) == 0 ?     : Pointer.h:101 *)
| TCounter (o : nat)             (* delete counter            : Pointer.h:47 *)
| TDestroy (o : nat)             (* delete (T* )reference     : Pointer.h:48, the destructor is entered *)
| TFree (o : nat).               (* the members are destroyed, the memory is released *)
(* what is left of a statement when its tasks are done *)
Inductive rest :=
| RNone
| RSet (y o : nat)               (* the fields of y become those of a new Ptr : Pointer.h:256-260 *)
| RCopy (y x : nat)              (* fields and Inc            : Pointer.h:239-243 *)
| RMove (y x : nat)              (* fields, SetEmptyNoIncDec  : Pointer.h:256-260 *)
| RRead (y o f : nat)            (* the fields of the member  : Pointer.h:239-242 *)
| RInc (y o f p : nat)           (* INCRC(counter)            : Pointer.h:93 *)
| RStore (o f x : nat)           (* the same as RCopy, into the member f of object o *)
| RTake (y o f : nat)            (* the same as RMove, from the member f of object o *)
| RBuild (y : nat) (ms : list nat) (acc : list (option nat)).  (* the copies for the members : Pointer.h:149-156 *)

Inductive life := Alive | Dying | Gone.
(* the counter (None: deleted), whether the object exists, its members *)
Record obj := mkO { cnt : option Z; lf : life; cells : list (option nat) }.
Record thread := mkT { vars : list (option nat); prog : list stmt; work : list task; fin : rest }.
(* log: the objects in the order of their deletion, latest first (ghost) *)
Record pg := mkW { heap : list obj; ths : list thread; log : list nat }.

Definition getv (l : list (option nat)) (x : nat) : option nat :=
  match nth_error l x with Some v => v | None => None end.
Definition dec_of (v : option nat) : list task := match v with Some o => [TDec o] | None => [] end.
Definition somes (l : list (option nat)) : list nat :=
  flat_map (fun v => match v with Some o => [o] | None => [] end) l.

(* the operation thread t is in the middle of uses the member f of object o / changes it / uses object o *)
Definition uses_cell (o f : nat) (t : thread) : bool :=
  match fin t with
  | RRead _ o' f' | RInc _ o' f' _ | RStore o' f' _ | RTake _ o' f' => Nat.eqb o o' && Nat.eqb f f'
  | _ => false
  end.
Definition writes_cell (o f : nat) (t : thread) : bool :=
  match fin t with RStore o' f' _ | RTake _ o' f' => Nat.eqb o o' && Nat.eqb f f' | _ => false end.
Definition uses_obj (o : nat) (t : thread) : bool :=
  match fin t with RRead _ o' _ | RInc _ o' _ _ | RStore o' _ _ | RTake _ o' _ => Nat.eqb o o' | _ => false end.

Definition seto (w : pg) (o : nat) (b : obj) : pg := mkW (upd (heap w) o b) (ths w) (log w).
Definition sett (w : pg) (i : nat) (t : thread) : pg := mkW (heap w) (upd (ths w) i t) (log w).
(* INCRC(counter) : Pointer.h:93 *)
Definition inc (w : pg) (o : nat) : res pg :=
  match nth_error (heap w) o with
  | Some (mkO (Some n) l c) => Ok (seto w o (mkO (Some (n + 1)) l c))
  | _ => UB
  end.
(* the object a pointer refers to, for an access to its members *)
Definition deref (w : pg) (o : nat) : res obj :=
  match nth_error (heap w) o with
  | Some b => match lf b with Alive => Ok b | _ => UB end
  | None => UB
  end.
Definition setcell (b : obj) (f : nat) (v : option nat) : obj := mkO (cnt b) (lf b) (upd (cells b) f v).

(* one step inside of Dec and the destructors it runs : Pointer.h:97-110, 45-49 *)
Definition do_task (w : pg) (i : nat) (t : thread) (a : task) (k : list task) : res pg :=
  let go w work' := Ok (sett w i (mkT (vars t) (prog t) work' (fin t))) in
  match a with
  | TDec o =>
      match nth_error (heap w) o with
      | Some (mkO (Some n) l c) => go (seto w o (mkO (Some (n - 1)) l c)) (if n - 1 =? 0 then TCounter o :: k else k)
      | _ => UB
      end
  | TCounter o =>
      match nth_error (heap w) o with
      | Some (mkO (Some _) l c) => go (seto w o (mkO None l c)) (TDestroy o :: k)
      | _ => UB
      end
  | TDestroy o =>                (* the members are destroyed in reverse order *)
      if existsb (uses_obj o) (ths w) then UB else
      do b <- deref w o;
      go (seto w o (mkO (cnt b) Dying [])) (map TDec (rev (somes (cells b))) ++ TFree o :: k)
  | TFree o =>
      match nth_error (heap w) o with
      | Some (mkO c Dying l) => go (mkW (heap (seto w o (mkO c Gone l))) (ths w) (o :: log w)) k
      | _ => UB
      end
  end.
(* the end of a statement *)
Definition do_rest (w : pg) (i : nat) (t : thread) : res pg :=
  let go w vars' work' fin' := Ok (sett w i (mkT vars' (prog t) work' fin')) in
  match fin t with
  | RNone => Ok w
  | RSet y o => go w (upd (vars t) y (Some o)) [] RNone
  | RCopy y x =>
      match getv (vars t) x with
      | None => go w (vars t) [] RNone
      | Some o => do w <- inc w o; go w (upd (vars t) y (Some o)) [] RNone
      end
  | RMove y x => go w (upd (upd (vars t) y (getv (vars t) x)) x None) [] RNone
  | RRead y o f =>
      do b <- deref w o;
      go w (vars t) [] (match getv (cells b) f with Some p => RInc y o f p | None => RNone end)
  | RInc y o f p => do w <- inc w p; go w (upd (vars t) y (Some p)) [] RNone
  | RStore o f x =>
      match getv (vars t) x with
      | None => go w (vars t) [] RNone
      | Some p => do w <- inc w p; do b <- deref w o; go (seto w o (setcell b f (Some p))) (vars t) [] RNone
      end
  | RTake y o f =>
      do b <- deref w o; go (seto w o (setcell b f None)) (upd (vars t) y (getv (cells b) f)) [] RNone
  | RBuild y (m :: ms) acc =>
      match getv (vars t) m with
      | None => go w (vars t) [] (RBuild y ms (acc ++ [None]))
      | Some p => do w <- inc w p; go w (vars t) [] (RBuild y ms (acc ++ [Some p]))
      end
  | RBuild y [] acc =>           (* CreateCounter, Inc : Pointer.h:35-40, 133-142; the assignment to y begins *)
      go (mkW (heap w ++ [mkO (Some 1) Alive acc]) (ths w) (log w))
         (upd (vars t) y None) (dec_of (getv (vars t) y)) (RSet y (length (heap w)))
  end.
(* the beginning of a statement.  A statement that names a variable or a member that does not exist is
   skipped: it would not compile. *)
Definition do_stmt (w : pg) (i : nat) (t : thread) (s : stmt) (p : list stmt) : res pg :=
  let go w vars' work' fin' := Ok (sett w i (mkT vars' p work' fin')) in
  let skip := go w (vars t) [] RNone in
  let has y := Nat.ltb y (length (vars t)) in
  match s with
  | New y ms => if has y then go w (vars t) [] (RBuild y ms []) else skip
  | Copy y x =>                  (* if (this != &pointer) : Pointer.h:234-244 *)
      if has y && negb (Nat.eqb y x) then go w (upd (vars t) y None) (dec_of (getv (vars t) y)) (RCopy y x) else skip
  | Move y x =>                  (* Pointer.h:251-261 *)
      if has y && negb (Nat.eqb y x) then go w (upd (vars t) y None) (dec_of (getv (vars t) y)) (RMove y x) else skip
  | Reset y =>                   (* Pointer.h:227-232 *)
      if has y then go w (upd (vars t) y None) (dec_of (getv (vars t) y)) RNone else skip
  | Load y x f =>
      match getv (vars t) x with
      | None => skip
      | Some o =>
          do b <- deref w o;
          if has y && Nat.ltb f (length (cells b)) then
            if existsb (writes_cell o f) (ths w) then Err
            else go w (upd (vars t) y None) (dec_of (getv (vars t) y)) (RRead y o f)
          else skip
      end
  | Store x f y =>
      match getv (vars t) x with
      | None => skip
      | Some o =>
          do b <- deref w o;
          if has y && Nat.ltb f (length (cells b)) then
            if existsb (uses_cell o f) (ths w) then Err
            else go (seto w o (setcell b f None)) (vars t) (dec_of (getv (cells b) f)) (RStore o f y)
          else skip
      end
  | Take y x f =>
      match getv (vars t) x with
      | None => skip
      | Some o =>
          do b <- deref w o;
          if has y && Nat.ltb f (length (cells b)) then
            if existsb (uses_cell o f) (ths w) then Err
            else go w (upd (vars t) y None) (dec_of (getv (vars t) y)) (RTake y o f)
          else skip
      end
  | Use x =>
      match getv (vars t) x with
      | None => skip
      | Some o => do _ <- deref w o; skip
      end
  end.
(* one step of thread i *)
Definition tstep (w : pg) (i : nat) : res pg :=
  match nth_error (ths w) i with
  | None => Ok w
  | Some t =>
      match work t, fin t, prog t with
      | a :: k, _, _ => do_task w i t a k
      | [], RNone, s :: p => do_stmt w i t s p
      | [], RNone, [] => Ok w
      | [], _, _ => do_rest w i t
      end
  end.
(* a schedule names the thread of every step *)
Fixpoint prun (w : pg) (sched : list nat) : res pg :=
  match sched with [] => Ok w | i :: sched => do w <- tstep w i; prun w sched end.
