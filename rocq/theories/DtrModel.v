(* Ptr with objects whose destructors themselves use Ptr variables: Source/Primitives/Pointer.h:31-312 on the
   states of RcModel.

   A destructor is arbitrary code: [code o k s] is the k-th operation that the destructor of object o carries out,
   given the state s at that moment (None: it returns).  It runs after the counter has been deleted and before the
   Ptr members of the object are destroyed (DeleteReference, Pointer.h:45-49).  Operations may therefore be in
   progress while others begin: what is left to do is a stack of tasks. *)
From Verif Require Import Base RcModel.
Open Scope Z_scope.

Inductive task :=
| TOp (o : op)               (* an operation of the program or of a destructor *)
| TBody (o k : nat)          (* the destructor of o from its k-th operation on *)
| TMembers (ws : list nat)   (* the implicit destruction of the members ws *)
| TNull (v : nat)            (* SetEmptyNoIncDec() of v: the end of Dec or of operator=(nullptr) *)
| TKill (v : nat)            (* v has been destroyed *)
| TSet (v w : nat)           (* the rest of v = w : Pointer.h:246-250 *)
| TMoveSet (v w : nat).      (* the rest of v = std::move(w) : Pointer.h:263-267 *)

(* Dec : Pointer.h:97-110 up to the call of the destructor: the new state and the tasks to do next *)
Definition start_dec (v : nat) (s : st) : res (st * list task) :=
  do p <- pget s v;
  match pc p with
  | None => Ok (s, [])
  | Some c =>
      do n <- cget s c;
      let s := cset s c (Some (n - 1)) in
      if n - 1 =? 0 then
        if pd p then
          let s := cset s c None in                                   (* delete counter, 47 *)
          match po p with
          | None => Ok (s, [TNull v])
          | Some o =>                                                 (* delete (T* )reference, 48 *)
              if alive s o then Ok (mkSt (cn s) (upd (ob s) o false) (vs s), [TBody o 0; TMembers (members s o); TNull v])
              else UB
          end
        else UB
      else Ok (s, [])
  end.

(* One step: the first task is carried out, [rest] is what was to be done after it *)
Definition dtr_step (code : nat -> nat -> st -> option op) (s : st) (t : task) (rest : list task) : res (st * list task) :=
  match t with
  | TOp (PDestroy v) => do (s, ts) <- start_dec v s; Ok (s, ts ++ TKill v :: rest)               (* 201-204 *)
  | TOp (PSetNull v) => do (s, ts) <- start_dec v s; Ok (s, ts ++ TNull v :: rest)               (* 231-236 *)
  | TOp (PAssign v w) =>                                                                          (* 241-253 *)
      if Nat.eqb v w then do _ <- pget s v; Ok (s, rest)
      else do (s, ts) <- start_dec v s; Ok (s, ts ++ TSet v w :: rest)
  | TOp (PMoveAssign v w) =>                                                                      (* 258-270 *)
      if Nat.eqb v w then do _ <- pget s v; Ok (s, rest)
      else do (s, ts) <- start_dec v s; Ok (s, ts ++ TMoveSet v w :: rest)
  | TOp o => do (s, _) <- step s o; Ok (s, rest)                     (* the others delete nothing *)
  | TBody o k =>
      match code o k s with
      | None => Ok (s, rest)
      | Some op => Ok (s, TOp op :: TBody o (S k) :: rest)
      end
  | TMembers [] => Ok (s, rest)
  | TMembers (w :: ws) => do (s, ts) <- start_dec w s; Ok (s, ts ++ TKill w :: TMembers ws :: rest)
  | TNull v => do s <- pset s v null; Ok (s, rest)
  | TKill v => do s <- pkill s v; Ok (s, rest)
  | TSet v w => do p <- pget s w; do s <- pset s v p; do s <- inc s p; Ok (s, rest)
  | TMoveSet v w => do p <- pget s w; do s <- pset s v p; do s <- pset s w null; Ok (s, rest)
  end.
