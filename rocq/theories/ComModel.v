(* ComPtr: Source/Primitives/Pointer.h:321-447.
   COM objects are numbered; only the calls of Release are recorded (an object may do whatever
   it likes in Release, but it does not touch ComPtr variables). *)
From Verif Require Import Base.
Open Scope Z_scope.

Record cptr := mkC { cc : option nat; cr : option nat }.
(* SetEmpty : Pointer.h:328-332 *)
Definition cnull := mkC None None.
(* the counters (None: deleted), the variables (None: not constructed), the calls of Release, latest first *)
Record cst := mkCst { ccn : list (option Z); cvs : list (option cptr); crel : list nat }.

Definition vget (s : cst) (v : nat) : res cptr :=
  match nth_error (cvs s) v with Some (Some p) => Ok p | _ => UB end.
Definition vset (s : cst) (v : nat) (p : cptr) : res cst :=
  match nth_error (cvs s) v with Some (Some _) => Ok (mkCst (ccn s) (upd (cvs s) v (Some p)) (crel s)) | _ => UB end.
Definition vinit (s : cst) (v : nat) (p : cptr) : res cst :=
  match nth_error (cvs s) v with Some None => Ok (mkCst (ccn s) (upd (cvs s) v (Some p)) (crel s)) | _ => UB end.
Definition vkill (s : cst) (v : nat) : res cst :=
  match nth_error (cvs s) v with Some (Some _) => Ok (mkCst (ccn s) (upd (cvs s) v None) (crel s)) | _ => UB end.
Definition nget (s : cst) (c : nat) : res Z :=
  match nth_error (ccn s) c with Some (Some n) => Ok n | _ => UB end.
Definition nset (s : cst) (c : nat) (x : option Z) : cst := mkCst (upd (ccn s) c x) (cvs s) (crel s).

(* Inc : Pointer.h:334-340 *)
Definition cinc (s : cst) (p : cptr) : res cst :=
  match cc p with None => Ok s | Some c => do n <- nget s c; Ok (nset s c (Some (n + 1))) end.
(* Dec : Pointer.h:342-353 *)
Definition cdec (s : cst) (v : nat) : res cst :=
  do p <- vget s v;
  match cc p with
  | None => Ok s
  | Some c =>
      do n <- nget s c;
      let s := nset s c (Some (n - 1)) in
      if n - 1 =? 0 then
        let s := nset s c None in
        match cr p with
        | None => UB
        | Some o => vset (mkCst (ccn s) (cvs s) (o :: crel s)) v cnull
        end
      else Ok s
  end.
(* the part common to the constructor and the assignment from a raw pointer: a counter of 1 *)
Definition wrap (s : cst) (o : nat) : cst * cptr :=
  (mkCst (ccn s ++ [Some 1]) (cvs s) (crel s), mkC (Some (length (ccn s))) (Some o)).

Inductive cop :=
| CNew (v : nat)                  (* ComPtr<T> v; v(nullptr); v((T* )nullptr) *)
| CWrap (v o : nat)               (* ComPtr<T> v(o); *)
| CCopy (v w : nat)               (* ComPtr<T> v(w); *)
| CMove (v w : nat)               (* ComPtr<T> v(std::move(w)); *)
| CDestroy (v : nat)
| CSetNull (v : nat)              (* v = nullptr; v = (T* )nullptr; *)
| CSetRaw (v o : nat)             (* v = o; *)
| CAssign (v w : nat)             (* v = w; *)
| CMoveAssign (v w : nat).        (* v = std::move(w); *)

Definition cstep (s : cst) (o : cop) : res cst :=
  match o with
  | CNew v => vinit s v cnull                                                          (* 368-369, 378-381 *)
  | CWrap v o => let (s, p) := wrap s o in vinit s v p                                 (* 371-377 *)
  | CCopy v w => do p <- vget s w; do s <- vinit s v p; cinc s p                        (* 384-389 *)
  | CMove v w => do p <- vget s w; do s <- vinit s v p; vset s w cnull                  (* 391-396 *)
  | CDestroy v => do s <- cdec s v; vkill s v                                          (* 398-401 *)
  | CSetNull v => do s <- cdec s v; vset s v cnull                                     (* 403-408 *)
  | CSetRaw v o => do s <- cdec s v; let (s, p) := wrap s o in vset s v p              (* 410-423 *)
  | CAssign v w =>                                                                     (* 425-435 *)
      if Nat.eqb v w then do _ <- vget s v; Ok s else
      do s <- cdec s v; do p <- vget s w; do s <- vset s v p; cinc s p
  | CMoveAssign v w =>                                                                 (* 437-447 *)
      if Nat.eqb v w then do _ <- vget s v; Ok s else
      do s <- cdec s v; do p <- vget s w; do s <- vset s v p; vset s w cnull
  end.
Fixpoint crun (s : cst) (os : list cop) : res cst :=
  match os with [] => Ok s | o :: os => do s <- cstep s o; crun s os end.
Definition cinit (n : nat) : cst := mkCst [] (repeat None n) [].
