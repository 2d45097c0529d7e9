(* Ptr and ComPtr when there is no memory for a counter: Source/Primitives/Pointer.h.
   A counter is allocated by Ptr(T* ), ComPtr(T* ) and ComPtr::operator=(T* ) only; std::bad_alloc leaves them.  Everything
   else is RcModel and ComModel. *)
From Verif Require Import Base RcModel ComModel.

(* ---- Ptr ---- *)
Inductive pop :=
| POp (o : op)                       (* an operation for which there is memory *)
| PFail (v o : nat).                 (* Ptr<T> v(o); and there is no memory for the counter *)
(* CreateCounter throws before anything is stored (Pointer.h:135-145, 37-40): there is no Ptr at v, and o is as before.
   The result says whether an exception was thrown. *)
Definition pstep (s : st) (e : pop) : res (st * option nat * bool) :=
  match e with
  | POp o => do (s, r) <- step s o; Ok (s, r, false)
  | PFail v o => match nth_error (vs s) v with Some (None, _) => Ok (s, None, true) | _ => UB end
  end.
Fixpoint prun (s : st) (es : list pop) : res (st * list bool) :=
  match es with
  | [] => Ok (s, [])
  | e :: es => do (s, _, x) <- pstep s e; do (s, xs) <- prun s es; Ok (s, x :: xs)
  end.

(* ---- ComPtr ---- *)
Inductive mop :=
| MOp (o : cop)
| MFailWrap (v o : nat)              (* ComPtr<T> v(o); without memory *)
| MFailSet (v o : nat).              (* v = o; without memory *)
Definition mstep (s : cst) (e : mop) : res (cst * bool) :=
  match e with
  | MOp o => do s <- cstep s o; Ok (s, false)
  | MFailWrap v o => match nth_error (cvs s) v with Some None => Ok (s, true) | _ => UB end     (* 371-376 *)
  | MFailSet v o => do s <- cdec s v; Ok (s, true)      (* 410-416: Dec is done, counter and reference are not replaced *)
  end.
Fixpoint mrun (s : cst) (es : list mop) : res (cst * list bool) :=
  match es with
  | [] => Ok (s, [])
  | e :: es => do (s, x) <- mstep s e; do (s, xs) <- mrun s es; Ok (s, x :: xs)
  end.
