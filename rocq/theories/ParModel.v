(* Ptr copies of one object in several threads: the copy constructor and the destructor of Ptr
   (Source/Primitives/Pointer.h:89-110, 149-156, 201-204, 45-49) with INCRC and DECRC
   (Source/Basic.h:135-136) as atomic steps.
   The fields of a Ptr variable belong to its thread; the counter and the object are shared.
   fetch_add and fetch_sub have the default memory order, so the steps of the threads
   interleave. *)
From Verif Require Import Base.
Open Scope Z_scope.

Inductive act :=
| Copy              (* Ptr<T> b(a), where a is a copy the thread owns *)
| Drop              (* the end of the scope of a copy the thread owns *)
| Use               (* a->f() *)
| Give (j : nat).   (* a copy is moved to thread j, with some lock of the client *)
(* where a thread is inside of Dec: not in it, before `delete counter`, before `delete (T* )reference` *)
Inductive phase := Outside | BeforeCounter | BeforeObject.
Record thread := mkT { own : nat; prog : list act; ph : phase }.
(* the counter (None: deleted), whether the object exists, the threads; ghosts: the thread of the latest
   DECRC, and the threads that executed `delete (T* )reference`, latest first *)
Record par := mkPar { cnt : option Z; obj : bool; ths : list thread; latest : option nat; deleters : list nat }.

(* one step of thread i.  A thread without a copy waits until it is given one; a thread whose
   program is finished does nothing. *)
Definition tstep (w : par) (i : nat) : res par :=
  match nth_error (ths w) i with
  | None => Ok w
  | Some t =>
      match ph t with
      | BeforeCounter =>            (* delete counter *)
          match cnt w with
          | None => UB
          | Some _ => Ok (mkPar None (obj w) (upd (ths w) i (mkT (own t) (prog t) BeforeObject)) (latest w) (deleters w))
          end
      | BeforeObject =>             (* delete (T* )reference; SetEmptyNoIncDec *)
          if obj w then Ok (mkPar (cnt w) false (upd (ths w) i (mkT (own t) (prog t) Outside)) (latest w) (i :: deleters w))
          else UB
      | Outside =>
          match prog t, own t with
          | [], _ => Ok w
          | _ :: _, O => Ok w
          | Copy :: p, S k =>       (* INCRC(counter) *)
              match cnt w with
              | None => UB
              | Some n => Ok (mkPar (Some (n + 1)) (obj w) (upd (ths w) i (mkT (S (S k)) p Outside)) (latest w) (deleters w))
              end
          | Drop :: p, S k =>       (* DECRC(counter) == 0 ? *)
              match cnt w with
              | None => UB
              | Some n => Ok (mkPar (Some (n - 1)) (obj w)
                                (upd (ths w) i (mkT k p (if n - 1 =? 0 then BeforeCounter else Outside))) (Some i) (deleters w))
              end
          | Use :: p, S k =>
              if obj w then Ok (mkPar (cnt w) (obj w) (upd (ths w) i (mkT (S k) p Outside)) (latest w) (deleters w)) else UB
          | Give j :: p, S k =>
              let l := upd (ths w) i (mkT k p Outside) in
              match nth_error l j with
              | None => Ok w
              | Some t' => Ok (mkPar (cnt w) (obj w) (upd l j (mkT (S (own t')) (prog t') (ph t'))) (latest w) (deleters w))
              end
          end
      end
  end.
(* a schedule names the thread of every step *)
Fixpoint prun (w : par) (sched : list nat) : res par :=
  match sched with [] => Ok w | i :: sched => do w <- tstep w i; prun w sched end.
