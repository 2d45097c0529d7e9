(* Func while it runs: Source/Primitives/Function.h:73-119 and 126-252 with Pointer.h:31-312.

   The member invoker of a Func is a Ptr (126); copying and assigning a Func copy and assign this Ptr (153, 157, 225-235;
   assigning an rvalue copies it as well, because the parameter is const), and destroying a Func destroys it.  So a Func
   variable is a Ptr variable of RcModel, and its statements are those of RcModel.  The object is the ObjectInvoker (73-119): its
   Ptr members are the Func and Ptr variables the lambda captured by value.
      Func<void()> f = [a, b]() { ... };     is PRaw 2; PWrap f o; PAssign m a; PAssign (m+1) b
      f = {};                                is PSetNull f
   A call reads the invoker and runs the lambda inside of it (220-223, 90-93): the body may execute any statements, also on
   the Func it was called through, may call again, and uses what was captured, which is in the invoker.

   Simplifications: captures that are not Func or Ptr are not told apart (Use reads any of them); arguments and results are
   not modelled; the order inside `invoker = Ptr(new ObjectInvoker(...))` is not (the Ptr is constructed with the new object). *)
From Verif Require Import Base RcModel.

Inductive fop :=
| Do (o : op)         (* a statement, in the main program or in a running body *)
| Call (u : nat)      (* u(); *)
| Use                 (* the running body reads or writes something captured *)
| Return.             (* the end of the running body *)

(* frames: the invokers whose Invoke is running, the innermost first *)
Record fst := mkF { base : st; frames : list nat }.
Definition start (n : nat) : fst := mkF (init n) [].

Definition fstep (s : fst) (o : fop) : res fst :=
  match o with
  | Do o => do (t, _) <- step (base s) o; Ok (mkF t (frames s))
  | Call u =>                                                      (* Function.h:220-223, 90-93, 115-118 *)
      do p <- pget (base s) u;
      match pr p with
      | None => UB
      | Some i => if alive (base s) i then Ok (mkF (base s) (i :: frames s)) else UB
      end
  | Use =>
      match frames s with
      | i :: _ => if alive (base s) i then Ok s else UB
      | [] => UB
      end
  | Return => match frames s with _ :: fr => Ok (mkF (base s) fr) | [] => UB end
  end.
Fixpoint frun (s : fst) (os : list fop) : res fst :=
  match os with
  | [] => Ok s
  | o :: os => do s <- fstep s o; frun s os
  end.
