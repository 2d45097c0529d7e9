(* Func: Source/Primitives/Function.h:20-253.
   Simplifications: the arguments and the result of the target are not modelled, only which target is called and how often
   its own copy was called before; a functor's state is the number of calls made on that copy. Variables of all signatures
   share one numbering; converting between signatures is an operation of its own. Lifetimes of invokers belong to Ptr (C38). *)
From Verif Require Import Base.

(* the classes derived from Invoker *)
Inductive invoker :=
| Static (f : option Z)           (* StaticInvoker 32-47; None is a null function pointer *)
| Member (sender method : Z)      (* MemberInvoker 51-69 *)
| Functor (name : Z) (calls : N)  (* ObjectInvoker 73-119 with a lambda or a functor object *)
| Wrapped (f : option nat).       (* ObjectInvoker 73-119 whose function is a Func of another signature *)
(* heap: the invokers created so far; vars: the member invoker (Ptr) of each Func *)
Record state := State { heap : list invoker; vars : list (option nat) }.
Definition init := State [] [].
Inductive op :=
| MkEmpty | MkStatic (f : option Z) | MkMember (sender method : Z) | MkFunctor (name : Z) (calls : N)   (* 153, 165-168, 174-178, 183-197 *)
| MkCopy (y : nat) | MkMove (y : nat)           (* 153, 157 *)
| MkConvert (y : nat) | MkConvertMove (y : nat)   (* 183-197, from an lvalue and from an rvalue Func of another signature *)
| Assign (x y : nat) | MoveAssign (x y : nat)   (* 225-229, 231-235 *)
| Equal (x y : nat) | Bool (x : nat) | Call (x : nat).
Inductive target := TStatic (f : Z) | TMember (sender method : Z) | TFunctor (name : Z).
Inductive out := Unit | Truth (b : bool) | Called (t : target) (before : N) | Undefined | NoSuchVariable.

(* Invoke: 43-46, 65-68, 90-93, 115-118, and operator(): 220-223. The result is the new heap, the target and its calls so far *)
Fixpoint call (fuel : nat) (h : list invoker) (i : nat) : res (list invoker * target * N) :=
  match fuel with
  | O => NoFuel
  | S fuel =>
      match nth_error h i with
      | Some (Static (Some f)) => Ok (h, TStatic f, 0%N)
      | Some (Static None) => UB
      | Some (Member s m) => Ok (h, TMember s m, 0%N)
      | Some (Functor n k) => Ok (upd h i (Functor n (k + 1)), TFunctor n, k)
      | Some (Wrapped (Some j)) => call fuel h j
      | Some (Wrapped None) => UB
      | None => UB
      end
  end.
Definition same_ptr (a b : option nat) : bool :=
  match a, b with Some a, Some b => (a =? b)%nat | None, None => true | _, _ => false end.
Definition fresh (s : state) (i : invoker) : state := State (heap s ++ [i]) (vars s ++ [Some (length (heap s))]).
Definition step (s : state) (o : op) : state * out :=
  let with_var y f := match nth_error (vars s) y with Some v => f v | None => (s, NoSuchVariable) end in
  match o with
  | MkEmpty => (State (heap s) (vars s ++ [None]), Unit)
  | MkStatic f => (fresh s (Static f), Unit)
  | MkMember a m => (fresh s (Member a m), Unit)
  | MkFunctor n k => (fresh s (Functor n k), Unit)          (* IsEmptyFunc of anything else is false: 143-147 *)
  | MkCopy y => with_var y (fun v => (State (heap s) (vars s ++ [v]), Unit))
  | MkMove y => with_var y (fun v => (State (heap s) (upd (vars s) y None ++ [v]), Unit))
  | MkConvert y => with_var y (fun v =>
      match v with
      | None => (State (heap s) (vars s ++ [None]), Unit)   (* IsEmptyFunc: 131-141 *)
      | Some _ => (fresh s (Wrapped v), Unit)
      end)
  | MkConvertMove y => with_var y (fun v =>
      match v with
      | None => (State (heap s) (vars s ++ [None]), Unit)
      | Some _ => (State (heap s ++ [Wrapped v]) (upd (vars s) y None ++ [Some (length (heap s))]), Unit)
      end)
  | Assign x y => with_var x (fun _ => with_var y (fun v => (State (heap s) (upd (vars s) x v), Unit)))
  | MoveAssign x y => with_var x (fun _ => with_var y (fun v => (State (heap s) (upd (vars s) x v), Unit)))
      (* std::move of a const Ptr copies it: the source keeps its invoker *)
  | Equal x y => with_var x (fun a => with_var y (fun b => (s, Truth (same_ptr a b))))    (* 237-245 *)
  | Bool x => with_var x (fun a => (s, Truth match a with Some _ => true | None => false end))   (* 249-252 *)
  | Call x => with_var x (fun a =>
      match a with
      | None => (s, Undefined)
      | Some i => match call (S (length (heap s))) (heap s) i with
                  | Ok (h, t, k) => (State h (vars s), Called t k)
                  | _ => (s, Undefined)
                  end
      end)
  end.
Fixpoint run (s : state) (os : list op) : state * list out :=
  match os with
  | [] => (s, [])
  | o :: os => let '(s, r) := step s o in let '(s, rs) := run s os in (s, r :: rs)
  end.
