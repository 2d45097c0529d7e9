(* Ptr: Source/Primitives/Pointer.h:31-312.

   Objects are numbered; an object has some Ptr members.  Ptr variables are numbered too: a
   variable is on the stack or is a member of an object.  Deleting an object destroys its Ptr
   members, in reverse order, which may delete further objects.

   Simplifications: `reference` and `originalReference` are the number of the object, that
   is, pointers to different base classes of one object are not told apart; whether a
   dynamic_cast succeeds is an input; an object counts as deleted from the moment its
   destructor is entered; originalDestructor is a flag (set or not). *)
From Verif Require Import Base.
Open Scope Z_scope.

Record ptr := mkPtr { pc : option nat; pr : option nat; po : option nat; pd : bool }.
(* SetEmptyNoIncDec : Pointer.h:81-87 *)
Definition null := mkPtr None None None false.

(* cn: the allocated counters (None: deleted); ob: the objects (false: deleted);
   vs: the variables (None: no object of class Ptr there) and the object each one lives in *)
Record st := mkSt { cn : list (option Z); ob : list bool; vs : list (option ptr * option nat) }.

Definition pget (s : st) (v : nat) : res ptr :=
  match nth_error (vs s) v with Some (Some p, _) => Ok p | _ => UB end.
Definition pset (s : st) (v : nat) (p : ptr) : res st :=
  match nth_error (vs s) v with
  | Some (Some _, h) => Ok (mkSt (cn s) (ob s) (upd (vs s) v (Some p, h)))
  | _ => UB
  end.
(* the storage of a Ptr that has been destroyed *)
Definition pkill (s : st) (v : nat) : res st :=
  match nth_error (vs s) v with
  | Some (Some _, h) => Ok (mkSt (cn s) (ob s) (upd (vs s) v (None, h)))
  | _ => UB
  end.
(* a Ptr constructed in unused storage *)
Definition pinit (s : st) (v : nat) (p : ptr) : res st :=
  match nth_error (vs s) v with
  | Some (None, h) => Ok (mkSt (cn s) (ob s) (upd (vs s) v (Some p, h)))
  | _ => UB
  end.
(* using a counter that has been deleted is undefined *)
Definition cget (s : st) (c : nat) : res Z :=
  match nth_error (cn s) c with Some (Some n) => Ok n | _ => UB end.
Definition cset (s : st) (c : nat) (o : option Z) : st := mkSt (upd (cn s) c o) (ob s) (vs s).
Definition alive (s : st) (o : nat) : bool := match nth_error (ob s) o with Some b => b | None => false end.

(* Inc : Pointer.h:89-95 *)
Definition inc (s : st) (p : ptr) : res st :=
  match pc p with
  | None => Ok s
  | Some c => do n <- cget s c; Ok (cset s c (Some (n + 1)))
  end.
(* the Ptr members of an object, last first *)
Definition members (s : st) (o : nat) : list nat :=
  rev (filter (fun u => match nth_error (vs s) u with
                        | Some (_, Some h) => Nat.eqb h o
                        | _ => false end) (seq 0 (length (vs s)))).
(* Dec : Pointer.h:97-110, with ReferenceCounterOperator::DeleteReference (45-49) and the
   implicit destructor of the members, each running ~Ptr (201-204) *)
Fixpoint dec (fuel : nat) (del : bool) (v : nat) (s : st) {struct fuel} : res st :=
  match fuel with
  | O => NoFuel
  | S f =>
      do p <- pget s v;
      match pc p with
      | None => Ok s
      | Some c =>
          do n <- cget s c;
          let s := cset s c (Some (n - 1)) in
          if n - 1 =? 0 then
            do s <-
              (if del then
                 if pd p then
                   let s := cset s c None in
                   match po p with
                   | None => Ok s
                   | Some o =>
                       if alive s o then
                         let s := mkSt (cn s) (upd (ob s) o false) (vs s) in
                         (fix each (ws : list nat) (s : st) : res st :=
                            match ws with
                            | [] => Ok s
                            | w :: ws => do s <- dec f true w s; do s <- pkill s w; each ws s
                            end) (members s o) s
                       else UB
                   end
                 else UB
               else Ok s);
            pset s v null
          else Ok s
      end
  end.
Definition fuel_of (s : st) : nat := S (S (length (ob s))).

Inductive op :=
| PNew (v : nat)                     (* Ptr<T> v; Ptr<T> v(nullptr); *)
| PRaw (k : nat)                     (* new T, where T has k Ptr members *)
| PWrap (v o : nat)                  (* Ptr<T> v(o); *)
| PCopy (v w : nat)                  (* Ptr<T> v(w); *)
| PConv (v w : nat)                  (* Ptr<Base> v(w); *)
| PMove (v w : nat)                  (* Ptr<T> v(std::move(w)); *)
| PConvMove (v w : nat)              (* Ptr<Base> v(std::move(w)); *)
| PCast (v w : nat) (ok : bool)      (* Ptr<C> v = w.Cast<C>(); *)
| PDestroy (v : nat)                 (* the end of the scope of v *)
| PSetNull (v : nat)                 (* v = nullptr; *)
| PAssign (v w : nat)                (* v = w; *)
| PMoveAssign (v w : nat)            (* v = std::move(w); *)
| PDetach (v : nat).                 (* v.Detach(); *)

Definition step (s : st) (o : op) : res (st * option nat) :=
  match o with
  | PNew v => do s <- pinit s v null; Ok (s, None)                                  (* 128-131 *)
  | PRaw k =>
      Ok (mkSt (cn s) (ob s ++ [true]) (vs s ++ repeat (Some null, Some (length (ob s))) k), Some (length (ob s)))
  | PWrap v o =>                                                                     (* 135-145 *)
      let c := length (cn s) in
      let s := mkSt (cn s ++ [Some 0]) (ob s) (vs s) in
      let p := mkPtr (Some c) (Some o) (Some o) true in
      do s <- pinit s v p; do s <- inc s p; Ok (s, None)
  | PCopy v w => do p <- pget s w; do s <- pinit s v p; do s <- inc s p; Ok (s, None)  (* 149-156 *)
  | PMove v w => do p <- pget s w; do s <- pinit s v p; do s <- pset s w null; Ok (s, None)  (* 160-167 *)
  | PConv v w =>                                                                     (* 173-183 *)
      do p <- pget s w;
      match pr p with
      | None => do s <- pinit s v null; Ok (s, None)
      | Some _ => do s <- pinit s v p; do s <- inc s p; Ok (s, None)
      end
  | PConvMove v w =>                                                                 (* 189-199 *)
      do p <- pget s w;
      match pr p with
      | None => do s <- pinit s v null; Ok (s, None)
      | Some _ => do s <- pinit s v p; do s <- pset s w null; Ok (s, None)
      end
  | PCast v w ok =>                                                                  (* 222-226, 117-124 *)
      do p <- pget s w;
      let conv := if ok then pr p else None in
      let q := mkPtr (match conv with Some _ => pc p | None => None end) conv (po p) (pd p) in
      do s <- pinit s v q; do s <- inc s q; Ok (s, None)
  | PDestroy v => do s <- dec (fuel_of s) true v s; do s <- pkill s v; Ok (s, None)    (* 201-204 *)
  | PSetNull v => do s <- dec (fuel_of s) true v s; do s <- pset s v null; Ok (s, None)  (* 231-236 *)
  | PAssign v w =>                                                                   (* 241-253 *)
      if Nat.eqb v w then do _ <- pget s v; Ok (s, None) else
      do s <- dec (fuel_of s) true v s;
      do p <- pget s w; do s <- pset s v p; do s <- inc s p; Ok (s, None)
  | PMoveAssign v w =>                                                               (* 258-270 *)
      if Nat.eqb v w then do _ <- pget s v; Ok (s, None) else
      do s <- dec (fuel_of s) true v s;
      do p <- pget s w; do s <- pset s v p; do s <- pset s w null; Ok (s, None)
  | PDetach v =>                                                                     (* 211-216 *)
      do p <- pget s v; do s <- dec (fuel_of s) false v s; Ok (s, pr p)
  end.
Fixpoint run (s : st) (os : list op) : res (st * list (option nat)) :=
  match os with
  | [] => Ok (s, [])
  | o :: os => do (s, r) <- step s o; do (s, rs) <- run s os; Ok (s, r :: rs)
  end.
(* n variables on the stack, not constructed yet *)
Definition init (n : nat) : st := mkSt [] [] (repeat (None, None) n).
