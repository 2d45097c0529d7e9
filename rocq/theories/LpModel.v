(* List<Ptr<T>> : Source/Collections/List.h:25-208, 458-674 over Source/Primitives/Pointer.h:31-312.

   Objects have Ptr members and List<Ptr<T>> members, so lists and objects form trees and graphs.  Every list has a buffer, a
   range of addresses of the counter model RcModel; addresses are never reused.  What the list does to its elements (copy,
   move, assignment, destruction) are operations on these addresses, in the order of the code; a destructed element may delete
   objects, and these their members and lists, in the middle of a list operation.

   Simplifications: storage without an element is an empty Ptr for RcModel, and constructing an element there is an assignment
   to it, which does the same since Dec of an empty Ptr does nothing (Pointer.h:97-110); whether an element exists is
   kept in kd.  The members of a deleted object, including the elements of its lists, are destroyed in reverse order of
   their addresses.  malloc succeeds and capacities do not overflow (see LstModel for the latter). *)
From Verif Require Import Base RcModel.
Open Scope nat_scope.

(* what an address is: a Ptr variable or member, storage without an element, an element of a list, freed storage *)
Inductive kind := KVar | KRaw | KMade | KFree.
(* a list: the object it is a member of, buffer, count, capacity (List.h:265-266, 463); capacity 0 is the nullptr buffer *)
Record lrec := mkL { lhome : option nat; base : nat; cnt : nat; room : nat }.
Record lst := mkT { rc : st; kd : list kind; ls : list (option lrec) }.
Definition init_l (n : nat) : lst := mkT (init n) (repeat KVar n) [].

(* What the list does with elements at addresses *)
Inductive eop :=
| EMake (d u : nat)         (* new (d) Ptr(std::move(u)) *)
| ECopy (d u : nat)         (* new (d) Ptr(u) *)
| EMove (d u : nat)         (* d = std::move(u) *)
| ESet (d u : nat)          (* d = u *)
| EEnd (d : nat).           (* d.~Ptr() *)
Definition kind_of (k : list kind) (a : nat) : kind := match nth_error k a with Some x => x | None => KFree end.
(* an element or a variable *)
Definition usable (k : list kind) (a : nat) : bool := match kind_of k a with KVar | KMade => true | _ => false end.
Definition is_raw (k : list kind) (a : nat) : bool := match kind_of k a with KRaw => true | _ => false end.
Definition is_made (k : list kind) (a : nat) : bool := match kind_of k a with KMade => true | _ => false end.

(* using storage without an element, and constructing over an element, are undefined *)
Definition check (k : list kind) (o : eop) : res (list kind) :=
  match o with
  | EMake d u | ECopy d u => if is_raw k d && usable k u then Ok (upd k d KMade) else UB
  | EMove d u | ESet d u => if is_made k d && usable k u then Ok k else UB
  | EEnd d => if is_made k d then Ok (upd k d KRaw) else UB
  end.
Definition effect_of (o : eop) : op :=
  match o with
  | EMake d u | EMove d u => PMoveAssign d u           (* Pointer.h:160-167, 258-270 *)
  | ECopy d u | ESet d u => PAssign d u                (* Pointer.h:149-156, 241-253 *)
  | EEnd d => PSetNull d                               (* Pointer.h:201-204 *)
  end.
Fixpoint exec (os : list eop) (r : st) (k : list kind) : res (st * list kind) :=
  match os with
  | [] => Ok (r, k)
  | o :: os => do k <- check k o; do (r, _) <- step r (effect_of o); exec os r k
  end.

(* CallMoveCtors : List.h:55-69 *)
Definition move_ctors (d u n : nat) : list eop := map (fun i => EMake (d + i) (u + i)) (seq 0 n).
(* CallMoveAssignmentsOverlapped : List.h:71-95 *)
Definition move_assignments (d u n : nat) : list eop :=
  if d <? u then map (fun i => EMove (d + i) (u + i)) (seq 0 n)
  else if u <? d then map (fun i => EMove (d + i) (u + i)) (rev (seq 0 n))
  else [].
(* CallDtors : List.h:97-107 *)
Definition dtors (b n : nat) : list eop := map (fun i => EEnd (b + i)) (seq 0 n).
(* AllocateBuffer : List.h:109-114, for a list of object h *)
Definition allocate (r : st) (k : list kind) (h : option nat) (n : nat) : st * list kind :=
  (mkSt (cn r) (ob r) (vs r ++ repeat (Some null, h) n), k ++ repeat KRaw n).
(* DeallocateBuffer : List.h:116-121; an element that still exists would never be destroyed, which counts as undefined *)
Fixpoint deallocate (k : list kind) (b n : nat) : res (list kind) :=
  match n with
  | O => Ok k
  | S n' => if is_raw k b then deallocate (upd k b KFree) (S b) n' else UB
  end.

(* InsertUninitializedItems : List.h:148-178 *)
Definition insert_uninitialized (r : st) (k : list kind) (x : lrec) (index c : nat) : res (st * list kind * lrec) :=
  let n := cnt x in let b := base x in
  let newcount := n + c in
  if room x <? newcount then
    let newcap := newcount * 5 / 4 + 1 in
    let nb := length (vs r) in
    let '(r, k) := allocate r k (lhome x) newcap in
    do (r, k) <- exec (move_ctors nb b index ++ move_ctors (nb + index + c) (b + index) (n - index) ++ dtors b n) r k;
    do k <- deallocate k b (room x);
    Ok (r, k, mkL (lhome x) nb newcount newcap)
  else if index <? n then
    do (r, k) <- exec
      (if n - index <=? c then move_ctors (b + index + c) (b + index) (n - index) ++ dtors (b + index) (n - index)
       else move_ctors (b + n) (b + n - c) c ++ move_assignments (b + index + c) (b + index) (n - index - c) ++ dtors (b + index) c) r k;
    Ok (r, k, mkL (lhome x) b newcount (room x))
  else Ok (r, k, mkL (lhome x) b newcount (room x)).

(* ReleaseUnnecessaryBuffer : List.h:123-146; x has the new count already *)
Definition release (r : st) (k : list kind) (x : lrec) (old : nat) : res (st * list kind * lrec) :=
  let n := cnt x in let b := base x in
  if room x =? 0 then Ok (r, k, x) else
  do (r, k) <- exec (dtors (b + n) (old - n)) r k;
  let newcap := room x * 5 / 8 in
  if (n <=? room x / 2) && (n <=? 8) && (n <? newcap) then
    let nb := length (vs r) in
    let '(r, k) := allocate r k (lhome x) newcap in
    do (r, k) <- exec (move_ctors nb b n ++ dtors b n) r k;
    do k <- deallocate k b (room x);
    Ok (r, k, mkL (lhome x) nb n newcap)
  else Ok (r, k, x).

(* ~ListBase, and the first half of the move assignment: List.h:467-474, 490-494 *)
Definition drop (r : st) (k : list kind) (x : lrec) : res (st * list kind) :=
  do (r, k) <- exec (dtors (base x) (cnt x)) r k;
  do k <- deallocate k (base x) (room x);
  Ok (r, k).

(* a list exists as long as the object it is a member of *)
Definition lget (r : st) (l : list (option lrec)) (v : nat) : res lrec :=
  match nth_error l v with
  | Some (Some x) => match lhome x with None => Ok x | Some h => if alive r h then Ok x else UB end
  | _ => UB
  end.
(* a buffer that changes hands belongs to the other list's object *)
Fixpoint rehome (r : st) (h : option nat) (b n : nat) : res st :=
  match n with
  | O => Ok r
  | S n' => match nth_error (vs r) b with
            | Some (Some p, _) => rehome (mkSt (cn r) (ob r) (upd (vs r) b (Some p, h))) h (S b) n'
            | _ => UB
            end
  end.

(* a Ptr given by reference: a variable or member, or list[i] *)
Inductive arg := AVar (u : nat) | AItem (m i : nat).
Definition address (s : lst) (a : arg) : res nat :=
  match a with
  | AVar u => match kind_of (kd s) u with KVar => Ok u | _ => UB end
  | AItem m i => do y <- lget (rc s) (ls s) m; if i <? cnt y then Ok (base y + i) else Err       (* List.h:286-299 *)
  end.

Inductive lop :=
| MNew (v : nat)                                  (* Ptr<T> v; *)
| MMake (v k m : nat)                             (* auto v = MakePtr<T>(); T has k Ptr members and m List<Ptr<T>> members *)
| MCopy (v : nat) (a : arg)                       (* Ptr<T> v(a); *)
| MAssign (v : nat) (a : arg)                     (* v = a; *)
| MSetNull (v : nat)                              (* v = nullptr; *)
| MEnd (v : nat)                                  (* the end of the scope of v *)
| LNew                                            (* List<Ptr<T>> on the stack; it gets the next number *)
| LEnd (l : nat)                                  (* the end of its scope *)
| LInsert (l i : nat) (a : arg) (mv : bool)       (* l.Insert(i, a), l.Insert(i, std::move(a)); Add is i = Count() *)
| LSet (l i : nat) (a : arg) (mv : bool)          (* l.Set(i, a), l.Set(i, std::move(a)) *)
| LRemove (l i n : nat)                           (* l.RemoveRange(i, n); RemoveAt is n = 1 *)
| LClear (l : nat)
| LMove (l m : nat).                              (* l = std::move(m) *)

Definition on_rc (s : lst) (o : op) : res lst := do (r, _) <- step (rc s) o; Ok (mkT r (kd s) (ls s)).
(* the list's fields are written at the end: the list must still exist *)
Definition put (r : st) (k : list kind) (l : list (option lrec)) (v : nat) (x : lrec) : res lst :=
  do _ <- lget r l v; Ok (mkT r k (upd l v (Some x))).
(* the variables named in a program are not storage of lists *)
Definition is_var (s : lst) (v : nat) : res unit := match kind_of (kd s) v with KVar => Ok tt | _ => UB end.

Definition lstep (s : lst) (o : lop) : res lst :=
  match o with
  | MNew v => do _ <- is_var s v; on_rc s (PNew v)
  | MMake v k m =>
      do _ <- is_var s v;
      do (r, n) <- step (rc s) (PRaw k);
      match n with
      | Some o =>
          do (r, _) <- step r (PWrap v o);
          Ok (mkT r (kd s ++ repeat KVar k) (ls s ++ repeat (Some (mkL (Some o) 0 0 0)) m))
      | None => UB
      end
  | MCopy v a => do _ <- is_var s v; do u <- address s a; on_rc s (PCopy v u)
  | MAssign v a => do _ <- is_var s v; do u <- address s a; on_rc s (PAssign v u)
  | MSetNull v => do _ <- is_var s v; on_rc s (PSetNull v)
  | MEnd v => do _ <- is_var s v; on_rc s (PDestroy v)
  | LNew => Ok (mkT (rc s) (kd s) (ls s ++ [Some (mkL None 0 0 0)]))
  | LEnd l =>
      do x <- lget (rc s) (ls s) l;
      match lhome x with Some _ => UB | None =>
        do (r, k) <- drop (rc s) (kd s) x;
        Ok (mkT r k (upd (ls s) l None))
      end
  | LInsert l i a mv =>                                                     (* List.h:605-623 *)
      do x <- lget (rc s) (ls s) l;
      do u <- address s a;
      if i <=? cnt x then
        do (r, k, x) <- insert_uninitialized (rc s) (kd s) x i 1;
        do (r, k) <- exec [if mv then EMake (base x + i) u else ECopy (base x + i) u] r k;
        put r k (ls s) l x
      else Err
  | LSet l i a mv =>                                                        (* List.h:646-662 *)
      do x <- lget (rc s) (ls s) l;
      do u <- address s a;
      if i <? cnt x then
        do (r, k) <- exec [if mv then EMove (base x + i) u else ESet (base x + i) u] (rc s) (kd s);
        put r k (ls s) l x
      else Err
  | LRemove l i n =>                                                        (* List.h:507-530 *)
      do x <- lget (rc s) (ls s) l;
      if i + n <=? cnt x then
        do (r, k) <- exec (move_assignments (base x + i) (base x + i + n) (cnt x - i - n)) (rc s) (kd s);
        do (r, k, x) <- release r k (mkL (lhome x) (base x) (cnt x - n) (room x)) (cnt x);
        put r k (ls s) l x
      else Err
  | LClear l =>                                                             (* List.h:534-543 *)
      do x <- lget (rc s) (ls s) l;
      do (r, k) <- drop (rc s) (kd s) x;
      put r k (ls s) l (mkL (lhome x) 0 0 0)
  | LMove l m =>                                                            (* List.h:488-502 *)
      do x <- lget (rc s) (ls s) l;
      do y <- lget (rc s) (ls s) m;
      do (r, k) <- drop (rc s) (kd s) x;
      do _ <- lget r (ls s) l;
      do y <- lget r (ls s) m;
      if l =? m then put r k (ls s) l (mkL (lhome x) 0 0 0) else
      do r <- rehome r (lhome x) (base y) (room y);
      Ok (mkT r k (upd (upd (ls s) l (Some (mkL (lhome x) (base y) (cnt y) (room y)))) m (Some (mkL (lhome y) 0 0 0))))
  end.
Fixpoint lrun (s : lst) (os : list lop) : res lst :=
  match os with
  | [] => Ok s
  | o :: os => do s <- lstep s o; lrun s os
  end.
