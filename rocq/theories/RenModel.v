(* Collections of Ptr as the destructors of their elements see them: when an operation takes the
   last reference to an object, the destructor of the object runs in the middle of the operation.
   Source/Collections/List.h:71-146 (memory_management), 431-449 (Array::Resize), 467-543
   (ListBase), 628-662 (List); Source/Collections/Dictionary.h:84-105, 243-265 (Dictionary),
   550-607 (Group); Source/Primitives/Pointer.h:97-112 (Dec), 241-270 (operator=).
   Simplifications: the destructors only look at the collection and change nothing; an index is a
   natural number (negative ones raise the same error, C15); the keys of dictionaries and groups
   are searched one after another (a binary search finds the same one, C19) and their own
   destructors do nothing; cells behind the elements and the growing and shrinking of the buffer
   are left out (no object dies when elements are moved to another buffer, C16). *)
From Verif Require Import Base.

Section Ren.
Variables (K V : Type) (keq : K -> K -> bool) (veq : V -> V -> bool).

(* A place for a Ptr in a buffer: destroyed, a Ptr (null or referring to an object), or a Ptr whose
   Dec() is just deleting the object: it still refers to the object, which is being destroyed.
   Source/Primitives/Pointer.h:97-112 *)
Inductive cell := Gone | Full (o : option V) | Dying (v : V).

(* ArrayBase<Ptr<T>>::count and buffer; Source/Collections/List.h:265-266 *)
Record view := View { vcount : nat; vcells : list cell }.

(* ArrayBase::Get: what reading the element gives; an element that is destroyed or refers to a half
   destroyed object cannot be used. Source/Collections/List.h:286-290 *)
Definition get (w : view) (i : nat) : res (option V) :=
  check (i <? vcount w)%nat
    match nth_error (vcells w) i with
    | Some (Full o) => Ok o
    | _ => UB
    end.

(* this->buffer[i] = ... *)
Definition put (w : view) (i : nat) (c : cell) : view := View (vcount w) (upd (vcells w) i c).

(* What the destructors see: the object and the collection at that moment. *)
Definition log (W : Type) := list (V * W).

(* Ptr::Dec: the object is deleted when no other Ptr refers to it, neither in the collection nor
   outside of it (out); Source/Primitives/Pointer.h:97-112 *)
Definition last (out : V -> bool) (w : view) (v : V) : bool :=
  negb (out v) && negb (existsb (fun c => match c with Full (Some u) => veq u v | _ => false end) (vcells w)).

Definition release (out : V -> bool) (w : view) (i : nat) : res (log view) :=
  match nth_error (vcells w) i with
  | Some (Full None) => Ok []
  | Some (Full (Some v)) => let w' := put w i (Dying v) in Ok (if last out w' v then [(v, w')] else [])
  | _ => UB
  end.

(* Ptr::operator=(Ptr&& ): releases its object, takes the one of the source, empties the source;
   Source/Primitives/Pointer.h:257-270 *)
Definition move_assign (out : V -> bool) (w : view) (dst src : nat) : res (view * log view) :=
  do l <- release out w dst;
  match nth_error (vcells w) src with
  | Some (Full o) => Ok (put (put w dst (Full o)) src (Full None), l)
  | _ => UB
  end.

(* memory_management::CallMoveAssignmentsOverlapped with items < source;
   Source/Collections/List.h:71-95 *)
Fixpoint move_down (out : V -> bool) (w : view) (dst src n : nat) : res (view * log view) :=
  match n with
  | O => Ok (w, [])
  | S n' =>
      do (w1, l1) <- move_assign out w dst src;
      do (w2, l2) <- move_down out w1 (S dst) (S src) n';
      Ok (w2, l1 ++ l2)
  end.

(* memory_management::CallDtors; Source/Collections/List.h:97-107 *)
Fixpoint dtors (out : V -> bool) (w : view) (i n : nat) : res (view * log view) :=
  match n with
  | O => Ok (w, [])
  | S n' =>
      do l1 <- release out w i;
      do (w2, l2) <- dtors out (put w i Gone) (S i) n';
      Ok (w2, l1 ++ l2)
  end.

(* ListBase::RemoveRange; nothing is moved when the two ranges are the same;
   Source/Collections/List.h:521-530, 71-95, 123-146 *)
Definition remove_range (out : V -> bool) (w : view) (i n : nat) : res (view * log view) :=
  check (i <=? vcount w)%nat
  (check (i + n <=? vcount w)%nat
    (do (w1, l1) <- (if (n =? 0)%nat then Ok (w, []) else move_down out w i (i + n) (vcount w - i - n));
     let w2 := View (vcount w - n) (vcells w1) in
     do (w3, l2) <- dtors out w2 (vcount w - n) n;
     Ok (w3, l1 ++ l2))).

(* ListBase::RemoveAt; Source/Collections/List.h:507-515 *)
Definition remove_at (out : V -> bool) (w : view) (i : nat) : res (view * log view) :=
  check (i <? vcount w)%nat
    (do (w1, l1) <- move_down out w i (i + 1) (vcount w - i - 1);
     let w2 := View (vcount w - 1) (vcells w1) in
     do (w3, l2) <- dtors out w2 (vcount w - 1) 1;
     Ok (w3, l1 ++ l2)).

(* List::Remove through IndexOf; Source/Collections/List.h:628-640 *)
Fixpoint index_in (cs : list cell) (v : V) (i : nat) : option nat :=
  match cs with
  | [] => None
  | Full (Some u) :: r => if veq u v then Some i else index_in r v (S i)
  | _ :: r => index_in r v (S i)
  end.

Definition remove (out : V -> bool) (w : view) (v : V) : res (view * log view) :=
  match index_in (vcells w) v 0 with
  | Some i => if (i <? vcount w)%nat then remove_at out w i else Ok (w, [])
  | None => Ok (w, [])
  end.

(* ListBase::Clear: the number of elements is set before they are destroyed;
   Source/Collections/List.h:534-543 *)
Definition clear (out : V -> bool) (w : view) : res (view * log view) :=
  do (w1, l) <- dtors out (View 0 (vcells w)) 0 (vcount w);
  Ok (View 0 [], l).

(* ListBase::~ListBase and the first half of ListBase::operator=(ListBase&& );
   Source/Collections/List.h:467-474, 488-494; also Array, 339-346 and 360-364 *)
Definition finish (out : V -> bool) (w : view) : res (log view) :=
  do (w1, l) <- dtors out w 0 (vcount w);
  Ok l.

(* operator=(ListBase&& ), operator=(Array&& ): then takes over the buffer of the other;
   Source/Collections/List.h:488-502, 358-370 *)
Definition move_list (out : V -> bool) (w other : view) : res (view * log view) :=
  do l <- finish out w; Ok (other, l).

(* List::Set, Array::Set, operator[] with an assignment: the Ptr that is assigned keeps its object
   alive; Source/Collections/List.h:399-415, 646-662; Source/Primitives/Pointer.h:241-270 *)
Definition set (out : V -> bool) (w : view) (i : nat) (o : option V) : res (view * log view) :=
  check (i <? vcount w)%nat
    (do l <- release (fun v => out v || match o with Some u => veq u v | None => false end) w i;
     Ok (put w i (Full o), l)).

(* Array::Resize: the kept elements are moved to the new buffer, then all elements of the old one
   are destroyed, and only then the array gets the new buffer. The objects in the new buffer are
   referred to from there. Source/Collections/List.h:431-449 *)
Definition content (c : cell) : option V := match c with Full o => o | _ => None end.

Definition resize (out : V -> bool) (w : view) (size : nat) : res (view * log view) :=
  let kept := firstn size (vcells w) in
  let fresh := kept ++ repeat (Full None) (size - vcount w) in
  let old := View (vcount w) (repeat (Full None) (length kept) ++ skipn size (vcells w)) in
  let out' := fun v => out v || existsb (fun c => match content c with Some u => veq u v | None => false end) fresh in
  do (w1, l) <- dtors out' old 0 (vcount w);
  Ok (View size fresh, l).

(* Dictionary<K, Ptr<T>>: the keys and the list of values; Source/Collections/Dictionary.h:84-85 *)
Record dview := DView { dkeys : list K; dvals : view }.

(* keys.IndexOf(key) *)
Fixpoint index_of (ks : list K) (k : K) : option nat :=
  match ks with
  | [] => None
  | k' :: r => if keq k' k then Some 0%nat else option_map S (index_of r k)
  end.

Fixpoint erase {A : Type} (l : list A) (i : nat) : list A :=
  match l, i with
  | [], _ => []
  | _ :: r, O => r
  | x :: r, S i' => x :: erase r i'
  end.

(* Dictionary::operator[], Get: values.Get(keys.IndexOf(key));
   Source/Collections/Dictionary.h:169-180 *)
Definition d_get (d : dview) (k : K) : res (option V) :=
  match index_of (dkeys d) k with
  | Some i => get (dvals d) i
  | None => Err
  end.

Definition with_keys (ks : list K) (l : log view) : log dview := map (fun p => (fst p, DView ks (snd p))) l.

(* Dictionary::Remove; Source/Collections/Dictionary.h:243-256 *)
Definition d_remove (out : V -> bool) (d : dview) (k : K) : res (dview * log dview) :=
  match index_of (dkeys d) k with
  | None => Ok (d, [])
  | Some i =>
      let ks := erase (dkeys d) i in
      do (w, l) <- remove_at out (dvals d) i;
      Ok (DView ks w, with_keys ks l)
  end.

(* Dictionary::Set of a key that exists: values[index] = value; a new key is not modelled here, it
   gives up no reference (C87);
   Source/Collections/Dictionary.h:94-103 *)
Definition d_set (out : V -> bool) (d : dview) (k : K) (o : option V) : res (dview * log dview) :=
  match index_of (dkeys d) k with
  | None => Err
  | Some i =>
      do (w, l) <- set out (dvals d) i o;
      Ok (DView (dkeys d) w, with_keys (dkeys d) l)
  end.

(* Dictionary::Clear: keys.Clear(), values.Clear(); Source/Collections/Dictionary.h:260-265 *)
Definition d_clear (out : V -> bool) (d : dview) : res (dview * log dview) :=
  do (w, l) <- clear out (dvals d);
  Ok (DView [] w, with_keys [] l).

(* ~Dictionary: the member declared last, the values, is destroyed first;
   Source/Collections/Dictionary.h:84-85, 123 *)
Definition d_finish (out : V -> bool) (d : dview) : res (log dview) :=
  do l <- finish out (dvals d);
  Ok (with_keys (dkeys d) l).

(* Dictionary::operator=(Dictionary&& ): first the keys, then the values;
   Source/Collections/Dictionary.h:133-138 *)
Definition d_move (out : V -> bool) (d other : dview) : res (dview * log dview) :=
  do (w, l) <- move_list out (dvals d) (dvals other);
  Ok (DView (dkeys other) w, with_keys (dkeys other) l).

(* Group<K, Ptr<T>>: the keys and the pointers to the lists, None when the list is deleted;
   Source/Collections/Dictionary.h:278-279, 372-373 *)
Definition gview := list (K * option view).

(* Group::operator[], Get; Source/Collections/Dictionary.h:443-462 *)
Fixpoint g_get (g : gview) (k : K) : res view :=
  match g with
  | [] => Err
  | (k', c) :: r => if keq k' k then match c with Some w => Ok w | None => UB end else g_get r k
  end.

(* A Ptr in one of the other lists keeps its object alive. *)
Definition in_lists (g : gview) (v : V) : bool :=
  existsb (fun p => match snd p with
                    | Some w => existsb (fun c => match c with Full (Some u) => veq u v | _ => false end) (vcells w)
                    | None => false
                    end) g.

Fixpoint g_index (g : gview) (k : K) : option nat :=
  match g with
  | [] => None
  | (k', _) :: r => if keq k' k then Some 0%nat else option_map S (g_index r k)
  end.

(* Group::Remove(key); Source/Collections/Dictionary.h:550-565 *)
Definition g_remove (out : V -> bool) (g : gview) (k : K) : res (gview * log gview) :=
  match g_index g k with
  | None => Ok (g, [])
  | Some i =>
      match nth_error g i with
      | Some (_, Some target) =>
          let g' := erase g i in
          do l <- finish (fun v => out v || in_lists g' v) target;
          Ok (g', map (fun p => (fst p, g')) l)
      | _ => UB
      end
  end.

(* Group::Remove(key, value); Source/Collections/Dictionary.h:575-594 *)
Definition g_remove_value (out : V -> bool) (g : gview) (k : K) (v : V) : res (gview * log gview) :=
  match g_index g k with
  | None => Ok (g, [])
  | Some i =>
      match nth_error g i with
      | Some (k', Some target) =>
          do (w, l) <- remove (fun u => out u || in_lists (erase g i) u) target v;
          let l1 := map (fun p => (fst p, upd g i (k', Some (snd p)))) l in
          if (vcount w =? 0)%nat
          then do l2 <- finish (fun u => out u || in_lists (erase g i) u) w;
               Ok (erase g i, l1 ++ map (fun p => (fst p, erase g i)) l2)
          else Ok (upd g i (k', Some w), l1)
      | _ => UB
      end
  end.

(* Group::Clear and ~Group: the lists are deleted one after another, the keys and the pointers to
   deleted lists go afterwards; a list being deleted is seen in the middle of its destructor.
   Source/Collections/Dictionary.h:598-607, 400-403 *)
Fixpoint g_clear_from (out : V -> bool) (done todo : gview) : res (log gview) :=
  match todo with
  | [] => Ok []
  | (k, Some w) :: r =>
      do l <- finish (fun v => out v || in_lists r v) w;
      do l' <- g_clear_from out (done ++ [(k, None)]) r;
      Ok (map (fun p => (fst p, done ++ (k, Some (snd p)) :: r)) l ++ l')
  | (_, None) :: _ => UB
  end.

Definition g_clear (out : V -> bool) (g : gview) : res (gview * log gview) :=
  do l <- g_clear_from out [] g; Ok ([], l).

End Ren.

Arguments Gone {V}.
Arguments Full {V} o.
Arguments Dying {V} v.
Arguments View {V} vcount vcells.
Arguments vcount {V} v.
Arguments vcells {V} v.
Arguments DView {K V} dkeys dvals.
Arguments dkeys {K V} d.
Arguments dvals {K V} d.
