(* Lists of pointers whose objects add to the list when they are destroyed: what the operations do
   to a sequence of pointers and the room it has *)
From Coq Require Import Permutation.
From Verif Require Import Base ReaModel.
Open Scope nat_scope.

Section Spec.
Variables (V : Type) (adds : V -> list (option V)).

(* what taking away one pointer makes its object add *)
Definition brings (o : option V) : list (option V) := match o with Some v => adds v | None => [] end.
Definition too_roomy (room n : nat) : bool := (n <=? room / 2) && (n <=? 8) && (n <? room * 5 / 8).

(* Fine: the list, its room, the pointers that are lost without having been destroyed, the answer.
   Broken: the list counts elements that are not there. *)
Inductive verdict := Fine (l : list (option V)) (room : nat) (gone : list (option V)) (a : out V) | Undefined | Broken.

Definition sadd (l : list (option V)) (room : nat) (gone : list (option V)) (o : option V) : verdict :=
  Fine (l ++ [o]) (if length l <? room then room else (length l + 1) * 5 / 4 + 1) gone (Number (length l)).

(* the added pointers follow the others, if there is room for them *)
Definition sset (l : list (option V)) (room : nat) (gone : list (option V)) (i : nat) (o : option V) : verdict :=
  match nth_error l i with
  | None => Fine l room gone Error
  | Some old =>
      if length l + length (brings old) <=? room
      then Fine (firstn i l ++ o :: skipn (i + 1) l ++ brings old) room gone Nothing
      else Undefined
  end.

Definition sremove (l : list (option V)) (room : nat) (gone : list (option V)) (i : nat) : verdict :=
  match nth_error l i with
  | None => Fine l room gone Error
  | Some old =>
      let l1 := firstn i l in let l2 := skipn (i + 1) l in
      match brings old with
      | [] => Fine (l1 ++ l2) (if too_roomy room (length l - 1) then room * 5 / 8 else room) gone Nothing
      | b :: r =>
          match l2 with
          | [] =>
              (* the last element: the first added pointer is lost, a null is in its place *)
              if length l + length r <=? room then
                if too_roomy room (length l - 1) then Broken
                else Fine (l1 ++ None :: r) room (b :: gone) Nothing
              else Undefined
          | _ =>
              (* another one: the last added pointer is lost, a null comes before the others *)
              if length l + length (b :: r) <=? room
              then Fine (l1 ++ l2 ++ None :: removelast (b :: r))
                        (if too_roomy room (length l + length r) then room * 5 / 8 else room) (last (b :: r) None :: gone) Nothing
              else Undefined
          end
      end
  end.

Definition sclear (l : list (option V)) (gone : list (option V)) : verdict :=
  match flat_map brings l with
  | [] => Fine [] 0 gone Nothing
  | _ => Undefined
  end.

Definition sstep (l : list (option V)) (room : nat) (gone : list (option V)) (o : op V) : verdict :=
  match o with
  | Add a => sadd l room gone a
  | SetAt i a => sset l room gone i a
  | RemoveAt i => sremove l room gone i
  | Clear => sclear l gone
  | Get i => Fine l room gone (match nth_error l i with Some a => Value a | None => Error end)
  | Count => Fine l room gone (Number (length l))
  end.

(* the first verdict that is not Fine is the verdict of the program *)
Inductive outcome := Done (l : list (option V)) (room : nat) (gone : list (option V)) (rs : list (out V)) | Undef | Break.
Fixpoint srun (l : list (option V)) (room : nat) (gone : list (option V)) (os : list (op V)) : outcome :=
  match os with
  | [] => Done l room gone []
  | o :: r =>
      match sstep l room gone o with
      | Fine l' room' gone' a =>
          match srun l' room' gone' r with Done l2 room2 gone2 rs => Done l2 room2 gone2 (a :: rs) | v => v end
      | Undefined => Undef
      | Broken => Break
      end
  end.

(* the plain sequence: what happens when no destructor adds anything *)
Definition pstep (l : list (option V)) (o : op V) : list (option V) * out V :=
  match o with
  | Add a => (l ++ [a], Number (length l))
  | SetAt i a => if i <? length l then (firstn i l ++ a :: skipn (i + 1) l, Nothing) else (l, Error)
  | RemoveAt i => if i <? length l then (firstn i l ++ skipn (i + 1) l, Nothing) else (l, Error)
  | Clear => ([], Nothing)
  | Get i => (l, match nth_error l i with Some a => Value a | None => Error end)
  | Count => (l, Number (length l))
  end.
Fixpoint prun (l : list (option V)) (os : list (op V)) : list (option V) * list (out V) :=
  match os with
  | [] => (l, [])
  | o :: r => let (l', a) := pstep l o in let (l2, rs) := prun l' r in (l2, a :: rs)
  end.

(* the list shows these pointers, has this room, and these are lost or behind its elements *)
Definition shows (x : lst V) (l : list (option V)) (room : nat) (gone : list (option V)) : Prop :=
  count x = length l /\ cap x = room /\ length (cells x) = room /\
  exists rest, cells x = map Full l ++ rest /\ Permutation (lost x ++ remains V rest) gone.
End Spec.
Arguments Fine {V}. Arguments Undefined {V}. Arguments Broken {V}.
Arguments Done {V}. Arguments Undef {V}. Arguments Break {V}.
