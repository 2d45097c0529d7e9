(* Lazy lists and enumerators as plain values: every variable holds its own tree, nothing is
   shared, cloned or deleted.  The methods are those of LzhModel. *)
From Verif Require Import Base LzhModel.
Open Scope Z_scope.

(* an enumerator with the enumerators it reads from; Nil: none *)
Inductive tree := Nil | Tree (k : kind) (one two : tree).
Definition is_nil (t : tree) : bool := match t with Nil => true | _ => false end.

Fixpoint tinterp (call : tree -> method -> res (tree * option Z)) (again : tree -> res (tree * option Z)) (c : code) (k : kind) (a b : tree)
  : res (tree * option Z) :=
  match c with
  | Return z => Ok (Tree k a b, Some z)
  | Raise => Ok (Tree k a b, None)
  | Store k c => tinterp call again c k a b
  | Call One m c =>
      if is_nil a then UB
      else
        do (a, r) <- call a m;
        match r with Some z => tinterp call again (c z) k a b | None => Ok (Tree k a b, None) end
  | Call Two m c =>
      if is_nil b then UB
      else
        do (b, r) <- call b m;
        match r with Some z => tinterp call again (c z) k a b | None => Ok (Tree k a b, None) end
  | Again => again (Tree k a b)
  end.
Fixpoint texec (fuel : nat) (t : tree) (m : method) : res (tree * option Z) :=
  match fuel with
  | O => NoFuel
  | S f =>
      match t with
      | Tree k a b => tinterp (texec f) (fun t => texec f t m) (method_code m k) k a b
      | Nil => UB
      end
  end.
Fixpoint read (fuel : nat) (t : tree) (acc : list Z) : res (option (list Z)) :=
  match fuel with
  | O => NoFuel
  | S f =>
      do (t, r) <- texec f t Next;
      match r with
      | None => Ok None
      | Some b =>
          if b =? yes then
            do (t, r) <- texec f t Current;
            match r with None => Ok None | Some v => read f t (acc ++ [v]) end
          else Ok (Some acc)
      end
  end.

(* the value of a lazy list is the tree its enumerators start as; Nil for an empty one *)
Record world := World { lists : list (option tree); enums : list (option tree) }.
Definition start (nl ne : nat) : world := World (repeat None nl) (repeat None ne).
Definition put_list (w : world) (i : nat) (v : option tree) : world := World (upd (lists w) i v) (enums w).
Definition put_enum (w : world) (e : nat) (v : option tree) : world := World (lists w) (upd (enums w) e v).
Definition fresh (t : tree) : tree := match t with Nil => Tree KEmpty Nil Nil | _ => t end.

Definition wbad (w : world) : res (world * out) := Ok (w, OBad).
Definition wput (w : world) (i : nat) (t : tree) : res (world * out) := Ok (put_list w i (Some t), ODone).
Definition wstep (fuel : nat) (w : world) (o : op) : res (world * out) :=
  match o with
  | LEmpty i => if free (lists w) i then wput w i Nil else wbad w
  | LSource i x => if free (lists w) i then wput w i (Tree (source_kind x) Nil Nil) else wbad w
  | LCopy i j => match free (lists w) i, look (lists w) j with true, Some t => wput w i t | _, _ => wbad w end
  | LMove i j =>
      match free (lists w) i, look (lists w) j with true, Some t => wput (put_list w i (Some t)) j Nil | _, _ => wbad w end
  | LAssign i j => match look (lists w) i, look (lists w) j with Some _, Some t => wput w i t | _, _ => wbad w end
  | LMoveAssign i j =>
      match look (lists w) i, look (lists w) j with Some _, Some t => wput (put_list w i (Some t)) j Nil | _, _ => wbad w end
  | LDrop i => match look (lists w) i with Some _ => Ok (put_list w i None, ODone) | None => wbad w end
  | LUnary i u j =>
      match free (lists w) i, look (lists w) j with
      | true, Some t => wput w i (Tree (unary_kind u) (fresh t) Nil)
      | _, _ => wbad w
      end
  | LBinary i b j k =>
      match free (lists w) i, look (lists w) j, look (lists w) k with
      | true, Some t, Some t2 => wput w i (Tree (binary_kind b) (fresh t) (fresh t2))
      | _, _, _ => wbad w
      end
  | LSetOp i keep j k =>
      match free (lists w) i, look (lists w) j, look (lists w) k with
      | true, Some t, Some t2 =>
          do r <- read fuel (fresh t2) [];
          match r with Some vs => wput w i (Tree (KIntExc vs keep (-1)) (fresh t) Nil) | None => Ok (w, ORaised) end
      | _, _, _ => wbad w
      end
  | LReverse i j =>
      match free (lists w) i, look (lists w) j with
      | true, Some t =>
          do r <- read fuel (fresh t) [];
          match r with Some vs => wput w i (Tree (KReverse vs (-1)) Nil Nil) | None => Ok (w, ORaised) end
      | _, _ => wbad w
      end
  | LEvaluate i j force =>
      match free (lists w) i, look (lists w) j with
      | true, Some Nil => wput w i Nil
      | true, Some t =>
          do (_, r) <- (if force then Ok (t, Some no) else texec fuel t Evaluated);
          match r with
          | None => Ok (w, ORaised)
          | Some b =>
              if b =? yes then wput w i t
              else
                do r <- read fuel t [];
                match r with Some vs => wput w i (Tree (KCont vs (-1)) Nil Nil) | None => Ok (w, ORaised) end
          end
      | _, _ => wbad w
      end
  | LAdopt i e =>
      match free (lists w) i, look (enums w) e with
      | true, Some t => wput (put_enum w e None) i t
      | _, _ => wbad w
      end
  | ECreate e i =>
      match free (enums w) e, look (lists w) i with
      | true, Some t => Ok (put_enum w e (Some (fresh t)), ODone)
      | _, _ => wbad w
      end
  | EClone e f =>
      match free (enums w) e, look (enums w) f with
      | true, Some t => Ok (put_enum w e (Some t), ODone)
      | _, _ => wbad w
      end
  | ECall e m =>
      match look (enums w) e with
      | Some t => do (t, r) <- texec fuel t m; Ok (put_enum w e (Some t), match r with Some z => OAnswer z | None => ORaised end)
      | None => wbad w
      end
  | EDelete e => match look (enums w) e with Some _ => Ok (put_enum w e None, ODone) | None => wbad w end
  end.
Fixpoint wrun (fuel : nat) (w : world) (ops : list op) : res (world * list out) :=
  match ops with
  | [] => Ok (w, [])
  | o :: ops => do (w, x) <- wstep fuel w o; do (w, xs) <- wrun fuel w ops; Ok (w, x :: xs)
  end.
Definition outs {S : Type} (r : res (S * list out)) : res (list out) := do (_, l) <- r; Ok l.

(* every object was deleted *)
Definition all_deleted {X : Type} (l : list (option X)) : Prop := forall i, nth_error l i = None \/ nth_error l i = Some None.
(* no set operation ended by an exception *)
Fixpoint set_ops_fine (ops : list op) (xs : list out) : Prop :=
  match ops, xs with
  | LSetOp _ _ _ _ :: ops, x :: xs => x <> ORaised /\ set_ops_fine ops xs
  | _ :: ops, _ :: xs => set_ops_fine ops xs
  | _, _ => True
  end.
