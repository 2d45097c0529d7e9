(* What an Array does when the constructions of its elements throw: a sequence, and what is lost. *)
From Verif Require Import Base TaModel.
Open Scope nat_scope.

Section spec.
  Context {A : Type} (husk : A -> A) (dflt : A).
  (* the elements, the number of lost objects and the number of lost blocks *)
  Record ss := mkSS { seq : option (list A); lost : nat; lost_blocks : nat }.
  Definition stops (k : option nat) (n : nat) : option nat := match k with Some k => if k <? n then Some k else None | None => None end.
  (* what programs may do: the array exists when it is used, and positions are in range *)
  Definition alegal (s : ss) (o : aop A) : Prop :=
    match o, seq s with
    | ANew _ _, None | AFrom _ _, None | AResize _ _, Some _ | ACount, Some _ | ADelete, Some _ => True
    | ASet i _ _, Some l | AGet i, Some l => i < length l
    | _, _ => False
    end.
  Definition sstep (s : ss) (o : aop A) : ss * aout A :=
    match o, seq s with
    | ANew n k, _ =>
        match stops k n with
        | Some k => (mkSS None (lost s + k) (lost_blocks s + 1), AThrown)
        | None => (mkSS (Some (repeat dflt n)) (lost s) (lost_blocks s), AUnit)
        end
    | AFrom src k, _ =>
        match stops k (length src) with
        | Some k => (mkSS None (lost s + k) (lost_blocks s + 1), AThrown)
        | None => (mkSS (Some src) (lost s) (lost_blocks s), AUnit)
        end
    | AResize n k, Some l =>
        match stops k n with
        | Some k => (mkSS (Some (map husk (firstn k l) ++ skipn k l)) (lost s + k) (lost_blocks s + 1), AThrown)
        | None => (mkSS (Some (firstn n l ++ repeat dflt (n - length l))) (lost s) (lost_blocks s), AUnit)
        end
    | ASet i a t, Some l => (mkSS (Some (firstn i l ++ a :: skipn (S i) l)) (lost s) (lost_blocks s), if t then AThrown else AUnit)
    | AGet i, Some l => (s, match nth_error l i with Some a => AVal a | None => AUnit end)
    | ACount, Some l => (s, ANum (length l))
    | ADelete, _ => (mkSS None (lost s) (lost_blocks s), AUnit)
    | _, None => (s, AUnit)
    end.
  Fixpoint srun (s : ss) (os : list (aop A)) : ss * list (aout A) :=
    match os with [] => (s, []) | o :: os => let (s, r) := sstep s o in let (s, rs) := srun s os in (s, r :: rs) end.
  Fixpoint alegal_run (s : ss) (os : list (aop A)) : Prop :=
    match os with [] => True | o :: os => alegal s o /\ alegal_run (fst (sstep s o)) os end.
  Definition sstart : ss := mkSS None 0 0.
  (* the objects and blocks that exist *)
  Definition objects (s : ss) : nat := match seq s with Some l => length l | None => 0 end + lost s.
  Definition held_blocks (s : ss) : nat := match seq s with Some (_ :: _) => 1 | _ => 0 end + lost_blocks s.
  (* no construction of the operation throws *)
  Definition calm_op (o : aop A) : Prop := match o with ANew n k | AResize n k => stops k n = None | AFrom src k => stops k (length src) = None | _ => True end.
End spec.
