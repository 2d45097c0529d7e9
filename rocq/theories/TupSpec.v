From Verif Require Import Base TupModel.

(* the comparisons of corresponding elements, and the first one that is not "equal" *)
Fixpoint results (es : list elem) : tuple es -> tuple es -> list ord :=
  match es with
  | [] => fun _ _ => []
  | e :: es => fun a b => cmp e (fst a) (fst b) :: results es (snd a) (snd b)
  end.
Definition first_difference (l : list ord) : ord :=
  match find nonzero l with Some o => o | None => Equal end.
Fixpoint all_equal (es : list elem) : tuple es -> tuple es -> Prop :=
  match es with
  | [] => fun _ _ => True
  | e :: es => fun a b => eqe e (fst a) (fst b) = true /\ all_equal es (snd a) (snd b)
  end.

Definition opposite (o : ord) : ord := match o with Less => Greater | Greater => Less | o => o end.
(* a partial order: reversing the operands reverses the result, < is transitive, equal operands can be exchanged *)
Record partial_order {A} (c : A -> A -> ord) : Prop := mkPO {
  po_flip : forall a b, c b a = opposite (c a b);
  po_less : forall x y z, c x y = Less -> c y z = Less -> c x z = Less;
  po_equal : forall x y z, c x y = Equal -> c y z = c x z }.
(* a total order (up to equality): moreover it is reflexive and nothing is unordered *)
Record total_order {A} (c : A -> A -> ord) : Prop := mkTO {
  to_partial : partial_order c;
  to_refl : forall a, c a a = Equal;
  to_total : forall a b, c a b <> Unordered }.

(* what converts to what, and the strongest category everything in a list converts to *)
Definition converts (c d : category) : bool :=
  match c, d with
  | _, Partial => true
  | Strong, _ => true
  | Weak, Weak => true
  | _, _ => false
  end.
Definition common (l : list category) (c : category) : Prop := forall x, In x l -> converts x c = true.
Definition strongest_common (l : list category) (c : category) : Prop :=
  common l c /\ forall d, common l d -> converts c d = true.
