(* What is left of a group whose comparison of keys and equality of values are arbitrary.  A step may lose one value container (n = 1). *)
From Verif Require Import Base LstModel LstSpec SrtModel DctModel AnySpec LeqSpec.
Open Scope Z_scope.

Section Spec.
  Context (A V St : Type) (cmp : St -> A -> A -> St * option comparison) (less : St -> A -> A -> St * option bool) (veq : St -> V -> V -> St * option bool).
  Notation eqv := (called_equal A St cmp). Notation fails := (can_fail A St cmp less).
  Definition gabout (o : gop A V) : option A :=
    match o with
    | GAdd k _ | GRemove k | GRemoveValue k _ | GContains k | GContainsValue k _ | GValueCount k | GValueAt k _ => Some k
    | _ => None
    end.
  (* searching v in the values ws can end with f *)
  Definition finds (ws : list V) (v : V) (f : finding V) : Prop := exists st st', searched V V St veq ws v st f st'.
  Inductive gr_step : list (A * list V) -> gop A V -> list (A * list V) -> dout A V -> nat -> Prop :=
  | gr_fail : forall m o k b ws, gabout o = Some k -> In (b, ws) m -> fails b k -> gr_step m o m OError 0
  | gr_lost : forall m k v b ws, In (b, ws) m -> fails b k -> gr_step m (GAdd k v) m OError 1
  | gr_add_new : forall m1 m2 k v, gr_step (m1 ++ m2) (GAdd k v) (m1 ++ (k, [v]) :: m2) (OBool true) 0
  | gr_add_old : forall m1 b ws m2 k v, eqv b k -> gr_step (m1 ++ (b, ws) :: m2) (GAdd k v) (m1 ++ (b, ws ++ [v]) :: m2) (OBool true) 0
  | gr_remove : forall m1 b ws m2 k, eqv b k -> gr_step (m1 ++ (b, ws) :: m2) (GRemove k) (m1 ++ m2) (OBool true) 0
  | gr_remove_none : forall m k, gr_step m (GRemove k) m (OBool false) 0
  | gr_value : forall m1 b ws ws1 w ws2 m2 k v, eqv b k -> finds ws v (At ws1 w ws2) -> ws1 ++ ws2 <> [] ->
      gr_step (m1 ++ (b, ws) :: m2) (GRemoveValue k v) (m1 ++ (b, ws1 ++ ws2) :: m2) (OBool true) 0
  | gr_value_last : forall m1 b ws w m2 k v, eqv b k -> finds ws v (At [] w []) ->
      gr_step (m1 ++ (b, ws) :: m2) (GRemoveValue k v) (m1 ++ m2) (OBool true) 0
  | gr_value_absent : forall m b ws k v, In (b, ws) m -> eqv b k -> finds ws v Nowhere -> gr_step m (GRemoveValue k v) m (OBool true) 0
  | gr_value_fail : forall m b ws k v, In (b, ws) m -> eqv b k -> finds ws v Thrown -> gr_step m (GRemoveValue k v) m OError 0
  | gr_value_none : forall m k v, gr_step m (GRemoveValue k v) m (OBool false) 0
  | gr_clear : forall m, gr_step m GClear [] (OBool true) 0
  | gr_contains : forall m b ws k, In (b, ws) m -> eqv b k -> gr_step m (GContains k) m (OBool true) 0
  | gr_contains_none : forall m k, gr_step m (GContains k) m (OBool false) 0
  | gr_has : forall m b ws k v ws1 w ws2, In (b, ws) m -> eqv b k -> finds ws v (At ws1 w ws2) -> gr_step m (GContainsValue k v) m (OBool true) 0
  | gr_has_not : forall m b ws k v, In (b, ws) m -> eqv b k -> finds ws v Nowhere -> gr_step m (GContainsValue k v) m (OBool false) 0
  | gr_has_fail : forall m b ws k v, In (b, ws) m -> eqv b k -> finds ws v Thrown -> gr_step m (GContainsValue k v) m OError 0
  | gr_has_none : forall m k v, gr_step m (GContainsValue k v) m (OBool false) 0
  | gr_count : forall m, gr_step m GCount m (OInt (zlen m)) 0
  | gr_key : forall m1 b ws m2, gr_step (m1 ++ (b, ws) :: m2) (GKeyAt (zlen m1)) (m1 ++ (b, ws) :: m2) (OKey b) 0
  | gr_key_err : forall m i, ~ 0 <= i < zlen m -> gr_step m (GKeyAt i) m OError 0
  | gr_number : forall m b ws k, In (b, ws) m -> eqv b k -> gr_step m (GValueCount k) m (OInt (zlen ws)) 0
  | gr_number_none : forall m k, gr_step m (GValueCount k) m OError 0
  | gr_at : forall m b ws1 w ws2 k, In (b, ws1 ++ w :: ws2) m -> eqv b k -> gr_step m (GValueAt k (zlen ws1)) m (OVal w) 0
  | gr_at_none : forall m k i, gr_step m (GValueAt k i) m OError 0.
  Inductive gr_run : list (A * list V) -> list (gop A V) -> list (A * list V) -> list (dout A V) -> nat -> Prop :=
  | gr_nil : forall m, gr_run m [] m [] 0
  | gr_cons : forall m o m' r n os m'' rs n', gr_step m o m' r n -> gr_run m' os m'' rs n' -> gr_run m (o :: os) m'' (r :: rs) (n + n').

  (* the places of value containers that are not deleted *)
  Definition alive (h : list (option (lst V))) (ps : list nat) : Prop :=
    NoDup ps /\ forall p, In p ps <-> exists x, nth_error h p = Some (Some x).
  (* the group holds the pairs of m; beside its value containers there are the empty ones in qs *)
  Definition holds (g : group A V) (m : list (A * list V)) (qs : list nat) : Prop :=
    exists ps,
      lst_shows A (gkeys g) (map fst m) /\ lst_shows nat (gvals g) ps /\
      Forall2 (fun p kv => exists x, nth_error (gheap g) p = Some (Some x) /\ lst_shows V x (snd kv)) ps m /\
      alive (gheap g) (ps ++ qs) /\ Forall (fun q => nth_error (gheap g) q = Some (Some empty_lst)) qs /\
      Forall (fun kv => snd kv <> []) m.
End Spec.

(* for an example: comparing throws once, at comparison number 1 *)
Definition once_cmp (st : nat) (a b : Z) : nat * option comparison := (S st, if Nat.eqb st 1 then None else Some (a ?= b)).
Definition once_less (st : nat) (a b : Z) : nat * option bool := (S st, if Nat.eqb st 1 then None else Some (a <? b)).
(* the equality of the values counts on; it throws at number 9 *)
Definition once_eq (st : nat) (a b : Z) : nat * option bool := (S st, if Nat.eqb st 9 then None else Some (a =? b)).
(* counts with the comparisons of AnySpec.count_cmp; the one at 2 throws *)
Definition full_eq (st : nat) (a b : Z) : nat * option bool := (S st, if Nat.eqb st 2 then None else Some (a =? b)).
