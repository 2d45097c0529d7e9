(* What users of Tuple rely on: which object get<i>() denotes, which values it has, and what is left alone. *)
From Verif Require Import Base TplModel.
Open Scope nat_scope.

Section Spec.
Context {V : Type}.

(* the value at an address *)
Definition value (s : st V) (a : nat) : option V := match nth_error (mem s) a with Some (Val x) => Some x | _ => None end.
(* the i-th element of tuple variable v *)
Definition element (s : st V) (v i : nat) : option elem :=
  match nth_error (tup s) v with Some (Some es) => nth_error es i | _ => None end.
Definition owned (s : st V) (a : nat) : Prop := exists v i, element s v i = Some (Own a).
Definition others (s s' : st V) (v : nat) : Prop := forall u, u <> v -> nth_error (tup s') u = nth_error (tup s) u.

(* programs end only variables that are not elements of tuples *)
Definition allowed (s : st V) (o : op V) : Prop := match o with TEnd a => ~ owned s a | _ => True end.
Inductive reach (gone self : V -> V) (n : nat) : st V -> Prop :=
| reach_init : reach gone self n (init n)
| reach_step : forall s o s' r, reach gone self n s -> allowed s o -> step gone self s o = Ok (s', r) -> reach gone self n s'.

(* the j-th element to be built takes the value away from address a *)
Definition taken (refs : list bool) (src : list (nat * bool)) (j a : nat) : Prop :=
  nth_error refs j = Some false /\ nth_error src j = Some (a, true).
(* Tuple variable v has been built from src: an element of type T& refers to its source; an element of type T is a new
   object with the value its source had, unless an earlier element took that away; nothing else changes, except that
   what is taken away once leaves a moved-from object *)
Record built (gone : V -> V) (s s' : st V) (v : nat) (refs : list bool) (src : list (nat * bool)) : Prop := mkBuilt {
  b_before : nth_error (tup s) v = Some None;
  b_after : exists es, nth_error (tup s') v = Some (Some es) /\ length es = length refs;
  b_count : length src = length refs;
  b_others : others s s' v;
  b_ref : forall i a mv, nth_error refs i = Some true -> nth_error src i = Some (a, mv) -> element s' v i = Some (Ref a);
  b_own : forall i a mv, nth_error refs i = Some false -> nth_error src i = Some (a, mv) ->
            exists b, element s' v i = Some (Own b) /\ nth_error (mem s) b = None /\
              ((forall j, j < i -> ~ taken refs src j a) -> value s a <> None /\ value s' b = value s a);
  b_frame : forall a, nth_error (mem s) a <> None -> (forall j, ~ taken refs src j a) -> nth_error (mem s') a = nth_error (mem s) a;
  b_taken : forall j a, taken refs src j a -> (forall k, taken refs src k a -> k = j) -> value s' a = option_map gone (value s a)
}.

(* the assignment of element j writes address a; takes the value away from address a *)
Definition writes (es : list elem) (j a : nat) : Prop := nth_error es j = Some (Own a).
Definition takes (mv : bool) (es us : list elem) (j a : nat) : Prop :=
  mv = true /\ (exists b, nth_error es j = Some (Own b)) /\ exists u, nth_error us j = Some u /\ at_ u = a.
(* Elements us have been assigned to the elements es of v, in order: elements of type T& now refer to what the source denotes;
   an object gets the value its source had, if no other element of the same assignment gets in the way *)
Record assigned (gone self : V -> V) (s s' : st V) (v : nat) (mv : bool) (es us : list elem) : Prop := mkAssigned {
  a_count : length es = length us;
  a_before : nth_error (tup s) v = Some (Some es);
  a_after : exists es', nth_error (tup s') v = Some (Some es') /\ length es' = length es;
  a_others : others s s' v;
  a_ref : forall i a u, nth_error es i = Some (Ref a) -> nth_error us i = Some u -> element s' v i = Some (Ref (at_ u));
  a_own : forall i a, nth_error es i = Some (Own a) -> element s' v i = Some (Own a);
  a_value : forall i a u, nth_error es i = Some (Own a) -> nth_error us i = Some u ->
              (forall j, j < i -> ~ writes es j (at_ u) /\ ~ takes mv es us j (at_ u)) ->
              (forall j, i <= j -> ~ takes mv es us j a) ->
              value s (at_ u) <> None /\ value s' a = value s (at_ u);
  a_frame : forall a, (forall j, ~ writes es j a /\ ~ takes mv es us j a) -> nth_error (mem s') a = nth_error (mem s) a;
  a_taken : forall j a, takes mv es us j a -> (forall k, takes mv es us k a -> k = j) -> (forall k, ~ writes es k a) ->
              value s' a = option_map gone (value s a);
  a_self : forall j a, takes mv es us j a -> (forall k, takes mv es us k a -> k = j) -> writes es j a ->
              value s' a = option_map self (value s a)
}.

(* What every statement does *)
Definition effect (gone self : V -> V) (s : st V) (o : op V) (s' : st V) (r : option V) : Prop :=
  match o with
  | TVar x => nth_error (mem s) (length (mem s)) = None /\ value s' (length (mem s)) = Some x /\ tup s' = tup s /\
              (forall a, nth_error (mem s) a <> None -> nth_error (mem s') a = nth_error (mem s) a) /\ r = None
  | TEnd a => value s a <> None /\ value s' a = None /\ tup s' = tup s /\ r = None /\
              forall b, b <> a -> nth_error (mem s') b = nth_error (mem s) b
  | TDefault v ds =>
      nth_error (tup s) v = Some None /\ others s s' v /\ r = None /\
      (exists es, nth_error (tup s') v = Some (Some es) /\ length es = length ds) /\
      (forall i d, nth_error ds i = Some d -> exists b, element s' v i = Some (Own b) /\ nth_error (mem s) b = None /\ value s' b = d) /\
      (forall a, nth_error (mem s) a <> None -> nth_error (mem s') a = nth_error (mem s) a)
  | TNew v refs args => exists src, resolves s args = Ok src /\ built gone s s' v refs src /\ r = None
  | TFrom v refs w mv => exists us, nth_error (tup s) w = Some (Some us) /\ built gone s s' v refs (map (fun u => (at_ u, mv)) us) /\ r = None
  | TAssign v w mv => exists es us, nth_error (tup s) w = Some (Some us) /\ assigned gone self s s' v mv es us /\ r = None
  | TPut v i x => exists e, element s v i = Some e /\ value s' (at_ e) = Some x /\ tup s' = tup s /\ r = None /\
              forall b, b <> at_ e -> nth_error (mem s') b = nth_error (mem s) b
  | TGet v i => exists e, element s v i = Some e /\ r = value s (at_ e) /\ r <> None /\ s' = s
  | TRead a => r = value s a /\ r <> None /\ s' = s
  | TDrop v => exists es, nth_error (tup s) v = Some (Some es) /\ nth_error (tup s') v = Some None /\ others s s' v /\ r = None /\
              (forall a, In (Own a) es -> value s' a = None) /\
              (forall a, ~ In (Own a) es -> nth_error (mem s') a = nth_error (mem s) a)
  end.

(* When a statement is defined *)
Definition sources_good (s : st V) (refs : list bool) (src : list (nat * bool)) : Prop :=
  length refs = length src /\ forall i a mv, nth_error refs i = Some false -> nth_error src i = Some (a, mv) -> value s a <> None.
Definition good (s : st V) (o : op V) : Prop :=
  match o with
  | TVar _ => True
  | TEnd a | TRead a => value s a <> None
  | TDefault v _ => nth_error (tup s) v = Some None
  | TNew v refs args => nth_error (tup s) v = Some None /\ exists src, resolves s args = Ok src /\ sources_good s refs src
  | TFrom v refs w mv => nth_error (tup s) v = Some None /\
      exists us, nth_error (tup s) w = Some (Some us) /\ sources_good s refs (map (fun u => (at_ u, mv)) us)
  | TAssign v w mv => exists es us, nth_error (tup s) v = Some (Some es) /\ nth_error (tup s) w = Some (Some us) /\
      length es = length us /\
      forall i a u, nth_error es i = Some (Own a) -> nth_error us i = Some u -> value s (at_ u) <> None
  | TPut v i _ => exists e, element s v i = Some e /\ (owned s (at_ e) \/ value s (at_ e) <> None)
  | TGet v i => exists e, element s v i = Some e /\ value s (at_ e) <> None
  | TDrop v => exists es, nth_error (tup s) v = Some (Some es)
  end.
(* the types of the elements: T& or T *)
Definition kinds (es : list elem) : list bool := map (fun e => match e with Ref _ => true | Own _ => false end) es.
End Spec.

(* A moved-from number is 0 here, and survives x = std::move(x) *)
Definition zero (_ : Z) : Z := 0%Z.
Definition keep (x : Z) : Z := x.
