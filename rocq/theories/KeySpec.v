From Verif Require Import Base LstModel LstSpec SrtModel SrtSpec DctModel DctSpec KeyModel DateModel TupModel.
Open Scope Z_scope.

(* The order of keys: numbers by size, strings as in a dictionary, dates by time, pointers by address, null before everything
   else, pairs and tuples by the first component that differs *)
Definition then_by (a b : comparison) : comparison := match a with Eq => b | Lt => Lt | Gt => Gt end.
Fixpoint dictionary_order (a b : list Z) : comparison :=
  match a, b with
  | [], [] => Eq
  | [], _ :: _ => Lt
  | _ :: _, [] => Gt
  | x :: a', y :: b' => then_by (x ?= y) (dictionary_order a' b')
  end.
Fixpoint order (k : key) : value k -> value k -> comparison :=
  match k return value k -> value k -> comparison with
  | KInt => fun a b => a ?= b
  | KText => dictionary_order
  | KDate => fun a b => osInternal a ?= osInternal b
  | KPtr => fun a b => a ?= b
  | KNullable k => fun a b =>
      match a, b with None, None => Eq | None, Some _ => Lt | Some _, None => Gt | Some x, Some y => order k x y end
  | KPair k v => fun a b => then_by (order k (fst a) (fst b)) (order v (snd a) (snd b))
  | KTuple ks =>
      (fix go (ks : list key) : tuple (map elem_of ks) -> tuple (map elem_of ks) -> comparison :=
         match ks return tuple (map elem_of ks) -> tuple (map elem_of ks) -> comparison with
         | [] => fun _ _ => Eq
         | k :: ks => fun a b => then_by (order k (fst a) (fst b)) (go ks (snd a) (snd b))
         end) ks
  end.

(* ---- NaN ---- *)
(* some order of all floating point values that agrees with <=> on numbers; only numbers are ever put in this order *)
Definition nan_last {A : Type} (c : A -> A -> comparison) (a b : option A) : comparison :=
  match a, b with Some x, Some y => c x y | Some _, None => Lt | None, Some _ => Gt | None, None => Eq end.

Section Nan.
  Variable A V : Type.
  Variable c : A -> A -> comparison.
  Variable veq : V -> V -> bool.
  Definition numbers (l : list (option A)) : Prop := ~ In None l.

  (* the value an operation looks for *)
  Definition s_key (o : sop (option A)) : option (option A) :=
    match o with SAdd a | SRemove a | SIndexOf a | SContains a => Some a | _ => None end.
  Definition d_key (o : dop (option A) V) : option (option A) :=
    match o with DAdd k _ | DSet k _ | DRemove k | DGet k | DContains k => Some k | _ => None end.
  Definition g_key_of (o : gop (option A) V) : option (option A) :=
    match o with
    | GAdd k _ | GRemove k | GRemoveValue k _ | GContains k | GContainsValue k _ | GValueCount k | GValueAt k _ => Some k
    | _ => None
    end.
  (* something is looked for among other values, and a NaN is involved *)
  Definition is_nan (a : option A) : bool := match a with None => true | Some _ => false end.
  Definition nan_meets (k : option (option A)) (l : list (option A)) : bool :=
    match k, l with
    | Some a, _ :: _ => is_nan a || existsb is_nan l
    | _, _ => false
    end.

  (* SortedList: such operations raise an error and change nothing, the others are as always; the list is ascending, or it
     is one NaN *)
  Definition float_step (l : list (option A)) (o : sop (option A)) (l' : list (option A)) (r : out (option A)) : Prop :=
    (if nan_meets (s_key o) l then l' = l /\ r = RError else ok_step (option A) (nan_last c) l o l' r) /\
    (numbers l' /\ ascending (option A) (nan_last c) l' \/ l' = [None]).
  Inductive float_run : list (option A) -> list (sop (option A)) -> list (option A) -> list (out (option A)) -> Prop :=
  | fr_nil : forall l, float_run l [] l []
  | fr_cons : forall l o l' r os l'' rs, float_step l o l' r -> float_run l' os l'' rs -> float_run l (o :: os) l'' (r :: rs).

  (* Dictionary and Group *)
  Definition fd_step (m : fmap (option A) V) (o : dop (option A) V) : fmap (option A) V * dout (option A) V :=
    if nan_meets (d_key o) (map fst m) then (m, OError) else md_step (option A) V (nan_last c) m o.
  Fixpoint fd_run (m : fmap (option A) V) (os : list (dop (option A) V)) : fmap (option A) V * list (dout (option A) V) :=
    match os with
    | [] => (m, [])
    | o :: os => let (m, r) := fd_step m o in let (m, rs) := fd_run m os in (m, r :: rs)
    end.
  Definition fg_step (m : fmap (option A) (list V)) (o : gop (option A) V) : fmap (option A) (list V) * dout (option A) V :=
    if nan_meets (g_key_of o) (map fst m) then (m, OError) else mg_step (option A) V (nan_last c) veq m o.
  Fixpoint fg_run (m : fmap (option A) (list V)) (os : list (gop (option A) V)) : fmap (option A) (list V) * list (dout (option A) V) :=
    match os with
    | [] => (m, [])
    | o :: os => let (m, r) := fg_step m o in let (m, rs) := fg_run m os in (m, r :: rs)
    end.
End Nan.
