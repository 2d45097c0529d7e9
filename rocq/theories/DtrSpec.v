(* What destructors that use Ptr variables have to respect *)
From Coq Require Import Sorting.Sorted.
From Verif Require Import Base RcModel RcSpec DtrModel.
Open Scope nat_scope.

(* The variables with an operation in progress: it has let go of what they pointed to and has still to write to them *)
Fixpoint busy (ts : list task) : list nat :=
  match ts with
  | [] => []
  | (TNull v | TKill v | TSet v _ | TMoveSet v _) :: ts => v :: busy ts
  | _ :: ts => busy ts
  end.
(* The variables that an assignment in progress has still to read *)
Fixpoint sources (ts : list task) : list nat :=
  match ts with
  | [] => []
  | (TSet _ w | TMoveSet _ w) :: ts => w :: sources ts
  | _ :: ts => sources ts
  end.
Definition usable (s : st) (rest : list task) (u : nat) : Prop := exists_var (world_of s) u /\ ~ In u (busy rest).
(* u refers to o, and no operation on u is in progress *)
Definition owner (s : st) (ts : list task) (u o : nat) : Prop := refers (world_of s) u o /\ ~ In u (busy ts).

(* The rule: an operation uses variables that exist and have no operation in progress; nothing that is still to be
   written or read is destroyed.  As in C38, an object is given to a Ptr once, and only an only owner is detached. *)
Definition allowed (s : st) (rest : list task) (t : task) : Prop :=
  match t with
  | TOp (PNew v) => free_slot (world_of s) v
  | TOp (PRaw _) => True
  | TOp (PWrap v o) => free_slot (world_of s) v /\ alive s o = true /\ forall u, ~ owner s rest u o
  | TOp (PCopy v u) | TOp (PConv v u) | TOp (PMove v u) | TOp (PConvMove v u) | TOp (PCast v u _) =>
      free_slot (world_of s) v /\ usable s rest u
  | TOp (PDestroy v) => usable s rest v /\ wh (world_of s) v = None /\ ~ In v (sources rest)
  | TOp (PSetNull v) => usable s rest v
  | TOp (PAssign v u) | TOp (PMoveAssign v u) => usable s rest v /\ usable s rest u
  | TOp (PDetach v) => usable s rest v /\ forall o u, refers (world_of s) v o -> owner s rest u o -> u = v
  | TMembers (w :: _) => ~ In w (busy rest) /\ ~ In w (sources rest)
  | _ => True
  end.

(* What happened: operations and beginnings of destructors *)
Inductive event := EOp (o : op) | EDtor (o : nat).
Definition event_of (t : task) : list event :=
  match t with TOp o => [EOp o] | TBody o 0 => [EDtor o] | _ => [] end.
(* Runs that follow the rule *)
Inductive runs (code : nat -> nat -> st -> option op) : st * list task -> list event -> st * list task -> Prop :=
| runs_nil : forall c, runs code c [] c
| runs_snoc : forall c es s t rest c', runs code c es (s, t :: rest) -> allowed s rest t ->
    dtr_step code s t rest = Ok c' -> runs code c (es ++ event_of t) c'.
Definition start (n : nat) (prog : list op) : st * list task := (init n, map TOp prog).

Definition wrapped_in (es : list event) (o : nat) : Prop := exists v, In (EOp (PWrap v o)) es.
Definition no_detach_in (es : list event) : Prop := forall v, ~ In (EOp (PDetach v)) es.
Definition dtors (es : list event) : list nat := flat_map (fun e => match e with EDtor o => [o] | _ => [] end) es.
(* the number of owners of o *)
Definition owners_now (s : st) (ts : list task) (o : nat) : nat :=
  length (filter (fun u => if in_dec Nat.eq_dec u (busy ts) then false else
                           match nth_error (vs s) u with
                           | Some (Some p, _) => match pr p with Some o' => Nat.eqb o' o | None => false end
                           | _ => false
                           end) (seq 0 (length (vs s)))).
(* Any sequence of steps *)
Inductive goes (code : nat -> nat -> st -> option op) : st * list task -> st * list task -> Prop :=
| goes_nil : forall c, goes code c c
| goes_cons : forall s t rest c c', dtr_step code s t rest = Ok c -> goes code c c' -> goes code (s, t :: rest) c'.
(* c' is the configuration after c *)
Definition follows (code : nat -> nat -> st -> option op) (c' c : st * list task) : Prop :=
  exists s t rest, c = (s, t :: rest) /\ dtr_step code s t rest = Ok c'.
(* The destructor of object o carries out at most [bound o] operations, and creates no objects *)
Definition finite_bodies (code : nat -> nat -> st -> option op) (bound : nat -> nat) : Prop :=
  (forall o k s, bound o <= k -> code o k s = None) /\ (forall o k s m, code o k s <> Some (PRaw m)).
Definition no_code : nat -> nat -> st -> option op := fun _ _ _ => None.
Definition fails (code : nat -> nat -> st -> option op) (c : st * list task) : Prop :=
  exists s t rest, goes code c (s, t :: rest) /\ dtr_step code s t rest = UB.

(* v is the only owner of o *)
Definition only_owner (s : st) (rest : list task) (v o : nat) : Prop :=
  owner s rest v o /\ forall u, owner s rest u o -> u = v.
Definition same_vars (s s' : st) : Prop :=
  (forall u, wv (world_of s') u = wv (world_of s) u) /\ (forall u, wh (world_of s') u = wh (world_of s) u) /\
  wn (world_of s') = wn (world_of s) /\ wm (world_of s') = wm (world_of s).
(* v lets go of its object: an object of which v is the only owner is gone, and its destructor, the destruction of its
   members, the last one first, and the emptying of v come next; anything else stays *)
Definition lets_go (s : st) (rest : list task) (v : nat) (s' : st) (ts : list task) : Prop :=
  same_vars s s' /\
  ((exists o ws, only_owner s rest v o /\ ts = [TBody o 0; TMembers ws; TNull v] /\
      StronglySorted gt ws /\ (forall u, In u ws <-> wh (world_of s) u = Some o) /\
      (forall o', alive s' o' = true <-> alive s o' = true /\ o' <> o)) \/
   (forall o, ~ only_owner s rest v o) /\ ts = [] /\ forall o', alive s' o' = alive s o').
(* What each step does to the variables and the objects, and what is to be done next *)
Definition effect (code : nat -> nat -> st -> option op) (s : st) (t : task) (rest : list task) (s' : st) (ts' : list task) : Prop :=
  let w := world_of s in
  match t with
  | TOp (PDestroy v) => exists ts, lets_go s rest v s' ts /\ ts' = ts ++ TKill v :: rest
  | TOp (PSetNull v) => exists ts, lets_go s rest v s' ts /\ ts' = ts ++ TNull v :: rest
  | TOp (PAssign v u) => if Nat.eqb v u then s' = s /\ ts' = rest else exists ts, lets_go s rest v s' ts /\ ts' = ts ++ TSet v u :: rest
  | TOp (PMoveAssign v u) => if Nat.eqb v u then s' = s /\ ts' = rest else exists ts, lets_go s rest v s' ts /\ ts' = ts ++ TMoveSet v u :: rest
  | TOp o => (exists r, spec w o (world_of s') r) /\ ts' = rest
  | TBody o k => s' = s /\ ts' = match code o k s with Some x => TOp x :: TBody o (S k) :: rest | None => rest end
  | TMembers [] => s' = s /\ ts' = rest
  | TMembers (u :: us) => exists ts, lets_go s rest u s' ts /\ ts' = ts ++ TKill u :: TMembers us :: rest
  | TNull v => same_world (world_of s') (set_var w v (Some None)) /\ ts' = rest
  | TKill v => same_world (world_of s') (set_var w v None) /\ ts' = rest
  | TSet v u => same_world (world_of s') (set_var w v (wv w u)) /\ wv w u <> None /\ ts' = rest
  | TMoveSet v u => same_world (world_of s') (set_var (set_var w v (wv w u)) u (Some None)) /\ wv w u <> None /\ ts' = rest
  end.

(* Object 0 has a member, variable 3; its destructor saves the member in variable 2 and empties it *)
Definition saving : nat -> nat -> st -> option op := fun o k _ =>
  match o, k with 0, 0 => Some (PCopy 2 3) | 0, 1 => Some (PSetNull 3) | _, _ => None end.
Definition saving_prog : list op :=
  [PRaw 1; PWrap 0 0; PRaw 0; PWrap 1 1; PAssign 3 1; PDestroy 1; PSetNull 0; PDestroy 2; PDestroy 0].
(* The destructor of object 0 carries out the single operation x *)
Definition only (x : op) : nat -> nat -> st -> option op := fun o k _ => match o, k with 0, 0 => Some x | _, _ => None end.
