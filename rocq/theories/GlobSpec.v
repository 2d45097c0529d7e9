(* What C49 says of the runs of the initialisers and finalisers. *)
From Verif Require Import Base GlobModel.

Definition ev_of (s : nat) (e : gev) : bool := match e with EInit x => Nat.eqb s x | EFin x => Nat.eqb s x end.
Definition is_init (e : gev) : bool := match e with EInit _ => true | EFin _ => false end.
(* the runs of one storage: true for the initialiser, false for the finaliser *)
Definition runs (s : nat) (l : list gev) : list bool := map is_init (filter (ev_of s) l).
(* strict alternation, starting with b *)
Fixpoint alternate (b : bool) (l : list bool) : Prop :=
  match l with [] => True | x :: r => x = b /\ alternate (negb b) r end.
Definition initialised (w : gw) (s : nat) : Prop := mem s (ini w) = true.
(* finalisers that use no storage *)
Definition quiet_finalisers (prog : bool -> nat -> list gev -> list act) : Prop := forall s l, prog false s l = [].
(* dep s v: the initialiser or finaliser of s may use v, directly or not *)
Record deps (prog : bool -> nat -> list gev -> list act) (dep : nat -> nat -> Prop) : Prop := mkDeps {
  dp_prog : forall b s l a, In a (prog b s l) -> a = Throw \/ exists v, a = Get v /\ dep s v;
  dp_trans : forall a b c, dep a b -> dep b c -> dep a c }.
(* what a storage may use is registered, and later than the storage itself *)
Definition uses_later (dep : nat -> nat -> Prop) (w : gw) : Prop :=
  forall i s v, nth_error (reg w) i = Some s -> dep s v -> exists j, (i < j)%nat /\ nth_error (reg w) j = Some v.
(* finalisers that use no storage, of which one throws *)
Definition one_throws (prog : bool -> nat -> list gev -> list act) (t : nat) : Prop :=
  forall s l, prog false s l = if Nat.eqb s t then [Throw] else [].
(* the initialised ones among l *)
Definition inits (w : gw) (l : list nat) : list nat := filter (fun s => mem s (ini w)) l.
