From Verif Require Import Base PgrModel.
Open Scope nat_scope.

(* the Ptrs of a list that refer to object o *)
Fixpoint occ (o : nat) (l : list (option nat)) : nat :=
  match l with
  | [] => 0
  | v :: l => (match v with Some p => if Nat.eqb o p then 1 else 0 | None => 0 end) + occ o l
  end.
Definition sum {A} (f : A -> nat) (l : list A) : nat := fold_right (fun x n => f x + n) 0 l.
(* all the Ptrs to o: variables of the threads and members of the objects *)
Definition pointers (w : pg) (o : nat) : nat :=
  sum (fun t => occ o (vars t)) (ths w) + sum (fun b => occ o (cells b)) (heap w).
Definition exists_now (w : pg) (o : nat) : Prop := exists b, nth_error (heap w) o = Some b /\ lf b = Alive.
Definition counter_is (w : pg) (o n : nat) : Prop := exists b, nth_error (heap w) o = Some b /\ cnt b = Some (Z.of_nat n).
(* no thread is in the middle of a statement *)
Definition quiet (w : pg) : Prop := Forall (fun t => work t = [] /\ fin t = RNone) (ths w).
Definition finished (w : pg) : Prop := Forall (fun t => prog t = []) (ths w).

(* where a run starts: objects given by their members, threads given by their variables and programs; the
   counters are right *)
Definition start (g : list (list (option nat))) (l : list (list (option nat) * list stmt)) : pg :=
  let refs o := sum (fun c => occ o c) g + sum (fun t => occ o (fst t)) l in
  mkW (map (fun p => mkO (Some (Z.of_nat (refs (fst p)))) Alive (snd p)) (combine (seq 0 (length g)) g))
      (map (fun t => mkT (fst t) (snd t) [] RNone) l) [].
(* every Ptr refers to one of the objects, and every object has a Ptr that refers to it *)
Definition wf (g : list (list (option nat))) (l : list (list (option nat) * list stmt)) : Prop :=
  (forall c o, In c g -> In (Some o) c -> o < length g) /\
  (forall t o, In t l -> In (Some o) (fst t) -> o < length g) /\
  (forall o, o < length g -> (exists c, In c g /\ In (Some o) c) \/ (exists t, In t l /\ In (Some o) (fst t))).
(* no statement x = x->f *)
Definition no_self (p : list stmt) : Prop := forall x f, ~ In (Load x x f) p /\ ~ In (Take x x f) p.
(* members are not changed after the object has been made *)
Definition frozen (p : list stmt) : Prop := forall s, In s p -> match s with Store _ _ _ | Take _ _ _ => False | _ => True end.
(* members refer to objects made earlier *)
Definition descending (g : list (list (option nat))) : Prop :=
  forall i c o, nth_error g i = Some c -> In (Some o) c -> o < i.
(* what the variables of the threads lead to *)
Inductive reach (w : pg) : nat -> Prop :=
| r_var t o : In t (ths w) -> In (Some o) (vars t) -> reach w o
| r_member o b p : reach w o -> nth_error (heap w) o = Some b -> In (Some p) (cells b) -> reach w p.
(* the steps of a schedule in which the thread has something to do *)
Definition done_t (t : thread) : bool := match work t, fin t, prog t with [], RNone, [] => true | _, _, _ => false end.
Fixpoint busy (w : pg) (sched : list nat) : nat :=
  match sched with
  | [] => 0
  | i :: sched =>
      (match nth_error (ths w) i with Some t => if done_t t then 0 else 1 | None => 0 end) +
      match tstep w i with Ok w => busy w sched | _ => 0 end
  end.
(* the member a statement begins to use, and whether it changes it *)
Definition access (t : thread) (s : stmt) : option (nat * nat * bool) :=
  match s with
  | Load _ x f => match getv (vars t) x with Some o => Some (o, f, false) | None => None end
  | Store x f _ | Take _ x f => match getv (vars t) x with Some o => Some (o, f, true) | None => None end
  | _ => None
  end.
(* thread i begins to use a member another thread is in the middle of using, and one of them changes it *)
Definition race (w : pg) (i : nat) : Prop := exists j t u s p o f c, i <> j /\
  nth_error (ths w) i = Some t /\ prog t = s :: p /\ work t = [] /\ fin t = RNone /\ access t s = Some (o, f, c) /\
  nth_error (ths w) j = Some u /\ uses_cell o f u = true /\ (c = true \/ writes_cell o f u = true).
(* whatever a Ptr refers to exists; no object is deleted twice, and the deleted ones are gone *)
Definition intact (w : pg) : Prop :=
  (forall t o, In t (ths w) -> In (Some o) (vars t) -> exists_now w o) /\
  (forall b o, In b (heap w) -> In (Some o) (cells b) -> exists_now w o) /\
  NoDup (log w) /\
  (forall o, In o (log w) <-> exists b, nth_error (heap w) o = Some b /\ lf b = Gone).
(* an object with two members that refer to another one; two threads that walk to it and drop everything *)
Definition two : list (list (option nat)) := [[]; [Some 0; Some 0]].
Definition walk : list stmt := [Load 1 0 1; Reset 0; Use 1; New 0 [1]; Reset 1; Reset 0].
Definition walkers := [([Some 1; None], walk); ([Some 1; None], walk)].
(* one thread replaces a member while another one copies it *)
Definition replace := [([Some 1; Some 0], [Store 0 0 1; Reset 1; Reset 0]); ([Some 1; None], [Load 1 0 0; Reset 0; Reset 1])].
(* p = p->f with p the only pointer to its object *)
Definition self_load := [([Some 1], [Load 0 0 0])].
(* two objects that refer to each other *)
Definition ring : list (list (option nat)) := [[Some 1]; [Some 0]].
Definition drop_ring := [([Some 0], [Reset 0]); ([Some 1], [Reset 0])].
Definition deleted (r : res pg) : option (list nat) := match r with Ok w => Some (log w) | _ => None end.
(* ---- what a statement does, whatever the other threads do meanwhile ---- *)
Definition between (t : thread) : bool := match work t, fin t with [], RNone => true | _, _ => false end.
(* steps of all threads until thread i is between two statements *)
Inductive meanwhile (i : nat) : pg -> pg -> Prop :=
| m_end w t : nth_error (ths w) i = Some t -> between t = true -> meanwhile i w w
| m_step w t j w1 w2 : nth_error (ths w) i = Some t -> between t = false -> tstep w j = Ok w1 -> meanwhile i w1 w2 -> meanwhile i w w2.
Definition member (w : pg) (o f : nat) : option (option nat) :=
  match nth_error (heap w) o with Some b => nth_error (cells b) f | None => None end.
(* from the variables v in w to the variables v' in w' *)
Definition effect (w : pg) (v : list (option nat)) (s : stmt) (w' : pg) (v' : list (option nat)) : Prop :=
  match s with
  | New y ms => y < length v -> exists o b, length (heap w) <= o /\ v' = upd v y (Some o) /\
      nth_error (heap w') o = Some b /\ lf b = Alive /\ cells b = map (getv v) ms
  | Copy y x => v' = upd v y (getv v x)
  | Move y x => y < length v -> y <> x -> v' = upd (upd v y (getv v x)) x None
  | Reset y => v' = upd v y None
  | Load y x f => forall o m, getv v x = Some o -> member w o f = Some m -> v' = upd v y m
  | Store x f y => v' = v /\ forall o m, y < length v -> getv v x = Some o -> member w o f = Some m -> member w' o f = Some (getv v y)
  | Take y x f => forall o m, y < length v -> getv v x = Some o -> member w o f = Some m -> v' = upd v y m /\ member w' o f = Some None
  | Use x => v' = v
  end.
