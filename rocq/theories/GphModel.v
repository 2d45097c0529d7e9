(* PartialOrderingProcessor: Source/Collections/PartialOrdering.h and PartialOrdering.cpp.
   The groups ins and outs and the caller's depGroup and subClasses are used through the
   specification of Group and Dictionary proved in C21 and C22 (ascending association
   lists).  Node numbers are nat; a vint -1 is None.  Array accesses are checked
   (Array::operator[] raises an error), so an index out of range is Err. *)
From Verif Require Import Base LstSpec DctModel DctSpec.
Open Scope nat_scope.

Record graph := mkGraph { gn : nat; gins : list (list nat); gouts : list (list nat) }.

Definition nget {A : Type} (l : list A) (i : nat) : res A :=
  match nth_error l i with Some x => Ok x | None => Err end.
Definition nset {A : Type} (l : list A) (i : nat) (x : A) : res (list A) :=
  if i <? length l then Ok (upd l i x) else Err.

(* ---- VisitUnvisitedNode : PartialOrdering.cpp:42-54 ----------------------------
   reversedOrder[0 .. used) is kept as a list; writing at used >= n is an error *)
Record vstate := mkV { visited : list bool; order : list nat }.
Definition push (cap : nat) (l : list nat) (x : nat) : res (list nat) :=
  if length l <? cap then Ok (l ++ [x]) else Err.
(* for each out edge, last first: if(!outNode.visited) visit *)
Fixpoint each (f : nat -> vstate -> res vstate) (ws : list nat) (s : vstate) : res vstate :=
  match ws with
  | [] => Ok s
  | w :: ws' =>
      do b <- nget (visited s) w;
      do s <- (if b then Ok s else f w s);
      each f ws' s
  end.
Fixpoint visit (g : graph) (fuel : nat) (v : nat) (s : vstate) : res vstate :=
  match fuel with
  | O => NoFuel
  | S fuel' =>
      do vis <- nset (visited s) v true;
      do os <- nget (gouts g) v;
      do s <- each (visit g fuel') (rev os) (mkV vis (order s));
      do o <- push (gn g) (order s) v;
      Ok (mkV (visited s) o)
  end.

(* ---- AssignUnassignedNode : PartialOrdering.cpp:56-68 -------------------------- *)
Record astate := mkA { comp : list (option nat); buffer : list nat }.
Fixpoint each_in (f : nat -> astate -> res astate) (ws : list nat) (s : astate) : res astate :=
  match ws with
  | [] => Ok s
  | w :: ws' =>
      do c <- nget (comp s) w;
      do s <- (match c with Some _ => Ok s | None => f w s end);
      each_in f ws' s
  end.
Fixpoint assign (g : graph) (fuel : nat) (ci : nat) (v : nat) (s : astate) : res astate :=
  match fuel with
  | O => NoFuel
  | S fuel' =>
      do cs <- nset (comp s) v (Some ci);
      do b <- push (gn g) (buffer s) v;
      do is <- nget (gins g) v;
      each_in (assign g fuel' ci) is (mkA cs b)
  end.

(* ---- Sort : PartialOrdering.cpp:70-107 ---------------------------------------- *)
(* a component is a position in firstNodesBuffer and a length *)
Fixpoint components (g : graph) (fuel : nat) (vs : list nat) (s : astate) (cs : list (nat * nat))
  : res (astate * list (nat * nat)) :=
  match vs with
  | [] => Ok (s, cs)
  | v :: vs' =>
      do c <- nget (comp s) v;
      match c with
      | Some _ => components g fuel vs' s cs
      | None =>
          let last := length (buffer s) in
          do s <- assign g fuel (length cs) v s;
          (* &firstNodesBuffer[lastUsed] *)
          do _ <- nget (buffer s) last;
          components g fuel vs' s (cs ++ [(last, length (buffer s) - last)])
      end
  end.
Definition sort_graph (g : graph) : res (astate * list (nat * nat)) :=
  let n := gn g in
  do s <- each (visit g (n + 1)) (rev (seq 0 n)) (mkV (repeat false n) []);
  components g (n + 1) (rev (order s)) (mkA (repeat None n) []) [].

(* ---- InitNodes, InitWithGroup, InitWithFunc, InitWithSubClass ------------------ *)
Definition nmap := fmap nat (list nat).
Definition nadd (k v : nat) (m : nmap) : nmap :=
  put nat (list nat) Nat.compare k
    (match lookup nat (list nat) Nat.compare k m with Some l => l ++ [v] | None => [v] end) m.
Definition nvalues (m : nmap) (k : nat) : list nat :=
  match lookup nat (list nat) Nat.compare k m with Some l => l | None => [] end.
(* InitNodes : PartialOrdering.cpp:18-40 *)
Definition init_nodes (n : nat) (ins outs : nmap) : graph :=
  mkGraph n (map (nvalues ins) (seq 0 n)) (map (nvalues outs) (seq 0 n)).

(* the first position satisfying p: IndexOf on a List or Array (C15), or on a SortedList
   whose elements are distinct (C19) *)
Fixpoint find_pos {A : Type} (p : A -> bool) (l : list A) : option nat :=
  match l with
  | [] => None
  | x :: l' => if p x then Some 0 else match find_pos p l' with Some i => Some (S i) | None => None end
  end.
Definition must {A : Type} (o : option A) : res A := match o with Some a => Ok a | None => Err end.
Definition is_eq (c : comparison) : bool := match c with Eq => true | _ => false end.

Section Init.
  Variable T : Type.
  Variable eqb : T -> T -> bool.             (* equality used by items.IndexOf *)

  (* items.IndexOf(x); CHECK_ERROR(... != -1) *)
  Definition index (items : list T) (x : T) : res nat := must (find_pos (fun y => eqb y x) items).

  (* InitWithGroup : PartialOrdering.h:180-202; the pairs of depGroup in key order *)
  Fixpoint add_edges (items : list T) (from : nat) (tos : list T) (ins outs : nmap) : res (nmap * nmap) :=
    match tos with
    | [] => Ok (ins, outs)
    | t :: tos' => do j <- index items t; add_edges items from tos' (nadd from j ins) (nadd j from outs)
    end.
  Fixpoint add_groups (items : list T) (dep : fmap T (list T)) (ins outs : nmap) : res (nmap * nmap) :=
    match dep with
    | [] => Ok (ins, outs)
    | (k, vs) :: dep' =>
        do i <- index items k;
        do (ins, outs) <- add_edges items i vs ins outs;
        add_groups items dep' ins outs
    end.
  Definition init_with_group (items : list T) (dep : fmap T (list T)) : res graph :=
    do (ins, outs) <- add_groups items dep [] [];
    Ok (init_nodes (length items) ins outs).
End Init.

(* Group::Add through the specification *)
Definition gadd {K V : Type} (c : K -> K -> comparison) (k : K) (v : V) (m : fmap K (list V)) : fmap K (list V) :=
  put K (list V) c k (match lookup K (list V) c k m with Some l => l ++ [v] | None => [v] end) m.

Section Init2.
  Variable T : Type.
  Variable c : T -> T -> comparison.         (* operator<=>, also used for equality *)
  Definition ceqb (a b : T) : bool := is_eq (c a b).

  (* InitWithFunc : PartialOrdering.h:273-288 *)
  Definition dep_group (items : list T) (dep : T -> T -> bool) : fmap T (list T) :=
    fold_left (fun m a => fold_left (fun m b => if dep a b then gadd c a b m else m) items m) items [].
  Definition init_with_func (items : list T) (dep : T -> T -> bool) : res graph :=
    init_with_group T ceqb items (dep_group items dep).

  (* InitWithSubClass : PartialOrdering.h:384-479 *)
  Variable S : Type.
  Variable cs : S -> S -> comparison.
  (* scItems : 394-399 *)
  Definition sc_items (sub : fmap T S) : fmap S (list T) :=
    fold_left (fun m (kv : T * S) => gadd cs (snd kv) (fst kv) m) sub [].
  (* singleItems.Add : a new element goes before the elements that are not smaller.
     SortedList leaves the place among equal elements open (C19). *)
  Fixpoint sinsert (x : T) (l : list T) : list T :=
    match l with
    | [] => [x]
    | y :: l' => match c y x with Lt => y :: sinsert x l' | _ => x :: l end
    end.
  (* 401-408 *)
  Definition single_items (items : list T) (sub : fmap T S) : list T :=
    fold_left (fun l x => match lookup T S c x sub with Some _ => l | None => sinsert x l end) items [].
  (* getSubClass : 410-425 *)
  Definition sub_class (sub : fmap T S) (sc : fmap S (list T)) (single : list T) (x : T) : res nat :=
    match lookup T S c x sub with
    | Some s => must (find_pos (fun kv : S * list T => is_eq (cs (fst kv) s)) sc)
    | None => do i <- must (find_pos (fun y => ceqb y x) single); Ok (length sc + i)
    end.
  (* 427-444 : ins.Add unless ins.Contains *)
  Definition nadd_new (k v : nat) (m : nmap) : nmap :=
    if existsb (Nat.eqb v) (nvalues m k) then m else nadd k v m.
  Fixpoint lift_values (node : T -> res nat) (i : nat) (vs : list T) (ins : nmap) : res nmap :=
    match vs with
    | [] => Ok ins
    | v :: vs' => do j <- node v; lift_values node i vs' (nadd_new i j ins)
    end.
  Fixpoint lift_groups (node : T -> res nat) (dep : fmap T (list T)) (ins : nmap) : res nmap :=
    match dep with
    | [] => Ok ins
    | (k, vs) :: dep' => do i <- node k; do ins <- lift_values node i vs ins; lift_groups node dep' ins
    end.
  (* 446-454 *)
  Definition reverse_edges (ins : nmap) : nmap :=
    fold_left (fun outs (kv : nat * list nat) => fold_left (fun outs v => nadd v (fst kv) outs) (snd kv) outs) ins [].
  (* 456-478 : the item positions of every node, in the shared subClassItemsBuffer; a node keeps where its
     items start and how many there are.  A write at used >= items.Count(), or taking the address there,
     is an error; a position -1 (an item that is not in items) is None *)
  Fixpoint write_items (items : list T) (xs : list T) (buf : list (option nat)) (used : nat) : res (list (option nat) * nat) :=
    match xs with
    | [] => Ok (buf, used)
    | x :: xs' =>
        do buf <- nset buf used (find_pos (fun y => ceqb y x) items);
        write_items items xs' buf (used + 1)
    end.
  Fixpoint fill (items : list T) (nodes : list (list T)) (buf : list (option nat)) (used : nat) : res (list (option nat) * list (nat * nat)) :=
    match nodes with
    | [] => Ok (buf, [])
    | xs :: nodes' =>
        do _ <- nget buf used;
        do (buf, next) <- write_items items xs buf used;
        do (buf, r) <- fill items nodes' buf next;
        Ok (buf, (used, length xs) :: r)
    end.
  (* firstSubClassItem[0 .. subClassItemCount) *)
  Definition items_at (buf : list (option nat)) (p : nat * nat) : list (option nat) := firstn (snd p) (skipn (fst p) buf).
  Definition init_with_sub_class (items : list T) (dep : fmap T (list T)) (sub : fmap T S)
    : res (graph * list (list (option nat))) :=
    let sc := sc_items sub in
    let single := single_items items sub in
    do ins <- lift_groups (sub_class sub sc single) dep [];
    do (buf, spans) <- fill items (map snd sc ++ map (fun x => [x]) single) (repeat None (length items)) 0;
    Ok (init_nodes (length sc + length single) ins (reverse_edges ins), map (items_at buf) spans).
End Init2.
