(* Dictionary, Group and GroupInnerJoin: Source/Collections/Dictionary.h, on top of the
   models of List and SortedList.  Not here: the move operations (MovModel), arguments
   that refer to the container's own elements (OwnModel). *)
From Verif Require Import Base LstModel SrtModel.
Open Scope Z_scope.

(* A CHECK_ERROR raised after the container has been changed would leave it half updated;
   the models mark it as UB so that no theorem can pass over it. *)
Definition late {A : Type} (r : res A) : res A := match r with Err => UB | r => r end.

Section Dict.
  Variable K V : Type.
  Variable cmp : K -> K -> option comparison.   (* operator<=> of the keys *)
  Variable veq : V -> V -> bool.                (* operator== of the values *)

  (* ---- Dictionary : Dictionary.h:20-266 ------------------------------------ *)
  Record dict := mkDict { keys : lst K; vals : lst V }.
  Definition empty_dict := mkDict empty_lst empty_lst.

  (* AddInternal : 107-119 *)
  Definition d_add (d : dict) (k : K) (v : V) : res dict :=
    do i <- s_index_of K cmp (keys d) k;
    if negb (i =? -1) then Err else
    do (ks, j) <- s_add K cmp (keys d) k;
    do vs <- late (insert V (vals d) j v);
    Ok (mkDict ks vs).
  (* SetInternal : 87-105 *)
  Definition d_set (d : dict) (k : K) (v : V) : res dict :=
    do i <- s_index_of K cmp (keys d) k;
    if i =? -1 then
      do (ks, j) <- s_add K cmp (keys d) k;
      do vs <- late (insert V (vals d) j v);
      Ok (mkDict ks vs)
    else
      (* values[index] = value *)
      do vs <- set V (vals d) i v; Ok (mkDict (keys d) vs).
  (* Get, operator[] : 169-180 *)
  Definition d_get (d : dict) (k : K) : res V :=
    do i <- s_index_of K cmp (keys d) k; get V (vals d) i.
  (* Remove : 243-257 *)
  Definition d_remove (d : dict) (k : K) : res (dict * bool) :=
    do i <- s_index_of K cmp (keys d) k;
    if negb (i =? -1) then
      do ks <- remove_at K (keys d) i;
      do vs <- late (remove_at V (vals d) i);
      Ok (mkDict ks vs, true)
    else Ok (d, false).
  (* Clear : 260-265 *)
  Definition d_clear (d : dict) : res dict :=
    do ks <- clear K (keys d); do vs <- late (clear V (vals d)); Ok (mkDict ks vs).

  Inductive dop :=
  | DAdd (k : K) (v : V) | DSet (k : K) (v : V) | DRemove (k : K) | DClear
  | DGet (k : K) | DContains (k : K) | DCount | DKeyAt (i : Z) | DValueAt (i : Z).
  Inductive dout := ONone | OError | OBool (b : bool) | OInt (z : Z) | OKey (k : K) | OVal (v : V).

  Definition d_step_raw (d : dict) (o : dop) : res (dict * dout) :=
    match o with
    | DAdd k v => do d <- d_add d k v; Ok (d, OBool true)
    | DSet k v => do d <- d_set d k v; Ok (d, OBool true)
    | DRemove k => do (d, b) <- d_remove d k; Ok (d, OBool b)
    | DClear => do d <- d_clear d; Ok (d, OBool true)
    | DGet k => do v <- d_get d k; Ok (d, OVal v)
    | DContains k => do i <- s_index_of K cmp (keys d) k; Ok (d, OBool (negb (i =? -1)))
    | DCount => Ok (d, OInt (count (keys d)))
    | DKeyAt i => do k <- get K (keys d) i; Ok (d, OKey k)        (* Keys().Get(i) *)
    | DValueAt i => do v <- get V (vals d) i; Ok (d, OVal v)      (* Values().Get(i) *)
    end.
  Definition d_step (d : dict) (o : dop) : res (dict * dout) :=
    match d_step_raw d o with Err => Ok (d, OError) | r => r end.
  Fixpoint d_run (d : dict) (os : list dop) : res (dict * list dout) :=
    match os with
    | [] => Ok (d, [])
    | o :: os' => do (d', r) <- d_step d o; do (d'', rs) <- d_run d' os'; Ok (d'', r :: rs)
    end.

  (* Enumerator : 29-79; current is empty until the first Next *)
  Record denum := mkDEnum { d_index : Z; d_current : option (K * V) }.
  Definition d_enum := mkDEnum (-1) None.
  (* UpdateCurrent : 36-42 *)
  Definition d_update (d : dict) (e : denum) : res denum :=
    if d_index e <? count (keys d) then
      do k <- get K (keys d) (d_index e);
      do v <- get V (vals d) (d_index e);
      Ok (mkDEnum (d_index e) (Some (k, v)))
    else Ok e.
  (* Next : 65-70 *)
  Definition d_next (d : dict) (e : denum) : res (denum * bool) :=
    do e <- d_update d (mkDEnum (d_index e + 1) (d_current e));
    Ok (e, (d_index e >=? 0) && (d_index e <? count (keys d))).
  (* Reset : 72-76 *)
  Definition d_reset (d : dict) (e : denum) : res denum := d_update d (mkDEnum (-1) (d_current e)).
  (* Clone : 50-53; Current : 55-58, Nullable::Value raises an error when empty *)
  Definition d_clone (e : denum) : denum := mkDEnum (d_index e) None.
  Definition d_cur (e : denum) : res (K * V) := match d_current e with Some p => Ok p | None => Err end.

  (* for each: while(e->Next()) use e->Index() and e->Current() *)
  Fixpoint d_drive (d : dict) (e : denum) (fuel : nat) : res (list (Z * (K * V))) :=
    match fuel with
    | O => NoFuel
    | S fuel' =>
        do (e, b) <- d_next d e;
        if b then do p <- d_cur e; do l <- d_drive d e fuel'; Ok ((d_index e, p) :: l)
        else Ok []
    end.

  (* ---- Group : Dictionary.h:272-608 ---------------------------------------- *)
  (* Value containers live on the heap; the group holds pointers to them. *)
  Record group := mkGroup { gkeys : lst K; gvals : lst nat; gheap : list (option (lst V)) }.
  Definition empty_group := mkGroup empty_lst empty_lst [].
  Definition deref (g : group) (p : nat) : res (lst V) :=
    match nth_error (gheap g) p with Some (Some x) => Ok x | _ => UB end.
  Definition setcell (g : group) (p : nat) (x : option (lst V)) : group :=
    mkGroup (gkeys g) (gvals g) (upd (gheap g) p x).
  (* delete target *)
  Definition delete (g : group) (p : nat) : res group :=
    do x <- deref g p; do _ <- destruct V x; Ok (setcell g p None).

  (* AddInternal : 375-395 *)
  Definition g_add (g : group) (k : K) (v : V) : res group :=
    do i <- s_index_of K cmp (gkeys g) k;
    do (g, p) <-
      (if i =? -1 then
         let p := length (gheap g) in
         do (ks, j) <- s_add K cmp (gkeys g) k;
         do vs <- late (insert nat (gvals g) j p);
         Ok (mkGroup ks vs (gheap g ++ [Some empty_lst]), p)
       else do p <- get nat (gvals g) i; Ok (g, p));
    do x <- late (deref g p);
    do x <- late (insert V x (count x) v);
    Ok (setcell g p (Some x)).
  (* Remove(key) : 550-566 *)
  Definition g_remove (g : group) (k : K) : res (group * bool) :=
    do i <- s_index_of K cmp (gkeys g) k;
    if negb (i =? -1) then
      do ks <- remove_at K (gkeys g) i;
      do p <- late (get nat (gvals g) i);
      do vs <- late (remove_at nat (gvals g) i);
      do g <- late (delete (mkGroup ks vs (gheap g)) p);
      Ok (g, true)
    else Ok (g, false).
  (* Remove(key, value) : 575-595 *)
  Definition g_remove_value (g : group) (k : K) (v : V) : res (group * bool) :=
    do i <- s_index_of K cmp (gkeys g) k;
    if negb (i =? -1) then
      do p <- get nat (gvals g) i;
      do x <- deref g p;
      do (x, _) <- remove V veq x v;
      let g := setcell g p (Some x) in
      if count x =? 0 then
        do ks <- late (remove_at K (gkeys g) i);
        do vs <- late (remove_at nat (gvals g) i);
        do g <- late (delete (mkGroup ks vs (gheap g)) p);
        Ok (g, true)
      else Ok (g, true)
    else Ok (g, false).
  (* Clear : 598-607; also called by the destructor *)
  Fixpoint g_delete_all (g : group) (i : Z) (n : nat) : res group :=
    match n with
    | O => Ok g
    | S n' =>
        do p <- get nat (gvals g) i;
        do g <- delete g p;
        g_delete_all g (i + 1) n'
    end.
  Definition g_clear (g : group) : res group :=
    do g <- g_delete_all g 0 (Z.to_nat (count (gvals g)));
    do ks <- late (clear K (gkeys g)); do vs <- late (clear nat (gvals g));
    Ok (mkGroup ks vs (gheap g)).
  (* GetByIndex : 451-454 *)
  Definition g_by_index (g : group) (i : Z) : res (lst V) := do p <- get nat (gvals g) i; deref g p.
  (* Get : 443-446 *)
  Definition g_get (g : group) (k : K) : res (lst V) :=
    do i <- s_index_of K cmp (gkeys g) k; g_by_index g i.
  (* Contains(key, value) : 476-488 *)
  Definition g_contains_value (g : group) (k : K) (v : V) : res bool :=
    do i <- s_index_of K cmp (gkeys g) k;
    if negb (i =? -1) then
      do x <- g_by_index g i; do j <- index_of V veq x v; Ok (negb (j =? -1))
    else Ok false.

  Inductive gop :=
  | GAdd (k : K) (v : V) | GRemove (k : K) | GRemoveValue (k : K) (v : V) | GClear
  | GContains (k : K) | GContainsValue (k : K) (v : V) | GCount | GKeyAt (i : Z)
  | GValueCount (k : K) | GValueAt (k : K) (i : Z).       (* g[k].Count(), g[k][i] *)

  Definition g_step_raw (g : group) (o : gop) : res (group * dout) :=
    match o with
    | GAdd k v => do g <- g_add g k v; Ok (g, OBool true)
    | GRemove k => do (g, b) <- g_remove g k; Ok (g, OBool b)
    | GRemoveValue k v => do (g, b) <- g_remove_value g k v; Ok (g, OBool b)
    | GClear => do g <- g_clear g; Ok (g, OBool true)
    | GContains k => do i <- s_index_of K cmp (gkeys g) k; Ok (g, OBool (negb (i =? -1)))
    | GContainsValue k v => do b <- g_contains_value g k v; Ok (g, OBool b)
    | GCount => Ok (g, OInt (count (gkeys g)))
    | GKeyAt i => do k <- get K (gkeys g) i; Ok (g, OKey k)
    | GValueCount k => do x <- g_get g k; Ok (g, OInt (count x))
    | GValueAt k i => do x <- g_get g k; do v <- get V x i; Ok (g, OVal v)
    end.
  Definition g_step (g : group) (o : gop) : res (group * dout) :=
    match g_step_raw g o with Err => Ok (g, OError) | r => r end.
  Fixpoint g_run (g : group) (os : list gop) : res (group * list dout) :=
    match os with
    | [] => Ok (g, [])
    | o :: os' => do (g', r) <- g_step g o; do (g'', rs) <- g_run g' os'; Ok (g'', r :: rs)
    end.

  (* Enumerator : 282-371 *)
  Record genum := mkGEnum { g_key : Z; g_val : Z; g_current : option (K * V) }.
  Definition g_enum := mkGEnum (-1) (-1) None.
  (* UpdateCurrent : 289-299 *)
  Definition g_update (g : group) (e : genum) : res genum :=
    if g_key e <? count (gkeys g) then
      do x <- g_by_index g (g_key e);
      if g_val e <? count x then
        do k <- get K (gkeys g) (g_key e);
        do v <- get V x (g_val e);
        Ok (mkGEnum (g_key e) (g_val e) (Some (k, v)))
      else Ok e
    else Ok e.
  (* Index : 318-333 *)
  Fixpoint g_sum (g : group) (i : Z) (n : nat) : res Z :=
    match n with
    | O => Ok 0
    | S n' => do x <- g_by_index g i; do s <- g_sum g (i + 1) n'; Ok (count x + s)
    end.
  Definition g_index (g : group) (e : genum) : res Z :=
    if (0 <=? g_key e) && (g_key e <? count (gkeys g)) then
      do s <- g_sum g 0 (Z.to_nat (g_key e)); Ok (s + g_val e)
    else Ok (-1).
  (* Next : 335-357; the loop goes on until a key with a further value is found *)
  Fixpoint g_next_loop (g : group) (e : genum) (fuel : nat) : res (genum * bool) :=
    match fuel with
    | O => NoFuel
    | S fuel' =>
        if g_key e <? count (gkeys g) then
          let e := mkGEnum (g_key e) (g_val e + 1) (g_current e) in
          do x <- g_by_index g (g_key e);
          if g_val e <? count x then do e <- g_update g e; Ok (e, true)
          else g_next_loop g (mkGEnum (g_key e + 1) (-1) (g_current e)) fuel'
        else Ok (e, false)
    end.
  Definition g_next (g : group) (e : genum) (fuel : nat) : res (genum * bool) :=
    g_next_loop g (if g_key e =? -1 then mkGEnum 0 (g_val e) (g_current e) else e) fuel.
  (* Reset : 359-364 *)
  Definition g_reset (g : group) (e : genum) : res genum := g_update g (mkGEnum (-1) (-1) (g_current e)).
  Definition g_cur (e : genum) : res (K * V) := match g_current e with Some p => Ok p | None => Err end.
  Fixpoint g_drive (g : group) (e : genum) (fuel : nat) : res (list (Z * (K * V))) :=
    match fuel with
    | O => NoFuel
    | S fuel' =>
        do (e, b) <- g_next g e (Z.to_nat (count (gkeys g)) + 1);
        if b then do i <- g_index g e; do p <- g_cur e; do l <- g_drive g e fuel'; Ok ((i, p) :: l)
        else Ok []
    end.
End Dict.

(* the values of a container, as a callback sees them *)
Definition contents {V : Type} (x : lst V) : res (list V) :=
  (fix go (i : Z) (n : nat) : res (list V) :=
     match n with
     | O => Ok []
     | S n' => do v <- get V x i; do l <- go (i + 1) n'; Ok (v :: l)
     end) 0 (Z.to_nat (count x)).

(* GroupInnerJoin : Dictionary.h:669-732; the three callbacks are recorded as events *)
Section Join.
  Variable K V W : Type.
  Variable cmp : K -> K -> option comparison.
  Inductive event := Discard1 (k : K) (vs : list V) | Discard2 (k : K) (ws : list W)
                   | Accept (k : K) (vs : list V) (ws : list W).
  Fixpoint join (a : group K V) (b : group K W) (i j : Z) (fuel : nat) : res (list event) :=
    match fuel with
    | O => NoFuel
    | S fuel' =>
        if i <? count (gkeys K V a) then
          do k1 <- get K (gkeys K V a) i;
          do x1 <- g_by_index K V a i;
          if j <? count (gkeys K W b) then
            do k2 <- get K (gkeys K W b) j;
            do x2 <- g_by_index K W b j;
            match cmp k1 k2 with
            | Some Lt => do vs <- contents x1; do es <- join a b (i + 1) j fuel'; Ok (Discard1 k1 vs :: es)
            | Some Gt => do ws <- contents x2; do es <- join a b i (j + 1) fuel'; Ok (Discard2 k2 ws :: es)
            | _ => do vs <- contents x1; do ws <- contents x2;
                   do es <- join a b (i + 1) (j + 1) fuel'; Ok (Accept k1 vs ws :: es)
            end
          else do vs <- contents x1; do es <- join a b (i + 1) j fuel'; Ok (Discard1 k1 vs :: es)
        else
          if j <? count (gkeys K W b) then
            do k2 <- get K (gkeys K W b) j;
            do x2 <- g_by_index K W b j;
            do ws <- contents x2; do es <- join a b i (j + 1) fuel'; Ok (Discard2 k2 ws :: es)
          else Ok []
    end.
  Definition group_inner_join (a : group K V) (b : group K W) : res (list event) :=
    join a b 0 0 (Z.to_nat (count (gkeys K V a) + count (gkeys K W b)) + 1).
End Join.

Arguments DAdd {K V}. Arguments DSet {K V}. Arguments DRemove {K V}. Arguments DClear {K V}.
Arguments DGet {K V}. Arguments DContains {K V}. Arguments DCount {K V}. Arguments DKeyAt {K V}.
Arguments DValueAt {K V}. Arguments ONone {K V}. Arguments OError {K V}. Arguments OBool {K V}.
Arguments OInt {K V}. Arguments OKey {K V}. Arguments OVal {K V}.
Arguments GAdd {K V}. Arguments GRemove {K V}. Arguments GRemoveValue {K V}. Arguments GClear {K V}.
Arguments GContains {K V}. Arguments GContainsValue {K V}. Arguments GCount {K V}.
Arguments GKeyAt {K V}. Arguments GValueCount {K V}. Arguments GValueAt {K V}.
Arguments mkDict {K V}. Arguments keys {K V}. Arguments vals {K V}. Arguments empty_dict {K V}.
Arguments mkGroup {K V}. Arguments gkeys {K V}. Arguments gvals {K V}. Arguments gheap {K V}.
Arguments empty_group {K V}. Arguments mkDEnum {K V}. Arguments d_index {K V}. Arguments d_current {K V}.
Arguments d_enum {K V}. Arguments mkGEnum {K V}. Arguments g_key {K V}. Arguments g_val {K V}.
Arguments g_current {K V}. Arguments g_enum {K V}.
Arguments Discard1 {K V W}. Arguments Discard2 {K V W}. Arguments Accept {K V W}.
