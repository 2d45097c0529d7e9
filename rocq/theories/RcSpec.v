(* Shared ownership without counters: variables refer to objects, and after every operation
   an object that has lost its last reference goes away together with its members. *)
From Verif Require Import Base RcModel.

(* wv: a variable does not exist (None), is empty (Some None), or refers to an object;
   wh: the object a variable is a member of; wa: the object exists; wn, wm: numbers of objects
   and variables *)
Record world := mkW { wv : nat -> option (option nat); wh : nat -> option nat; wa : nat -> bool; wn : nat; wm : nat }.
Definition same_world (a b : world) : Prop :=
  (forall u, wv a u = wv b u) /\ (forall u, wh a u = wh b u) /\ (forall o, wa a o = wa b o) /\ wn a = wn b /\ wm a = wm b.
Definition set_var (w : world) (v : nat) (x : option (option nat)) : world :=
  mkW (fun u => if Nat.eqb u v then x else wv w u) (wh w) (wa w) (wn w) (wm w).
Definition refers (w : world) (u o : nat) : Prop := wv w u = Some (Some o).

(* o was referred to in w0, and in w every variable that refers to it belongs to an object
   that goes away as well; cycles of objects that refer to each other do not go away *)
Inductive dies (w0 w : world) : nat -> Prop :=
| dies_intro : forall o, (exists u, refers w0 u o) ->
    (forall u, refers w u o -> exists h, wh w u = Some h /\ dies w0 w h) -> dies w0 w o.
(* w2 is w1 without the objects that die and their members *)
Definition collect (w0 w1 w2 : world) : Prop :=
  (forall o, wa w2 o = true -> wa w1 o = true /\ ~ dies w0 w1 o) /\
  (forall o, wa w1 o = true -> wa w2 o = true \/ dies w0 w1 o) /\
  (forall u h, wh w1 u = Some h -> dies w0 w1 h -> wv w2 u = None) /\
  (forall u, (forall h, wh w1 u = Some h -> ~ dies w0 w1 h) -> wv w2 u = wv w1 u) /\
  (forall u, wh w2 u = wh w1 u) /\ wn w2 = wn w1 /\ wm w2 = wm w1.

(* what each operation does *)
Inductive spec : world -> op -> world -> option nat -> Prop :=
| sp_new : forall w v w', same_world w' (set_var w v (Some None)) -> spec w (PNew v) w' None
| sp_raw : forall w k w',
    (forall u, wv w' u = if Nat.ltb u (wm w) then wv w u else if Nat.ltb u (wm w + k) then Some None else None) ->
    (forall u, wh w' u = if Nat.ltb u (wm w) then wh w u else if Nat.ltb u (wm w + k) then Some (wn w) else None) ->
    (forall o, wa w' o = if Nat.eqb o (wn w) then true else wa w o) ->
    wn w' = S (wn w) -> wm w' = (wm w + k)%nat -> spec w (PRaw k) w' (Some (wn w))
| sp_wrap : forall w v o w', same_world w' (set_var w v (Some (Some o))) -> spec w (PWrap v o) w' None
| sp_copy : forall w v u x w', wv w u = Some x -> same_world w' (set_var w v (Some x)) -> spec w (PCopy v u) w' None
| sp_conv : forall w v u x w', wv w u = Some x -> same_world w' (set_var w v (Some x)) -> spec w (PConv v u) w' None
| sp_move : forall w v u x w', wv w u = Some x -> same_world w' (set_var (set_var w v (Some x)) u (Some None)) -> spec w (PMove v u) w' None
| sp_conv_move : forall w v u x w', wv w u = Some x -> same_world w' (set_var (set_var w v (Some x)) u (Some None)) -> spec w (PConvMove v u) w' None
| sp_cast : forall w v u x (ok : bool) w', wv w u = Some x -> same_world w' (set_var w v (Some (if ok then x else None))) -> spec w (PCast v u ok) w' None
| sp_destroy : forall w v w', collect w (set_var w v None) w' -> spec w (PDestroy v) w' None
| sp_null : forall w v w', collect w (set_var w v (Some None)) w' -> spec w (PSetNull v) w' None
| sp_assign : forall w v u x w', wv w u = Some x -> collect w (set_var w v (Some x)) w' -> spec w (PAssign v u) w' None
| sp_move_assign : forall w v u x w', wv w u = Some x -> v <> u ->
    collect w (set_var (set_var w v (Some x)) u (Some None)) w' -> spec w (PMoveAssign v u) w' None
| sp_move_self : forall w v w', same_world w' w -> spec w (PMoveAssign v v) w' None
| sp_detach : forall w v x w', wv w v = Some x -> same_world w' (set_var w v (Some None)) -> spec w (PDetach v) w' x.

(* ---- what the client has to respect ----------------------------------------------- *)
Definition exists_var (w : world) (u : nat) : Prop := wv w u <> None.
Definition free_slot (w : world) (v : nat) : Prop := (v < wm w)%nat /\ wv w v = None /\ wh w v = None.
(* o can be reached from the stack without the variables X: a variable outside X refers to it, and that variable is on the stack
   or in an object that can be reached in the same way *)
Inductive rooted (w : world) (X : nat -> Prop) : nat -> Prop :=
| rooted_by : forall o t, ~ X t -> refers w t o -> (forall h, wh w t = Some h -> rooted w X h) -> rooted w X o.
(* u is on the stack, or in an object that can be reached from the stack without v *)
Definition held (w : world) (v u : nat) : Prop :=
  exists_var w u /\ forall h, wh w u = Some h -> rooted w (fun t => t = v) h.
Definition legal (w : world) (o : op) : Prop :=
  match o with
  | PNew v => free_slot w v
  | PRaw k => True
  | PWrap v o => free_slot w v /\ wa w o = true /\ forall u, ~ refers w u o      (* not owned by a Ptr already *)
  | PCopy v u => free_slot w v /\ exists_var w u
  | PConv v u => free_slot w v /\ exists_var w u
  | PMove v u => free_slot w v /\ exists_var w u
  | PConvMove v u => free_slot w v /\ exists_var w u
  | PCast v u _ => free_slot w v /\ exists_var w u
  | PDestroy v => exists_var w v /\ wh w v = None
  | PSetNull v => held w v v
  | PAssign v u => held w v v /\ held w v u
  | PMoveAssign v u => held w v v /\ held w v u
  | PDetach v => held w v v /\ forall o, refers w v o -> forall u, refers w u o -> u = v   (* the only owner *)
  end.

(* the world that a state of the program shows *)
Definition world_of (s : st) : world :=
  mkW (fun u => match nth_error (vs s) u with Some (Some p, _) => Some (pr p) | _ => None end)
      (fun u => match nth_error (vs s) u with Some (_, h) => h | None => None end)
      (alive s) (length (ob s)) (length (vs s)).
(* a history: every step is legal in the world it starts in, and does what [spec] says *)
Inductive history : st -> list op -> st -> list (option nat) -> Prop :=
| h_nil : forall s, history s [] s []
| h_cons : forall s o s' r os s'' rs,
    step s o = Ok (s', r) -> spec (world_of s) o (world_of s') r -> history s' os s'' rs -> history s (o :: os) s'' (r :: rs).
Fixpoint legal_run (s : st) (os : list op) : Prop :=
  match os with
  | [] => True
  | o :: os => legal (world_of s) o /\ forall s' r, step s o = Ok (s', r) -> legal_run s' os
  end.

(* the number of variables that refer to o *)
Definition owners (s : st) (o : nat) : nat :=
  length (filter (fun x => match x with (Some p, _) => match pr p with Some o' => Nat.eqb o' o | None => false end | _ => false end) (vs s)).
Definition no_detach (os : list op) : Prop := Forall (fun o => match o with PDetach _ => False | _ => True end) os.

(* the objects handed to a Ptr *)
Definition wrapped (os : list op) (o : nat) : Prop := exists v, In (PWrap v o) os.
Definition not_wrapped (os : list op) (o : nat) : Prop := forall v, ~ In (PWrap v o) os.
