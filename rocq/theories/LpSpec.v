(* Lists of references without buffers and counters: a list holds references, a place is a variable or an item of a list, and
   after every operation an object that has lost its last reference goes away together with its members and lists. *)
From Verif Require Import Base RcModel RcSpec LpModel.
Open Scope nat_scope.

(* av: a variable does not exist (None), is empty (Some None), or refers to an object; ah: the object it is a member of;
   avar: whether a number is the number of a variable; al: the items of a list, None if it does not exist; alh: the object it is
   a member of; aa: the object exists; an, aln: numbers of objects and lists so far *)
Record aworld := mkA {
  av : nat -> option (option nat); ah : nat -> option nat; avar : nat -> bool;
  al : nat -> option (list (option nat)); alh : nat -> option nat;
  aa : nat -> bool; an : nat; aln : nat }.
Definition asame (a b : aworld) : Prop :=
  (forall u, av a u = av b u) /\ (forall u, ah a u = ah b u) /\ (forall u, avar a u = avar b u) /\
  (forall l, al a l = al b l) /\ (forall l, alh a l = alh b l) /\ (forall o, aa a o = aa b o) /\ an a = an b /\ aln a = aln b.
Definition set_v (w : aworld) (v : nat) (x : option (option nat)) : aworld :=
  mkA (fun u => if Nat.eqb u v then x else av w u) (ah w) (avar w) (al w) (alh w) (aa w) (an w) (aln w).
Definition set_l (w : aworld) (l : nat) (c : option (list (option nat))) : aworld :=
  mkA (av w) (ah w) (avar w) (fun m => if Nat.eqb m l then c else al w m) (alh w) (aa w) (an w) (aln w).

Inductive place := PVar (u : nat) | PItem (l i : nat).
Definition at_ (w : aworld) (p : place) : option (option nat) :=
  match p with
  | PVar u => av w u
  | PItem l i => match al w l with Some c => nth_error c i | None => None end
  end.
Definition phome (w : aworld) (p : place) : option nat := match p with PVar u => ah w u | PItem l _ => alh w l end.
Definition set_p (w : aworld) (p : place) (x : option nat) : aworld :=
  match p with
  | PVar u => set_v w u (Some x)
  | PItem l i => match al w l with Some c => set_l w l (Some (upd c i x)) | None => w end
  end.
Definition arefers (w : aworld) (p : place) (o : nat) : Prop := at_ w p = Some (Some o).
Definition of_arg (a : arg) : place := match a with AVar u => PVar u | AItem m i => PItem m i end.

(* o was referred to in w0, and in w every place that refers to it belongs to an object that goes away as well *)
Inductive adies (w0 w : aworld) : nat -> Prop :=
| adies_intro : forall o, (exists p, arefers w0 p o) ->
    (forall p, arefers w p o -> exists h, phome w p = Some h /\ adies w0 w h) -> adies w0 w o.
(* w2 is w1 without the objects that die and their members and lists *)
Definition acollect (w0 w1 w2 : aworld) : Prop :=
  (forall o, aa w2 o = true -> aa w1 o = true /\ ~ adies w0 w1 o) /\
  (forall o, aa w1 o = true -> aa w2 o = true \/ adies w0 w1 o) /\
  (forall u h, ah w1 u = Some h -> adies w0 w1 h -> av w2 u = None) /\
  (forall u, (forall h, ah w1 u = Some h -> ~ adies w0 w1 h) -> av w2 u = av w1 u) /\
  (forall l h, alh w1 l = Some h -> adies w0 w1 h -> al w2 l = None) /\
  (forall l, (forall h, alh w1 l = Some h -> ~ adies w0 w1 h) -> al w2 l = al w1 l) /\
  (forall u, ah w2 u = ah w1 u) /\ (forall u, avar w2 u = avar w1 u) /\ (forall l, alh w2 l = alh w1 l) /\ an w2 = an w1 /\ aln w2 = aln w1.

(* the source of a move becomes empty *)
Definition take (w : aworld) (a : arg) (mv : bool) : aworld := if mv then set_p w (of_arg a) None else w.
(* what each operation does *)
Inductive lspec : aworld -> lop -> aworld -> Prop :=
| ls_new : forall w v w', asame w' (set_v w v (Some None)) -> lspec w (MNew v) w'
| ls_make : forall w v k m b w',           (* b: the number of the first member *)
    (forall i, i < k -> avar w (b + i) = false) ->
    (forall u, avar w' u = avar w u || ((b <=? u) && (u <? b + k))) ->
    (forall u, av w' u = if u =? v then Some (Some (an w)) else if (b <=? u) && (u <? b + k) then Some None else av w u) ->
    (forall u, ah w' u = if (b <=? u) && (u <? b + k) then Some (an w) else ah w u) ->
    (forall l, al w' l = if (aln w <=? l) && (l <? aln w + m) then Some [] else al w l) ->
    (forall l, alh w' l = if (aln w <=? l) && (l <? aln w + m) then Some (an w) else alh w l) ->
    (forall o, aa w' o = if o =? an w then true else aa w o) ->
    an w' = S (an w) -> aln w' = aln w + m -> lspec w (MMake v k m) w'
| ls_copy : forall w v a x w', at_ w (of_arg a) = Some x -> asame w' (set_v w v (Some x)) -> lspec w (MCopy v a) w'
| ls_assign : forall w v a x w', at_ w (of_arg a) = Some x -> acollect w (set_v w v (Some x)) w' -> lspec w (MAssign v a) w'
| ls_null : forall w v w', acollect w (set_v w v (Some None)) w' -> lspec w (MSetNull v) w'
| ls_end : forall w v w', acollect w (set_v w v None) w' -> lspec w (MEnd v) w'
| ls_lnew : forall w w',
    asame w' (mkA (av w) (ah w) (avar w) (fun l => if l =? aln w then Some [] else al w l) (alh w) (aa w) (an w) (S (aln w))) ->
    lspec w LNew w'
| ls_lend : forall w l w', acollect w (set_l w l None) w' -> lspec w (LEnd l) w'
| ls_insert : forall w l i a mv c x w', al w l = Some c -> at_ w (of_arg a) = Some x ->
    asame w' (set_l (take w a mv) l (Some (firstn i c ++ x :: skipn i c))) -> lspec w (LInsert l i a mv) w'
| ls_set : forall w l i a mv x w', at_ w (of_arg a) = Some x ->
    acollect w (set_p (take w a mv) (PItem l i) x) w' -> lspec w (LSet l i a mv) w'
| ls_remove : forall w l i n c w', al w l = Some c ->
    acollect w (set_l w l (Some (firstn i c ++ skipn (i + n) c))) w' -> lspec w (LRemove l i n) w'
| ls_clear : forall w l w', acollect w (set_l w l (Some [])) w' -> lspec w (LClear l) w'
| ls_move : forall w l m c w', al w m = Some c ->
    acollect w (set_l (set_l w l (Some c)) m (Some [])) w' -> lspec w (LMove l m) w'.

(* ---- what the client has to respect --------------------------------------------------- *)
(* the object can be reached from the stack without the places that the operation changes *)
Inductive arooted (w : aworld) (changes : place -> Prop) : nat -> Prop :=
| arooted_by : forall o p, ~ changes p -> arefers w p o -> (forall h, phome w p = Some h -> arooted w changes h) -> arooted w changes o.
Definition aheld (w : aworld) (changes : place -> Prop) (h : option nat) : Prop := forall o, h = Some o -> arooted w changes o.
Definition a_slot (w : aworld) (v : nat) : Prop := avar w v = true /\ av w v = None /\ ah w v = None.
Definition item_of (l : nat) (p : place) : Prop := match p with PItem m _ => m = l | PVar _ => False end.
Definition llegal (w : aworld) (o : lop) : Prop :=
  match o with
  | MNew v => a_slot w v
  | MMake v k m => a_slot w v
  | MCopy v a => a_slot w v /\ at_ w (of_arg a) <> None
  | MAssign v a => av w v <> None /\ at_ w (of_arg a) <> None /\ aheld w (eq (PVar v)) (ah w v) /\ aheld w (eq (PVar v)) (phome w (of_arg a))
  | MSetNull v => av w v <> None /\ aheld w (eq (PVar v)) (ah w v)
  | MEnd v => av w v <> None /\ ah w v = None
  | LNew => True
  | LEnd l => al w l <> None /\ alh w l = None
  | LInsert l i a mv =>
      (exists c, al w l = Some c /\ i <= length c) /\ at_ w (of_arg a) <> None /\ ~ item_of l (of_arg a) /\
      let changes p := item_of l p \/ (mv = true /\ p = of_arg a) in
      aheld w changes (alh w l) /\ aheld w changes (phome w (of_arg a))
  | LSet l i a mv =>
      (exists c, al w l = Some c /\ i < length c) /\ at_ w (of_arg a) <> None /\
      let changes p := p = PItem l i \/ (mv = true /\ p = of_arg a) in
      aheld w changes (alh w l) /\ aheld w changes (phome w (of_arg a))
  | LRemove l i n => (exists c, al w l = Some c /\ i + n <= length c) /\ aheld w (item_of l) (alh w l)
  | LClear l => al w l <> None /\ aheld w (item_of l) (alh w l)
  | LMove l m => al w l <> None /\ al w m <> None /\ aheld w (item_of l) (alh w l) /\ aheld w (item_of l) (alh w m)
  end.

(* the world that a state of the program shows *)
Definition items (w : world) (x : lrec) : list (option nat) :=
  map (fun i => match wv w (base x + i) with Some v => v | None => None end) (seq 0 (cnt x)).
Definition lw (w : world) (k : list kind) (s : list (option lrec)) : aworld :=
  mkA (fun u => match kind_of k u with KVar => wv w u | _ => None end)
      (fun u => match kind_of k u with KVar => wh w u | _ => None end)
      (fun u => match kind_of k u with KVar => true | _ => false end)
      (fun l => match nth_error s l with
                | Some (Some x) => match lhome x with
                                   | Some h => if wa w h then Some (items w x) else None
                                   | None => Some (items w x)
                                   end
                | _ => None
                end)
      (fun l => match nth_error s l with Some (Some x) => lhome x | _ => None end)
      (wa w) (wn w) (length s).
Definition lworld_of (s : lst) : aworld := lw (world_of (rc s)) (kd s) (ls s).
Inductive lhistory : lst -> list lop -> lst -> Prop :=
| lh_nil : forall s, lhistory s [] s
| lh_cons : forall s o s' os s'', lstep s o = Ok s' -> lspec (lworld_of s) o (lworld_of s') -> lhistory s' os s'' -> lhistory s (o :: os) s''.
Fixpoint llegal_run (s : lst) (os : list lop) : Prop :=
  match os with
  | [] => True
  | o :: os => llegal (lworld_of s) o /\ forall s', lstep s o = Ok s' -> llegal_run s' os
  end.
(* list[i] with i out of range, as an argument *)
Definition missing (w : aworld) (a : arg) : Prop :=
  match a with AVar _ => False | AItem m i => exists c, al w m = Some c /\ length c <= i end.
(* an index out of range *)
Definition out_of_range (w : aworld) (o : lop) : Prop :=
  match o with
  | MCopy v a | MAssign v a => avar w v = true /\ missing w a
  | LInsert l i a _ => exists c, al w l = Some c /\ (missing w a \/ at_ w (of_arg a) <> None /\ length c < i)
  | LSet l i a _ => exists c, al w l = Some c /\ (missing w a \/ at_ w (of_arg a) <> None /\ length c <= i)
  | LRemove l i n => exists c, al w l = Some c /\ length c < i + n
  | _ => False
  end.

(* memory that belongs to some buffer *)
Definition in_buffer (s : lst) (u : nat) : Prop :=
  exists l x, nth_error (ls s) l = Some (Some x) /\ base x <= u < base x + room x.
