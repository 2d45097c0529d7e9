(* Finite maps from keys to references: a dictionary is a list of keys with the references of LpSpec as its values.  After every
   operation an object that has lost its last reference goes away together with its members and dictionaries. *)
From Verif Require Import Base.
From Verif Require LstModel DctSpec.
From Verif Require Import RcModel RcSpec LpModel LpSpec PdModel.
Open Scope nat_scope.

Section Spec.
  Variable K : Type.
  Variable c : K -> K -> comparison.
  Notation map_ := (DctSpec.fmap K (option nat)).
  Notation lookup := (DctSpec.lookup K (option nat) c).
  Notation put := (DctSpec.put K (option nat) c).
  Notation del := (DctSpec.del K (option nat) c).

  (* variables, references and objects as in LpSpec, and the keys of each dictionary *)
  Record dworld := mkD { refs : aworld; keyed : nat -> list K }.
  Definition dict (w : dworld) (l : nat) : option map_ :=
    match al (refs w) l with Some v => Some (combine (keyed w l) v) | None => None end.
  (* w' has the map f as dictionary l, and the keys of the other dictionaries are those of w *)
  Definition keys_put (w : dworld) (l : nat) (f : map_) (w' : dworld) : Prop :=
    forall m, keyed w' m = if m =? l then map fst f else keyed w m.
  Definition keys_kept (w w' : dworld) : Prop := forall m, keyed w' m = keyed w m.
  (* the references with the values of f as dictionary l *)
  Definition refs_put (w : aworld) (l : nat) (f : map_) : aworld := set_l w l (Some (map snd f)).

  (* the reference that is passed; None if there is none *)
  Definition gives (w : dworld) (a : source K) : option (option nat) :=
    match a with
    | FromVar u => av (refs w) u
    | FromDict m k => match dict w m with Some f => lookup k f | None => None end
    end.
  Definition no_such_key (w : dworld) (a : source K) : Prop :=
    match a with FromVar _ => False | FromDict m k => exists f, dict w m = Some f /\ lookup k f = None end.
  (* a variable that is moved from becomes empty; the values of a dictionary cannot be moved from *)
  Definition emptied (w : aworld) (a : source K) (mv : bool) : aworld :=
    match a, mv with FromVar u, true => set_v w u (Some None) | _, _ => w end.
  Definition argument (o : pop K) : option (source K) :=
    match o with VCopy _ a | VAssign _ a | DAdd _ _ a _ | DSet _ _ a _ => Some a | _ => None end.

  Inductive dspec : dworld -> pop K -> dworld -> pout -> Prop :=
  | ds_no_key : forall w o a, argument o = Some a -> no_such_key w a -> dspec w o w Raised
  | ds_new : forall w v w', asame (refs w') (set_v (refs w) v (Some None)) -> keys_kept w w' -> dspec w (VNew v) w' Done
  | ds_make : forall w v k m w', lspec (refs w) (MMake v k m) (refs w') ->
      (forall l, keyed w' l = if (aln (refs w) <=? l) && (l <? aln (refs w) + m) then [] else keyed w l) -> dspec w (VMake v k m) w' Done
  | ds_copy : forall w v a x w', gives w a = Some x ->
      asame (refs w') (set_v (refs w) v (Some x)) -> keys_kept w w' -> dspec w (VCopy v a) w' Done
  | ds_assign : forall w v a x w', gives w a = Some x ->
      acollect (refs w) (set_v (refs w) v (Some x)) (refs w') -> keys_kept w w' -> dspec w (VAssign v a) w' Done
  | ds_null : forall w v w', acollect (refs w) (set_v (refs w) v (Some None)) (refs w') -> keys_kept w w' -> dspec w (VNull v) w' Done
  | ds_end : forall w v w', acollect (refs w) (set_v (refs w) v None) (refs w') -> keys_kept w w' -> dspec w (VEnd v) w' Done
  | ds_dnew : forall w w', lspec (refs w) LNew (refs w') -> keys_put w (aln (refs w)) [] w' -> dspec w DNew w' Done
  | ds_dend : forall w l w', acollect (refs w) (set_l (refs w) l None) (refs w') -> keys_put w l [] w' -> dspec w (DEnd l) w' Done
  | ds_add : forall w l k a mv f x w', dict w l = Some f -> lookup k f = None -> gives w a = Some x ->
      asame (refs w') (refs_put (emptied (refs w) a mv) l (put k x f)) -> keys_put w l (put k x f) w' ->
      dspec w (DAdd l k a mv) w' (Said true)
  | ds_add_again : forall w l k a mv f y x, dict w l = Some f -> lookup k f = Some y -> gives w a = Some x ->
      dspec w (DAdd l k a mv) w Raised
  | ds_set : forall w l k a mv f x w', dict w l = Some f -> lookup k f = None -> gives w a = Some x ->
      asame (refs w') (refs_put (emptied (refs w) a mv) l (put k x f)) -> keys_put w l (put k x f) w' ->
      dspec w (DSet l k a mv) w' (Said true)
  | ds_set_again : forall w l k a mv f y x w', dict w l = Some f -> lookup k f = Some y -> gives w a = Some x ->
      acollect (refs w) (refs_put (emptied (refs w) a mv) l (put k x f)) (refs w') -> keys_put w l (put k x f) w' ->
      dspec w (DSet l k a mv) w' (Said true)
  | ds_remove : forall w l k f y w', dict w l = Some f -> lookup k f = Some y ->
      acollect (refs w) (refs_put (refs w) l (del k f)) (refs w') -> keys_put w l (del k f) w' -> dspec w (DRemove l k) w' (Said true)
  | ds_remove_none : forall w l k f, dict w l = Some f -> lookup k f = None -> dspec w (DRemove l k) w (Said false)
  | ds_clear : forall w l w', acollect (refs w) (refs_put (refs w) l []) (refs w') -> keys_put w l [] w' -> dspec w (DClear l) w' (Said true)
  | ds_move : forall w l m f w', dict w m = Some f ->
      acollect (refs w) (refs_put (refs_put (refs w) l f) m []) (refs w') ->
      (forall n, keyed w' n = if n =? m then [] else if n =? l then map fst f else keyed w n) -> dspec w (DMove l m) w' Done
  | ds_has : forall w l k f, dict w l = Some f ->
      dspec w (DHas l k) w (Said match lookup k f with Some _ => true | None => false end).

  (* ---- what the client has to respect ------------------------------------------------- *)
  Definition there (w : dworld) (a : source K) : Prop :=
    match a with FromVar u => av (refs w) u <> None | FromDict m _ => dict w m <> None end.
  Definition owner (w : dworld) (a : source K) : option nat :=
    match a with FromVar u => ah (refs w) u | FromDict m _ => alh (refs w) m end.
  (* the places that storing a under a key of l changes *)
  Definition touched (l : nat) (a : source K) (mv : bool) (p : place) : Prop :=
    item_of l p \/ match a with FromVar u => mv = true /\ p = PVar u | FromDict _ _ => False end.
  (* a value of the dictionary itself is only given for a key that exists: otherwise the insertion moves it away *)
  Definition not_own (w : dworld) (l : nat) (k : K) (a : source K) : Prop :=
    match a with
    | FromVar _ => True
    | FromDict m k' => m = l -> exists f, dict w l = Some f /\ (lookup k f <> None \/ lookup k' f = None)
    end.
  Definition dlegal (w : dworld) (o : pop K) : Prop :=
    match o with
    | VNew v => a_slot (refs w) v
    | VMake v k m => a_slot (refs w) v
    | VCopy v a => a_slot (refs w) v /\ there w a
    | VAssign v a => av (refs w) v <> None /\ there w a /\
        aheld (refs w) (eq (PVar v)) (ah (refs w) v) /\ aheld (refs w) (eq (PVar v)) (owner w a)
    | VNull v => av (refs w) v <> None /\ aheld (refs w) (eq (PVar v)) (ah (refs w) v)
    | VEnd v => av (refs w) v <> None /\ ah (refs w) v = None
    | DNew => True
    | DEnd l => dict w l <> None /\ alh (refs w) l = None
    | DAdd l k a mv | DSet l k a mv => dict w l <> None /\ there w a /\ not_own w l k a /\
        aheld (refs w) (touched l a mv) (alh (refs w) l) /\ aheld (refs w) (touched l a mv) (owner w a)
    | DRemove l k => dict w l <> None /\ aheld (refs w) (item_of l) (alh (refs w) l)
    | DClear l => dict w l <> None /\ aheld (refs w) (item_of l) (alh (refs w) l)
    | DMove l m => dict w l <> None /\ dict w m <> None /\ aheld (refs w) (item_of l) (alh (refs w) l) /\ aheld (refs w) (item_of l) (alh (refs w) m)
    | DHas l k => dict w l <> None
    end.

  (* the world that a state of the program shows *)
  Definition shown (x : LstModel.lst K) : list K :=
    flat_map (fun e => match e with LstModel.Live k => [k] | _ => [] end) (firstn (Z.to_nat (LstModel.count x)) (LstModel.buf x)).
  Definition dworld_of (s : pst K) : dworld :=
    mkD (lworld_of (lp s)) (fun l => match nth_error (ks s) l with Some x => shown x | None => [] end).
  Notation pstep := (pstep K (fun a b => Some (c a b))).
  Inductive dhistory : pst K -> list (pop K) -> list pout -> pst K -> Prop :=
  | dh_nil : forall s, dhistory s [] [] s
  | dh_cons : forall s o s' r os rs s'', pstep s o = Ok (s', r) -> dspec (dworld_of s) o (dworld_of s') r ->
      dhistory s' os rs s'' -> dhistory s (o :: os) (r :: rs) s''.
  Fixpoint dlegal_run (s : pst K) (os : list (pop K)) : Prop :=
    match os with
    | [] => True
    | o :: os => dlegal (dworld_of s) o /\ forall s' r, pstep s o = Ok (s', r) -> dlegal_run s' os
    end.
End Spec.
Arguments refs {K}. Arguments keyed {K}. Arguments dict {K}. Arguments dworld_of {K}.
