(* What programs over string variables and dictionaries of strings mean: variables hold
   character sequences, dictionaries are finite maps between character sequences.  Shares
   with the model only the syntax of programs. *)
From Verif Require Import Base StrModel StrSpec SlModel SlSpec SdModel.
From Verif Require Import DctSpec.
Open Scope Z_scope.

Notation dmap := (fmap (list Z) (list Z)).
Notation lookup := (DctSpec.lookup (list Z) (list Z) lex).
Notation mput := (DctSpec.put (list Z) (list Z) lex).
Notation mdel := (DctSpec.del (list Z) (list Z) lex).
Notation ascending_keys := (DctSpec.ascending_keys (list Z) (list Z) lex).

Record maps := mkM { mvars : values; mdicts : list (option dmap) }.
Definition mstart (n m : nat) : maps := mkM (repeat None n) (repeat None m).

Definition mread (t : maps) (d : nat) : res dmap :=
  match nth_error (mdicts t) d with Some (Some m) => Ok m | _ => UB end.
Definition mfree (t : maps) (d : nat) : res unit :=
  match nth_error (mdicts t) d with Some None => Ok tt | _ => UB end.
Definition mset (t : maps) (d : nat) (m : option dmap) : maps := mkM (mvars t) (upd (mdicts t) d m).
Definition vset (t : maps) (v : nat) (c : list Z) : maps := mkM (upd (mvars t) v (Some c)) (mdicts t).

(* the string an argument denotes *)
Definition mvalue (t : maps) (a : darg) : res (list Z) :=
  match a with
  | PVar v | PMove v => sread (mvars t) v
  | PKey e i => do m <- mread t e; match znth m i with Some p => Ok (fst p) | None => Err end
  | PVal e i => do m <- mread t e; match znth m i with Some p => Ok (snd p) | None => Err end
  | PAt e v =>
      do k <- sread (mvars t) v; do m <- mread t e;
      match lookup k m with Some c => Ok c | None => Err end
  end.
(* an argument that was moved from is an empty string *)
Definition mgone (t : maps) (a : darg) : maps := match a with PMove v => vset t v [] | _ => t end.
(* what the second argument holds after the first was moved from *)
Definition after (k v : darg) (c : list Z) : list Z :=
  match k, v with
  | PMove x, PVar y | PMove x, PMove y => if Nat.eqb x y then [] else c
  | _, _ => c
  end.
(* the argument is a key or a value of the dictionary itself: a client error when the
   dictionary grows (C66 says what happens) *)
Definition own (d : nat) (a : darg) : bool :=
  match a with PVar _ | PMove _ => false | PKey e _ | PVal e _ | PAt e _ => Nat.eqb e d end.

(* a new key: the key is taken first, then the value *)
Definition minsert (t : maps) (d : nat) (m : dmap) (k : darg) (kc : list Z) (v : darg) (vc : list Z) : res (maps * pout) :=
  if own d k || own d v then UB
  else Ok (mset (mgone (mgone t k) v) d (Some (mput kc (after k v vc) m)), PBool true).

Definition mstep_raw (t : maps) (o : dop) : res (maps * pout) :=
  match o with
  | MStr o => do (vs, r) <- sstep_raw (mvars t) o; Ok (mkM vs (mdicts t), POut r)
  | MNew d => do _ <- mfree t d; Ok (mset t d (Some []), POut SNone)
  | MMoveNew d e => do _ <- mfree t d; do m <- mread t e; Ok (mset (mset t d (Some m)) e (Some []), POut SNone)
  | MMoveAssign d e => do _ <- mread t d; do m <- mread t e; Ok (mset (mset t d (Some m)) e (Some []), POut SNone)
  | MDestroy d => do _ <- mread t d; Ok (mset t d None, POut SNone)
  | MAdd d k v =>
      do m <- mread t d; do kc <- mvalue t k; do vc <- mvalue t v;
      match lookup kc m with Some _ => Err | None => minsert t d m k kc v vc end
  | MSet d k v =>
      do m <- mread t d; do kc <- mvalue t k; do vc <- mvalue t v;
      match lookup kc m with
      | Some _ => Ok (mset (mgone t v) d (Some (mput kc vc m)), PBool true)   (* the key is not moved from *)
      | None => minsert t d m k kc v vc
      end
  | MRemove d k =>
      do m <- mread t d; do kc <- mvalue t k;
      match lookup kc m with
      | Some _ => Ok (mset t d (Some (mdel kc m)), PBool true)
      | None => Ok (t, PBool false)
      end
  | MClear d => do _ <- mread t d; Ok (mset t d (Some []), PBool true)
  | MLoad x a => do _ <- sread (mvars t) x; do c <- mvalue t a; Ok (vset t x c, POut SNone)
  | MContains d k =>
      do m <- mread t d; do kc <- mvalue t k;
      Ok (t, PBool (match lookup kc m with Some _ => true | None => false end))
  | MCount d => do m <- mread t d; Ok (t, POut (SInt (zlen m)))
  end.
Definition mstep (t : maps) (o : dop) : res (maps * pout) :=
  match mstep_raw t o with Err => Ok (t, POut SError) | r => r end.
Fixpoint mrun (t : maps) (os : list dop) : res (maps * list pout) :=
  match os with
  | [] => Ok (t, [])
  | o :: os' => do (t', r) <- mstep t o; do (t'', rs) <- mrun t' os'; Ok (t'', r :: rs)
  end.

(* Keys() and Values() of every dictionary, in the order of the list variables *)
Definition flatten (t : maps) : plain :=
  mkP (mvars t) (flat_map (fun o => match o with
                                   | Some m => [Some (map fst m); Some (map snd m)]
                                   | None => [None; None]
                                   end) (mdicts t)).
