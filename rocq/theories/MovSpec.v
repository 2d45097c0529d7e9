(* Variables that hold contents: a move hands the contents over and leaves nothing. *)
From Verif Require Import Base LstModel LstSpec SrtModel SrtSpec DctModel DctSpec MovModel.
Open Scope Z_scope.

Section Vars.
  Variable O T R : Type.
  Variable nothing : T.                          (* the contents of a new container *)
  Variable op_ok : T -> O -> T -> R -> Prop.     (* what an operation may do *)

  Inductive vstep : list (option T) -> mop O -> list (option T) -> mout R -> Prop :=
  | v_new t v : nth_error t v = Some None -> vstep t (MNew v) (upd t v (Some nothing)) Done
  | v_move_new t v w a : nth_error t v = Some None -> nth_error t w = Some (Some a) ->
      vstep t (MMoveNew v w) (upd (upd t v (Some a)) w (Some nothing)) Done
  | v_move t v w a b : v <> w -> nth_error t v = Some (Some b) -> nth_error t w = Some (Some a) ->
      vstep t (MMoveAssign v w) (upd (upd t v (Some a)) w (Some nothing)) Done
  | v_move_self t v a : nth_error t v = Some (Some a) -> vstep t (MMoveAssign v v) (upd t v (Some nothing)) Done
  | v_destroy t v a : nth_error t v = Some (Some a) -> vstep t (MDestroy v) (upd t v None) Done
  | v_op t v o a a' r : nth_error t v = Some (Some a) -> op_ok a o a' r -> vstep t (MOp v o) (upd t v (Some a')) (Answer r).
  Inductive vrun : list (option T) -> list (mop O) -> list (option T) -> list (mout R) -> Prop :=
  | v_nil t : vrun t [] t []
  | v_cons t o t1 r os t2 rs : vstep t o t1 r -> vrun t1 os t2 rs -> vrun t (o :: os) t2 (r :: rs).

  (* variables are constructed before they are used, not constructed twice, not used after their destruction;
     `fine` is what is asked of the arguments of operations *)
  Variable fine : O -> Prop.
  Fixpoint proper (live : list bool) (os : list (mop O)) : Prop :=
    match os with
    | [] => True
    | MNew v :: os => nth_error live v = Some false /\ proper (upd live v true) os
    | MMoveNew v w :: os => nth_error live v = Some false /\ nth_error live w = Some true /\ proper (upd live v true) os
    | MMoveAssign v w :: os => nth_error live v = Some true /\ nth_error live w = Some true /\ proper live os
    | MDestroy v :: os => nth_error live v = Some true /\ proper (upd live v false) os
    | MOp v o :: os => nth_error live v = Some true /\ fine o /\ proper live os
    end.
End Vars.

(* what the operations of the three containers may do *)
Definition s_ok {A : Type} (c : A -> A -> comparison) (l : list A) (o : sop A) (l' : list A) (r : out A) : Prop :=
  ok_step A c l o l' r /\ ascending A c l'.
Definition d_ok {K V : Type} (c : K -> K -> comparison) (m : fmap K V) (o : dop K V) (m' : fmap K V) (r : dout K V) : Prop :=
  md_step K V c m o = (m', r).
Definition g_ok {K V : Type} (c : K -> K -> comparison) (veq : V -> V -> bool) (m : fmap K (list V)) (o : gop K V) (m' : fmap K (list V)) (r : dout K V) : Prop :=
  mg_step K V c veq m o = (m', r).

Definition opt_shows {S T : Type} (sh : S -> T -> Prop) (s : option S) (t : option T) : Prop :=
  match s, t with Some x, Some a => sh x a | None, None => True | _, _ => False end.
(* lists of values on the heap, and keys of all variables *)
Fixpoint in_use {B : Type} (h : list (option B)) : Z :=
  match h with [] => 0 | Some _ :: h => 1 + in_use h | None :: h => in_use h end.
Fixpoint all_keys {K V : Type} (t : list (option (fmap K V))) : Z :=
  match t with [] => 0 | Some m :: t => zlen m + all_keys t | None :: t => all_keys t end.

(* the variables hold these contents *)
Definition sm_shows {A : Type} (c : A -> A -> comparison) (s : svars A) (t : list (option (list A))) : Prop :=
  Forall2 (opt_shows (fun x l => lst_shows A x l /\ ascending A c l)) s t.
Definition dm_shows {K V : Type} (c : K -> K -> comparison) (s : dvars K V) (t : list (option (fmap K V))) : Prop :=
  Forall2 (opt_shows (d_shows K V c)) s t.
(* the addresses that groups hold *)
Definition ps_of (x : lst nat) : list nat := match contents x with Ok ps => ps | _ => [] end.
Definition owned {K : Type} (s : list (option (lst K * lst nat))) : list nat :=
  flat_map (fun x => match x with Some x => ps_of (snd x) | None => [] end) s.
(* every list of values on the heap belongs to exactly one key of one variable *)
Definition gm_shows (K V : Type) (c : K -> K -> comparison) (s : gvars K V) (t : list (option (fmap K (list V)))) : Prop :=
  Forall2 (opt_shows (fun x m =>
    lst_shows K (fst x) (map fst m) /\ lst_shows nat (snd x) (ps_of (snd x)) /\
    Forall2 (fun p kv => exists y, nth_error (gvheap s) p = Some (Some y) /\ lst_shows V y (snd kv)) (ps_of (snd x)) m /\
    ascending_keys K (list V) c m /\ Forall (fun kv => snd kv <> []) m)) (gvs s) t /\
  NoDup (owned (gvs s)) /\ (forall p x, nth_error (gvheap s) p = Some (Some x) -> In p (owned (gvs s))).
