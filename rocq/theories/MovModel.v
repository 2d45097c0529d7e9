(* Programs over several variables of type SortedList, Dictionary or Group: construction, move construction, move
   assignment, destruction, and the operations of SrtModel and DctModel
   (Source/Collections/List.h, Source/Collections/Dictionary.h). *)
From Verif Require Import Base LstModel SrtModel DctModel.
Open Scope Z_scope.

Inductive mop (O : Type) :=
| MNew (v : nat)                 (* T v; *)
| MMoveNew (v w : nat)           (* T v(std::move(w)); *)
| MMoveAssign (v w : nat)        (* v = std::move(w); *)
| MDestroy (v : nat)             (* the end of the scope of v *)
| MOp (v : nat) (o : O).
Arguments MNew {O}. Arguments MMoveNew {O}. Arguments MMoveAssign {O}. Arguments MDestroy {O}. Arguments MOp {O}.
Inductive mout (R : Type) := Done | Answer (r : R).
Arguments Done {R}. Arguments Answer {R}.

(* variables: None before construction and after destruction; using the wrong kind is UB *)
Definition mvar {S : Type} (s : list (option S)) (v : nat) : res S :=
  match nth_error s v with Some (Some x) => Ok x | _ => UB end.
Definition mfree {S : Type} (s : list (option S)) (v : nat) : res unit :=
  match nth_error s v with Some None => Ok tt | _ => UB end.
Fixpoint mrun {S O R : Type} (step : S -> mop O -> res (S * mout R)) (s : S) (os : list (mop O)) : res (S * list (mout R)) :=
  match os with
  | [] => Ok (s, [])
  | o :: os => do (s, r) <- step s o; do (s, rs) <- mrun step s os; Ok (s, r :: rs)
  end.

Section Lists.
  Variable A : Type.
  (* ListBase x(std::move(y)) : List.h:477-485; new x, new y *)
  Definition l_move_new (y : lst A) : lst A * lst A := (y, empty_lst).
  (* x = std::move(y) for different x and y : List.h:488-502; new x, new y *)
  Definition l_move (x y : lst A) : res (lst A * lst A) := do _ <- destruct A x; Ok (y, empty_lst).
  (* x = std::move(x) : List.h:488-502; the last assignments of _move.buffer, count and capacity win *)
  Definition l_move_self (x : lst A) : res (lst A) := do _ <- destruct A x; Ok empty_lst.
End Lists.

Section Sorted.
  Variable A : Type.
  Variable cmp : A -> A -> option comparison.
  Definition svars := list (option (lst A)).
  (* SortedList moves : List.h:776-779 *)
  Definition sm_step (s : svars) (o : mop (sop A)) : res (svars * mout (out A)) :=
    match o with
    | MNew v => do _ <- mfree s v; Ok (upd s v (Some empty_lst), Done)
    | MMoveNew v w => do _ <- mfree s v; do y <- mvar s w;
        let '(x, y) := l_move_new A y in Ok (upd (upd s v (Some x)) w (Some y), Done)
    | MMoveAssign v w =>
        do x <- mvar s v; do y <- mvar s w;
        if Nat.eqb v w then do x <- l_move_self A x; Ok (upd s v (Some x), Done)
        else do (x, y) <- l_move A x y; Ok (upd (upd s v (Some x)) w (Some y), Done)
    | MDestroy v => do x <- mvar s v; do _ <- destruct A x; Ok (upd s v None, Done)
    | MOp v o => do x <- mvar s v; do (x, r) <- s_step A cmp x o; Ok (upd s v (Some x), Answer r)
    end.
End Sorted.

Section Dicts.
  Variable K V : Type.
  Variable cmp : K -> K -> option comparison.
  Variable veq : V -> V -> bool.

  Definition dvars := list (option (dict K V)).
  (* Dictionary moves and destructor : Dictionary.h:123-139; members are destroyed in reverse order *)
  Definition dm_step (s : dvars) (o : mop (dop K V)) : res (dvars * mout (dout K V)) :=
    match o with
    | MNew v => do _ <- mfree s v; Ok (upd s v (Some empty_dict), Done)
    | MMoveNew v w => do _ <- mfree s v; do y <- mvar s w;
        let '(xk, yk) := l_move_new K (keys y) in let '(xv, yv) := l_move_new V (vals y) in
        Ok (upd (upd s v (Some (mkDict xk xv))) w (Some (mkDict yk yv)), Done)
    | MMoveAssign v w =>
        do x <- mvar s v; do y <- mvar s w;
        if Nat.eqb v w then
          do ks <- l_move_self K (keys x); do vs <- l_move_self V (vals x); Ok (upd s v (Some (mkDict ks vs)), Done)
        else
          do (xk, yk) <- l_move K (keys x) (keys y); do (xv, yv) <- l_move V (vals x) (vals y);
          Ok (upd (upd s v (Some (mkDict xk xv))) w (Some (mkDict yk yv)), Done)
    | MDestroy v => do x <- mvar s v; do _ <- destruct V (vals x); do _ <- destruct K (keys x); Ok (upd s v None, Done)
    | MOp v o => do x <- mvar s v; do (x, r) <- d_step K V cmp x o; Ok (upd s v (Some x), Answer r)
    end.

  (* groups share one heap, on which the lists of values are *)
  Record gvars := mkGvars { gvs : list (option (lst K * lst nat)); gvheap : list (option (lst V)) }.
  Definition gthis (s : gvars) (x : lst K * lst nat) : group K V := mkGroup (fst x) (snd x) (gvheap s).
  Definition gput (s : gvars) (v : nat) (g : group K V) : gvars := mkGvars (upd (gvs s) v (Some (gkeys g, gvals g))) (gheap g).
  (* Group moves and destructor : Dictionary.h:400-420 *)
  Definition gm_step (s : gvars) (o : mop (gop K V)) : res (gvars * mout (dout K V)) :=
    match o with
    | MNew v => do _ <- mfree (gvs s) v; Ok (mkGvars (upd (gvs s) v (Some (empty_lst, empty_lst))) (gvheap s), Done)
    | MMoveNew v w => do _ <- mfree (gvs s) v; do y <- mvar (gvs s) w;
        let '(xk, yk) := l_move_new K (fst y) in let '(xv, yv) := l_move_new nat (snd y) in
        Ok (mkGvars (upd (upd (gvs s) v (Some (xk, xv))) w (Some (yk, yv))) (gvheap s), Done)
    | MMoveAssign v w =>
        do x <- mvar (gvs s) v; do _ <- mvar (gvs s) w;
        do g <- g_clear K V (gthis s x);
        let s := gput s v g in
        do x <- mvar (gvs s) v; do y <- mvar (gvs s) w;
        if Nat.eqb v w then
          do ks <- l_move_self K (fst x); do vs <- l_move_self nat (snd x); Ok (mkGvars (upd (gvs s) v (Some (ks, vs))) (gvheap s), Done)
        else
          do (xk, yk) <- l_move K (fst x) (fst y); do (xv, yv) <- l_move nat (snd x) (snd y);
          Ok (mkGvars (upd (upd (gvs s) v (Some (xk, xv))) w (Some (yk, yv))) (gvheap s), Done)
    | MDestroy v =>
        do x <- mvar (gvs s) v;
        do g <- g_clear K V (gthis s x);
        do _ <- destruct nat (gvals g); do _ <- destruct K (gkeys g);
        Ok (mkGvars (upd (gvs s) v None) (gheap g), Done)
    | MOp v o => do x <- mvar (gvs s) v; do (g, r) <- g_step K V cmp veq (gthis s x) o; Ok (gput s v g, Answer r)
    end.
  Definition gm_start (n : nat) : gvars := mkGvars (repeat None n) [].
End Dicts.
Arguments mkGvars {K V}. Arguments gvs {K V}. Arguments gvheap {K V}.
