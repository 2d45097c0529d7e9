(* Ownership without counters.  Every time a raw pointer is handed to a ComPtr, a reference of
   the object is handed over; references are numbered in that order.  Variables hold
   references; a reference is released when the last variable that holds it lets go. *)
From Verif Require Import Base ComModel.

(* variables (None: not there; Some None: empty), the object of each reference, the objects
   released, latest first *)
Record own := mkOwn { ov : list (option (option nat)); oo : list nat; orel : list nat }.
Definition holds (t : nat) (x : option (option nat)) : bool :=
  match x with Some (Some t') => Nat.eqb t' t | _ => false end.
(* give v the new contents x; if that was the last holder of a reference, release it *)
Definition put (w : own) (v : nat) (x : option (option nat)) : own :=
  let vars := upd (ov w) v x in
  match nth_error (ov w) v with
  | Some (Some (Some t)) =>
      if existsb (holds t) vars then mkOwn vars (oo w) (orel w)
      else mkOwn vars (oo w) (nth t (oo w) 0%nat :: orel w)
  | _ => mkOwn vars (oo w) (orel w)
  end.
Definition look (w : own) (v : nat) : option (option nat) := match nth_error (ov w) v with Some x => x | None => None end.
Definition ospec (w : own) (o : cop) : own :=
  match o with
  | CNew v => put w v (Some None)
  | CWrap v o => put (mkOwn (ov w) (oo w ++ [o]) (orel w)) v (Some (Some (length (oo w))))
  | CCopy v u => put w v (look w u)
  | CMove v u => put (put w v (look w u)) u (Some None)
  | CDestroy v => put w v None
  | CSetNull v => put w v (Some None)
  | CSetRaw v o => put (mkOwn (ov w) (oo w ++ [o]) (orel w)) v (Some (Some (length (oo w))))
  | CAssign v u => put w v (look w u)
  | CMoveAssign v u => if Nat.eqb v u then w else put (put w v (look w u)) u (Some None)
  end.
(* variables are constructed before they are used, and not constructed twice *)
Definition olegal (w : own) (o : cop) : Prop :=
  let there v := look w v <> None in
  let free v := nth_error (ov w) v = Some None in
  match o with
  | CNew v => free v
  | CWrap v _ => free v
  | CCopy v u => free v /\ there u
  | CMove v u => free v /\ there u
  | CDestroy v => there v
  | CSetNull v => there v
  | CSetRaw v _ => there v
  | CAssign v u => there v /\ there u
  | CMoveAssign v u => there v /\ there u
  end.
Fixpoint olegal_run (w : own) (os : list cop) : Prop :=
  match os with [] => True | o :: os => olegal w o /\ olegal_run (ospec w o) os end.
Definition ospec_run (w : own) (os : list cop) : own := fold_left ospec os w.
Definition oinit (n : nat) : own := mkOwn (repeat None n) [] [].

(* the objects the variables of w refer to *)
Definition shows (w : own) : list (option (option nat)) :=
  map (option_map (option_map (fun t => nth t (oo w) 0%nat))) (ov w).
(* how often o was handed to a ComPtr *)
Fixpoint handed (o : nat) (os : list cop) : nat :=
  match os with
  | [] => 0
  | CWrap _ o' :: os | CSetRaw _ o' :: os => (if Nat.eqb o' o then 1 else 0) + handed o os
  | _ :: os => handed o os
  end.
(* the references to o that some variable holds *)
Definition live (w : own) (o : nat) : list nat :=
  filter (fun t => Nat.eqb (nth t (oo w) 0%nat) o && existsb (holds t) (ov w)) (seq 0 (length (oo w))).
