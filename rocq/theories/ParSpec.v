From Verif Require Import Base ParModel.

(* the copies all threads own together *)
Definition owned (l : list thread) : nat := fold_right (fun t n => own t + n)%nat 0%nat l.
(* threads that own copies of an object, with its counter at the number of copies *)
Definition start (l : list (nat * list act)) : par :=
  let ts := map (fun x => mkT (fst x) (snd x) Outside) l in
  mkPar (Some (Z.of_nat (owned ts))) true ts None [].
Definition idle (w : par) : Prop := Forall (fun t => ph t = Outside) (ths w).
(* the copies a thread ends with when it executes p on its own; None: it copies, drops or uses a copy
   it does not have, or gives one away *)
Fixpoint after (k : nat) (p : list act) : option nat :=
  match p with
  | [] => Some k
  | a :: p =>
      match a, k with
      | Copy, S k => after (S (S k)) p
      | Drop, S k => after k p
      | Use, S k => after (S k) p
      | _, _ => None
      end
  end.
