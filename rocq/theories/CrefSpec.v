(* What the history of one collection says. *)
From Verif Require Import Base CrefModel.

Definition made (os : list op) : nat := length (filter (fun o => match o with New => true | _ => false end) os).
(* the operations that follow the creation of collection c (the c-th New) *)
Fixpoint after_new (c : nat) (os : list op) : option (list op) :=
  match os with
  | [] => None
  | New :: os => match c with O => Some os | S c => after_new c os end
  | _ :: os => after_new c os
  end.
(* the first reference that is not null given to c before its destruction *)
Fixpoint associated (c : nat) (os : list op) : option ref :=
  match os with
  | [] => None
  | Set_ d (Some r) :: os => if (d =? c)%nat then Some r else associated c os
  | Destroy d :: os => if (d =? c)%nat then None else associated c os
  | _ :: os => associated c os
  end.
Definition destroyed (c : nat) (os : list op) : bool := existsb (fun o => match o with Destroy d => (d =? c)%nat | _ => false end) os.
(* the reference associated with c after a history, if c was made and not destroyed *)
Definition current (c : nat) (os : list op) : option (option ref) :=
  match after_new c os with
  | None => None
  | Some os => if destroyed c os then None else Some (associated c os)
  end.
(* the OnDisposed calls the destruction of c makes in a history *)
Definition notified (c : nat) (os : list op) : list ref :=
  match after_new c os with
  | None => []
  | Some os => if destroyed c os then match associated c os with Some r => [r] | None => [] end else []
  end.
Definition notices (c : nat) (es : list event) : list ref := map snd (filter (fun e => (fst e =? c)%nat) es).
(* the answer the specification gives to one more operation *)
Definition answer (os : list op) (o : op) : out :=
  match o with
  | New => Unit
  | AssignFrom c d => match current c os, current d os with Some _, Some _ => Unit | _, _ => Bad end
  | Set_ c _ => match current c os with Some None => Unit | Some (Some _) => Raised | None => Bad end
  | Get c => match current c os with Some r => Got r | None => Bad end
  | TryGet c k => match current c os with
                  | Some None => Got None
                  | Some (Some r) => if (kind r =? k)%nat then Got (Some r) else Raised
                  | None => Bad
                  end
  | Destroy c => match current c os with Some _ => Unit | None => Bad end
  end.
Definition state_of (os : list op) := fst (fst (run [] os)).
