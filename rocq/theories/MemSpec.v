(* How much memory strings and lists hold, and how many elements a list moves. *)
From Verif Require Import Base StrModel StrSpec LstModel LstSpec.
Open Scope Z_scope.

Section Lists.
  Variable A : Type.
  Variable eqb : A -> A -> bool.
  (* a statement on the list in variable 0 *)
  Definition on_list (o : op A) : Prop :=
    match o with
    | LNew _ | LMoveNew _ _ | LMoveAssign _ _ | LDestroy _ => False
    | LAdd v _ | LInsert v _ _ | LRemoveAt v _ | LRemoveRange v _ _ | LRemove v _ | LClear v | LSet v _ _ | LGet v _ | LCount v
    | LIndexOf v _ | LContains v _ => v = 0%nat
    end.
  (* how many elements are behind the place where the statement inserts or removes *)
  Definition behind (l : list A) (o : op A) : Z :=
    match o with
    | LInsert _ i _ => if (0 <=? i) && (i <=? zlen l) then zlen l - i else 0
    | LRemoveAt _ i => if (0 <=? i) && (i <? zlen l) then zlen l - i - 1 else 0
    | LRemoveRange _ i n => if (0 <=? i) && (0 <=? n) && (i + n <=? zlen l) then zlen l - i - n else 0
    | LRemove _ a => if first_pos A eqb a l =? -1 then 0 else zlen l - first_pos A eqb a l - 1
    | _ => 0
    end.
  (* the sequence after a statement *)
  Definition after (l : list A) (o : op A) : list A :=
    match LstSpec.sstep A eqb [Some l] o with Ok ([Some l'], _) => l' | _ => l end.
  Fixpoint all_behind (l : list A) (os : list (op A)) : Z :=
    match os with [] => 0 | o :: os' => behind l o + all_behind (after l o) os' end.
  (* the largest number of elements at any time *)
  Fixpoint peak (l : list A) (os : list (op A)) : Z :=
    match os with [] => zlen l | o :: os' => Z.max (zlen l) (peak (after l o) os') end.
  (* RemoveAt(0), n times *)
  Definition remove_first_n (x : lst A) (n : nat) : res (lst A) := Nat.iter n (fun r => do x <- r; LstModel.remove_at A x 0) (Ok x).
End Lists.
Definition five_eighths (c : Z) : Z := c * 5 / 8.

(* the characters in all blocks that strings own *)
Fixpoint held (h : heap) : Z :=
  match h with
  | [] => 0
  | Counted cs _ :: h' => zlen cs + held h'
  | _ :: h' => held h'
  end.
(* taking a part, copying, moving: no new block *)
Definition shares (e : expr) : bool :=
  match e with EEmpty | EUnmanaged _ | ECopy _ | EMove _ | ELeft _ _ | ERight _ _ | ESub _ _ _ => true | _ => false end.
(* at most this many characters are allocated: those of the result and a terminator, or the block that is handed over *)
Definition new_cells (vs : values) (e : expr) : Z :=
  if shares e then 0 else
  match e, seval vs e with
  | ETakeOver mem _, _ => zlen mem
  | _, Ok (_, l) => zlen l + 1
  | _, _ => 0
  end.
Definition needs (vs : values) (o : StrModel.op) : Z :=
  match o with
  | OInit _ e | OSet _ e => new_cells vs e
  | OBuffer v => match nth_error vs v with Some (Some l) => zlen l + 1 | _ => 0 end
  | _ => 0
  end.
(* no parts: every block is handed over exactly *)
Definition whole (o : StrModel.op) : Prop :=
  match o with
  | OInit _ e | OSet _ e =>
      match e with ELeft _ _ | ERight _ _ | ESub _ _ _ => False | ETakeOver mem n => zlen mem = n + 1 | _ => True end
  | _ => True
  end.
Fixpoint total_length (vs : values) : Z :=
  match vs with [] => 0 | Some l :: vs' => zlen l + 1 + total_length vs' | None :: vs' => total_length vs' end.
(* everything that is ever allocated *)
Fixpoint all_needs (vs : values) (os : list StrModel.op) : Z :=
  match os with
  | [] => 0
  | o :: os' => needs vs o + match StrSpec.sstep vs o with Ok (vs', _) => all_needs vs' os' | _ => 0 end
  end.
(* the first or the last character of a text, and the text is gone *)
Definition keep_one (part : expr) (text : list Z) : list StrModel.op :=
  [OInit 0 (ELit (Some (text ++ [0]))); OInit 1 part; ODestroy 0].
(* a list of numbers, for examples: twelve Add, Insert at the front, four RemoveAt(0), Remove(11) *)
Definition numbers_program : list (LstModel.op Z) :=
  map (LAdd 0) [0;1;2;3;4;5;6;7;8;9;10;11] ++ [LInsert 0 0 (-1)] ++ repeat (LRemoveAt 0 0) 4 ++ [LRemove 0 11; LGet 0 0].
(* strings, for an example: two literals, a concatenation, a copy, a removal; one is destroyed *)
Definition words_program : list StrModel.op :=
  [OInit 0 (ELit (Some [97; 98; 0])); OInit 1 (ELit (Some [99; 0])); OInit 2 (EConcat 0 1); OInit 3 (ECopy 2); OSet 2 (ERemove 2 0 1); ODestroy 0; OBuffer 3].
