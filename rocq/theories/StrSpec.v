(* What string operations mean, on plain lists of characters.  Shares with the model
   only the syntax of programs (expr, op). *)
From Verif Require Import Base StrModel.
Open Scope Z_scope.

(* A variable holds a list of characters, or no object. *)
Definition values := list (option (list Z)).

(* The C string a pointer denotes: None is nullptr; memory without a terminator is a
   client error. *)
Fixpoint c_string (mem : list Z) : res (list Z) :=
  match mem with
  | [] => UB
  | c :: mem' => if c =? 0 then Ok [] else do l <- c_string mem'; Ok (c :: l)
  end.
Definition literal (p : option (list Z)) : res (list Z) :=
  match p with None => Err | Some mem => c_string mem end.

Definition sread (vs : values) (v : nat) : res (list Z) :=
  match nth_error vs v with Some (Some l) => Ok l | _ => UB end.

(* i characters from the front / the rest, for any integer *)
Definition take (i : Z) (l : list Z) := firstn (Z.to_nat i) l.
Definition drop (i : Z) (l : list Z) := skipn (Z.to_nat i) l.

Definition fits (z : Z) : bool := (- 2 ^ 63 <=? z) && (z <? 2 ^ 63).

Definition seval (vs : values) (e : expr) : res (values * list Z) :=
  let keep (r : res (list Z)) := do l <- r; Ok (vs, l) in
  match e with
  | EEmpty => keep (Ok [])
  | ELit p => keep (literal p)
  | ETakeOver mem n =>
      if n <? 0 then Err else
      do z <- aget mem n; if z =? 0 then keep (Ok (take n mem)) else Err
  | EChar c => keep (Ok (if c =? 0 then [] else [c]))
  | ECopyFrom mem n =>
      if n <? 0 then Err else if n <=? zlen mem then keep (Ok (take n mem)) else UB
  | EUnmanaged p => keep (literal p)
  | ECopy w => keep (sread vs w)
  | EMove w => do l <- sread vs w; Ok (upd vs w (Some []), l)
  | ELeft w n =>
      do l <- sread vs w; if (0 <=? n) && (n <=? zlen l) then keep (Ok (take n l)) else Err
  | ERight w n =>
      do l <- sread vs w;
      if (0 <=? n) && (n <=? zlen l) then keep (Ok (drop (zlen l - n) l)) else Err
  | ESub w i n =>
      do l <- sread vs w;
      if (0 <=? i) && (i <=? zlen l) then
        if negb (fits (i + n)) then UB else
        if (0 <=? i + n) && (i + n <=? zlen l) then keep (Ok (take n (drop i l))) else Err
      else Err
  | ERemove w i n =>
      do l <- sread vs w;
      if (0 <=? i) && (i <? zlen l) then
        if negb (fits (i + n)) then UB else
        if (0 <=? i + n) && (i + n <=? zlen l) then keep (Ok (take i l ++ drop (i + n) l)) else Err
      else Err
  | EInsert w i x =>
      do l <- sread vs w; do m <- sread vs x;
      if (0 <=? i) && (i <=? zlen l) then keep (Ok (take i l ++ m ++ drop i l)) else Err
  | EConcat w x => do l <- sread vs w; do m <- sread vs x; keep (Ok (l ++ m))
  | EConcatLit w p =>
      do l <- sread vs w;
      match p with None => keep (Ok l) | Some mem => do m <- c_string mem; keep (Ok (l ++ m)) end
  | ELitConcat p w => do l <- sread vs w; do m <- literal p; keep (Ok (m ++ l))
  end.

(* Lexicographic order, a proper prefix being smaller *)
Fixpoint lex (a b : list Z) : comparison :=
  match a, b with
  | [], [] => Eq
  | [], _ => Lt
  | _, [] => Gt
  | x :: a', y :: b' => match x ?= y with Eq => lex a' b' | d => d end
  end.

(* position of the first c, or -1 *)
Fixpoint first_pos (c : Z) (l : list Z) : Z :=
  match l with
  | [] => -1
  | x :: l' => if x =? c then 0 else
               let r := first_pos c l' in if r =? -1 then -1 else r + 1
  end.

(* Outputs: as in the model, but Buffer() is specified by the characters it must show *)
Inductive sout := SNone | SError | SInt (z : Z) | SCmp (c : comparison) | SChars (l : list Z).

Definition sstep_raw (vs : values) (o : op) : res (values * sout) :=
  match o with
  | OInit v e =>
      match nth_error vs v with
      | Some None => do (vs', l) <- seval vs e; Ok (upd vs' v (Some l), SNone)
      | _ => UB
      end
  | OSet v e =>
      do _ <- sread vs v; do (vs', l) <- seval vs e; Ok (upd vs' v (Some l), SNone)
  | OAssign v w => do _ <- sread vs v; do l <- sread vs w; Ok (upd vs v (Some l), SNone)
  | OMoveAssign v w =>
      do _ <- sread vs v; do l <- sread vs w;
      if Nat.eqb v w then Ok (vs, SNone) else Ok (upd (upd vs v (Some l)) w (Some []), SNone)
  | ODestroy v => do _ <- sread vs v; Ok (upd vs v None, SNone)
  | OBuffer v => do l <- sread vs v; Ok (vs, SChars l)
  | OAt v i =>
      do l <- sread vs v;
      if (0 <=? i) && (i <? zlen l) then do c <- aget l i; Ok (vs, SInt c) else Err
  | OLength v => do l <- sread vs v; Ok (vs, SInt (zlen l))
  | OIndexOf v c => do l <- sread vs v; Ok (vs, SInt (first_pos c l))
  | OCompare v w => do l <- sread vs v; do m <- sread vs w; Ok (vs, SCmp (lex l m))
  end.

Definition sstep (vs : values) (o : op) : res (values * sout) :=
  match sstep_raw vs o with Err => Ok (vs, SError) | r => r end.

Fixpoint srun (vs : values) (os : list op) : res (values * list sout) :=
  match os with
  | [] => Ok (vs, [])
  | o :: os' => do (vs', r) <- sstep vs o; do (vs'', rs) <- srun vs' os'; Ok (vs'', r :: rs)
  end.

(* The concrete output agrees: Buffer() points at the characters followed by a zero *)
Definition out_ok (r : out) (s : sout) : Prop :=
  match r, s with
  | RNone, SNone => True
  | RError, SError => True
  | RInt z, SInt z' => z = z'
  | RCmp c, SCmp c' => c = c'
  | RMem mem, SChars l => firstn (length l + 1) mem = map Some l ++ [Some 0]
  | _, _ => False
  end.

(* The characters a string shows through its window *)
Definition content (h : heap) (x : str) : res (list Z) :=
  do cs <- cells_of h (buf x); mem_read cs (start x) (len x).

Definition shows (s : state) (vs : values) : Prop :=
  Forall2 (fun x v =>
    match x, v with
    | Some st, Some l => content (hp s) st = Ok l /\ len st = zlen l
    | None, None => True
    | _, _ => False
    end) (vars s) vs.

(* number of live variables that hold a counted reference to block b *)
Definition refs (b : nat) (xs : list (option str)) : nat :=
  length (filter (fun x => match x with
                           | Some st => managed st && Nat.eqb (buf st) b
                           | None => false end) xs).

(* variables a statement may change *)
Definition targets (o : op) : list nat :=
  match o with
  | OInit v (EMove w) | OSet v (EMove w) | OMoveAssign v w => [v; w]
  | OInit v _ | OSet v _ | OAssign v _ | ODestroy v => [v]
  | _ => []
  end.

(* What the pointer buffer + start points at, up to the end of its block *)
Definition memory (h : heap) (x : str) : res (list (option Z)) :=
  do cs <- cells_of h (buf x); Ok (skipn (Z.to_nat (start x)) cs).
