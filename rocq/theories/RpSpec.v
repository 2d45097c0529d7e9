(* The report as a tree printed with indentation, without contexts and counters; and how to read a report. *)
From Verif Require Import Base RpModel.

(* ---- the lines of a test ------------------------------------------------------------ *)
(* the message of an exception; only the types of this library and of the standard library have one *)
Definition says (x : exn) : option nat :=
  match x with XAssert m => Some m | XConfig m => Some m | XError m => Some m | XException m => Some m | XUnknown _ => None end.
Definition inside (k : mkind) : bool := match k with Case => true | _ => false end.
Definition oops (n : nat) (x : option exn) : list line :=
  match x with
  | None => []
  | Some e => [mkL Error n (match says e with Some m => TFail m | None => TUnknown end)]
  end.
(* b in a place of kind k, with indentation n: the lines, and the exception that leaves b *)
Fixpoint shown (n : nat) (k : mkind) (b : body) : list line * option exn :=
  match b with
  | Done => ([], None)
  | Raise x => ([], Some x)
  | Print m rest => let (l, x) := shown n k rest in (mkL Info n (TNote m) :: l, x)
  | Nest cat d b rest =>
      let k' := if cat then Category else Case in
      if inside k then ([], Some (XConfig bad_place))
      else
        let (l1, x) := shown (n + 4) k' b in
        let (l2, y) := shown n k rest in
        (mkL k' n (TDesc d) :: l1 ++ oops (n + 4) x ++ l2, y)
  | Assert c m rest => if inside k then if c then shown n k rest else ([], Some (XAssert m)) else ([], Some (XConfig bad_place))
  | ExpectError b m rest =>
      if inside k then
        let (l1, x) := shown n k b in
        match x with
        | Some (XError _) => let (l2, y) := shown n k rest in (l1 ++ l2, y)
        | None => (l1, Some (XAssert m))
        | Some x => (l1, Some x)
        end
      else ([], Some (XConfig bad_place))
  | ExpectExn b p m m' h rest =>
      let (l1, x) := shown n k b in
      if p (match x with None => XAssert m | Some x => x end) then
        let (l2, y) := shown n k h in
        match y with
        | None => let (l3, z) := shown n k rest in (l1 ++ l2 ++ l3, z)
        | Some y => (l1 ++ l2, Some y)
        end
      else (l1, Some (XAssert m'))
  | TryAll b rest => let (l1, _) := shown n k b in let (l2, y) := shown n k rest in (l1 ++ l2, y)
  end.
Definition file_lines (f : nat * bool * body) : list line :=
  match f with
  | (f, true, b) => let (l, x) := shown 4 File b in mkL File 0 (TName f) :: l ++ oops 4 x
  | (f, false, _) => [mkL File 0 (TSkipped f)]
  end.
Definition files_lines (fs : list (nat * bool * body)) : list line := flat_map file_lines fs.

(* ---- reading a report ---------------------------------------------------------------- *)
(* the lines below a line with indentation n: those that follow it and are indented more *)
Fixpoint below (n : nat) (ls : list line) : list line :=
  match ls with
  | [] => []
  | l :: ls => if (n <? indent l)%nat then l :: below n ls else []
  end.
Definition is_error (l : line) : bool := match lkind l with Error => true | _ => false end.
Definition is_case_line (l : line) : bool := match l with mkL Case _ (TDesc _) => true | _ => false end.
Definition is_file_line (l : line) : bool := match l with mkL File _ (TName _) => true | _ => false end.
(* the number of lines that are f, and of those with no error below *)
Fixpoint count (f : line -> bool) (ls : list line) : nat :=
  match ls with [] => 0 | l :: ls => (if f l then 1 else 0) + count f ls end.
Fixpoint clean (f : line -> bool) (ls : list line) : nat :=
  match ls with
  | [] => 0
  | l :: ls => (if f l && negb (existsb is_error (below (indent l) ls)) then 1 else 0) + clean f ls
  end.
(* the last two lines *)
Definition summary (fs : list (nat * bool * body)) : list line :=
  let ls := files_lines fs in
  let k := if Nat.eqb (count is_file_line ls) (clean is_file_line ls) then Case else Error in
  [mkL k 0 (TFiles (clean is_file_line ls) (count is_file_line ls)); mkL k 0 (TCases (clean is_case_line ls) (count is_case_line ls))].
