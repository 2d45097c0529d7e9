(* What a run of the tests should report, without contexts and counters. *)
From Verif Require Import Base UtModel.

(* the same exception *)
Definition exn_dec (a b : exn) : {a = b} + {a <> b}.
Proof. decide equality. apply Nat.eq_dec. Defined.
Definition same (a b : exn) : bool := if exn_dec a b then true else false.

(* in a test case *)
Definition inside (k : kind) : bool := match k with Case => true | File => false | Category => false end.
(* b in a place of kind k: what is announced, the exception that leaves b, and whether something inside b failed *)
Fixpoint sem (k : kind) (b : body) : list uev * option exn * bool :=
  match b with
  | Done => ([], None, false)
  | Raise x => ([], Some x, false)
  | Nest cat d b rest =>
      if inside k then ([], Some XConfig, false)                 (* not allowed in a test case *)
      else
        let '(l1, x, f) := sem (if cat then Category else Case) b in
        let failed := f || match x with Some _ => true | None => false end in        (* failed iff it raised *)
        let '(l2, x2, f2) := sem k rest in                        (* in any case the rest runs *)
        (Begin cat d :: l1 ++ (if cat then [] else [CaseDone d failed]) ++ l2, x2, failed || f2)
  | Assert c rest => if inside k then if c then sem k rest else ([], Some XAssert, false) else ([], Some XConfig, false)
  | ExpectError b rest =>
      if negb (inside k) then ([], Some XConfig, false)
      else
        let '(l1, x, f) := sem k b in
        match x with
        | Some XError => let '(l2, x2, f2) := sem k rest in (l1 ++ l2, x2, f || f2)
        | None => (l1, Some XAssert, f)
        | Some x => (l1, Some x, f)
        end
  | ExpectExn b e h rest =>
      let '(l1, x, f) := sem k b in
      if same (match x with None => XAssert | Some x => x end) e then
        let '(l2, y, f2) := sem k h in
        match y with
        | None => let '(l3, z, f3) := sem k rest in (l1 ++ l2 ++ l3, z, f || f2 || f3)
        | Some y => (l1 ++ l2, Some y, f || f2)
        end
      else (l1, Some XAssert, f)
  | TryAll b rest => let '(l1, _, f) := sem k b in let '(l2, x, f2) := sem k rest in (l1 ++ l2, x, f || f2)
  end.
(* a file fails iff something in it raised and was not caught by the test itself *)
Definition file_failed (b : body) : bool := let '(_, x, f) := sem File b in f || match x with Some _ => true | None => false end.
Fixpoint files_log (filters : list text) (i : nat) (fs : list (text * body)) : list uev :=
  match fs with
  | [] => []
  | (name, b) :: fs =>
      (if selected filters name then fst (fst (sem File b)) ++ [FileDone i (file_failed b)] else [Skipped i]) ++ files_log filters (S i) fs
  end.
Definition count_if {A} (f : A -> bool) (l : list A) : nat := length (filter f l).
Definition is_case (e : uev) : bool := match e with CaseDone _ _ => true | _ => false end.
Definition is_passed_case (e : uev) : bool := match e with CaseDone _ f => negb f | _ => false end.
Definition chosen (filters : list text) (fs : list (text * body)) : list (text * body) := filter (fun p => selected filters (fst p)) fs.
(* the filter names the whole path, or the end of it after a slash or backslash *)
Definition names (file f : text) : Prop := file = f \/ exists p c, (c = 47 \/ c = 92) /\ file = p ++ c :: f.
