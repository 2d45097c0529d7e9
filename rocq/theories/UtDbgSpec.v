(* The options of the test runner, and what a run without suppression should do. *)
From Verif Require Import Base UtModel UtSpec.

(* ---- options ---- *)
(* /D, /R, and /F: with a name *)
Definition slash_D : text := [47; 68].
Definition slash_R : text := [47; 82].
Definition recognized (o : text) : Prop := o = slash_D \/ o = slash_R \/ exists f, f <> [] /\ o = [47; 70; 58] ++ f.
(* the files named by /F: options, in the order given *)
Definition filters_of (os : list text) : list text :=
  flat_map (fun o => match o with 47 :: 70 :: 58 :: c :: f => [c :: f] | _ => [] end) os.

(* ---- without suppression: nothing runs after the first exception that the test does not catch ---- *)
(* b in a place of kind k: what is announced, and the exception that leaves b *)
Fixpoint first (k : kind) (b : body) : list uev * option exn :=
  match b with
  | Done => ([], None)
  | Raise x => ([], Some x)
  | Nest cat d b rest =>
      if inside k then ([], Some XConfig)
      else
        match first (if cat then Category else Case) b with
        | (l1, Some x) => (Begin cat d :: l1, Some x)
        | (l1, None) => let (l2, x) := first k rest in (Begin cat d :: l1 ++ (if cat then [] else [CaseDone d false]) ++ l2, x)
        end
  | Assert c rest => if inside k then if c then first k rest else ([], Some XAssert) else ([], Some XConfig)
  | ExpectError b rest =>
      if inside k then
        match first k b with
        | (l1, Some XError) => let (l2, x) := first k rest in (l1 ++ l2, x)
        | (l1, None) => (l1, Some XAssert)
        | (l1, Some x) => (l1, Some x)
        end
      else ([], Some XConfig)
  | ExpectExn b e h rest =>
      let (l1, x) := first k b in
      if same (match x with None => XAssert | Some x => x end) e then
        match first k h with
        | (l2, None) => let (l3, z) := first k rest in (l1 ++ l2 ++ l3, z)
        | (l2, Some y) => (l1 ++ l2, Some y)
        end
      else (l1, Some XAssert)
  | TryAll b rest => let (l1, _) := first k b in let (l2, x) := first k rest in (l1 ++ l2, x)
  end.
(* no exception is caught by the test itself after it left a category or case: see C52_debug_catch_refuted *)
Fixpoint nests (b : body) : bool :=
  match b with
  | Done | Raise _ => false
  | Nest _ _ _ _ => true
  | Assert _ k => nests k
  | ExpectError b k | TryAll b k => nests b || nests k
  | ExpectExn b _ h k => nests b || nests h || nests k
  end.
Fixpoint tidy (k : kind) (b : body) : Prop :=
  match b with
  | Done | Raise _ => True
  | Nest cat _ b rest => tidy (if cat then Category else Case) b /\ tidy k rest
  | Assert _ rest => tidy k rest
  | ExpectError b rest => tidy k b /\ tidy k rest
  | ExpectExn b _ h rest => (inside k = true \/ nests b = false \/ snd (first k b) = None) /\ tidy k b /\ tidy k h /\ tidy k rest
  | TryAll b rest => (inside k = true \/ nests b = false \/ snd (first k b) = None) /\ tidy k b /\ tidy k rest
  end.
(* the files in order, up to the first one that an exception leaves *)
Fixpoint files_first (filters : list text) (i : nat) (fs : list (text * body)) : list uev * option exn :=
  match fs with
  | [] => ([], None)
  | (name, b) :: fs =>
      if selected filters name then
        match first File b with
        | (l1, Some x) => (l1, Some x)
        | (l1, None) => let (l2, x) := files_first filters (S i) fs in (l1 ++ FileDone i false :: l2, x)
        end
      else let (l2, x) := files_first filters (S i) fs in (Skipped i :: l2, x)
  end.
