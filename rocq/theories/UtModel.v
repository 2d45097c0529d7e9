(* The unit test runner: Source/UnitTest/UnitTest.cpp and the macros of UnitTest.h:173-211.
   Console output is not modelled, except for the order of what is announced. *)
From Verif Require Import Base.

(* what a test may throw: UnitTestAssertError, UnitTestConfigError, vl::Error, anything else *)
Inductive exn := XAssert | XConfig | XError | XOther (n : nat).
Definition exn_eqb (a b : exn) : bool :=
  match a, b with XAssert, XAssert | XConfig, XConfig | XError, XError => true | XOther n, XOther m => Nat.eqb n m | _, _ => false end.
(* the code of a test: a sequence that ends with Done or Raise *)
Inductive body :=
| Done
| Raise (x : exn)
| Nest (category : bool) (d : nat) (b : body) (k : body)          (* TEST_CATEGORY / TEST_CASE; d is the description *)
| Assert (c : bool) (k : body)                                    (* TEST_ASSERT *)
| ExpectError (b : body) (k : body)                               (* TEST_ERROR *)
| ExpectExn (b : body) (x : exn) (h : body) (k : body)            (* TEST_EXCEPTION; h is ASSERT_FUNCTION *)
| TryAll (b : body) (k : body).                                   (* try { b } catch (...) {} in the test itself *)

Inductive kind := File | Category | Case.                         (* UnitTest.cpp:27-32 *)
Definition in_case (k : kind) : bool := match k with Case => true | _ => false end.
Inductive uev := Begin (category : bool) (d : nat) | CaseDone (d : nat) (failed : bool) | FileDone (f : nat) (failed : bool) | Skipped (f : nat).
(* testContext with its parents, innermost first (34-42); dangling: testContext points to a context that is gone *)
Record us := mkUS { ctx : list (kind * bool); dangling : bool; totalCases : nat; passedCases : nat; ulog : list uev }.
Definition set_ctx (s : us) c := mkUS c (dangling s) (totalCases s) (passedCases s) (ulog s).
Definition say (s : us) (e : uev) := mkUS (ctx s) (dangling s) (totalCases s) (passedCases s) (ulog s ++ [e]).
(* RecordFailure: 49-59 *)
Definition record (s : us) : us := set_ctx s (map (fun f => (fst f, true)) (ctx s)).

Section exec.
  Context (suppress : bool).                                      (* suppressFailure *)
  (* ExecuteAndSuppressFailure: 61-118, after the callback ended with x *)
  Definition suppressed (s : us) (x : option exn) : us * option exn :=
    match x with
    | None => (s, None)
    | Some e => if suppress then (record s, None) else (s, Some e)
    end.
  Fixpoint exec (b : body) (s : us) : res (us * option exn) :=
    match b with
    | Done => Ok (s, None)
    | Raise x => Ok (s, Some x)
    | Nest cat d b k =>                                           (* RunCategoryOrCase: 315-338 *)
        if dangling s then UB else
        match ctx s with
        | [] => Ok (s, Some XConfig)
        | (k0, _) :: _ =>
            if in_case k0 then Ok (s, Some XConfig) else
            let s := set_ctx (say s (Begin cat d)) ((if cat then Category else Case, false) :: ctx s) in
            do (s, x) <- exec b s;
            let (s, x) := suppressed s x in
            match x with
            | Some e => Ok (mkUS (ctx s) true (totalCases s) (passedCases s) (ulog s), Some e)     (* testContext is not restored *)
            | None =>
                match ctx s with
                | (_, failed) :: parent =>
                    let s := if cat then s else say (mkUS (ctx s) (dangling s) (S (totalCases s)) (if failed then passedCases s else S (passedCases s)) (ulog s)) (CaseDone d failed) in
                    exec k (set_ctx s parent)
                | [] => UB
                end
            end
        end
    | Assert c k =>                                               (* UnitTest.h:184-188, EnsureLegalToAssert: UnitTest.cpp:340-344 *)
        if dangling s then UB else
        match ctx s with
        | (k0, _) :: _ => if in_case k0 then if c then exec k s else Ok (s, Some XAssert) else Ok (s, Some XConfig)
        | [] => Ok (s, Some XConfig)
        end
    | ExpectError b k =>                                          (* UnitTest.h:190-197 *)
        if dangling s then UB else
        match ctx s with
        | (k0, _) :: _ =>
            if negb (in_case k0) then Ok (s, Some XConfig) else
            do (s, x) <- exec b s;
            match x with
            | None => Ok (s, Some XAssert)
            | Some XError => exec k s
            | Some x => Ok (s, Some x)
            end
        | [] => Ok (s, Some XConfig)
        end
    | ExpectExn b e h k =>                                        (* UnitTest.h:199-205; throwing inside the try block *)
        do (s, x) <- exec b s;
        let x := match x with None => XAssert | Some x => x end in
        if exn_eqb x e then
          do (s, y) <- exec h s;
          match y with None => exec k s | Some y => Ok (s, Some y) end
        else Ok (s, Some XAssert)
    | TryAll b k => do (s, _) <- exec b s; exec k s
    end.
End exec.

(* ---- the runner: RunAndDisposeTests, UnitTest.cpp:157-273 ---- *)
Definition text := list nat.                                      (* characters *)
Definition eqt (a b : text) : bool := if list_eq_dec Nat.eq_dec a b then true else false.
Definition slash := 47. Definition backslash := 92.
(* 224-243 *)
Definition matches (file filter : text) : bool :=
  if eqt file filter then true
  else
    let len := length file in
    if Nat.ltb (length filter) len then
      match nth_error file (len - length filter - 1) with
      | Some c => (Nat.eqb c slash || Nat.eqb c backslash) && eqt (skipn (len - length filter) file) filter
      | None => false
      end
    else false.
Definition selected (filters : list text) (file : text) : bool :=
  match filters with [] => true | _ => existsb (matches file) filters end.
(* 160-183; None: an unrecognised option or both of /D and /R *)
Definition opt_D : text := [47; 68]. Definition opt_R : text := [47; 82]. Definition opt_F : text := [47; 70; 58].
Fixpoint parse (os : list text) (d r : bool) (fs : list text) : option (bool * bool * list text) :=
  match os with
  | [] => if d && r then None else Some (d, r, fs)
  | o :: os =>
      if eqt o opt_D then parse os true r fs
      else if eqt o opt_R then parse os d true fs
      else if Nat.ltb 3 (length o) && eqt (firstn 3 o) opt_F then parse os d r (fs ++ [skipn 3 o])
      else None
  end.
(* 211-262 *)
Fixpoint run_files (suppress : bool) (filters : list text) (i : nat) (fs : list (text * body)) (s : us) (passed total : nat) : res (us * option exn * nat * nat) :=
  match fs with
  | [] => Ok (s, None, passed, total)
  | (name, b) :: fs =>
      if selected filters name then
        do (s, x) <- exec suppress b (set_ctx s [(File, false)]);
        let (s, x) := suppressed suppress s x in
        match x with
        | Some e => Ok (s, Some e, passed, total)
        | None =>
            let failed := match ctx s with (_, f) :: _ => f | [] => false end in
            run_files suppress filters (S i) fs (say s (FileDone i failed)) (if failed then passed else S passed) (S total)
        end
      else run_files suppress filters (S i) fs (say s (Skipped i)) passed total
  end.
Inductive result := Usage | Threw (e : exn) (s : us) | Returned (code : nat) (s : us) (passed total : nat).
Definition run_tests (debugger : bool) (options : list text) (fs : list (text * body)) : res result :=
  match parse options false false [] with
  | None => Ok Usage                                              (* returns 1 *)
  | Some (d, r, filters) =>
      let suppress := if d then false else if r then true else negb debugger in
      do p <- run_files suppress filters 0 fs (mkUS [(File, false)] false 0 0 []) 0 0;
      match p with
      | (s, Some e, _, _) => Ok (Threw e s)
      | (s, None, passed, total) => Ok (Returned (if Nat.eqb total passed then 0 else 1) s passed total)
      end
  end.
