(* The report of the unit test runner, with failures suppressed: Source/UnitTest/UnitTest.cpp and the macros of UnitTest.h.
   Simplifications: texts are numbers; whether a file passes the filter is an input (C52 describes the filter); __try of
   MSVC is not modelled. *)
From Verif Require Import Base.

(* UnitTest.h:115-122 *)
Inductive mkind := Info | Error | File | Category | Case.
(* what may be thrown: UnitTestAssertError, UnitTestConfigError, vl::Error, vl::Exception, anything else (UnitTest.cpp:68-87) *)
Inductive exn := XAssert (m : nat) | XConfig (m : nat) | XError (m : nat) | XException (m : nat) | XUnknown (m : nat).
Definition message (x : exn) : option nat :=
  match x with XAssert m | XConfig m | XError m | XException m => Some m | XUnknown _ => None end.
(* the texts of the report *)
Inductive text :=
| TStart                             (* Failures are suppressed. *)
| TName (f : nat)                    (* the name of a file *)
| TSkipped (f : nat)                 (* the name of a file and [SKIPPED] *)
| TDesc (d : nat)                    (* the description of a category or case *)
| TNote (m : nat)                    (* TEST_PRINT *)
| TFail (m : nat)                    (* the message of an exception *)
| TUnknown                           (* Unknown exception occurred! *)
| TFiles (p t : nat)                 (* Passed test files: p/t *)
| TCases (p t : nat).                (* Passed test cases: p/t *)
(* a line of the report *)
Record line := mkL { lkind : mkind; indent : nat; said : text }.

(* the code of a test *)
Inductive body :=
| Done
| Raise (x : exn)
| Print (m : nat) (k : body)                                      (* TEST_PRINT: UnitTest.h:207-208 *)
| Nest (category : bool) (d : nat) (b : body) (k : body)          (* TEST_CATEGORY, TEST_CASE: 178-182 *)
| Assert (c : bool) (m : nat) (k : body)                          (* TEST_ASSERT: 184-188 *)
| ExpectError (b : body) (m : nat) (k : body)                     (* TEST_ERROR: 190-197 *)
| ExpectExn (b : body) (p : exn -> bool) (m m' : nat) (h k : body)  (* TEST_EXCEPTION: 199-205; p: EXCEPTION matches *)
| TryAll (b : body) (k : body).                                   (* try { b } catch (...) {} in the test itself *)

(* UnitTestContext: UnitTest.cpp:34-40, innermost first *)
Record context := mkX { cind : nat; ckind : mkind; failed : bool }.
Record rs := mkR { ctx : list context; totalCases : nat; passedCases : nat; out : list line }.
Definition set_ctx (s : rs) c := mkR c (totalCases s) (passedCases s) (out s).
Definition is_case (k : mkind) : bool := match k with Case => true | _ => false end.
Definition bad_place : nat := 0.                                  (* the messages of UnitTestConfigError *)

(* PrintMessage: UnitTest.cpp:122-148 *)
Definition print (s : rs) (k : mkind) (t : text) : rs * option exn :=
  match ctx s with
  | [] => match k with
          | Error => (mkR (ctx s) (totalCases s) (passedCases s) (out s ++ [mkL k 0 t]), None)
          | _ => (s, Some (XConfig bad_place))
          end
  | c :: _ => (mkR (ctx s) (totalCases s) (passedCases s) (out s ++ [mkL k (cind c) t]), None)
  end.
(* RecordFailure: UnitTest.cpp:49-59, with the catch clauses 68-87 *)
Definition record (s : rs) (x : exn) : rs :=
  let s := fst (print s Error (match message x with Some m => TFail m | None => TUnknown end)) in
  set_ctx s (map (fun c => mkX (cind c) (ckind c) true) (ctx s)).
(* ExecuteAndSuppressFailure: UnitTest.cpp:61-118 *)
Definition suppressed (s : rs) (x : option exn) : rs := match x with None => s | Some e => record s e end.

Fixpoint exec (b : body) (s : rs) : res (rs * option exn) :=
  match b with
  | Done => Ok (s, None)
  | Raise x => Ok (s, Some x)
  | Print m k =>
      match print s Info (TNote m) with
      | (s, None) => exec k s
      | (s, Some e) => Ok (s, Some e)
      end
  | Nest cat d b k =>                                             (* RunCategoryOrCase: UnitTest.cpp:315-338 *)
      match ctx s with
      | [] => Ok (s, Some (XConfig bad_place))
      | c :: _ =>
          if is_case (ckind c) then Ok (s, Some (XConfig bad_place)) else
          let s := fst (print s (if cat then Category else Case) (TDesc d)) in
          let s := set_ctx s (mkX (cind c + 4) (if cat then Category else Case) false :: ctx s) in
          do (s, x) <- exec b s;
          let s := suppressed s x in
          match ctx s with
          | c :: parent =>
              let s := if cat then s else mkR (ctx s) (S (totalCases s)) (if failed c then passedCases s else S (passedCases s)) (out s) in
              exec k (set_ctx s parent)
          | [] => UB
          end
      end
  | Assert c m k =>
      match ctx s with
      | x :: _ => if is_case (ckind x) then if c then exec k s else Ok (s, Some (XAssert m)) else Ok (s, Some (XConfig bad_place))
      | [] => Ok (s, Some (XConfig bad_place))
      end
  | ExpectError b m k =>
      match ctx s with
      | x :: _ =>
          if negb (is_case (ckind x)) then Ok (s, Some (XConfig bad_place)) else
          do (s, x) <- exec b s;
          match x with
          | None => Ok (s, Some (XAssert m))
          | Some (XError _) => exec k s
          | Some x => Ok (s, Some x)
          end
      | [] => Ok (s, Some (XConfig bad_place))
      end
  | ExpectExn b p m m' h k =>
      do (s, x) <- exec b s;
      if p (match x with None => XAssert m | Some x => x end) then
        do (s, y) <- exec h s;
        match y with None => exec k s | Some y => Ok (s, Some y) end
      else Ok (s, Some (XAssert m'))
  | TryAll b k => do (s, _) <- exec b s; exec k s
  end.

(* a file: its name, whether it passes the filter, its code.  UnitTest.cpp:211-262; the context of the file is reused:
   failed is reset (216), the indentation is set and reset (253, 257) *)
Fixpoint run_files (fs : list (nat * bool * body)) (s : rs) (passed total : nat) : res (rs * nat * nat) :=
  match fs with
  | [] => Ok (s, passed, total)
  | (f, chosen, b) :: fs =>
      let s := set_ctx s [mkX 0 File false] in
      if chosen : bool then
        let s := fst (print s File (TName f)) in
        do (s, x) <- exec b (set_ctx s [mkX 4 File false]);
        let s := suppressed s x in
        match ctx s with
        | c :: _ => run_files fs s (if failed c then passed else S passed) (S total)
        | [] => UB
        end
      else run_files fs (fst (print s File (TSkipped f))) passed total
  end.
(* UnitTest.cpp:196-273: the result and the report *)
Definition run_tests (fs : list (nat * bool * body)) : res (nat * list line) :=
  let s := mkR [mkX 0 File false] 0 0 [] in
  let s := fst (print s Info TStart) in
  do (s, passed, total) <- run_files fs s 0 0;
  let s := set_ctx s [mkX 0 File false] in
  let ok := Nat.eqb total passed in
  let k := if ok then Case else Error in
  let s := fst (print s k (TFiles passed total)) in
  let s := fst (print s k (TCases (passedCases s) (totalCases s))) in
  Ok (if ok then 0 else 1, out s).
