(* Event with callbacks that do anything: Source/Primitives/Event.h:24-104.  A callback may add and remove handlers
   of any event, drop handlers, raise events (also the one that is being raised) and keep state of its own. *)
From Verif Require Import Base LstModel SrtModel EvtModel EvtSpec.
Open Scope Z_scope.

(* how an execution ends *)
Inductive rr (A : Type) := ROk (a : A) | RMisuse      (* a client breaks the rules of EvtSpec.client *)
| RGone (h : nat)                                      (* a handler was destroyed while its callback runs *)
| RFault                                               (* the library does something undefined *)
| RFuel.
Arguments ROk {A}. Arguments RMisuse {A}. Arguments RGone {A}. Arguments RFault {A}. Arguments RFuel {A}.
Definition rbind {A B} (x : rr A) (f : A -> rr B) : rr B :=
  match x with ROk a => f a | RMisuse => RMisuse | RGone h => RGone h | RFault => RFault | RFuel => RFuel end.
Definition of_res {A} (x : res A) : rr A := match x with Ok a => ROk a | NoFuel => RFuel | _ => RFault end.

Section code.
  Context (V : Type) (moved : V) (U : Type).           (* the argument of the events; the state of the program *)
  Inductive code :=
  | Ret
  | Act (o : cop) (k : eout V -> code)
  | Raise (e : nat) (v : V) (rv : bool) (k : code)
  | Get (k : U -> code)
  | Put (u : U) (k : code).
  Inductive tev := TOp (o : cop) (r : eout V) | TCall (e h f : nat) (v : V) | TEnd (e : nat).
  (* ledger: who holds which handler.  The library does not have it; it only says what a client may do and when a
     handler is destroyed (when nobody holds it and no event contains it) *)
  Record es := mkES { world : ew; ledger : list srec; user : U }.
  Definition live_b (r : srec) : bool := sheld r || match sat r with Some _ => true | None => false end.
  Definition held_b (s : list srec) (h : nat) : bool := match nth_error s h with Some r => sheld r | None => false end.
  Definition allowed (n : nat) (busy : list nat) (s : list srec) (o : cop) : bool :=
    match o with
    | EAdd e f a => Nat.ltb e n && forallb (fun r => negb (live_b r && (saddr r =? a))) s
    | ERemove e h => Nat.ltb e n && held_b s h
    | EAttached h | EDrop h => held_b s h
    | ERenew e => Nat.ltb e n && negb (existsb (Nat.eqb e) busy)          (* not while it is being raised *)
    end.
  Definition book (s : list srec) (o : cop) : list srec :=
    match o with
    | EAdd e f a => s ++ [mkS f a (Some e) true true]
    | ERemove e h =>
        match nth_error s h with
        | Some r => match sat r with Some e' => if Nat.eqb e e' then upd s h (mkS (sfn r) (saddr r) None false (sheld r)) else s | None => s end
        | None => s
        end
    | EAttached h => s
    | EDrop h => match nth_error s h with Some r => upd s h (mkS (sfn r) (saddr r) (sat r) (sflag r) false) | None => s end
    | ERenew e => map (leave e) s
    end.
  (* the first handler of running that was destroyed *)
  Definition gone (s : list srec) (running : list nat) : option nat :=
    find (fun h => match nth_error s h with Some r => negb (live_b r) | None => true end) running.

  Section exec.
    Context (n : nat) (beh : nat -> V -> code).        (* number of events; what function f does *)
    (* raise: operator(), 96-103 *)
    Section run.
      Context (rz : list nat -> list nat -> nat -> Z -> V -> bool -> es -> rr (es * list tev)).
      Context (busy running : list nat).               (* the events being raised and the handlers being called *)
      Fixpoint run_code (c : code) (s : es) : rr (es * list tev) :=
        match c with
        | Ret => ROk (s, [])
        | Act o k =>
            if allowed n busy (ledger s) o then
              rbind (of_res (cstep V (world s) o)) (fun '(w, r) =>
              let l := book (ledger s) o in
              match gone l running with
              | Some h => RGone h
              | None => rbind (run_code (k r) (mkES w l (user s))) (fun '(s, t) => ROk (s, TOp o r :: t))
              end)
            else RMisuse
        | Raise e v rv k =>
            if Nat.ltb e n then
              rbind (rz busy running e 0 v rv s) (fun '(s, t1) =>
              rbind (run_code k s) (fun '(s, t2) => ROk (s, t1 ++ t2)))
            else RMisuse
        | Get k => run_code (k (user s)) s
        | Put u k => run_code k (mkES (world s) (ledger s) u)
        end.
    End run.
    Fixpoint raise_any (fuel : nat) (busy running : list nat) (e : nat) (i : Z) (v : V) (rv : bool) (s : es) : rr (es * list tev) :=
      match fuel with
      | O => RFuel
      | S fuel =>
          match nth_error (evs (world s)) e with
          | None => RFault
          | Some x =>
              if i <? count x then
                rbind (of_res (get (Z * nat) x i)) (fun p =>
                match nth_error (hs (world s)) (snd p) with
                | None => RFault
                | Some r =>
                    rbind (run_code (raise_any fuel) (e :: busy) (snd p :: running) (beh (hfn r) v) s) (fun '(s, t1) =>
                    rbind (raise_any fuel busy running e (i + 1) (if rv then moved else v) rv s) (fun '(s, t2) =>
                    ROk (s, TCall e (snd p) (hfn r) v :: t1 ++ t2)))
                end)
              else ROk (s, [TEnd e])
          end
      end.
    (* a program that starts with n events and no handlers *)
    Definition run_program (fuel : nat) (c : code) (u : U) : rr (es * list tev) :=
      run_code (raise_any fuel) [] [] c (mkES (events n) [] u).
  End exec.
End code.
Arguments Ret {V U}. Arguments Act {V U}. Arguments Raise {V U}. Arguments Get {V U}. Arguments Put {V U}.
Arguments TOp {V}. Arguments TCall {V}. Arguments TEnd {V}.
Arguments mkES {U}. Arguments world {U}. Arguments ledger {U}. Arguments user {U}.
