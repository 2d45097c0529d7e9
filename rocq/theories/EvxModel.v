(* Event with callbacks that throw: Source/Primitives/Event.h:24-104.  Code may do all that code of EvrModel may do, and
   also throw and catch exceptions.  operator() (96-103) catches nothing: an exception of a callback leaves the loop. *)
From Verif Require Import Base LstModel SrtModel EvtModel EvtSpec EvrModel.
Open Scope Z_scope.

Section code.
  Context (V : Type) (moved : V) (U X : Type).         (* the argument of the events; the state of the program; the exceptions *)
  Inductive xcode :=
  | XRet
  | XAct (o : cop) (k : eout V -> xcode)
  | XRaise (e : nat) (v : V) (rv : bool) (k : xcode)
  | XThrow (x : X)
  | XTry (body : xcode) (handler : X -> xcode) (k : xcode)      (* try { body } catch (X x) { handler(x) } k *)
  | XGet (k : U -> xcode)
  | XPut (u : U) (k : xcode).
  (* XLeft: exception x leaves the raise of e; XCatch: it is caught *)
  Inductive xev := XOp (o : cop) (r : eout V) | XCall (e h f : nat) (v : V) | XEnd (e : nat) | XThrown (x : X) | XLeft (e : nat) (x : X) | XCatch (x : X).
  (* the state, what was observed, and the exception by which the code was left *)
  Notation xres := (rr (es U * list xev * option X)).

  Section exec.
    Context (n : nat) (beh : nat -> V -> xcode).
    Section run.
      Context (rz : list nat -> list nat -> nat -> Z -> V -> bool -> es U -> xres).
      Context (busy running : list nat).
      (* the model of client code, as in EvrModel.run_code *)
      Fixpoint xrun_code (c : xcode) (s : es U) : xres :=
        match c with
        | XRet => ROk (s, [], None)
        | XAct o k =>
            if allowed n busy (ledger s) o then
              rbind (of_res (cstep V (world s) o)) (fun '(w, r) =>
              let l := book (ledger s) o in
              match gone l running with
              | Some h => RGone h
              | None => rbind (xrun_code (k r) (mkES w l (user s))) (fun '(s, t, x) => ROk (s, XOp o r :: t, x))
              end)
            else RMisuse
        | XRaise e v rv k =>
            if Nat.ltb e n then
              rbind (rz busy running e 0 v rv s) (fun '(s, t1, x) =>
              match x with
              | Some x => ROk (s, t1, Some x)
              | None => rbind (xrun_code k s) (fun '(s, t2, x) => ROk (s, t1 ++ t2, x))
              end)
            else RMisuse
        | XThrow x => ROk (s, [XThrown x], Some x)
        | XTry body handler k =>
            rbind (xrun_code body s) (fun '(s, t1, x) =>
            rbind (match x with
                   | Some x => rbind (xrun_code (handler x) s) (fun '(s, t2, x') => ROk (s, t1 ++ XCatch x :: t2, x'))
                   | None => ROk (s, t1, None)
                   end) (fun '(s, t1, x) =>
            match x with
            | Some x => ROk (s, t1, Some x)
            | None => rbind (xrun_code k s) (fun '(s, t2, x) => ROk (s, t1 ++ t2, x))
            end))
        | XGet k => xrun_code (k (user s)) s
        | XPut u k => xrun_code k (mkES (world s) (ledger s) u)
        end.
    End run.
    (* operator(): 96-103 *)
    Fixpoint xraise (fuel : nat) (busy running : list nat) (e : nat) (i : Z) (v : V) (rv : bool) (s : es U) : xres :=
      match fuel with
      | O => RFuel
      | S fuel =>
          match nth_error (evs (world s)) e with
          | None => RFault
          | Some l =>
              if i <? count l then
                rbind (of_res (get (Z * nat) l i)) (fun p =>
                match nth_error (hs (world s)) (snd p) with
                | None => RFault
                | Some r =>
                    rbind (xrun_code (xraise fuel) (e :: busy) (snd p :: running) (beh (hfn r) v) s) (fun '(s, t1, x) =>
                    match x with
                    | Some x => ROk (s, XCall e (snd p) (hfn r) v :: t1 ++ [XLeft e x], Some x)
                    | None =>
                        rbind (xraise fuel busy running e (i + 1) (if rv then moved else v) rv s) (fun '(s, t2, x) =>
                        ROk (s, XCall e (snd p) (hfn r) v :: t1 ++ t2, x))
                    end)
                end)
              else ROk (s, [XEnd e], None)
          end
      end.
    (* a program that starts with n events and no handlers *)
    Definition xrun_program (fuel : nat) (c : xcode) (u : U) : xres :=
      xrun_code (xraise fuel) [] [] c (mkES (events n) [] u).
  End exec.
  (* code that throws nothing and catches nothing *)
  Fixpoint plain (c : code V U) : xcode :=
    match c with
    | Ret => XRet
    | Act o k => XAct o (fun r => plain (k r))
    | Raise e v rv k => XRaise e v rv (plain k)
    | Get k => XGet (fun u => plain (k u))
    | Put u k => XPut u (plain k)
    end.
  Definition plain_ev (t : tev V) : xev := match t with TOp o r => XOp o r | TCall e h f v => XCall e h f v | TEnd e => XEnd e end.
End code.
Arguments XRet {V U X}. Arguments XAct {V U X}. Arguments XRaise {V U X}. Arguments XThrow {V U X}. Arguments XTry {V U X}.
Arguments XGet {V U X}. Arguments XPut {V U X}.
Arguments XOp {V X}. Arguments XCall {V X}. Arguments XEnd {V X}. Arguments XThrown {V X}. Arguments XLeft {V X}. Arguments XCatch {V X}.
