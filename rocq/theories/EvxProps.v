(* C91: callbacks of events that throw (Source/Primitives/Event.h) *)
From Verif Require Import Base LstModel EvtModel EvtSpec EvrModel EvrSpec EvxModel EvxSpec EvxProofs EvxProofs2.
Open Scope Z_scope.

(* Whatever code and callbacks do, throw and catch, within what a client may do: nothing undefined happens, and every call,
   every end of a raise and every exception is as EvxSpec describes. *)
Theorem C91_history : forall (V : Type) (moved : V) (U X : Type) n (beh : nat -> V -> xcode V U X) fuel c u,
  match xrun_program V moved U X n beh fuel c u with
  | ROk (st, t, x) => xframe V moved X [] t x (ledger st)
  | RFault => False
  | _ => True
  end.
Proof. exact xprogram_ok. Qed.
Print Assumptions C91_history.
(* A raise of e that an exception leaves, when no callback touched the handlers of e: the handlers up to the one that was
   left by the exception were called once each, the later ones were not, and e has the handlers it had. *)
Theorem C91_cut : forall (V : Type) (moved : V) (X : Type) e v rv s cs t x s' l,
  xraised V moved X e 0 v rv s cs t (Some x) s' -> Forall (xspared V X e) t -> attached_in_order s e l ->
  attached_in_order s' e l /\ exists before h later, cs = before ++ [h] /\ l = before ++ h :: later.
Proof. exact cut. Qed.
Print Assumptions C91_cut.
(* A raise that returns calls each handler once, also when exceptions are thrown and caught meanwhile. *)
Theorem C91_whole : forall (V : Type) (moved : V) (X : Type) e v rv s cs t s' l,
  xraised V moved X e 0 v rv s cs t None s' -> Forall (xspared V X e) t -> attached_in_order s e l ->
  attached_in_order s' e l /\ cs = l.
Proof. exact whole. Qed.
Print Assumptions C91_whole.
(* The exception that leaves a raise is the one thrown last; after it was thrown nothing is called: it leaves the raises
   inside this one and then this one. *)
Theorem C91_source : forall (V : Type) (moved : V) (X : Type) e v rv s cs t x s',
  xraised V moved X e 0 v rv s cs t (Some x) s' ->
  exists t0 inner, t = t0 ++ XThrown x :: map (fun e => XLeft e x) (inner ++ [e]).
Proof. exact source. Qed.
Print Assumptions C91_source.
(* Events lose no exception and make up none: each is caught once or leaves the program. *)
Theorem C91_balance : forall (V : Type) (moved : V) (X : Type) s t x s', xframe V moved X s t x s' ->
  length (throws V X t) = (length (catches V X t) + match x with Some _ => 1 | None => 0 end)%nat.
Proof. exact balance. Qed.
Print Assumptions C91_balance.
(* As long as nobody drops handlers, none is destroyed while its callback runs. *)
Theorem C91_alive : forall (V : Type) (moved : V) (U X : Type) n (beh : nat -> V -> xcode V U X) fuel c u h,
  (forall f v, xno_drop (beh f v)) -> xno_drop c -> xrun_program V moved U X n beh fuel c u <> RGone h.
Proof. exact xprogram_keeps. Qed.
Print Assumptions C91_alive.
(* When callbacks neither raise nor add, every program ends. *)
Theorem C91_terminates : forall (V : Type) (moved : V) (U X : Type) n (beh : nat -> V -> xcode V U X) c u,
  (forall f v, xcalm (beh f v)) -> exists fuel, forall more, xrun_program V moved U X n beh (fuel + more) c u <> RFuel.
Proof. exact xcalm_program. Qed.
Print Assumptions C91_terminates.
(* Programs that throw nothing do what C50 says. *)
Theorem C91_plain : forall (V : Type) (moved : V) (U X : Type) n (beh : nat -> V -> code V U) fuel c u,
  xrun_program V moved U X n (fun f v => plain V U X (beh f v)) fuel (plain V U X c) u =
  rbind (run_program V moved U n beh fuel c u) (fun '(s, t) => ROk (s, map (plain_ev V X) t, None)).
Proof. exact plain_program. Qed.
Print Assumptions C91_plain.

(* function 8 throws 42 at its first call: function 9 is not called. The exception leaves event 1, raised by function 7, and
   event 0, and is caught; then event 1 is raised again and all its handlers are called. *)
Example C91_history_case : exists st,
  xrun_program Z 0 nat Z 2
    (fun f v => match f with
                | 7%nat => XRaise 1 (v + 1) false XRet
                | 8%nat => XGet (fun u => if Nat.eqb u 0 then XPut 1%nat (XThrow 42) else XRet)
                | _ => XRet
                end) 9
    (XAct (EAdd 0 7 100) (fun _ => XAct (EAdd 1 8 200) (fun _ => XAct (EAdd 1 9 300) (fun _ =>
     XTry (XRaise 0 5 false XRet) (fun _ => XRet) (XRaise 1 3 false XRet))))) 0%nat
  = ROk (st, [XOp (EAdd 0 7 100) (OHandle 0); XOp (EAdd 1 8 200) (OHandle 1); XOp (EAdd 1 9 300) (OHandle 2);
              XCall 0 0 7 5; XCall 1 1 8 6; XThrown 42; XLeft 1 42; XLeft 0 42; XCatch 42;
              XCall 1 1 8 3; XCall 1 2 9 3; XEnd 1], None).
Proof. eexists. reflexivity. Qed.
(* the same without the catch: the exception leaves the program *)
Example C91_uncaught_case : exists st,
  xrun_program Z 0 unit Z 1 (fun f v => XThrow v) 9
    (XAct (EAdd 0 7 100) (fun _ => XAct (EAdd 0 8 200) (fun _ => XRaise 0 5 false (XRaise 0 6 false XRet)))) tt
  = ROk (st, [XOp (EAdd 0 7 100) (OHandle 0); XOp (EAdd 0 8 200) (OHandle 1); XCall 0 0 7 5; XThrown 5; XLeft 0 5], Some 5).
Proof. eexists. reflexivity. Qed.
Example C91_cut_case : exists l,
  xraised Z 0 Z 0 0 5 false [mkS 7 100 (Some 0%nat) true true; mkS 8 200 (Some 0%nat) true true] [0%nat]
    [XCall 0 0 7 5; XThrown 42; XLeft 0 42] (Some 42) [mkS 7 100 (Some 0%nat) true true; mkS 8 200 (Some 0%nat) true true] /\
  Forall (xspared Z Z 0) [XCall 0 0 7 5; XThrown 42; XLeft 0 42] /\
  attached_in_order [mkS 7 100 (Some 0%nat) true true; mkS 8 200 (Some 0%nat) true true] 0 l.
Proof.
  exists [0%nat; 1%nat].
  assert (attached_in_order [mkS 7 100 (Some 0%nat) true true; mkS 8 200 (Some 0%nat) true true] 0 [0%nat; 1%nat]) as A.
  { split; [repeat constructor; cbn; intuition discriminate|]. split.
    - intros h. split.
      + intros [<-|[<-|[]]]; eexists; split; reflexivity.
      + intros (r & R & _). destruct h as [|[|h]]; [now left|now right; left|]. destruct h; discriminate.
    - repeat constructor. do 2 eexists. split; [reflexivity|]. split; reflexivity. }
  split; [|split; [repeat constructor|exact A]].
  apply (xr_throw Z 0 Z 0 0 5 false _ [0%nat; 1%nat] 0 (mkS 7 100 (Some 0%nat) true true) [XThrown 42]); [exact A|reflexivity|reflexivity|constructor].
Qed.
Example C91_calm_case : xcalm (V := Z) (U := unit) (X := Z) (XTry (XThrow 3) (fun _ => XAct (ERemove 0 0) (fun _ => XRet)) XRet) /\
  xno_drop (V := Z) (U := unit) (X := Z) (XTry (XRaise 1 3 false XRet) (fun x => XThrow x) XRet).
Proof. split; repeat constructor; congruence. Qed.
