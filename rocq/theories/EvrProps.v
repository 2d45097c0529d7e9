(* C50, continued: callbacks that add, remove, drop and raise (Source/Primitives/Event.h) *)
From Verif Require Import Base LstModel EvtModel EvtSpec EvrModel EvrSpec EvrProofs.
Open Scope Z_scope.

(* Whatever callbacks do, within what a client may do: no access out of range, and every call and every end of a raise is
   the one EvrSpec.raised describes. In particular only handlers that are attached at that moment are called. *)
Theorem C50_reentrant : forall (V : Type) (moved : V) (U : Type) n (beh : nat -> V -> code V U) fuel c u,
  match run_program V moved U n beh fuel c u with
  | ROk (st, t) => frame V moved [] t (ledger st)
  | RFault => False
  | _ => True
  end.
Proof. exact program_ok. Qed.
Print Assumptions C50_reentrant.
(* a raise during which no callback touches the handlers of e calls each handler of e exactly once, even when callbacks
   raise other events, or e itself *)
Theorem C50_once : forall (V : Type) (moved : V) e v rv s cs t s' l,
  raised V moved e 0 v rv s cs t s' -> Forall (spared e) t -> attached_in_order s e l -> cs = l.
Proof. exact once. Qed.
Print Assumptions C50_once.
(* when callbacks neither raise nor add, every program ends *)
Theorem C50_terminates : forall (V : Type) (moved : V) (U : Type) n (beh : nat -> V -> code V U) c u,
  (forall f v, calm (beh f v)) -> exists fuel, forall more, run_program V moved U n beh (fuel + more) c u <> RFuel.
Proof. exact calm_program. Qed.
Print Assumptions C50_terminates.
(* as long as nobody drops handlers, none is destroyed while its callback runs *)
Theorem C50_alive : forall (V : Type) (moved : V) (U : Type) n (beh : nat -> V -> code V U) fuel c u h,
  (forall f v, no_drop (beh f v)) -> no_drop c -> run_program V moved U n beh fuel c u <> RGone h.
Proof. exact program_keeps. Qed.
Print Assumptions C50_alive.
(* otherwise: a callback that removes its handler and drops it destroys the function object it is running in *)
Theorem C50_self_destruction_refuted :
  run_program Z 0 unit 1 (fun _ _ => Act (ERemove 0 0) (fun _ => Act (EDrop 0) (fun _ => Ret))) 5
    (Act (EAdd 0 7 100) (fun _ => Raise 0 5 false Ret)) tt = RGone 0.
Proof. exact eq_refl. Qed.
Print Assumptions C50_self_destruction_refuted.

(* function 7 raises event 1 with the next number; function 8, of event 1, adds a handler to it that is called at once *)
Example C50_reentrant_case : exists st,
  run_program Z 0 nat 2
    (fun f v => match f with
                | 7%nat => Raise 1 (v + 1) false Ret
                | 8%nat => Get (fun u => if Nat.eqb u 0 then Put 1%nat (Act (EAdd 1 9 300) (fun _ => Ret)) else Ret)
                | _ => Ret
                end) 9
    (Act (EAdd 0 7 100) (fun _ => Act (EAdd 1 8 200) (fun _ => Raise 0 5 false Ret))) 0%nat
  = ROk (st, [TOp (EAdd 0 7 100) (OHandle 0); TOp (EAdd 1 8 200) (OHandle 1);
              TCall 0 0 7 5; TCall 1 1 8 6; TOp (EAdd 1 9 300) (OHandle 2); TCall 1 2 9 6; TEnd 1; TEnd 0]).
Proof. eexists. vm_compute. reflexivity. Qed.
(* the raise of event 0 in it leaves event 0 alone *)
Example C50_once_case : exists s' t, raised Z 0 0 0 5 false [mkS 7 100 (Some 0%nat) true true; mkS 8 200 (Some 1%nat) true true] [0%nat] t s' /\
  Forall (spared 0) t /\ In (TOp (EAdd 1 9 300) (OHandle 2)) t.
Proof.
  exists [mkS 7 100 (Some 0%nat) true true; mkS 8 200 (Some 1%nat) true true; mkS 9 300 (Some 1%nat) true true].
  assert (forall s, attached_in_order (mkS 7 100 (Some 0%nat) true true :: mkS 8 200 (Some 1%nat) true true :: s) 0 [0%nat] <-> ~ exists r, In r s /\ sat r = Some 0%nat) as Y.
  { intros s. split.
    - intros (_ & M & _) (r & I & E). apply In_nth_error in I. destruct I as [h Hh]. destruct (proj2 (M (S (S h)))) as [H|[]]; [exists r; auto|discriminate].
    - intros N. split; [repeat constructor; intros []|]. split; [|repeat constructor]. intros h. split.
      + intros [<-|[]]. eexists. split; reflexivity.
      + intros (r & R1 & R2). destruct h as [|[|h]]; [now left|cbn in R1; injection R1 as <-; discriminate|]. exfalso. apply N. exists r. split; [eapply nth_error_In; exact R1|exact R2]. }
  exists (TCall 0 0 7 5 :: [TOp (EAdd 1 9 300) (OHandle 2)] ++ [TEnd 0]). split; [|split].
  - eapply (rs_call Z 0 0 0 5 false _ [0%nat] 0 (mkS 7 100 (Some 0%nat) true true)).
    + apply Y. intros (r & [] & _).
    + reflexivity.
    + reflexivity.
    + eapply fr_op; [apply (ok_add Z 0 [mkS 7 100 (Some 0%nat) true true; mkS 8 200 (Some 1%nat) true true] 1 9 300)|apply fr_nil].
    + eapply rs_end; [apply Y|cbn; lia]. intros (r & [<-|[]] & E). discriminate.
  - repeat constructor. discriminate.
  - cbn. auto.
Qed.
Example C50_calm_case : calm (V := Z) (U := unit) (Act (ERemove 0 0) (fun _ => Act (EDrop 0) (fun _ => Ret))) /\ no_drop (V := Z) (U := unit) (Act (ERemove 0 0) (fun _ => Raise 1 3 false Ret)).
Proof. split; repeat constructor; congruence. Qed.
