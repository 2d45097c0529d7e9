(* C50: events (Source/Primitives/Event.h) *)
From Verif Require Import Base LstModel LstSpec SrtModel EvtModel EvtSpec EvtProofs.
Open Scope Z_scope.

(* over any history of n events, every step has the outcome EvtSpec allows: raising an event calls exactly the
   handlers attached to it, each once; Remove detaches exactly the given handler *)
Theorem C50_history : forall (V : Type) (moved : V) n os, clients V moved n [] os ->
  exists w rs s, erun V moved (events n) os = Ok (w, rs) /\ ok_run V moved [] os rs s.
Proof. exact history. Qed.
Print Assumptions C50_history.
(* the same holds of one raise when callbacks change other events *)
Theorem C50_other_events : forall (V : Type) (moved : V) (beh : nat -> ew -> list cop) e,
  (forall f w, Forall (spares e) (beh f w)) ->
  forall w x l fuel v rv w' cs, nth_error (evs w) e = Some x -> lst_shows _ x l ->
  raise V moved beh fuel e 0 v rv w = Ok (w', cs) ->
  map (fun c : nat * nat * V => fst (fst c)) cs = map snd l /\ map snd cs = arguments V moved v rv (length l).
Proof. exact other_events. Qed.
Print Assumptions C50_other_events.
(* handlers do not run in the order in which they were added: the order is that of their addresses *)
Theorem C50_order_refuted : exists w rs,
  erun Z 0 (events 1) [Do (EAdd 0 7 300); Do (EAdd 0 8 100); ERaise 0 5 false] = Ok (w, rs) /\
  nth_error rs 2 = Some (OCalls [(1%nat, 8%nat, 5); (0%nat, 7%nat, 5)]).
Proof. exact (ex_intro _ _ (ex_intro _ _ (conj eq_refl eq_refl))). Qed.
Print Assumptions C50_order_refuted.
(* an argument given as an rvalue reaches only the first handler *)
Theorem C50_rvalue_refuted : exists w rs,
  erun Z 0 (events 1) [Do (EAdd 0 7 100); Do (EAdd 0 8 200); ERaise 0 5 true] = Ok (w, rs) /\
  nth_error rs 2 = Some (OCalls [(0%nat, 7%nat, 5); (1%nat, 8%nat, 0)]).
Proof. exact (ex_intro _ _ (ex_intro _ _ (conj eq_refl eq_refl))). Qed.
Print Assumptions C50_rvalue_refuted.
(* a handler that removes itself: the next handler is not called *)
Theorem C50_self_removal_refuted : exists w,
  raise Z 0 beh_self 5 0 0 5 false two = Ok (w, [(0%nat, 7%nat, 5)]) /\
  map hattached (hs w) = [false; true].
Proof. exact (ex_intro _ _ (conj eq_refl eq_refl)). Qed.
Print Assumptions C50_self_removal_refuted.
(* a handler that adds a handler with a lower address is called twice, and the new one is not called *)
Theorem C50_adding_refuted : exists w,
  raise Z 0 beh_add 5 0 0 5 false one = Ok (w, [(0%nat, 7%nat, 5); (0%nat, 7%nat, 5)]).
Proof. exact (ex_intro _ _ eq_refl). Qed.
Print Assumptions C50_adding_refuted.

Example C50_case : clients Z 0 2 [] demo /\ exists w, erun Z 0 (events 2) demo = Ok (w,
  [OHandle 0; OHandle 1; OHandle 2; OCalls [(1%nat, 8%nat, 5); (0%nat, 7%nat, 5)]; OBool false; OBool true; OBool false; OBool false;
   OCalls [(1%nat, 8%nat, 6)]; OUnit; OBool true]).
Proof. split; [exact demo_clients|]. eexists. vm_compute. reflexivity. Qed.
