(* What a set of events promises: a table of handlers, with the event each is attached to. *)
From Coq Require Export Sorted.
From Verif Require Import Base LstModel EvtModel.
Open Scope Z_scope.

Record srec := mkS { sfn : nat; saddr : Z; sat : option nat; sflag : bool; sheld : bool }.
Definition live (r : srec) : Prop := sheld r = true \/ sat r <> None.
Definition leave (e : nat) (r : srec) : srec :=
  mkS (sfn r) (saddr r) (match sat r with Some e' => if Nat.eqb e e' then None else Some e' | None => None end) (sflag r) (sheld r).
Section spec.
  Context (V : Type) (moved : V) (n : nat).        (* n events *)
  (* the allocator gives a new handler an address no live one has; callers use handlers they still hold *)
  Definition client (s : list srec) (o : eop V) : Prop :=
    match o with
    | Do (EAdd e f a) => (e < n)%nat /\ forall h r, nth_error s h = Some r -> live r -> saddr r <> a
    | Do (ERemove e h) => (e < n)%nat /\ exists r, nth_error s h = Some r /\ sheld r = true
    | Do (EAttached h) => exists r, nth_error s h = Some r /\ sheld r = true
    | Do (EDrop h) => exists r, nth_error s h = Some r /\ sheld r = true
    | Do (ERenew e) => (e < n)%nat
    | ERaise e _ _ => (e < n)%nat
    end.
  (* the handlers attached to e, each once, by ascending address *)
  Definition attached_in_order (s : list srec) (e : nat) (l : list nat) : Prop :=
    NoDup l /\ (forall h, In h l <-> exists r, nth_error s h = Some r /\ sat r = Some e) /\
    StronglySorted (fun a b => exists ra rb, nth_error s a = Some ra /\ nth_error s b = Some rb /\ saddr ra < saddr rb) l.
  (* the argument each of k handlers is called with *)
  Definition arguments (v : V) (rv : bool) (k : nat) : list V :=
    match k with O => [] | S k => v :: repeat (if rv then moved else v) k end.
  Inductive ok_step (s : list srec) : eop V -> list srec -> eout V -> Prop :=
  | ok_add e f a : ok_step s (Do (EAdd e f a)) (s ++ [mkS f a (Some e) true true]) (OHandle (length s))
  | ok_remove e h r : nth_error s h = Some r -> sat r = Some e ->
      ok_step s (Do (ERemove e h)) (upd s h (mkS (sfn r) (saddr r) None false (sheld r))) (OBool true)
  | ok_remove_none e h r : nth_error s h = Some r -> sat r <> Some e -> ok_step s (Do (ERemove e h)) s (OBool false)
  | ok_attached h r : nth_error s h = Some r -> ok_step s (Do (EAttached h)) s (OBool (sflag r))
  | ok_drop h r : nth_error s h = Some r -> ok_step s (Do (EDrop h)) (upd s h (mkS (sfn r) (saddr r) (sat r) (sflag r) false)) OUnit
  | ok_renew e : ok_step s (Do (ERenew e)) (map (leave e) s) OUnit
  | ok_raise e v rv l cs : attached_in_order s e l ->
      map (fun c => fst (fst c)) cs = l ->
      (forall h f x, In (h, f, x) cs -> exists r, nth_error s h = Some r /\ sfn r = f) ->
      map snd cs = arguments v rv (length l) ->
      ok_step s (ERaise e v rv) s (OCalls cs).
  (* a history of client calls: every step has an allowed outcome *)
  Inductive ok_run : list srec -> list (eop V) -> list (eout V) -> list srec -> Prop :=
  | ok_nil s : ok_run s [] [] s
  | ok_cons s o s1 r os rs s2 : ok_step s o s1 r -> ok_run s1 os rs s2 -> ok_run s (o :: os) (r :: rs) s2.
  (* the histories a client may produce *)
  Inductive clients : list srec -> list (eop V) -> Prop :=
  | cl_nil s : clients s []
  | cl_cons s o os : client s o -> (forall s1 r, ok_step s o s1 r -> clients s1 os) -> clients s (o :: os).
End spec.
(* a callback that does nothing to event e *)
Definition spares (e : nat) (o : cop) : Prop :=
  match o with EAdd e' _ _ | ERemove e' _ | ERenew e' => e' <> e | _ => True end.
