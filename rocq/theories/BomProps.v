(* Property C42. *)
From Verif Require Import Base PoaModel BomModel BomSpec BomProofs.
Open Scope Z_scope.

(* C42: any number of ByteObjectMaps that share one allocator (with any positive block size, and with other
   code creating nodes from it too) under every sequence of Set and Get: no step is undefined or fails, and every
   Get returns what was set last for that byte of that map, or null. *)
Theorem C42_history : forall bs n ops, 1 <= bs -> Forall (legal n) ops ->
  exists w, brun (bom_new bs n) ops = Ok (w, bspec empty_maps ops).
Proof. exact bom_history. Qed.
Print Assumptions C42_history.
Example C42_case : Forall (legal 2) demo /\
  bspec empty_maps demo = [None; None; None; None; None; Some Null; Some (Obj 3); Some (Obj 2); Some Null; Some Null].
Proof. split; [repeat (constructor; [cbn; lia|]); constructor|reflexivity]. Qed.
