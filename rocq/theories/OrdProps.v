(* Theorems about OrderBy on lazy lists (C34). *)
From Coq Require Import Permutation.
From Verif Require Import Base SrtSpec LzyModel LzySpec LzyProofs QsSpec DctProofs OrdModel OrdProofs.
Open Scope Z_scope.

(* on every pipeline: a lazy list over a new list, an ascending permutation of the values the
   pipeline yields *)
Theorem C34_pipeline : forall (A : Type) (c : A -> A -> comparison) (p : pipe A), sane p -> total_order c ->
  exists out, yields (fun f => order_by_lazy f (fun a b => Some (c a b)) p) (PList out) /\ Permutation (means p) out /\ ascending A c out.
Proof. exact lazy_ok. Qed.
Print Assumptions C34_pipeline.
(* OrderByKey: the keys ascend *)
Theorem C34_key_pipeline : forall (A K : Type) (f : A -> K) (c : K -> K -> comparison) (p : pipe A), sane p -> total_order c ->
  exists out, yields (fun n => order_by_key_lazy n f (fun a b => Some (c a b)) p) (PList out) /\ Permutation (means p) out /\
    ascending K c (map f out).
Proof. exact lazy_key. Qed.
Print Assumptions C34_key_pipeline.
(* with any comparison whatever: a permutation, or an error if it met incomparable values *)
Theorem C34_any_comparison : forall (A : Type) (cmp : A -> A -> option comparison) (p : pipe A), sane p ->
  (raises (fun f => order_by_lazy f cmp p) /\ exists x y, In x (means p) /\ In y (means p) /\ cmp x y = None) \/
  exists out, yields (fun f => order_by_lazy f cmp p) (PList out) /\ Permutation (means p) out.
Proof. exact lazy_any. Qed.
Print Assumptions C34_any_comparison.
Example C34_pipeline_case : sane (PWhere (PList [3; 1; 4; 1; 5]) (fun x => x <? 5)) /\ total_order Z.compare /\
  order_by_lazy 20 (fun a b => Some (Z.compare a b)) (PWhere (PList [3; 1; 4; 1; 5]) (fun x => x <? 5)) = Ok (PList [1; 1; 3; 4]) /\
  order_by_key_lazy 20 (fun x => - x) (fun a b => Some (Z.compare a b)) (PWhere (PList [3; 1; 4; 1; 5]) (fun x => x <? 5)) = Ok (PList [4; 3; 1; 1]).
Proof. split; [exact I|]. split; [exact Z_total|]. split; reflexivity. Qed.
