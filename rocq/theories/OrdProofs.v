From Coq Require Import Permutation.
From Verif Require Import Base SrtSpec LzyModel LzySpec LzyProofs QsModel QsSpec QsProofs OrdModel.
Open Scope Z_scope.

Lemma lazy_ok A (c : A -> A -> comparison) (p : pipe A) : sane p -> total_order c ->
  exists out, yields (fun f => order_by_lazy f (fun a b => Some (c a b)) p) (PList out) /\ Permutation (means p) out /\ ascending A c out.
Proof.
  intros T TO. destruct (order_by_ok A c TO (means p)) as (out & E & R). exists out. split; [|exact R].
  unfold order_by_lazy. eapply y_bind; [now apply elements_exact|]. cbv beta. rewrite E. apply y_ret.
Qed.
Lemma lazy_key A K (f : A -> K) (c : K -> K -> comparison) (p : pipe A) : sane p -> total_order c ->
  exists out, yields (fun n => order_by_key_lazy n f (fun a b => Some (c a b)) p) (PList out) /\ Permutation (means p) out /\
    ascending K c (map f out).
Proof.
  intros T TO. destruct (lazy_ok A (fun a b => c (f a) (f b)) p T (key_total A K f c TO)) as (out & Y & P & S). exists out. split; [exact Y|]. split; [exact P|].
  clear - S. unfold ascending in *. induction S as [|x l S IH H]; [constructor|]. cbn [map]. constructor; [exact IH|]. apply Forall_map. exact H.
Qed.
Lemma lazy_any A (cmp : A -> A -> option comparison) (p : pipe A) : sane p ->
  (raises (fun f => order_by_lazy f cmp p) /\ exists x y, In x (means p) /\ In y (means p) /\ cmp x y = None) \/
  exists out, yields (fun f => order_by_lazy f cmp p) (PList out) /\ Permutation (means p) out.
Proof.
  intros T. destruct (elements_exact A p T) as (N & Y).
  assert (X : (order_by A cmp (means p) = Err /\ exists x y, In x (means p) /\ In y (means p) /\ cmp x y = None) \/
              exists out, order_by A cmp (means p) = Ok out /\ Permutation (means p) out).
  { unfold order_by. destruct (0 <? zlen (means p)) eqn:E; [|right; eauto].
    destruct (sort_array_any A cmp [] (means p) []) as [(E1 & H)|(s & d & E1 & P & _)]; cbn [app] in E1; rewrite !app_nil_r in E1; change (zlen []) with 0 in E1; rewrite E1; cbn [bind]; eauto. }
  destruct X as [(E & H)|(out & E & H)]; [left|right; exists out]; (split; [|exact H]); exists N; intros f Hf; unfold order_by_lazy; rewrite Y by auto; cbn [bind]; now rewrite E.
Qed.
