(* Theorems about PartialOrderingProcessor. *)
From Verif Require Import Base SrtSpec DctSpec GphModel GphSpec GphProofs.
Open Scope nat_scope.

(* C28: Sort terminates on every graph without an error.  The components partition the
   nodes, two nodes share one iff they depend on each other, and a component comes after the
   components it depends on. *)
Theorem C28_sort : forall g, well_formed g -> exists s cs, sort_graph g = Ok (s, cs) /\
  Permutation (concat (map (slice (buffer s)) cs)) (seq 0 (gn g)) /\
  (forall i c, nth_error cs i = Some c -> slice (buffer s) c <> [] /\
     forall x, In x (slice (buffer s) c) <-> nth_error (comp s) x = Some (Some i)) /\
  (forall x, x < gn g -> exists i, i < length cs /\ nth_error (comp s) x = Some (Some i)) /\
  (forall x y i j, nth_error (comp s) x = Some (Some i) -> nth_error (comp s) y = Some (Some j) ->
     (i = j <-> depends_on g x y /\ depends_on g y x)) /\
  (forall w u i j, nth_error (comp s) w = Some (Some i) -> nth_error (comp s) u = Some (Some j) ->
     depends_on g w u -> j <= i).
Proof. exact sort_partition. Qed.
Print Assumptions C28_sort.

(* 0 and 1 depend on each other, 2 depends on 1, 3 stands alone and depends on itself *)
Definition sample : graph := mkGraph 4 [[1]; [0]; [1]; [3]] [[1]; [0; 2]; []; [3]].
Example C28_sample : well_formed sample /\
  sort_graph sample = Ok (mkA [Some 0; Some 0; Some 1; Some 2] [1; 0; 2; 3], [(0, 2); (2, 1); (3, 1)]).
Proof.
  split; [|vm_compute; reflexivity]. split; [reflexivity|]. split; [reflexivity|]. split; intros u w.
  - destruct u as [|[|[|[|[|u]]]]], w as [|[|[|[|[|w]]]]]; cbn; intuition lia.
  - destruct w as [|[|[|[|[|w]]]]]; cbn; intuition lia.
Qed.

Section Props.
  Variable T : Type.

  (* C29: the edges are exactly the pairs of the group, in order; an unknown item raises. *)
  Theorem C29_group : forall (eqb : T -> T -> bool) items dep,
    (forall k vs, In (k, vs) dep -> present eqb items k /\ forall v, In v vs -> present eqb items v) ->
    exists g, init_with_group T eqb items dep = Ok g /\ gn g = length items /\ well_formed g /\
      (forall i, ins_of g i = map snd (filter (fun e => fst e =? i) (edges_of eqb items dep))) /\
      (forall j, outs_of g j = map fst (filter (fun e => snd e =? j) (edges_of eqb items dep))).
  Proof. exact (init_with_group_ok T). Qed.
  Theorem C29_group_unknown : forall (eqb : T -> T -> bool) items dep,
    (exists k vs, In (k, vs) dep /\ (~ present eqb items k \/ exists v, In v vs /\ ~ present eqb items v)) ->
    init_with_group T eqb items dep = Err.
  Proof. exact (init_with_group_err T). Qed.

  Variable c : T -> T -> comparison.
  Theorem C29_func : linear c -> forall items dep, NoDup items ->
    exists g, init_with_func T c items dep = Ok g /\ gn g = length items /\ well_formed g /\
      (forall i j a b, nth_error items i = Some a -> nth_error items j = Some b -> (depends g i j <-> dep a b = true)) /\
      (forall i, NoDup (ins_of g i)).
  Proof. exact (init_with_func_edges T c). Qed.

  (* sub classes: the nodes partition the item positions by sub class, edges are lifted
     without duplicates *)
  Variable S : Type.
  Variable cs : S -> S -> comparison.
  Theorem C29_sub_class : linear c -> linear cs -> forall items dep sub,
    NoDup items -> ascending_keys T S c sub -> (forall x s, In (x, s) sub -> In x items) ->
    (forall k vs, In (k, vs) dep -> In k items /\ forall v, In v vs -> In v items) ->
    exists g its, init_with_sub_class T c S cs items dep sub = Ok (g, its) /\
      well_formed g /\ gn g = length its /\
      Permutation (concat its) (map Some (seq 0 (length items))) /\
      (forall i, i < gn g -> exists p, belongs its i p) /\
      (forall p q i j a b, nth_error items p = Some a -> nth_error items q = Some b ->
         belongs its i p -> belongs its j q -> (i = j <-> same_class sub a b)) /\
      (forall i j, depends g i j <-> exists p q a b, belongs its i p /\ belongs its j q /\
         nth_error items p = Some a /\ nth_error items q = Some b /\ In (a, b) (pairs_of T T dep)) /\
      (forall i, NoDup (ins_of g i) /\ NoDup (outs_of g i)).
  Proof. exact (sub_class_graph T S c cs). Qed.
End Props.
Print Assumptions C29_group.
Print Assumptions C29_group_unknown.
Print Assumptions C29_func.
Print Assumptions C29_sub_class.

(* self edges are kept: items 10 and 11 share a sub class and one depends on the other *)
Theorem C29_no_self_edges_refuted : exists g its,
  init_with_sub_class nat Nat.compare nat Nat.compare [10; 11] [(10, [11])] [(10, 0); (11, 0)] = Ok (g, its) /\
  depends g 0 0.
Proof. exact (ex_intro _ _ (ex_intro _ _ (conj eq_refl (or_introl eq_refl)))). Qed.
Print Assumptions C29_no_self_edges_refuted.
(* a sub class for something that is not an item overflows the item buffer *)
Theorem C29_sub_class_unknown_refuted :
  init_with_sub_class nat Nat.compare nat Nat.compare [10] [] [(10, 0); (11, 0)] = Err.
Proof. exact eq_refl. Qed.
Print Assumptions C29_sub_class_unknown_refuted.

Example C29_sample_group : exists g,
  init_with_group nat Nat.eqb [7; 8; 9] [(7, [8; 9]); (9, [7])] = Ok g /\
  gins g = [[1; 2]; []; [0]] /\ gouts g = [[2]; [0]; [0]].
Proof. eexists. split; [vm_compute; reflexivity|]. split; reflexivity. Qed.
Example C29_sample_func : exists g,
  init_with_func nat Nat.compare [9; 7; 8] (fun a b => b <? a) = Ok g /\ gins g = [[1; 2]; []; [1]].
Proof. eexists. split; [vm_compute; reflexivity|]. reflexivity. Qed.
Example C29_sample_sub : exists g,
  init_with_sub_class nat Nat.compare nat Nat.compare [5; 6; 7; 8] [(5, [7; 8]); (6, [8])] [(5, 1); (6, 1)]
    = Ok (g, [[Some 0; Some 1]; [Some 2]; [Some 3]]) /\ gins g = [[1; 2]; []; []].
Proof. eexists. split; [vm_compute; reflexivity|]. reflexivity. Qed.
