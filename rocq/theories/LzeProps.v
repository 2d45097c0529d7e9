From Verif Require Import Base SrtSpec LzyModel LzySpec LzeModel LzeSpec LzeProofs2.
Open Scope Z_scope.

(* C81: functions of lazy lists are called when their results are wanted, in order, and not
   more often; their exceptions reach the loop *)
Theorem C81_loop : forall (V St : Type) (p : pipe V St) (body : code V St) (s : St),
  sound p -> yields (fun fuel => for_each fuel p body s) (looping p body s).
Proof. exact @for_each_ok. Qed.
Print Assumptions C81_loop.

Theorem C81_elements : forall (V St : Type) (p : pipe V St) (s : St),
  sound p -> yields (fun fuel => elements fuel p s) (result (bindm (meaning p s) collect)).
Proof. exact @elements_ok. Qed.
Print Assumptions C81_elements.

(* functions with effects whose results do not depend on them: the values are those of C30 *)
Theorem C81_same_values : forall (V St : Type) (p : pipe V St) (q : LzyModel.pipe V) (s : St),
  acts_as p q -> sound p -> exists s', yields (fun fuel => elements fuel p s) (Some (denote q), s').
Proof. exact @pure_ok. Qed.
Print Assumptions C81_same_values.

Theorem C81_first : forall (V St : Type) (p : pipe V St) (s : St),
  sound p -> yields (fun fuel => first fuel p s) (result (bindm (meaning p s) head)).
Proof. exact @first_ok. Qed.
Print Assumptions C81_first.

Theorem C81_is_empty : forall (V St : Type) (p : pipe V St) (s : St),
  sound p ->
  yields (fun fuel => is_empty fuel p s)
    (result (bindm (meaning p s) (fun a s => bindm (head a s) (fun o => ret (match o with Some _ => false | None => true end))))).
Proof. exact @is_empty_ok. Qed.
Print Assumptions C81_is_empty.

Theorem C81_count : forall (V St : Type) (p : pipe V St) (s : St),
  sound p -> yields (fun fuel => count fuel p s) (result (bindm (meaning p s) (fun a s => bindm (collect a s) (fun l => ret (zlen l))))).
Proof. exact @count_ok. Qed.
Print Assumptions C81_count.

(* Take never calls the function for an element after the last one that it hands out *)
Theorem C81_take_calls : forall (V St : Type) (f : selector V St) (g : V -> V) (l : list V) (n : Z) (s : St),
  computes f g ->
  yields (fun fuel => elements fuel (PTake (PSelect (PList l) f) n) s)
    (Some (map g (firstn (Z.to_nat n) l)), called f (firstn (Z.to_nat n) l) s).
Proof. exact @take_calls. Qed.
Print Assumptions C81_take_calls.

(* All and Any ask every element, also when the answer is known *)
Theorem C81_all_any_ask_every_element : forall (V St : Type) (q : predicate V St) (g : V -> bool) (l : list V) (s : St),
  computes q g ->
  yields (fun fuel => all fuel q (PList l) s) (Some (forallb g l), called q l s) /\
  yields (fun fuel => any fuel q (PList l) s) (Some (existsb g l), called q l s).
Proof. exact @all_any. Qed.
Print Assumptions C81_all_any_ask_every_element.

(* copying a lazy list to an array enumerates it twice: what the array holds then *)
Theorem C81_array : forall (V St : Type) (d : V) (old : list V) (p : pipe V St) (s s0 s1 s2 : St) (a : proc V St) (l1 l2 : list V),
  sound p -> meaning p s = (s0, Some a) -> collect a s0 = (s1, Some l1) -> collect a s1 = (s2, Some l2) ->
  ((length l2 <= length l1)%nat ->
     yields (fun fuel => copy_to_array fuel d old p s) (true, l2 ++ skipn (length l2) (resize d old (length l1)), s2)) /\
  ((length l1 < length l2)%nat -> raises (fun fuel => copy_to_array fuel d old p s)).
Proof. exact @array_ok. Qed.
Print Assumptions C81_array.

(* each function is called once for each element, when the list is copied to an array: false *)
Theorem C81_array_calls_once_refuted : forall (V St : Type) (f : selector V St) (g : V -> V) (d : V) (old l : list V) (s : St),
  computes f g -> yields (fun fuel => copy_to_array fuel d old (PSelect (PList l) f) s) (true, map g l, called f (l ++ l) s).
Proof. exact @array_calls. Qed.
Print Assumptions C81_array_calls_once_refuted.

(* copying to an array works if copying to a list works: false for a predicate with a state *)
Theorem C81_array_works_refuted : exists (q : predicate nat nat), let p := PWhere (PList [7; 8]%nat) q in
  sound p /\ (forall v s, exists b, snd (q v s) = Some b) /\
  yields (fun fuel => elements fuel p 0%nat) (Some [], 2%nat) /\
  forall d old, raises (fun fuel => copy_to_array fuel d old p 0%nat).
Proof. exact array_error. Qed.
Print Assumptions C81_array_works_refuted.

(* an enumerator can be used further after an exception of a function passed: false.
   Skip does not skip any more; Pairwise takes the wrong partner; Current of Select is the
   value before *)
Theorem C81_skip_after_exception_refuted : forall (V St : Type) (f : selector V St) (n : Z) (x y : V) (l : list V) (s s1 s2 : St) (w : V),
  2 <= n -> f x s = (s1, None) -> f y s1 = (s2, Some w) ->
  exists e0 e1 e2,
    yields (fun fuel => build fuel (PSkip (PSelect (PList (x :: y :: l)) f) n) s) (Some e0, s) /\
    yields (fun fuel => next fuel e0 s) (Threw, e1, s1) /\
    yields (fun fuel => next fuel e1 s1) (Yes, e2, s2) /\ current e2 = Ok w.
Proof. exact @skip_after. Qed.
Print Assumptions C81_skip_after_exception_refuted.

Theorem C81_pairwise_after_exception_refuted : forall (V St : Type) (f : selector V St) (j : V -> V -> V) (x y : V) (l : list V) (u : V) (m : list V) (s s1 s2 : St) (w : V),
  f x s = (s1, None) -> f y s1 = (s2, Some w) ->
  exists e0 e1 e2,
    yields (fun fuel => build fuel (PPairwise j (PSelect (PList (x :: y :: l)) f) (PList (u :: m))) s) (Some e0, s) /\
    yields (fun fuel => next fuel e0 s) (Threw, e1, s1) /\
    yields (fun fuel => next fuel e1 s1) (Yes, e2, s2) /\ current e2 = Ok (j w u).
Proof. exact @pair_after. Qed.
Print Assumptions C81_pairwise_after_exception_refuted.

Theorem C81_current_after_exception_refuted : forall (V St : Type) (f : selector V St) (x y : V) (l : list V) (s s1 s2 : St) (v : V),
  f x s = (s1, Some v) -> f y s1 = (s2, None) ->
  exists e0 e1 e2,
    yields (fun fuel => build fuel (PSelect (PList (x :: y :: l)) f) s) (Some e0, s) /\
    yields (fun fuel => next fuel e0 s) (Yes, e1, s1) /\
    yields (fun fuel => next fuel e1 s1) (Threw, e2, s2) /\ current e2 = Ok v.
Proof. exact @stale. Qed.
Print Assumptions C81_current_after_exception_refuted.

(* ---- a concrete case: functions that write a log ------------------------------------------ *)
Example C81_case :
  sound case /\
  for_each 40 case (logged 9 (fun _ => true)) [] =
    Ok (Finished, [(1, 1); (1, 2); (9, 12); (9, 11); (2, 4); (3, 4); (9, 16); (2, 5); (2, 3); (2, 4); (3, 4); (9, 16)]) /\
  looping case (logged 9 (fun _ => true)) [] =
    (Finished, [(1, 1); (1, 2); (9, 12); (9, 11); (2, 4); (3, 4); (9, 16); (2, 5); (2, 3); (2, 4); (3, 4); (9, 16)]) /\
  for_each 40 case (logged 9 (fun v => v <? 12)) [] = Ok (Broke, [(1, 1); (1, 2); (9, 12)]).
Proof. split; [cbn; repeat split; auto; lia|]. split; [vm_compute; reflexivity|]. split; vm_compute; reflexivity. Qed.
Example C81_case_throws :
  for_each 40 (PSelect (PList [1; 2; 3]) (thrower 1 2)) (logged 9 (fun _ => true)) [] = Ok (Escaped, [(1, 1); (9, 1); (1, 2)]) /\
  thrower 1 2 2 [] = ([(1, 2)], None) /\ thrower 1 2 3 [(1, 2)] = ([(1, 2); (1, 3)], Some 3).
Proof. split; vm_compute; auto. Qed.
Example C81_case_computes :
  computes (V:=Z) (St:=list (Z * Z)) (logged 1 Z.even) Z.even /\
  acts_as (PSelect (PList [1; 2]) (logged 1 (fun v => v + 10))) (LzyModel.PSelect (LzyModel.PList [1; 2]) (fun v => v + 10)).
Proof. split; [intros v s; reflexivity|]. apply A_select; [apply A_list|]. intros v s. reflexivity. Qed.
