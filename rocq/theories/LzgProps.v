From Verif Require Import Base SrtSpec LzyModel LzySpec LzeModel LzeSpec LzgModel LzgSpec LzeProofs2 LzgProofs.
Open Scope Z_scope.

(* C85: SelectMany, GroupBy, Aggregate, First and Last when the functions have effects *)
(* SelectMany calls its function for every element when it is called, in order; a loop over the
   result then goes through the lists one after the other *)
Theorem C85_select_many : forall (V St : Type) (p : pipe V St) (f : V -> St -> St * option (pipe V St)) (body : code V St) (s s1 s2 : St) (a : proc V St) (l : list (proc V St)),
  sound (PMany p f) -> meaning p s = (s1, Some a) ->
  parts (fun v s => match f v s with (s, Some q) => meaning q s | (s, None) => (s, None) end) a s1 = (s2, Some l) ->
  yields (fun fuel => for_each fuel (PMany p f) body s) (run_all body l s2).
Proof. exact @many_loop. Qed.
Print Assumptions C85_select_many.

Theorem C85_select_many_throws : forall (V St : Type) (p : pipe V St) (f : V -> St -> St * option (pipe V St)) (body : code V St) (s s1 s2 : St) (a : proc V St),
  sound (PMany p f) -> meaning p s = (s1, Some a) ->
  parts (fun v s => match f v s with (s, Some q) => meaning q s | (s, None) => (s, None) end) a s1 = (s2, None) ->
  yields (fun fuel => for_each fuel (PMany p f) body s) (Escaped, s2).
Proof. exact @many_threw. Qed.
Print Assumptions C85_select_many_throws.

Theorem C85_select_many_values : forall (V St : Type) (f : V -> St -> St * option (pipe V St)) (g : V -> list V) (l : list V) (s : St),
  lists f g -> yields (fun fuel => elements fuel (PMany (PList l) f) s) (Some (flat_map g l), called f l s).
Proof. exact @many_elements. Qed.
Print Assumptions C85_select_many_values.

(* SelectMany is lazy: false.  First and Take call the function for every element too *)
Theorem C85_select_many_lazy_refuted : forall (V St : Type) (f : V -> St -> St * option (pipe V St)) (g : V -> list V) (l : list V) (n : Z) (s : St),
  lists f g ->
  yields (fun fuel => first fuel (PMany (PList l) f) s) (Some (hd_error (flat_map g l)), called f l s) /\
  yields (fun fuel => elements fuel (PTake (PMany (PList l) f) n) s) (Some (firstn (Z.to_nat n) (flat_map g l)), called f l s).
Proof. exact (fun V St f g l n s H => conj (@many_first V St f g l s H) (@many_take V St f g l n s H)). Qed.
Print Assumptions C85_select_many_lazy_refuted.

(* the nesting of the enumerator, and with it the stack that Next, Clone and the destructor need,
   does not grow with the list: false *)
Theorem C85_select_many_depth_refuted : forall (V St : Type) (f : V -> St -> St * option (pipe V St)) (g : V -> list V) (l : list V) (s : St),
  lists f g ->
  exists e, yields (fun fuel => build fuel (PMany (PList l) f) s) (Some e, called f l s) /\ depth e = S (length l).
Proof. exact @many_depth. Qed.
Print Assumptions C85_select_many_depth_refuted.

Theorem C85_group_by : forall (V St : Type) (c : V -> V -> comparison) (f : selector V St) (p : pipe V St) (header : code V St) (body : V -> code V St) (s : St),
  sound p -> yields (fun fuel => for_groups fuel c f p header body s) (looping_groups c f p header body s).
Proof. exact @for_groups_ok. Qed.
Print Assumptions C85_group_by.

Theorem C85_group_by_values : forall (V : Type) (c : V -> V -> comparison) (g : V -> V) (l : list V) (s : list (V * option V)),
  total_order c -> yields (fun fuel => for_groups fuel c (quiet g) (PList l) note_key note_value s) (Finished, s ++ groups_of c g l).
Proof. exact @groups_content. Qed.
Print Assumptions C85_group_by_values.

(* the key function is called once for each element: false; once, and once for each group *)
Theorem C85_group_by_calls_once_refuted : forall (V : Type) (c : V -> V -> comparison) (g : V -> V) (l : list V) (s : nat),
  total_order c ->
  yields (fun fuel => for_groups fuel c (counted g) (PList l) idle (fun _ => idle) s)
    (Finished, (s + length l + length l * length (distinct c (map g l)))%nat).
Proof. exact @groups_calls. Qed.
Print Assumptions C85_group_by_calls_once_refuted.

(* every element is in a group: false for a key function whose result depends on its calls *)
Theorem C85_group_by_complete_refuted : forall v : nat,
  yields (fun fuel => for_groups fuel Nat.compare ticket (PList [v]) (beside note_key) (fun k => beside (note_value k)) (0%nat, []))
    (Finished, (2%nat, [(0%nat, None)])).
Proof. exact groups_lose. Qed.
Print Assumptions C85_group_by_complete_refuted.

Theorem C85_aggregate : forall (V St : Type) (f : V -> V -> St -> St * option V) (p : pipe V St) (s : St),
  sound p -> yields (fun fuel => aggregate fuel f p s) (result (bindm (meaning p s) (folding1 f))).
Proof. exact @aggregate_ok. Qed.
Print Assumptions C85_aggregate.

Theorem C85_aggregate_from : forall (V St R : Type) (f : R -> V -> St -> St * option R) (init : R) (p : pipe V St) (s : St),
  sound p -> yields (fun fuel => aggregate_from fuel f init p s) (result (bindm (meaning p s) (folding f init))).
Proof. exact @aggregate_from_ok. Qed.
Print Assumptions C85_aggregate_from.

Theorem C85_last : forall (V St : Type) (p : pipe V St) (s : St),
  sound p -> yields (fun fuel => last fuel p s) (result (bindm (meaning p s) (fun a s => bindm (collect a s) (fun l => ret (final l))))).
Proof. exact @last_ok. Qed.
Print Assumptions C85_last.

Theorem C85_defaults : forall (V St : Type) (d : V) (p : pipe V St) (s : St),
  sound p ->
  yields (fun fuel => first_or fuel d p s) (result (bindm (meaning p s) (fun a s => bindm (head a s) (fun o => ret (else_ d o))))) /\
  yields (fun fuel => last_or fuel d p s) (result (bindm (meaning p s) (fun a s => bindm (collect a s) (fun l => ret (else_ d (final l)))))).
Proof. exact (fun V St d p s H => conj (@first_or_ok V St d p s H) (@last_or_ok V St d p s H)). Qed.
Print Assumptions C85_defaults.

(* ---- concrete cases ------------------------------------------------------------------------ *)
Example C85_case_many :
  sound (PMany (PList [1; 5]) maker) /\
  for_each 40 (PMany (PList [1; 5]) maker) (logged 9 (fun _ => true)) [] =
    Ok (Finished, [(1, 1); (1, 5); (2, 1); (9, 10); (2, 2); (9, 20); (2, 5); (9, 50); (2, 6); (9, 60)]) /\
  for_each 40 (PRepeat (PMany (PList [1]) maker) 2) (logged 9 (fun w => w <? 20)) [] = Ok (Broke, [(1, 1); (2, 1); (9, 10); (2, 2); (9, 20)]) /\
  lists lister (fun v => [v; v + 1]) /\
  first 40 (PMany (PList [1; 5]) lister) [] = Ok (Some (Some 1), [(1, 1); (1, 5)]).
Proof. split; [split; [exact I|intros v s; exact I]|]. split; [vm_compute; reflexivity|]. split; [vm_compute; reflexivity|]. split; [intros v s; reflexivity|vm_compute; reflexivity]. Qed.
Example C85_case_groups :
  for_groups 40 Z.compare (quiet (fun v => v mod 3)) (PList [1; 5; 4; 3]) note_key note_value [] =
    Ok (Finished, [(1, None); (1, Some 1); (1, Some 4); (2, None); (2, Some 5); (0, None); (0, Some 3)]) /\
  groups_of Z.compare (fun v => v mod 3) [1; 5; 4; 3] = [(1, None); (1, Some 1); (1, Some 4); (2, None); (2, Some 5); (0, None); (0, Some 3)] /\
  for_groups 40 Z.compare (logged 1 (fun v => v mod 3)) (PList [1; 5]) (logged 8 (fun _ => true)) (fun k => logged 9 (fun _ => true)) [] =
    Ok (Finished, [(1, 1); (8, 1); (1, 1); (9, 1); (1, 5); (1, 5); (8, 2); (1, 1); (1, 5); (9, 5)]).
Proof. split; [vm_compute; reflexivity|]. split; vm_compute; reflexivity. Qed.
Example C85_case_aggregate :
  aggregate 40 (fun a v s => (s ++ [(a, v)], Some (a + v))) (PList [1; 2; 3]) [] = Ok (Some (Some 6), [(1, 2); (3, 3)]) /\
  aggregate_from 40 (fun a v s => (s ++ [(a, v)], if v <? 2 then Some (a + v) else None)) 10 (PList [1; 2; 3]) [] = Ok (None, [(10, 1); (11, 2)]) /\
  last 40 (PSelect (PList [1; 2]) (logged 1 (fun v => v + 10))) [] = Ok (Some (Some 12), [(1, 1); (1, 2)]) /\
  last_or 40 7 (PList []) ([] : list Z) = Ok (Some 7, []) /\ first_or 40 7 (PList []) ([] : list Z) = Ok (Some 7, []).
Proof. split; [vm_compute; reflexivity|]. split; [vm_compute; reflexivity|]. split; [vm_compute; reflexivity|]. split; vm_compute; reflexivity. Qed.
