From Verif Require Import Base BaseFacts SrtSpec LzyModel LzySpec LzyProofs LzeModel LzeSpec LzeProofs LzeProofs2 LzgModel LzgSpec.
Open Scope Z_scope.

Section Agg.
Context {V St : Type}.
Notation process := (proc V St).
Notation enum := (LzeModel.enum V St).
Notation pipe := (LzeModel.pipe V St).

Lemma pull_folding R (f : combiner V St R) (p : process) : forall acc s, folding f acc p s =
  match pull p s with
  | (Ended, s1) => (s1, Some acc)
  | (Value v p', s1) => bindm (f acc v s1) (fun r => folding f r p')
  | (Thrown, s1) => (s1, None)
  end.
Proof. induction p as [|v p IH|X c k IH]; intros acc s; cbn [folding pull]; auto. destruct (c s) as [s1 [x|]]; cbn [bindm]; auto. Qed.
Lemma pull_folding1 (f : combiner V St V) (p : process) : forall s, folding1 f p s =
  match pull p s with
  | (Ended, s1) => (s1, Some None)
  | (Value v p', s1) => bindm (folding f v p' s1) (fun r => ret (Some r))
  | (Thrown, s1) => (s1, None)
  end.
Proof. induction p as [|v p IH|X c k IH]; intros s; cbn [folding1 pull]; auto. destruct (c s) as [s1 [x|]]; cbn [bindm]; auto. Qed.

Lemma combine_sim p0 i0 rs P (HS : sim (V:=V) (St:=St) p0 i0 rs P) R (f : combiner V St R) p : forall k e s acc, P (Some (k, p)) e ->
  yields (fun n => combine_loop n f acc e s) (result (folding f acc p s)).
Proof.
  induction p as [p IH] using (well_founded_induction later_wf). intros k e s acc HP. rewrite pull_folding.
  pose proof (s_next _ _ _ _ HS k p e s HP) as N. destruct (pull p s) as [[|v p'|] s1] eqn:EP.
  - destruct N as (e1 & Y & _). eapply y_step; [intros z; cbn [combine_loop]; reflexivity|]. eapply y_bind; [exact Y|]. apply y_ret.
  - destruct N as (e1 & Y & C & HP1). eapply y_step; [intros z; cbn [combine_loop]; reflexivity|]. eapply y_bind; [exact Y|]. cbv beta iota. rewrite C. cbn [bind].
    destruct (f acc v s1) as [s2 [r|]]; cbn [bindm]; [|apply y_ret]. exact (IH p' (ex_intro _ s (ex_intro _ v (ex_intro _ s1 EP))) (S k) e1 s2 r HP1).
  - destruct N as (e1 & Y). eapply y_step; [intros z; cbn [combine_loop]; reflexivity|]. eapply y_bind; [exact Y|]. apply y_ret.
Qed.
Lemma on_ok2 R (k : nat -> enum -> St -> res (option R * St)) (p : pipe) s (h : process -> St -> St * option R) : sound p ->
  (forall a i0 rs e s, tracks a i0 rs e -> yields (fun f => k f e s) (result (h a s))) ->
  yields (fun f => on_pipe None (k f) (build f p s)) (result (bindm (meaning p s) h)).
Proof.
  intros SO K. pose proof (on_ok (option R) None k p s (fun a s => result (h a s)) SO K) as H.
  destruct (meaning p s) as [s1 [a|]]; exact H.
Qed.
Lemma aggregate_from_ok R (f : combiner V St R) init (p : pipe) s : sound p ->
  yields (fun n => aggregate_from n f init p s) (result (bindm (meaning p s) (folding f init))).
Proof.
  intros SO. unfold aggregate_from. apply (on_ok2 R (fun n => combine_loop n f init) p s (folding f init) SO).
  intros a i0 rs e s1 (P & HS & HP). eapply combine_sim; eauto.
Qed.
Lemma head_sim (f : combiner V St V) a i0 rs e s : tracks a i0 rs e -> yields (fun n => head_then n (combine_loop n f) e s) (result (folding1 f a s)).
Proof.
  intros (P & HS & HP). rewrite pull_folding1. pose proof (s_next _ _ _ _ HS _ _ _ s HP) as N. unfold head_then. destruct (pull a s) as [[|v p'|] s1].
  - destruct N as (e1 & Y & _). eapply y_bind; [exact Y|]. apply y_ret.
  - destruct N as (e1 & Y & C & HP1). eapply y_bind; [exact Y|]. cbv beta iota. rewrite C. cbn [bind].
    eapply y_bind; [exact (combine_sim _ _ _ _ HS _ f _ _ _ s1 v HP1)|]. destruct (folding f v p' s1) as [s2 [r|]]; apply y_ret.
  - destruct N as (e1 & Y). eapply y_bind; [exact Y|]. apply y_ret.
Qed.
Lemma aggregate_ok (f : combiner V St V) (p : pipe) s : sound p ->
  yields (fun n => aggregate n f p s) (result (bindm (meaning p s) (folding1 f))).
Proof.
  intros SO. unfold aggregate. apply (on_ok2 _ (fun n => head_then n (combine_loop n f)) p s (folding1 f) SO).
  intros a i0 rs e s1 T. eapply head_sim; eauto.
Qed.
Lemma final_cons (v : V) l : final (v :: l) = Some (else_ v (final l)).
Proof. unfold final. cbn [rev]. destruct (rev l) as [|w m]; reflexivity. Qed.
Lemma fold_last (p : process) : forall d s, folding (fun _ x s => (s, Some x)) d p s = bindm (collect p s) (fun l => ret (else_ d (final l))).
Proof.
  induction p as [|v p IH|X c k IH]; intros d s; cbn [folding collect]; auto.
  - cbn [bindm]. rewrite IH. destruct (collect p s) as [s1 [l|]]; cbn [bindm ret]; auto. now rewrite final_cons.
  - destruct (c s) as [s1 [x|]]; cbn [bindm]; auto.
Qed.
Lemma fold1_last (p : process) : forall s, folding1 (fun _ x s => (s, Some x)) p s = bindm (collect p s) (fun l => ret (final l)).
Proof.
  induction p as [|v p IH|X c k IH]; intros s; cbn [folding1 collect]; auto.
  - rewrite fold_last. destruct (collect p s) as [s1 [l|]]; cbn [bindm ret]; auto. now rewrite final_cons.
  - destruct (c s) as [s1 [x|]]; cbn [bindm]; auto.
Qed.
Lemma bindm_ext X Y (r : St * option X) (h k : X -> St -> St * option Y) : (forall x s, h x s = k x s) -> bindm r h = bindm r k.
Proof. intros E. destruct r as [s [x|]]; cbn [bindm]; auto. Qed.
Lemma last_ok (p : pipe) s : sound p ->
  yields (fun n => last n p s) (result (bindm (meaning p s) (fun a s => bindm (collect a s) (fun l => ret (final l))))).
Proof.
  intros SO. pose proof (aggregate_ok (fun _ x s => (s, Some x)) p s SO) as H.
  rewrite (bindm_ext _ _ (meaning p s) (folding1 (fun _ x s => (s, Some x))) _ fold1_last) in H. exact H.
Qed.
Lemma last_or_ok d (p : pipe) s : sound p ->
  yields (fun n => last_or n d p s) (result (bindm (meaning p s) (fun a s => bindm (collect a s) (fun l => ret (else_ d (final l)))))).
Proof.
  intros SO. pose proof (aggregate_from_ok _ (fun _ x s => (s, Some x)) d p s SO) as H.
  rewrite (bindm_ext _ _ (meaning p s) (folding (fun _ x s => (s, Some x)) d) _ (fun a => fold_last a d)) in H. exact H.
Qed.
Lemma first_or_ok d (p : pipe) s : sound p ->
  yields (fun n => first_or n d p s) (result (bindm (meaning p s) (fun a s => bindm (head a s) (fun o => ret (else_ d o))))).
Proof.
  intros SO. unfold first_or. eapply y_bind; [exact (first_ok p s SO)|]. destruct (meaning p s) as [s1 [a|]]; cbn [bindm result fst snd]; [|apply y_ret].
  destruct (head a s1) as [s2 [[v|]|]]; apply y_ret.
Qed.

(* ---- SelectMany ----------------------------------------------------------------------- *)
Lemma run_and body (p r : process) : forall s, run body (and_then p r) s = match run body p s with (Finished, s) => run body r s | x => x end.
Proof.
  induction p as [|v p IH|X c k IH]; intros s; cbn [and_then run]; auto.
  - destruct (body v s) as [s1 [[|]|]]; auto.
  - destruct (c s) as [s1 [x|]]; auto.
Qed.
Lemma run_turn body l : forall (p : process) s, run body (fold_left and_then l p) s = run_all body (p :: l) s.
Proof.
  induction l as [|r l IH]; intros p s; cbn [fold_left].
  - cbn [run_all]. now destruct (run body p s) as [[| |] s1].
  - rewrite IH. cbn [run_all]. rewrite run_and. now destruct (run body p s) as [[| |] s1].
Qed.
Lemma run_in_turn body l s : run body (in_turn l : process) s = run_all body l s.
Proof. unfold in_turn. now rewrite run_turn. Qed.

Lemma many_loop (p : pipe) f body s s1 s2 (a : process) l : sound (PMany p f) -> meaning p s = (s1, Some a) ->
  parts (fun v s => match f v s with (s, Some q) => meaning q s | (s, None) => (s, None) end) a s1 = (s2, Some l) ->
  yields (fun n => for_each n (PMany p f) body s) (run_all body l s2).
Proof.
  intros SO M PA. pose proof (for_each_ok (PMany p f) body s SO) as H. unfold looping in H. cbn [meaning] in H. rewrite M in H. cbn [bindm] in H. rewrite PA in H. cbn [bindm ret] in H.
  now rewrite run_in_turn in H.
Qed.
Lemma many_threw (p : pipe) f body s s1 s2 (a : process) : sound (PMany p f) -> meaning p s = (s1, Some a) ->
  parts (fun v s => match f v s with (s, Some q) => meaning q s | (s, None) => (s, None) end) a s1 = (s2, None) ->
  yields (fun n => for_each n (PMany p f) body s) (Escaped, s2).
Proof.
  intros SO M PA. pose proof (for_each_ok (PMany p f) body s SO) as H. unfold looping in H. cbn [meaning] in H. rewrite M in H. cbn [bindm] in H. rewrite PA in H. exact H.
Qed.

Lemma lists_sound (f : V -> St -> St * option pipe) g : lists f g -> forall v s, match f v s with (_, Some q) => sound q | (_, None) => True end.
Proof. intros F v s. specialize (F v s). destruct (f v s) as [s1 o]. cbn [snd] in F. subst o. exact I. Qed.
Lemma lists_parts (f : V -> St -> St * option pipe) g l : lists f g -> forall s,
  parts (fun v s => match f v s with (s, Some q) => meaning q s | (s, None) => (s, None) end) (of_list l) s = (called f l s, Some (map (fun v => of_list (g v)) l)).
Proof.
  intros F. induction l as [|v l IH]; intros s; cbn [of_list parts map]; auto. pose proof (F v s) as E. unfold called. cbn [fold_left].
  destruct (f v s) as [s1 o]. cbn [snd fst] in *. subst o. cbn [meaning ret bindm]. rewrite IH. reflexivity.
Qed.
Lemma turn_lists (g : V -> list V) l : forall m, fold_left and_then (map (fun v => of_list (g v)) l) (of_list m) = of_list (m ++ flat_map g l) :> process.
Proof.
  induction l as [|v l IH]; intros m; cbn [map fold_left flat_map]; [now rewrite app_nil_r|]. rewrite of_and, IH. now rewrite app_assoc.
Qed.
Lemma many_meaning (f : V -> St -> St * option pipe) g l s : lists f g -> meaning (PMany (PList l) f) s = (called f l s, Some (of_list (flat_map g l))).
Proof. intros F. cbn [meaning bindm ret]. rewrite (lists_parts f g l F). cbn [bindm ret]. unfold in_turn. change (@Stop V St) with (of_list (V:=V) (St:=St) []). now rewrite (turn_lists g l []). Qed.
Lemma many_elements (f : V -> St -> St * option pipe) g l s : lists f g ->
  yields (fun n => elements n (PMany (PList l) f) s) (Some (flat_map g l), called f l s).
Proof.
  intros F. pose proof (elements_ok (PMany (PList l) f) s (conj I (lists_sound f g F))) as H. rewrite (many_meaning f g l s F) in H. cbn [bindm] in H. now rewrite of_collect in H.
Qed.
Lemma many_first (f : V -> St -> St * option pipe) g l s : lists f g ->
  yields (fun n => first n (PMany (PList l) f) s) (Some (hd_error (flat_map g l)), called f l s).
Proof.
  intros F. pose proof (first_ok (PMany (PList l) f) s (conj I (lists_sound f g F))) as H. rewrite (many_meaning f g l s F) in H. cbn [bindm] in H.
  destruct (flat_map g l); exact H.
Qed.
Lemma many_take (f : V -> St -> St * option pipe) g l n s : lists f g ->
  yields (fun k => elements k (PTake (PMany (PList l) f) n) s) (Some (firstn (Z.to_nat n) (flat_map g l)), called f l s).
Proof.
  intros F. pose proof (elements_ok (PTake (PMany (PList l) f) n) s (conj (conj I (lists_sound f g F)) (or_intror eq_refl))) as H.
  change (meaning (PTake (PMany (PList l) f) n) s) with (bindm (meaning (PMany (PList l) f) s) (fun a => ret (taking (Z.to_nat n) a))) in H.
  rewrite (many_meaning f g l s F) in H. cbn [bindm ret] in H. now rewrite of_take, of_collect in H.
Qed.
Lemma gather_depth (f : V -> St -> St * option pipe) g l : lists f g -> forall m i s acc, skipn (Z.to_nat (i + 1)) l = m -> 0 <= i + 1 -> (1 <= depth acc)%nat ->
  exists e, yields2 (fun n k => gather n (fun x s => match f x s with (s, Some q) => build k q s | (s, None) => Ok (None, s) end) acc (ECont l i) s) (Some e, called f m s) /\
    depth e = (length m + depth acc)%nat.
Proof.
  intros F m. induction m as [|v m IH]; intros i s acc E HI HD.
  - exists acc. split; [|reflexivity]. eapply y2_step; [intros n k; cbn [gather]; reflexivity|].
    eapply y2_left with (a := (No, ECont l (i + 1), s)); [|apply y2_ret]. exists 1%nat. intros [|n] Hn; [lia|]. cbn [next].
    assert (L : length (skipn (Z.to_nat (i + 1)) l) = 0%nat) by now rewrite E. rewrite skipn_length in L.
    replace ((i + 1 >=? 0) && (i + 1 <? zlen l)) with false by (unfold zlen; lia). reflexivity.
  - assert (Z : znth l (i + 1) = Some v) by (rewrite znth_z by lia; rewrite <- (firstn_skipn (Z.to_nat (i + 1)) l), E, nth_error_app2; rewrite firstn_length_le; try lia; [rewrite Nat.sub_diag; reflexivity|..];
      assert (length (skipn (Z.to_nat (i + 1)) l) = S (length m)) by (now rewrite E); rewrite skipn_length in *; lia).
    assert (E' : skipn (Z.to_nat (i + 1 + 1)) l = m).
    { replace (Z.to_nat (i + 1 + 1)) with (1 + Z.to_nat (i + 1))%nat by lia. clear -E. revert E. generalize (Z.to_nat (i + 1)). intros n. revert l. induction n as [|n IH]; intros [|x l] E; cbn in *; try discriminate; [congruence|auto]. }
    pose proof (F v s) as FV. destruct (f v s) as [s1 o] eqn:EF. cbn [snd] in FV. subst o.
    destruct (IH (i + 1) s1 (EConcat acc (ECont (g v) (-1)) (-1) false) E' ltac:(lia) ltac:(cbn [depth]; lia)) as (e & Y & D). exists e. split.
    + eapply y2_step; [intros n k; cbn [gather]; reflexivity|]. eapply y2_left; [eapply cont_next; eauto|]. cbv beta iota. cbn [current]. unfold cget. rewrite Z. cbn [bind]. unfold on_built.
      rewrite EF. cbn [build made bind]. unfold called in *. cbn [fold_left]. rewrite EF. cbn [fst]. exact Y.
    + rewrite D. cbn [depth length]. lia.
Qed.
Lemma many_depth (f : V -> St -> St * option pipe) g l s : lists f g ->
  exists e, yields (fun n => build n (PMany (PList l) f) s) (Some e, called f l s) /\ depth e = S (length l).
Proof.
  intros F. destruct (gather_depth f g l F l (-1) s EEmpty eq_refl ltac:(lia) ltac:(cbn; lia)) as (e & Y & D). exists e. split; [|rewrite D; cbn [depth]; lia].
  cbn [build made]. unfold on_built at 1. cbn [bind]. exact (y2_same _ _ _ Y).
Qed.

(* ---- GroupBy ------------------------------------------------------------------------------ *)
Lemma groups_sim c f header (body : V -> code V St) a i1 rs1 self (T1 : tracks a i1 rs1 self) p0 i0 rs P (HS : sim (V:=V) (St:=St) p0 i0 rs P) p : forall k e s, P (Some (k, p)) e ->
  yields (fun n => groups_loop n c f self header body e s) (grouping c f header body a p s).
Proof.
  induction p as [p IH] using (well_founded_induction later_wf). intros k e s HP. unfold grouping in *. rewrite pull_run.
  pose proof (s_next _ _ _ _ HS k p e s HP) as N. destruct (pull p s) as [[|v p'|] s1] eqn:EP.
  - destruct N as (e1 & Y & _). eapply y_step; [intros z; cbn [groups_loop]; reflexivity|]. eapply y_bind; [exact Y|]. apply y_ret.
  - destruct N as (e1 & Y & C & HP1). specialize (IH p' (ex_intro _ s (ex_intro _ v (ex_intro _ s1 EP))) (S k) e1).
    eapply y_step; [intros z; cbn [groups_loop]; reflexivity|]. eapply y_bind; [exact Y|]. cbv beta iota. rewrite C. cbn [bind].
    destruct (header v s1) as [s2 [[|]|]]; cbn [bindm ret]; [|apply y_ret|apply y_ret].
    destruct (t_where (with_key c f v) _ _ _ _ T1) as (Q & HQ & HQ0).
    pose proof (loop_sim _ _ _ _ HQ (body v) _ _ _ s2 HQ0) as L.
    change (EWhere self (with_key c f v) (-1)) with (EWhere self (fun x s => bindm (f x s) (fun k' => ret match c v k' with Eq => true | _ => false end)) (-1)) in L.
    assert (LG : yields (fun n => loop n (body v) (group c f self v) s2) (run (body v) (those (with_key c f v) a) s2)) by exact L.
    eapply y_bind; [exact LG|]. destruct (run (body v) (those (with_key c f v) a) s2) as [[| |] s3]; [apply IH; auto|apply IH; auto|apply y_ret].
  - destruct N as (e1 & Y). eapply y_step; [intros z; cbn [groups_loop]; reflexivity|]. eapply y_bind; [exact Y|]. apply y_ret.
Qed.
Lemma for_groups_ok c f (p : pipe) header body s : sound p -> yields (fun n => for_groups n c f p header body s) (looping_groups c f p header body s).
Proof.
  intros SO. unfold for_groups, looping_groups. apply (on_ok verdict Escaped (fun n e s => groups_loop n c f e header body (keys c f e) s) p s (fun a s => grouping c f header body a (fresh c [] (selecting f a)) s) SO).
  intros a i0 rs e s1 T. destruct (t_distinct c _ _ _ _ None (t_select f _ _ _ _ None T)) as (P & HS & HP). eapply groups_sim; eauto.
Qed.
End Agg.

(* ---- how often the key function is called, what the groups are ------------------------------- *)
Lemma count_inner {V : Type} c (g : V -> V) k l : forall s, run idle (those (with_key c (counted g) k) (of_list l)) s = (Finished, (s + length l)%nat).
Proof.
  induction l as [|v l IH]; intros s; cbn [of_list those run length]; [f_equal; lia|]. cbn [with_key counted bindm ret].
  destruct (c k (g v)); cbn [run idle]; rewrite IH; f_equal; lia.
Qed.
Lemma count_outer {V : Type} c (g : V -> V) l m : forall seen s,
  grouping c (counted g) idle (fun _ => idle) (of_list l) (fresh c seen (selecting (counted g) (of_list m))) s =
  (Finished, (s + length m + length l * length (lfresh c seen (map g m)))%nat).
Proof.
  unfold grouping. induction m as [|v m IH]; intros seen s; cbn [of_list selecting fresh run map lfresh length]; [f_equal; lia|]. cbn [counted].
  destruct (contains c seen (g v)); cbn [run].
  - rewrite IH. f_equal. lia.
  - cbn [idle bindm]. rewrite count_inner. rewrite IH. cbn [length]. f_equal. lia.
Qed.
Lemma groups_calls {V : Type} (c : V -> V -> comparison) (g : V -> V) l s : total_order c ->
  yields (fun n => for_groups n c (counted g) (PList l) idle (fun _ => idle) s) (Finished, (s + length l + length l * length (distinct c (map g l)))%nat).
Proof.
  intros TO. pose proof (for_groups_ok c (counted g) (PList l) idle (fun _ => idle) s I) as H. unfold looping_groups in H. cbn [meaning ret] in H. rewrite count_outer in H.
  pose proof (lfresh_distinct c TO (map g l) [] [] ltac:(reflexivity)) as E. cbn [app distinct] in E. now rewrite E.
Qed.
Lemma note_inner {V : Type} c (g : V -> V) (k : V) l : forall s, run (note_value k) (those (with_key c (quiet g) k) (of_list l)) s =
  (Finished, s ++ map (fun v => (k, Some v)) (filter (fun v => match c k (g v) with Eq => true | _ => false end) l)).
Proof.
  induction l as [|v l IH]; intros s; cbn [of_list those run filter map]; [now rewrite app_nil_r|]. cbn [with_key quiet bindm ret].
  destruct (c k (g v)); cbn [run note_value map]; rewrite IH; auto. now rewrite <- app_assoc.
Qed.
Lemma note_outer {V : Type} c (g : V -> V) l m : forall seen s,
  grouping c (quiet g) note_key note_value (of_list l) (fresh c seen (selecting (quiet g) (of_list m))) s =
  (Finished, s ++ flat_map (fun k => (k, None) :: map (fun v => (k, Some v)) (filter (fun v => match c k (g v) with Eq => true | _ => false end) l)) (lfresh c seen (map g m))).
Proof.
  unfold grouping. induction m as [|v m IH]; intros seen s; cbn [of_list selecting fresh run map lfresh flat_map]; [now rewrite app_nil_r|]. cbn [quiet].
  destruct (contains c seen (g v)); cbn [run].
  - now rewrite IH.
  - cbn [note_key bindm]. rewrite note_inner. rewrite IH. cbn [flat_map]. now rewrite <- !app_assoc.
Qed.
Lemma groups_content {V : Type} (c : V -> V -> comparison) (g : V -> V) l s : total_order c ->
  yields (fun n => for_groups n c (quiet g) (PList l) note_key note_value s) (Finished, s ++ groups_of c g l).
Proof.
  intros TO. pose proof (for_groups_ok c (quiet g) (PList l) note_key note_value s I) as H. unfold looping_groups in H. cbn [meaning ret] in H. rewrite note_outer in H.
  pose proof (lfresh_distinct c TO (map g l) [] [] ltac:(reflexivity)) as E. cbn [app distinct] in E. unfold groups_of. now rewrite E.
Qed.
Lemma groups_lose v : yields (fun n => for_groups n Nat.compare ticket (PList [v]) (beside note_key) (fun k => beside (note_value k)) (0%nat, [])) (Finished, (2%nat, [(0%nat, None)])).
Proof. exact (for_groups_ok Nat.compare ticket (PList [v]) (beside note_key) (fun k => beside (note_value k)) (0%nat, []) I). Qed.
