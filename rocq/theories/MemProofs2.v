From Coq Require Import ZifyBool ZifyNat.
From Verif Require Import Base BaseFacts LstModel LstSpec MemSpec StrModel StrSpec StrProofs.
Open Scope Z_scope.

Lemma held_app h k : held (h ++ k) = held h + held k.
Proof. induction h as [|b h IH]; [reflexivity|]. cbn [app held]. destruct b; lia. Qed.
Lemma held_nonneg h : 0 <= held h.
Proof. induction h as [|b h IH]; cbn [held]; [lia|]. destruct b as [cs|cs n|]; try lia. pose proof (zlen_nonneg cs). lia. Qed.
Lemma held_upd h : forall b cs n c, nth_error h b = Some (Counted cs n) -> held (upd h b c) = held h - zlen cs + held [c].
Proof.
  induction h as [|d h IH]; intros [|b] cs n c H; cbn [nth_error] in H; try discriminate.
  - injection H as ->. cbn [upd held]. destruct c; cbn [held]; lia.
  - cbn [upd held]. rewrite (IH b cs n c H). destruct d; cbn [held]; lia.
Qed.

(* blocks are only added, freed and counted *)
Definition ext (h h' : heap) : Prop :=
  (length h <= length h')%nat /\ forall b cs n, (b < length h)%nat -> nth_error h' b = Some (Counted cs n) -> exists m, nth_error h b = Some (Counted cs m).
Lemma ext_refl h : ext h h.
Proof. split; [lia|]. eauto. Qed.
Lemma ext_trans h k m : ext h k -> ext k m -> ext h m.
Proof. intros [L1 E1] [L2 E2]. split; [lia|]. intros b cs n Hb H. destruct (E2 b cs n) as (q & Hq); [lia|exact H|]. eauto. Qed.
Lemma ext_app h b : ext h (h ++ [b]).
Proof. split; [rewrite app_length; lia|]. intros c cs n Hc H. rewrite nth_error_app1 in H by exact Hc. eauto. Qed.
Lemma ext_upd h b cs n c : nth_error h b = Some (Counted cs n) -> (c = Freed \/ exists m, c = Counted cs m) -> ext h (upd h b c).
Proof.
  intros Hb Hc. pose proof (nth_error_lt _ _ _ Hb) as L. split; [rewrite upd_length; lia|]. intros d ds m Hd H. rewrite upd_nth in H by exact L.
  destruct (Nat.eqb_spec d b) as [->|N]; [|eauto]. destruct Hc as [->|(q & ->)]; [discriminate|]. injection H as <- <-. eauto.
Qed.
Lemma inc_held h s h' : inc h s = Ok h' -> ext h h' /\ held h' = held h.
Proof.
  unfold inc. destruct (managed s); [|intros E; injection E as <-; split; [apply ext_refl|reflexivity]].
  destruct (nth_error h (buf s)) as [[cs|cs n|]|] eqn:Eb; try discriminate. intros E. injection E as <-. split; [apply (ext_upd _ _ cs n); eauto|].
  rewrite (held_upd _ _ _ _ _ Eb). cbn [held]. lia.
Qed.
Lemma dec_held h s h' : dec h s = Ok h' -> ext h h' /\ held h' <= held h.
Proof.
  unfold dec. destruct (managed s); [|intros E; injection E as <-; split; [apply ext_refl|lia]].
  destruct (nth_error h (buf s)) as [[cs|cs n|]|] eqn:Eb; try discriminate. intros E. injection E as <-. split.
  - apply (ext_upd _ _ cs n); [exact Eb|]. destruct (n - 1 =? 0); eauto.
  - rewrite (held_upd _ _ _ _ _ Eb). pose proof (zlen_nonneg cs). destruct (n - 1 =? 0); cbn [held]; lia.
Qed.
(* a string whose block holds exactly its characters and a terminator *)
Definition fits_block (h : heap) (x : str) : Prop :=
  managed x = true -> (buf x < length h)%nat /\ forall cs n, nth_error h (buf x) = Some (Counted cs n) -> zlen cs = len x + 1.
Lemma fits_ext h h' x : ext h h' -> fits_block h x -> fits_block h' x.
Proof.
  intros [L E] F M. destruct (F M) as [B Q]. split; [lia|]. intros cs n H. destruct (E _ _ _ B H) as (m & Hm). eauto.
Qed.
Lemma fits_empty h : fits_block h empty.
Proof. intros M. discriminate M. Qed.
Lemma zlen_repeat {A} (x : A) n : 0 <= n -> zlen (repeat x (Z.to_nat n)) = n.
Proof. intros. unfold zlen. rewrite repeat_length. lia. Qed.
Lemma new_array_len n b : new_array n = Ok b -> zlen b = n.
Proof. unfold new_array. destruct (n <? 0) eqn:E; [discriminate|]. intros H. injection H as <-. apply zlen_repeat. lia. Qed.
Lemma aset_len {A} (l : list A) i x l' : aset l i x = Ok l' -> zlen l' = zlen l.
Proof. unfold aset. intros H. destruct (_ && _); [|discriminate]. injection H as <-. unfold zlen. now rewrite upd_length. Qed.
Lemma mem_write_len l : forall cs i cs', mem_write cs i l = Ok cs' -> zlen cs' = zlen cs.
Proof.
  induction l as [|x l IH]; intros cs i cs' H; cbn [mem_write] in H; [injection H as <-; reflexivity|].
  apply bind_ok in H. destruct H as (c1 & H1 & H2). apply IH in H2. apply aset_len in H1. lia.
Qed.
(* what building or sharing does *)
Definition grows (h : heap) (k : Z) (r : res (heap * str)) : Prop := forall h' x, r = Ok (h', x) -> ext h h' /\ held h' <= held h + k.
Definition makes (h : heap) (r : res (heap * str)) : Prop := forall h' x, r = Ok (h', x) -> ext h h' /\ held h' <= held h + (len x + 1) /\ fits_block h' x.
Lemma own_makes h b n : zlen b = n + 1 -> makes h (let '(h', id) := own h b in Ok (h', mkStr id true 0 n n)).
Proof.
  intros L h' x E. unfold own in E. injection E as <- <-. split; [apply ext_app|]. split; [rewrite held_app; cbn [held len]; lia|].
  intros _. cbn [buf len]. split; [rewrite app_length; cbn; lia|]. intros cs m H. rewrite nth_error_app2, Nat.sub_diag in H by lia. injection H as <- <-. lia.
Qed.
Ltac open E := repeat (let a := fresh "a" in let F := fresh "F" in apply bind_ok in E; destruct E as (a & F & E); match type of a with prod _ _ => destruct a | _ => idtac end).
Lemma of_literal_makes h p : makes h (of_literal h p).
Proof.
  intros h' x E. unfold of_literal in E. destruct p as [mem|]; [|discriminate]. open E. revert E. apply own_makes. apply mem_write_len in F2. apply new_array_len in F0. lia.
Qed.
Lemma copy_from_makes h mem n : makes h (copy_from h mem n).
Proof.
  intros h' x E. unfold copy_from in E. destruct (n <? 0); [discriminate|]. destruct (n >? 0).
  - open E. revert E. apply own_makes. apply mem_write_len in F1. apply mem_write_len in F2. apply new_array_len in F. lia.
  - injection E as <- <-. split; [apply ext_refl|]. split; [cbn [len empty]; lia|apply fits_empty].
Qed.
Lemma take_over_grows h mem n : grows h (zlen mem) (take_over h mem n).
Proof.
  intros h' x E. unfold take_over in E. destruct (n <? 0); [discriminate|]. apply bind_ok in E. destruct E as (z & _ & E). destruct (negb (z =? 0)); [discriminate|].
  unfold own in E. injection E as <- <-. split; [apply ext_app|]. rewrite held_app. cbn [held]. rewrite zlen_map. lia.
Qed.
Lemma take_over_makes h mem n : zlen mem = n + 1 -> makes h (take_over h mem n).
Proof.
  intros L h' x E. unfold take_over in E. destruct (n <? 0); [discriminate|]. apply bind_ok in E. destruct E as (z & _ & E). destruct (negb (z =? 0)); [discriminate|].
  revert E. apply own_makes. rewrite zlen_map. exact L.
Qed.
Lemma unmanaged_shares h p h' x : unmanaged h p = Ok (h', x) -> ext h h' /\ held h' = held h /\ fits_block h' x /\ managed x = false.
Proof.
  unfold unmanaged. destruct p as [mem|]; [|discriminate]. intros E. apply bind_ok in E. destruct E as (n & _ & E). injection E as <- <-.
  split; [apply ext_app|]. split; [rewrite held_app; cbn [held]; lia|]. split; [intros M; discriminate M|reflexivity].
Qed.
Lemma copy_shares h s h' x : copy h s = Ok (h', x) -> ext h h' /\ held h' = held h /\ x = s.
Proof. unfold copy. intros E. apply bind_ok in E. destruct E as (k & E1 & E). injection E as <- <-. apply inc_held in E1. tauto. Qed.
Lemma sub_unsafe_shares h s i n h' x : sub_unsafe h s i n = Ok (h', x) -> ext h h' /\ held h' = held h.
Proof.
  unfold sub_unsafe. destruct (n <=? 0); [intros E; injection E as <- <-; split; [apply ext_refl|reflexivity]|]. intros E. apply bind_ok in E. destruct E as (k & E1 & E).
  injection E as <- <-. apply inc_held in E1. tauto.
Qed.
Lemma replace_makes h s t i n : 0 <= len s -> 0 <= len t -> forall h' x, replace_unsafe h s t i n = Ok (h', x) ->
  ext h h' /\ held h' <= held h + (len x + 1) /\ (fits_block h s -> fits_block h t -> fits_block h' x).
Proof.
  intros Hs Ht h' x. unfold replace_unsafe.
  destruct ((len t =? 0) && (n =? 0)); [intros E; apply copy_shares in E as (X & H & ->); split; [exact X|]; split; [lia|eauto using fits_ext]|].
  destruct ((i =? 0) && (n =? len s)); [intros E; apply copy_shares in E as (X & H & ->); split; [exact X|]; split; [lia|eauto using fits_ext]|].
  cbv zeta. intros E. open E. assert (zlen a8 = len s - n + len t + 1) as L.
  { repeat match goal with H : mem_write _ _ _ = Ok _ |- _ => apply mem_write_len in H end. repeat match goal with H : new_array _ = Ok _ |- _ => apply new_array_len in H end. lia. }
  destruct (own_makes h a8 _ L h' x E) as (X & H & W). auto.
Qed.
Lemma dec_unmanaged h t : managed t = false -> dec h t = Ok h.
Proof. unfold dec. now intros ->. Qed.
Lemma lit_len h p h' t : unmanaged h p = Ok (h', t) -> 0 <= len t.
Proof.
  unfold unmanaged. destruct p as [mem|]; [|discriminate]. intros E. apply bind_ok in E. destruct E as (n & En & E). injection E as <- <-. cbn [len].
  revert n En. induction mem as [|c mem IH]; intros n En; cbn [calc_length] in En; [discriminate|]. destruct (c =? 0); [injection En as <-; lia|]. apply bind_ok in En. destruct En as (m & Em & En).
  apply IH in Em. injection En as <-. lia.
Qed.
Lemma replace_lit_makes h s p i n : 0 <= len s -> forall h' x, replace_unsafe_lit h s p i n = Ok (h', x) ->
  ext h h' /\ held h' <= held h + (len x + 1) /\ (fits_block h s -> fits_block h' x).
Proof.
  intros Hs h' x E. unfold replace_unsafe_lit in E. apply bind_ok in E. destruct E as (b & _ & E).
  destruct (b && (n =? 0)); [apply copy_shares in E as (X & H & ->); split; [exact X|]; split; [lia|eauto using fits_ext]|].
  destruct ((i =? 0) && (n =? len s)); [apply of_literal_makes in E; tauto|].
  apply bind_ok in E. destruct E as ([h1 t] & E1 & E). pose proof (lit_len _ _ _ _ E1) as Lt. apply unmanaged_shares in E1 as (X1 & H1 & W1 & M1).
  apply bind_ok in E. destruct E as ([h2 r] & E2 & E). rewrite (dec_unmanaged h2 t M1) in E. cbn [bind] in E. injection E as <- <-.
  destruct (replace_makes h1 s t i n Hs Lt h2 r E2) as (X2 & H2 & W2). split; [eapply ext_trans; eauto|]. split; [lia|]. intros F. apply W2; [eauto using fits_ext|exact W1].
Qed.
Lemma lit_concat_makes h s p : 0 <= len s -> forall h' x, lit_concat h p s = Ok (h', x) ->
  ext h h' /\ held h' <= held h + (len x + 1) /\ (fits_block h s -> fits_block h' x).
Proof.
  intros Hs h' x E. unfold lit_concat in E. destruct (len s =? 0); [apply of_literal_makes in E; tauto|].
  apply bind_ok in E. destruct E as ([h1 t] & E1 & E). pose proof (lit_len _ _ _ _ E1) as Lt. apply unmanaged_shares in E1 as (X1 & H1 & W1 & M1).
  apply bind_ok in E. destruct E as ([h2 r] & E2 & E). rewrite (dec_unmanaged h2 t M1) in E. cbn [bind] in E. injection E as <- <-. unfold concat in E2.
  destruct (replace_makes h1 t s (len t) 0 Lt Hs h2 r E2) as (X2 & H2 & W2). split; [eapply ext_trans; eauto|]. split; [lia|]. intros F. apply W2; [exact W1|eauto using fits_ext].
Qed.

(* ---- expressions ---- *)
Definition lens (xs : list (option str)) : Prop := Forall (fun v => match v with Some x => 0 <= len x | None => True end) xs.
Definition all_fit (h : heap) (xs : list (option str)) : Prop := Forall (fun v => match v with Some x => fits_block h x | None => True end) xs.
Definition whole_expr (e : expr) : Prop :=
  match e with ELeft _ _ | ERight _ _ | ESub _ _ _ => False | ETakeOver mem n => zlen mem = n + 1 | _ => True end.
Definition cells (e : expr) (x : str) : Z := if shares e then 0 else match e with ETakeOver mem _ => zlen mem | _ => len x + 1 end.
Lemma forall_var {P : str -> Prop} s v x : Forall (fun o => match o with Some x => P x | None => True end) (vars s) -> var s v = Ok x -> P x.
Proof.
  unfold var. intros F H. destruct (nth_error (vars s) v) as [[y|]|] eqn:E; try discriminate. injection H as ->. rewrite Forall_forall in F. apply nth_error_In in E. apply (F _ E).
Qed.
Lemma all_fit_ext h h' xs : ext h h' -> all_fit h xs -> all_fit h' xs.
Proof. intros X. apply Forall_impl. intros [x|]; [|auto]. eauto using fits_ext. Qed.
Lemma Forall_upd {A} (P : A -> Prop) l v x : Forall P l -> P x -> Forall P (upd l v x).
Proof. intros F Hx. revert v. induction F as [|y l Hy F IH]; intros [|v]; cbn [upd]; constructor; auto. Qed.
Lemma eval_bound s e s' x : lens (vars s) -> eval s e = Ok (s', x) ->
  ext (hp s) (hp s') /\ held (hp s') <= held (hp s) + cells e x /\
  (whole_expr e -> all_fit (hp s) (vars s) -> all_fit (hp s') (vars s') /\ fits_block (hp s') x).
Proof.
  intros L E.
  assert (forall r k, (do (h', x) <- r; Ok (mkState h' (vars s), x)) = Ok (s', x) ->
            (forall h' x, r = Ok (h', x) -> ext (hp s) h' /\ held h' <= held (hp s) + k x /\ (whole_expr e -> all_fit (hp s) (vars s) -> fits_block h' x)) ->
            ext (hp s) (hp s') /\ held (hp s') <= held (hp s) + k x /\ (whole_expr e -> all_fit (hp s) (vars s) -> all_fit (hp s') (vars s') /\ fits_block (hp s') x)) as Keep.
  { intros r k Er Hr. apply bind_ok in Er. destruct Er as ([h1 x1] & -> & Er). injection Er as <- <-. destruct (Hr _ _ eq_refl) as (X & H & W). cbn [hp vars]. split; [exact X|]. split; [exact H|].
    intros We Wa. split; [eauto using all_fit_ext|auto]. }
  assert (forall v y, var s v = Ok y -> 0 <= len y) as Lv by (intros v y; now apply (forall_var (P := fun y => 0 <= len y))).
  assert (forall v y, var s v = Ok y -> all_fit (hp s) (vars s) -> fits_block (hp s) y) as Wv by (intros v y Hv Wa; now apply (forall_var (P := fits_block (hp s)) s v)).
  unfold cells. destruct e; cbn [eval shares] in *.
  - apply (Keep _ (fun _ => 0) E). intros h' y H. injection H as <- <-. split; [apply ext_refl|]. split; [lia|]. intros _ _. apply fits_empty.
  - apply (Keep _ (fun x => len x + 1) E). intros h' y H. apply of_literal_makes in H. tauto.
  - apply (Keep _ (fun _ => zlen mem) E). intros h' y H. destruct (take_over_grows _ _ _ _ _ H). split; [assumption|]. split; [assumption|]. cbn [whole_expr]. intros We _. apply (take_over_makes _ _ _ We) in H. tauto.
  - apply (Keep _ (fun x => len x + 1) E). intros h' y H. unfold from_char in H. apply of_literal_makes in H. tauto.
  - apply (Keep _ (fun x => len x + 1) E). intros h' y H. apply copy_from_makes in H. tauto.
  - apply (Keep _ (fun _ => 0) E). intros h' y H. apply unmanaged_shares in H. split; [tauto|]. split; [lia|tauto].
  - apply bind_ok in E. destruct E as (y & Ey & E). apply (Keep _ (fun _ => 0) E). intros h' z H. apply copy_shares in H as (X & H & ->). split; [exact X|]. split; [lia|]. intros _ Wa. eauto using fits_ext.
  - apply bind_ok in E. destruct E as (y & Ey & E). injection E as <- <-. cbn [setvar hp vars]. split; [apply ext_refl|]. split; [lia|]. intros _ Wa. split; [|eauto]. apply Forall_upd; [exact Wa|apply fits_empty].
  - apply bind_ok in E. destruct E as (y & Ey & E). apply (Keep _ (fun _ => 0) E). intros h' z H. unfold left in H. destruct (_ && _); [|discriminate]. apply sub_unsafe_shares in H. split; [tauto|]. split; [lia|]. intros [].
  - apply bind_ok in E. destruct E as (y & Ey & E). apply (Keep _ (fun _ => 0) E). intros h' z H. unfold right in H. destruct (_ && _); [|discriminate]. apply sub_unsafe_shares in H. split; [tauto|]. split; [lia|]. intros [].
  - apply bind_ok in E. destruct E as (y & Ey & E). apply (Keep _ (fun _ => 0) E). intros h' z H. unfold sub in H. destruct (_ && _); [|discriminate]. apply bind_ok in H. destruct H as (q & _ & H). destruct (_ && _); [|discriminate].
    apply sub_unsafe_shares in H. split; [tauto|]. split; [lia|]. intros [].
  - apply bind_ok in E. destruct E as (y & Ey & E). apply (Keep _ (fun x => len x + 1) E). intros h' z H. unfold remove in H. destruct (_ && _); [|discriminate]. apply bind_ok in H. destruct H as (q & _ & H). destruct (_ && _); [|discriminate].
    apply replace_makes in H; [|eauto|cbn; lia]. destruct H as (X & H & W). split; [exact X|]. split; [exact H|]. intros _ Wa. apply W; [eauto|apply fits_empty].
  - apply bind_ok in E. destruct E as (y & Ey & E). apply bind_ok in E. destruct E as (y2 & Ey2 & E). apply (Keep _ (fun x => len x + 1) E). intros h' z H. unfold insert in H. destruct (_ && _); [|discriminate].
    apply replace_makes in H; [|eauto|eauto]. destruct H as (X & H & W). split; [exact X|]. split; [exact H|]. intros _ Wa. apply W; eauto.
  - apply bind_ok in E. destruct E as (y & Ey & E). apply bind_ok in E. destruct E as (y2 & Ey2 & E). apply (Keep _ (fun x => len x + 1) E). intros h' z H. unfold concat in H.
    apply replace_makes in H; [|eauto|eauto]. destruct H as (X & H & W). split; [exact X|]. split; [exact H|]. intros _ Wa. apply W; eauto.
  - apply bind_ok in E. destruct E as (y & Ey & E). apply (Keep _ (fun x => len x + 1) E). intros h' z H. unfold concat_lit in H.
    apply replace_lit_makes in H; [|eauto]. destruct H as (X & H & W). split; [exact X|]. split; [exact H|]. intros _ Wa. apply W; eauto.
  - apply bind_ok in E. destruct E as (y & Ey & E). apply (Keep _ (fun x => len x + 1) E). intros h' z H.
    apply lit_concat_makes in H; [|eauto]. destruct H as (X & H & W). split; [exact X|]. split; [exact H|]. intros _ Wa. apply W; eauto.
Qed.

(* ---- statements ---- *)
Lemma rel_lens s vs : Rel s vs -> lens (vars s).
Proof.
  intros R. unfold lens. apply Forall_forall. intros [x|] Hx; [|exact I]. apply In_nth_error in Hx as (v & Hv). destruct (rel_live s vs v x R Hv) as (cs & _ & _ & L & _). exact L.
Qed.
Lemma var_read s vs v x : Rel s vs -> var s v = Ok x -> exists l, nth_error vs v = Some (Some l) /\ len x = zlen l.
Proof.
  intros [Hs HI] H. unfold var in H. destruct (nth_error (vars s) v) as [[y|]|] eqn:E; try discriminate. injection H as ->.
  pose proof (shape_nth _ _ v Hs) as Q. rewrite E in Q. destruct (nth_error vs v) as [[l|]|] eqn:El; try tauto. exists l. split; [reflexivity|].
  apply (holds_len (hp s)). apply (Inv_in _ _ _ _ HI (pairs_in _ _ _ _ _ E El)).
Qed.
Lemma new_cells_nonneg vs e : 0 <= new_cells vs e.
Proof.
  unfold new_cells. destruct (shares e); [lia|]. destruct e; try (pose proof (zlen_nonneg mem); lia); destruct (seval vs _) as [[? l]| | |]; try lia; pose proof (zlen_nonneg l); lia.
Qed.
Lemma needs_nonneg vs o : 0 <= needs vs o.
Proof. destruct o; cbn [needs]; try lia; try apply new_cells_nonneg. destruct (nth_error vs v) as [[l|]|]; try lia. pose proof (zlen_nonneg l). lia. Qed.
Lemma eval_cells s vs e s1 x : Rel s vs -> eval s e = Ok (s1, x) -> seval vs e <> UB -> seval vs e <> NoFuel -> cells e x = new_cells vs e.
Proof.
  intros R E N1 N2. pose proof (eval_refines s vs e R) as Q. unfold evalspec in Q. destruct (seval vs e) as [[vs1 l]| | |] eqn:El; try congruence.
  destruct Q as (s2 & x2 & E2 & Sh & HI). rewrite E in E2. injection E2 as <- <-. assert (len x = zlen l) as Lx by (apply (holds_len (hp s1)); eapply Inv_in; [exact HI|now left]).
  unfold cells, new_cells. destruct (shares e); [reflexivity|]. destruct e; rewrite ?El, ?Lx; reflexivity.
Qed.
Lemma buffer_bound h x h' x' l : buffer h x = Ok (h', x', l) -> 0 <= len x ->
  ext h h' /\ held h' <= held h + (len x + 1) /\ (fits_block h x -> fits_block h' x').
Proof.
  unfold buffer. intros E L. apply bind_ok in E. destruct E as ([h1 x1] & E1 & E). apply bind_ok in E. destruct E as (cs & _ & E). injection E as <- <- _.
  destruct (negb (start x + len x =? real x)).
  - open E1. destruct (dec_held _ _ _ F4) as (X & H). assert (zlen a3 = len x + 1) as La by (apply mem_write_len in F2; apply mem_write_len in F3; apply new_array_len in F; lia).
    destruct (own_makes a4 a3 _ La h1 x1 E1) as (X2 & H2 & W). injection E1 as _ <-. cbn [len] in H2. split; [eapply ext_trans; eauto|]. split; [lia|auto].
  - injection E1 as <- <-. split; [apply ext_refl|]. split; [lia|auto].
Qed.
Lemma step_held s vs o vs' y : Rel s vs -> StrSpec.sstep vs o = Ok (vs', y) ->
  exists s' r, StrModel.step s o = Ok (s', r) /\ Rel s' vs' /\ held (hp s') <= held (hp s) + needs vs o /\
    (whole o -> all_fit (hp s) (vars s) -> all_fit (hp s') (vars s')).
Proof.
  intros R E. destruct (StrProofs.step_refines s vs o vs' y R E) as (s' & r & E2 & R2 & _). exists s', r. split; [exact E2|]. split; [exact R2|]. clear R2.
  pose proof (rel_lens s vs R) as L. pose proof (needs_nonneg vs o) as Hn.
  assert (forall v y, var s v = Ok y -> 0 <= len y) as Lv by (intros v z; now apply (forall_var (P := fun y => 0 <= len y))).
  assert (forall v y, var s v = Ok y -> all_fit (hp s) (vars s) -> fits_block (hp s) y) as Wv by (intros v z Hv Wa; now apply (forall_var (P := fits_block (hp s)) s v)).
  unfold StrModel.step in E2. destruct (StrModel.step_raw s o) as [[s1 r1]| | |] eqn:Er; try discriminate.
  2:{ injection E2 as <- _. split; [lia|auto]. }
  injection E2 as -> ->. unfold StrSpec.sstep in E.
  destruct o; cbn [StrModel.step_raw needs] in *.
  - destruct (nth_error (vars s) v) as [[z|]|] eqn:Ev; try discriminate. apply bind_ok in Er. destruct Er as ([s1 x] & Ee & Er). injection Er as <- _. cbn [setvar hp vars].
    assert (seval vs e <> UB /\ seval vs e <> NoFuel) as [N1 N2].
    { cbn [StrSpec.sstep_raw] in E. destruct (nth_error vs v) as [[?|]|]; try discriminate. destruct (seval vs e) as [[? ?]| | |]; cbn [bind] in E; try discriminate; split; discriminate. }
    rewrite <- (eval_cells s vs e s1 x R Ee N1 N2). destruct (eval_bound s e s1 x L Ee) as (X & H & W). split; [exact H|]. intros We Wa. destruct (W We Wa) as [W1 W2]. apply Forall_upd; assumption.
  - apply bind_ok in Er. destruct Er as (z & Ez & Er). apply bind_ok in Er. destruct Er as ([s1 x] & Ee & Er). apply bind_ok in Er. destruct Er as (s2 & Em & Er). apply bind_ok in Er. destruct Er as (h & Ed & Er).
    injection Er as <- _. rewrite dec_unmanaged in Ed by reflexivity. injection Ed as <-. cbn [hp vars]. unfold move_into in Em. apply bind_ok in Em. destruct Em as (old & Eo & Em). apply bind_ok in Em. destruct Em as (h & Ed & Em). injection Em as <-. cbn [setvar hp vars].
    assert (seval vs e <> UB /\ seval vs e <> NoFuel) as [N1 N2].
    { destruct (var_read s vs v z R Ez) as (l & Hl & _). cbn [StrSpec.sstep_raw] in E. unfold StrSpec.sread in E at 1. rewrite Hl in E. cbn [bind] in E.
      destruct (seval vs e) as [[? ?]| | |]; cbn [bind] in E; try discriminate; split; discriminate. }
    rewrite <- (eval_cells s vs e s1 x R Ee N1 N2). destruct (eval_bound s e s1 x L Ee) as (X & H & W). destruct (dec_held _ _ _ Ed) as (X2 & H2). split; [lia|].
    intros We Wa. destruct (W We Wa) as [W1 W2]. apply Forall_upd; [apply (all_fit_ext _ _ _ X2 W1)|eauto using fits_ext].
  - apply bind_ok in Er. destruct Er as (z & Ez & Er). apply bind_ok in Er. destruct Er as (z2 & Ez2 & Er). destruct (Nat.eqb v w); [injection Er as <- _; split; [lia|auto]|].
    apply bind_ok in Er. destruct Er as (h1 & E1 & Er). apply bind_ok in Er. destruct Er as (h2 & E2 & Er). injection Er as <- _. cbn [setvar hp vars].
    apply dec_held in E1 as (X1 & H1). apply inc_held in E2 as (X2 & H2). split; [lia|]. intros _ Wa. pose proof (ext_trans _ _ _ X1 X2) as X. apply Forall_upd; [apply (all_fit_ext _ _ _ X Wa)|eauto using fits_ext].
  - apply bind_ok in Er. destruct Er as (z & Ez & Er). apply bind_ok in Er. destruct Er as (z2 & Ez2 & Er). destruct (Nat.eqb v w); [injection Er as <- _; split; [lia|auto]|].
    apply bind_ok in Er. destruct Er as (s2 & Em & Er). injection Er as <- _. unfold move_into in Em. apply bind_ok in Em. destruct Em as (old & Eo & Em). apply bind_ok in Em. destruct Em as (h & Ed & Em). injection Em as <-. cbn [setvar hp vars].
    apply dec_held in Ed as (X & H). split; [lia|]. intros _ Wa. apply Forall_upd; [|apply fits_empty]. apply Forall_upd; [apply (all_fit_ext _ _ _ X Wa)|eauto using fits_ext].
  - apply bind_ok in Er. destruct Er as (z & Ez & Er). apply bind_ok in Er. destruct Er as (h & Ed & Er). injection Er as <- _. cbn [setvar hp vars]. apply dec_held in Ed as (X & H). split; [lia|].
    intros _ Wa. apply Forall_upd; [apply (all_fit_ext _ _ _ X Wa)|exact I].
  - apply bind_ok in Er. destruct Er as (z & Ez & Er). apply bind_ok in Er. destruct Er as ([[h x'] m] & Eb & Er). injection Er as <- _. cbn [setvar hp vars]. destruct (var_read s vs v z R Ez) as (l & Hl & Lz). rewrite Hl.
    apply buffer_bound in Eb; [|eauto]. destruct Eb as (X & H & W). rewrite <- Lz. split; [exact H|]. intros _ Wa. apply Forall_upd; [apply (all_fit_ext _ _ _ X Wa)|eauto].
  - open Er. injection Er as <- _. split; [lia|auto].
  - open Er. injection Er as <- _. split; [lia|auto].
  - open Er. injection Er as <- _. split; [lia|auto].
  - open Er. injection Er as <- _. split; [lia|auto].
Qed.
Lemma run_held os : forall s vs vs' ys, Rel s vs -> StrSpec.srun vs os = Ok (vs', ys) ->
  exists s' rs, StrModel.run s os = Ok (s', rs) /\ Rel s' vs' /\ held (hp s') <= held (hp s) + all_needs vs os /\
    (Forall whole os -> all_fit (hp s) (vars s) -> all_fit (hp s') (vars s')).
Proof.
  induction os as [|o os IH]; intros s vs vs' ys R E; cbn [StrSpec.srun StrModel.run all_needs] in *.
  - injection E as <- <-. exists s, []. split; [reflexivity|]. split; [exact R|]. split; [lia|auto].
  - apply bind_ok in E. destruct E as ([vs1 y] & E1 & E). apply bind_ok in E. destruct E as ([vs2 ys2] & E2 & E). injection E as <- <-. rewrite E1.
    destruct (step_held s vs o vs1 y R E1) as (s1 & r & -> & R1 & H1 & W1). cbn [bind]. destruct (IH s1 vs1 vs2 ys2 R1 E2) as (s2 & rs & -> & R2 & H2 & W2). cbn [bind].
    exists s2, (r :: rs). split; [reflexivity|]. split; [exact R2|]. split; [lia|]. intros F. inversion F; subst. auto.
Qed.
Lemma memory_bound n os vs ys : StrSpec.srun (repeat None n) os = Ok (vs, ys) ->
  exists s rs, StrModel.run (init n) os = Ok (s, rs) /\ StrSpec.shows s vs /\ held (hp s) <= all_needs (repeat None n) os.
Proof.
  intros E. destruct (run_held os _ _ _ _ (rel_init n) E) as (s & rs & E2 & R & H & _). exists s, rs. split; [exact E2|]. split; [now apply rel_shows|]. exact H.
Qed.
Lemma step_memory n os vs ys s rs o vs' y : StrSpec.srun (repeat None n) os = Ok (vs, ys) -> StrModel.run (init n) os = Ok (s, rs) -> StrSpec.sstep vs o = Ok (vs', y) ->
  exists s' r, StrModel.step s o = Ok (s', r) /\ StrSpec.shows s' vs' /\ held (hp s') <= held (hp s) + needs vs o.
Proof.
  intros E1 E2 E. pose proof (reached_rel _ _ _ _ _ _ E1 E2) as R. destruct (step_held s vs o vs' y R E) as (s' & r & E3 & R3 & H & _). exists s', r. split; [exact E3|]. split; [now apply rel_shows|exact H].
Qed.
(* ---- every block belongs to a string ---- *)
Fixpoint sum_len (xs : list (option str)) : Z := match xs with [] => 0 | Some x :: xs' => len x + 1 + sum_len xs' | None :: xs' => sum_len xs' end.
Lemma no_counted h : (forall b cs n, nth_error h b <> Some (Counted cs n)) -> held h = 0.
Proof.
  induction h as [|c h IH]; intros N; [reflexivity|]. cbn [held]. assert (held h = 0) by (apply IH; intros b cs n; apply (N (S b))). destruct c as [cs|cs n|]; try lia. exfalso. now apply (N 0%nat cs n).
Qed.
Lemma covered xs : forall h, lens xs ->
  (forall b cs n, nth_error h b = Some (Counted cs n) -> exists x, In (Some x) xs /\ managed x = true /\ buf x = b /\ zlen cs = len x + 1) -> held h <= sum_len xs.
Proof.
  induction xs as [|v xs IH]; intros h L C.
  - rewrite no_counted; [cbn; lia|]. intros b cs n H. destruct (C b cs n H) as (x & [] & _).
  - inversion L as [|? ? L1 L2]; subst. destruct v as [x|]; cbn [sum_len].
    2:{ apply IH; [exact L2|]. intros b cs n H. destruct (C b cs n H) as (x & [Hx|Hx] & Q); [discriminate|eauto]. }
    destruct (nth_error h (buf x)) as [[cs|cs n|]|] eqn:Eb.
    2:{ destruct (Z.eq_dec (zlen cs) (len x + 1)) as [Ez|Nz].
      - assert (held (upd h (buf x) Freed) <= sum_len xs) as Q.
        { apply IH; [exact L2|]. intros b cs2 m H. rewrite upd_nth in H by (now apply nth_error_lt in Eb). destruct (Nat.eqb_spec b (buf x)) as [->|N]; [discriminate|].
          destruct (C b cs2 m H) as (z & [Hz|Hz] & M & B & Q); [injection Hz as <-; congruence|eauto]. }
        rewrite (held_upd _ _ _ _ _ Eb) in Q. cbn [held] in Q. lia.
      - assert (held h <= sum_len xs); [|lia]. apply IH; [exact L2|]. intros b cs2 m H. destruct (C b cs2 m H) as (z & [Hz|Hz] & M & B & Q); [|eauto]. injection Hz as <-. subst b. rewrite Eb in H. injection H as <- <-. contradiction. }
    all: assert (held h <= sum_len xs); [|lia]; apply IH; [exact L2|]; intros b cs2 m H; destruct (C b cs2 m H) as (z & [Hz|Hz] & M & B & Q); [|eauto]; injection Hz as <-; subst b; rewrite Eb in H; discriminate.
Qed.
Lemma sum_len_total s vs : Rel s vs -> sum_len (vars s) = total_length vs.
Proof.
  intros R. pose proof (rel_shows s vs R) as Sh. unfold StrSpec.shows in Sh. clear R. revert Sh. generalize (vars s). generalize vs. clear vs. intros vs xs F. induction F as [|a b xs vs H F IH]; [reflexivity|].
  destruct a as [x|], b as [l|]; try contradiction; cbn [sum_len total_length]; [|exact IH]. destruct H as [_ ->]. lia.
Qed.
Lemma refs_in b xs : (0 < refs b xs)%nat -> exists x, In (Some x) xs /\ managed x = true /\ buf x = b.
Proof.
  unfold refs. intros H. destruct (filter _ xs) as [|v l] eqn:E; [cbn in H; lia|]. assert (In v (v :: l)) as Hv by now left. rewrite <- E in Hv. apply filter_In in Hv as [Hi Hv]. destruct v as [x|]; [|discriminate].
  apply andb_prop in Hv as [M B]. apply Nat.eqb_eq in B. eauto.
Qed.
Lemma whole_memory n os vs ys : Forall whole os -> StrSpec.srun (repeat None n) os = Ok (vs, ys) ->
  exists s rs, StrModel.run (init n) os = Ok (s, rs) /\ StrSpec.shows s vs /\ held (hp s) <= total_length vs.
Proof.
  intros F E. destruct (run_held os _ _ _ _ (rel_init n) E) as (s & rs & E2 & R & _ & W). exists s, rs. split; [exact E2|]. split; [now apply rel_shows|]. rewrite <- (sum_len_total s vs R).
  assert (all_fit (hp s) (vars s)) as Wa. { apply W; [exact F|]. unfold init, all_fit. cbn [hp vars]. apply Forall_forall. intros v Hv. apply repeat_spec in Hv. now subst v. }
  apply covered; [now apply (rel_lens s vs)|]. intros b cs m H. destruct (rel_counts s vs R b cs m H) as [Hm Hp]. destruct (refs_in b (vars s)) as (x & Hx & M & B); [lia|]. exists x. split; [exact Hx|]. split; [exact M|]. split; [exact B|].
  unfold all_fit in Wa. rewrite Forall_forall in Wa. destruct (Wa _ Hx M) as [_ Q]. subst b. eauto.
Qed.
(* ---- a part keeps everything ---- *)
Lemma c_string_text l : ~ In 0 l -> c_string (l ++ [0]) = Ok l.
Proof. induction l as [|c l IH]; intros N; [reflexivity|]. cbn [app c_string]. destruct (Z.eqb_spec c 0) as [->|_]; [exfalso; apply N; now left|]. rewrite IH; [reflexivity|]. intros H. apply N. now right. Qed.
Lemma literal_block h l : ~ In 0 l -> of_literal h (Some (l ++ [0])) = Ok (h ++ [Counted (map Some (l ++ [0])) 1], mkStr (length h) true 0 (zlen l) (zlen l)).
Proof.
  intros N. unfold of_literal. destruct (calc_length_spec _ _ (c_string_text l N)) as [-> _]. cbn [bind]. pose proof (zlen_nonneg l).
  unfold new_array. replace (zlen l + 1 <? 0) with false by lia. cbn [bind]. rewrite (mem_read_slice _ 0 (l ++ [0])).
  2:{ exists [], []. rewrite app_nil_r. auto. }
  2:{ rewrite zlen_app. reflexivity. }
  cbn [bind].
  replace (repeat (@None Z) (Z.to_nat (zlen l + 1))) with ([] ++ repeat (@None Z) (Z.to_nat (zlen l + 1)) ++ []) by (cbn; now rewrite app_nil_r).
  rewrite (mem_write_at [] (l ++ [0]) _ [] 0); [|rewrite repeat_length, app_length; unfold zlen; cbn; lia|reflexivity].
  cbn [bind app]. rewrite app_nil_r. reflexivity.
Qed.
Lemma part_run t part x : ~ In 0 t ->
  eval (mkState [Static [Some 0]; Counted (map Some (t ++ [0])) 1] [Some (mkStr 1 true 0 (zlen t) (zlen t)); None]) part =
    Ok (mkState [Static [Some 0]; Counted (map Some (t ++ [0])) 2] [Some (mkStr 1 true 0 (zlen t) (zlen t)); None], x) ->
  StrModel.run (init 2) (keep_one part t) = Ok (mkState [Static [Some 0]; Counted (map Some (t ++ [0])) 1] [None; Some x], [RNone; RNone; RNone]).
Proof.
  intros N E. unfold keep_one. cbn [StrModel.run].
  assert (StrModel.step (init 2) (OInit 0 (ELit (Some (t ++ [0])))) = Ok (mkState [Static [Some 0]; Counted (map Some (t ++ [0])) 1] [Some (mkStr 1 true 0 (zlen t) (zlen t)); None], RNone)) as ->.
  { unfold StrModel.step. cbn [StrModel.step_raw init vars hp repeat nth_error eval]. rewrite (literal_block _ _ N). reflexivity. }
  cbn [bind].
  assert (StrModel.step (mkState [Static [Some 0]; Counted (map Some (t ++ [0])) 1] [Some (mkStr 1 true 0 (zlen t) (zlen t)); None]) (OInit 1 part) =
          Ok (mkState [Static [Some 0]; Counted (map Some (t ++ [0])) 2] [Some (mkStr 1 true 0 (zlen t) (zlen t)); Some x], RNone)) as ->.
  { unfold StrModel.step. cbn [StrModel.step_raw vars nth_error]. rewrite E. reflexivity. }
  cbn [bind]. reflexivity.
Qed.
Lemma left_run c l : ~ In 0 (c :: l) -> StrModel.run (init 2) (keep_one (ELeft 0 1) (c :: l)) =
  Ok (mkState [Static [Some 0]; Counted (map Some ((c :: l) ++ [0])) 1] [None; Some (mkStr 1 true 0 1 (zlen (c :: l)))], [RNone; RNone; RNone]).
Proof.
  intros N. apply part_run; [exact N|]. cbn [eval]. unfold var. cbn [nth_error vars bind hp]. unfold left. cbn [len]. pose proof (zlen_nonneg l).
  replace ((1 >=? 0) && (1 <=? zlen (c :: l))) with true by (rewrite zlen_cons; lia). reflexivity.
Qed.
Lemma right_run l c : ~ In 0 (l ++ [c]) -> StrModel.run (init 2) (keep_one (ERight 0 1) (l ++ [c])) =
  Ok (mkState [Static [Some 0]; Counted (map Some ((l ++ [c]) ++ [0])) 1] [None; Some (mkStr 1 true (zlen l) 1 (zlen l + 1))], [RNone; RNone; RNone]).
Proof.
  intros N. apply part_run; [exact N|]. cbn [eval]. unfold var. cbn [nth_error vars bind hp]. unfold right. cbn [len]. pose proof (zlen_nonneg l).
  assert (zlen (l ++ [c]) = zlen l + 1) as -> by (rewrite zlen_app; reflexivity).
  replace ((1 >=? 0) && (1 <=? zlen l + 1)) with true by lia. unfold sub_unsafe. change (1 <=? 0) with false. cbn iota. unfold inc. cbn [managed buf nth_error bind upd start real vars].
  replace (0 + (zlen l + 1 - 1)) with (zlen l) by lia. reflexivity.
Qed.
Lemma spec_left c l : ~ In 0 (c :: l) -> StrSpec.srun (repeat None 2) (keep_one (ELeft 0 1) (c :: l)) = Ok ([None; Some [c]], [SNone; SNone; SNone]).
Proof.
  intros N. unfold keep_one. cbn [StrSpec.srun repeat]. unfold StrSpec.sstep at 1. cbn [StrSpec.sstep_raw nth_error seval literal]. rewrite (c_string_text _ N). cbn [bind upd].
  unfold StrSpec.sstep at 1. cbn [StrSpec.sstep_raw nth_error seval]. unfold StrSpec.sread. cbn [nth_error bind]. pose proof (zlen_nonneg l). replace ((0 <=? 1) && (1 <=? zlen (c :: l))) with true by (rewrite zlen_cons; lia).
  cbn [bind upd]. unfold StrSpec.sstep. cbn [StrSpec.sstep_raw]. unfold StrSpec.sread. cbn [nth_error bind upd]. reflexivity.
Qed.
Lemma spec_right c l : ~ In 0 (l ++ [c]) -> StrSpec.srun (repeat None 2) (keep_one (ERight 0 1) (l ++ [c])) = Ok ([None; Some [c]], [SNone; SNone; SNone]).
Proof.
  intros N. unfold keep_one. cbn [StrSpec.srun repeat]. unfold StrSpec.sstep at 1. cbn [StrSpec.sstep_raw nth_error seval literal]. rewrite (c_string_text _ N). cbn [bind upd].
  unfold StrSpec.sstep at 1. cbn [StrSpec.sstep_raw nth_error seval]. unfold StrSpec.sread. cbn [nth_error bind]. pose proof (zlen_nonneg l). rewrite zlen_app. change (zlen [c]) with 1. replace ((0 <=? 1) && (1 <=? zlen l + 1)) with true by lia.
  cbn [bind upd]. unfold StrSpec.sstep. cbn [StrSpec.sstep_raw]. unfold StrSpec.sread. cbn [nth_error bind upd]. unfold drop. replace (Z.to_nat (zlen l + 1 - 1)) with (length l) by (unfold zlen; lia).
  rewrite skipn_app, skipn_all, Nat.sub_diag. reflexivity.
Qed.
Lemma buffer_left c d l : ~ In 0 (c :: d :: l) ->
  exists s, StrModel.step (mkState [Static [Some 0]; Counted (map Some ((c :: d :: l) ++ [0])) 1] [None; Some (mkStr 1 true 0 1 (zlen (c :: d :: l)))]) (OBuffer 1) = Ok (s, RMem [Some c; Some 0]) /\ held (hp s) = 2.
Proof.
  intros N. unfold StrModel.step. cbn [StrModel.step_raw]. unfold var. cbn [nth_error vars bind hp]. unfold buffer. cbn [start len real]. pose proof (zlen_nonneg l). rewrite !zlen_cons.
  replace (negb (0 + 1 =? 1 + (1 + zlen l))) with true by lia. eexists. split; [reflexivity|reflexivity].
Qed.
Lemma run_app a : forall b s s1 r1 s2 r2, StrModel.run s a = Ok (s1, r1) -> StrModel.run s1 b = Ok (s2, r2) -> StrModel.run s (a ++ b) = Ok (s2, r1 ++ r2).
Proof.
  induction a as [|o a IH]; intros b s s1 r1 s2 r2 E1 E2; cbn [StrModel.run app] in *; [injection E1 as <- <-; exact E2|].
  apply bind_ok in E1. destruct E1 as ([t u] & E & E1). apply bind_ok in E1. destruct E1 as ([t2 u2] & E3 & E1). injection E1 as <- <-. rewrite E. cbn [bind]. rewrite (IH b t t2 u2 s2 r2 E3 E2). reflexivity.
Qed.
Lemma held_one cs b n : held [Static b; Counted cs n] = zlen cs.
Proof. cbn [held]. lia. Qed.
Lemma left_keeps c l : ~ In 0 (c :: l) -> exists s rs, StrModel.run (init 2) (keep_one (ELeft 0 1) (c :: l)) = Ok (s, rs) /\ StrSpec.shows s [None; Some [c]] /\ held (hp s) = zlen (c :: l) + 1.
Proof.
  intros N. pose proof (left_run c l N) as E. eexists _, _. split; [exact E|]. split; [apply rel_shows; eapply reached_rel; [apply (spec_left c l N)|exact E]|].
  cbn [hp]. rewrite held_one, zlen_map, zlen_app. reflexivity.
Qed.
Lemma left_buffer c d l : ~ In 0 (c :: d :: l) -> exists s rs, StrModel.run (init 2) (keep_one (ELeft 0 1) (c :: d :: l) ++ [OBuffer 1]) = Ok (s, rs) /\ held (hp s) = 2.
Proof.
  intros N. destruct (buffer_left c d l N) as (s & E & H). eexists s, _. split; [|exact H]. eapply run_app; [apply (left_run c (d :: l) N)|]. cbn [StrModel.run]. rewrite E. cbn [bind]. reflexivity.
Qed.
Lemma right_keeps l c : ~ In 0 (l ++ [c]) -> exists s rs, StrModel.run (init 2) (keep_one (ERight 0 1) (l ++ [c])) = Ok (s, rs) /\ StrSpec.shows s [None; Some [c]] /\ held (hp s) = zlen (l ++ [c]) + 1.
Proof.
  intros N. pose proof (right_run l c N) as E. eexists _, _. split; [exact E|]. split; [apply rel_shows; eapply reached_rel; [apply (spec_right c l N)|exact E]|].
  cbn [hp]. rewrite held_one, zlen_map, zlen_app. reflexivity.
Qed.
Lemma right_buffer l c : ~ In 0 (l ++ [c]) -> exists s rs, StrModel.run (init 2) (keep_one (ERight 0 1) (l ++ [c]) ++ [OBuffer 1]) = Ok (s, rs) /\ held (hp s) = zlen (l ++ [c]) + 1.
Proof.
  intros N. eexists _, _. split.
  - eapply run_app; [apply (right_run l c N)|]. cbn [StrModel.run]. unfold StrModel.step. cbn [StrModel.step_raw]. unfold var. cbn [nth_error vars bind hp]. unfold buffer. cbn [start len real].
    replace (negb (zlen l + 1 =? zlen l + 1)) with false by lia. cbn [bind]. unfold cells_of. cbn [buf nth_error bind]. reflexivity.
  - cbn [setvar hp]. rewrite held_one, zlen_map, zlen_app. reflexivity.
Qed.
Lemma right_both l c : ~ In 0 (l ++ [c]) ->
  (exists s rs, StrModel.run (init 2) (keep_one (ERight 0 1) (l ++ [c])) = Ok (s, rs) /\ StrSpec.shows s [None; Some [c]] /\ held (hp s) = zlen (l ++ [c]) + 1) /\
  exists s rs, StrModel.run (init 2) (keep_one (ERight 0 1) (l ++ [c]) ++ [OBuffer 1]) = Ok (s, rs) /\ held (hp s) = zlen (l ++ [c]) + 1.
Proof. intros N. split; [now apply right_keeps|now apply right_buffer]. Qed.
