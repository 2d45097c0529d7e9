(* Variables, new objects and new lists; histories *)
From Verif Require Import Base BaseFacts RcModel RcSpec RcProofs RcProofs2 LpModel LpSpec LpProofs LpProofs2 LpProofs3 LpProofs4 LpProofs5 LpProofs6 LpProofs7 LpProofs8.
From Coq Require Import ZifyBool ZifyNat.
Open Scope nat_scope.

Lemma Inv_same w w' k s : same_world w' w -> Inv w k s -> Inv w' k s /\ asame (lw w' k s) (lw w k s).
Proof.
  intros (V & H & Al & Hn & Hm) [J1 J2 J3 J4 J5 J6 J7 J8 J9 J10].
  assert (forall h, lives w' h -> lives w h) as Lv by (intros h Q o E; rewrite <- Al; auto).
  split.
  - constructor; auto.
    + congruence.
    + intros u o Q. unfold refers. rewrite V. apply J2; auto.
    + intros l x i A Li. rewrite H. eapply J6; eauto.
    + intros l x i A Li Lh. rewrite V. eapply J7; eauto.
    + intros l x h A E. rewrite Hn. eapply J9; eauto.
    + intros u h. rewrite H, Al, V. apply J10.
  - split; [|split; [|split; [|split; [|split; [|split; [|split]]]]]]; unfold lw; cbn [av ah avar al alh aa an aln]; auto.
    + intros u. now rewrite V.
    + intros u. now rewrite H.
    + intros l. destruct (nth_error s l) as [[x|]|]; auto. rewrite (items_ext w' w x x) by auto. destruct (lhome x); auto. now rewrite Al.
Qed.
Lemma alive_lt r o : alive r o = true -> o < length (ob r).
Proof. unfold alive. intros H. apply nth_error_Some. destruct (nth_error (ob r) o); congruence. Qed.
Lemma kp_kept r : good r -> kp r -> forall o, kept r o.
Proof. intros G K o. split; [apply K|]. intros [u R]. eapply good_refers; eauto. Qed.
Lemma step_kp r o r' q : good r -> good r' -> legal (world_of r) o -> spec (world_of r) o (world_of r') q ->
  match o with PDetach _ => False | _ => True end -> length (ob r') = length (ob r) -> kp r -> kp r'.
Proof.
  intros G G' Lg Sp Nd Lo K b A. apply (spec_kept r o r' q b); auto.
  - rewrite <- Lo. now apply alive_lt.
  - now apply kp_kept.
Qed.
Lemma slot_ok s v : Inv (world_of (rc s)) (kd s) (ls s) -> a_slot (lworld_of s) v ->
  kind_of (kd s) v = KVar /\ free_slot (world_of (rc s)) v /\ is_var s v = Ok tt.
Proof.
  intros I (A & B & C). unfold lworld_of, lw in *. cbn [avar av ah] in *. unfold is_var. destruct (kind_of (kd s) v) eqn:K; try discriminate.
  split; auto. split; auto. split; [|auto]. rewrite <- (i_len _ _ _ I). apply kind_lt. congruence.
Qed.
Lemma var_ok s v : av (lworld_of s) v <> None -> kind_of (kd s) v = KVar /\ wv (world_of (rc s)) v <> None /\ is_var s v = Ok tt /\ ah (lworld_of s) v = wh (world_of (rc s)) v.
Proof.
  unfold lworld_of, lw, is_var. cbn [av ah]. destruct (kind_of (kd s) v); try congruence. auto.
Qed.
Lemma held_var s v u h : Inv (world_of (rc s)) (kd s) (ls s) -> kind_of (kd s) v = KVar -> aheld (lworld_of s) (eq (PVar v)) h -> h = wh (world_of (rc s)) u ->
  wv (world_of (rc s)) u <> None -> held (world_of (rc s)) v u.
Proof.
  intros I K H -> N. split; auto. intros h E.
  assert (held_by (world_of (rc s)) (fun a => a = v) (wh (world_of (rc s)) u)) as Q.
  { eapply aheld_by; [exact I|exact H|]. intros t b B X ->. apply X. eapply (addr_inj _ _ _ (PVar v) t v); [exact I| |exact B]. split; auto. }
  exact (Q h E).
Qed.
(* a variable gets a value and nothing goes away *)
Lemma same_ok s v x r' o q : lgood s -> kind_of (kd s) v = KVar -> (lives (world_of (rc s)) (wh (world_of (rc s)) v)) ->
  good r' -> (no_leak (rc s) -> no_leak r') -> legal (world_of (rc s)) o -> spec (world_of (rc s)) o (world_of r') q ->
  match o with PDetach _ => False | _ => True end -> same_world (world_of r') (set_var (world_of (rc s)) v x) ->
  asame (lworld_of (mkT r' (kd s) (ls s))) (set_v (lworld_of s) v x) /\ lgood (mkT r' (kd s) (ls s)).
Proof.
  intros (G & I & NL & KP) K L G' NL' Lg Sp Nd Sm. destruct (Inv_var _ _ _ v x I K) as [I1 S1]; auto.
  destruct (Inv_same _ _ _ _ Sm I1) as [I2 S2]. split; [eapply asame_trans; [exact S2|exact S1]|].
  split; [auto|]. split; [exact I2|]. split; [auto|]. apply (step_kp (rc s) o r' q); auto. apply Sm.
Qed.
Lemma collect_ok s v x r' o q : lgood s -> kind_of (kd s) v = KVar -> (x <> None -> lives (world_of (rc s)) (wh (world_of (rc s)) v)) ->
  good r' -> (no_leak (rc s) -> no_leak r') -> legal (world_of (rc s)) o -> spec (world_of (rc s)) o (world_of r') q ->
  match o with PDetach _ => False | _ => True end -> collect (world_of (rc s)) (set_var (world_of (rc s)) v x) (world_of r') ->
  acollect (lworld_of s) (set_v (lworld_of s) v x) (lworld_of (mkT r' (kd s) (ls s))) /\ lgood (mkT r' (kd s) (ls s)).
Proof.
  intros (G & I & NL & KP) K L G' NL' Lg Sp Nd C. destruct (Inv_var _ _ _ v x I K) as [I1 S1]; auto.
  split. { eapply acollect_ext; [apply asame_refl|exact S1|apply asame_refl|]. exact (transfer _ _ _ _ _ _ _ I I1 C). }
  split; [auto|]. split; [exact (collect_Inv _ _ _ _ _ I1 C)|]. split; [auto|]. apply (step_kp (rc s) o r' q); auto. apply C.
Qed.
Lemma var_lives s v : Inv (world_of (rc s)) (kd s) (ls s) -> wv (world_of (rc s)) v <> None -> lives (world_of (rc s)) (wh (world_of (rc s)) v).
Proof. intros I N o H. destruct (wa (world_of (rc s)) o) eqn:Q; auto. exfalso. apply N. eapply (i_dead _ _ _ I); eauto. Qed.

Lemma mnew_ok s v : lgood s -> llegal (lworld_of s) (MNew v) -> lresult s (MNew v).
Proof.
  intros LG Lg. pose proof LG as (G & I & _). destruct (slot_ok s v I Lg) as (K & F & Iv).
  destruct (step_ok _ (PNew v) G F) as (r' & q & E & Sp & G' & NL). inversion Sp; subst.
  destruct (same_ok s v (Some None) r' (PNew v) None LG K) as [S1 L1]; auto.
  { intros o Q. destruct F as (_ & _ & Q'). congruence. }
  eexists. split; [|split; [|exact L1]].
  - cbn [lstep]. rewrite Iv. cbn [bind]. unfold on_rc. rewrite E. reflexivity.
  - apply ls_new. exact S1.
Qed.
Lemma mcopy_ok s v a : lgood s -> llegal (lworld_of s) (MCopy v a) -> lresult s (MCopy v a).
Proof.
  intros LG [Ls La]. pose proof LG as (G & I & _). destruct (slot_ok s v I Ls) as (K & F & Iv). destruct (arg_ok s a I La) as (u & Eu & Au & Wu).
  assert (legal (world_of (rc s)) (PCopy v u)) as Lg by (split; [exact F|unfold exists_var; congruence]).
  destruct (step_ok _ (PCopy v u) G Lg) as (r' & q & E & Sp & G' & NL). inversion Sp; subst.
  destruct (same_ok s v (Some x) r' (PCopy v u) None LG K) as [S1 L1]; auto.
  { intros o Q. destruct F as (_ & _ & Q'). congruence. }
  eexists. split; [|split; [|exact L1]].
  - cbn [lstep]. rewrite Iv. cbn [bind]. rewrite Eu. cbn [bind]. unfold on_rc. rewrite E. reflexivity.
  - apply (ls_copy _ _ _ x); [congruence|exact S1].
Qed.
Lemma massign_ok s v a : lgood s -> llegal (lworld_of s) (MAssign v a) -> lresult s (MAssign v a).
Proof.
  intros LG (Lv & La & H1 & H2). pose proof LG as (G & I & _). destruct (var_ok s v Lv) as (K & Nv & Iv & Hv). destruct (arg_ok s a I La) as (u & Eu & Au & Wu).
  assert (legal (world_of (rc s)) (PAssign v u)) as Lg.
  { split; [apply (held_var s v v (ah (lworld_of s) v)); auto|]. apply (held_var s v u (phome (lworld_of s) (of_arg a))); auto; [apply (place_at _ _ _ _ _ I Au)|congruence]. }
  destruct (step_ok _ (PAssign v u) G Lg) as (r' & q & E & Sp & G' & NL). inversion Sp; subst.
  destruct (collect_ok s v (Some x) r' (PAssign v u) None LG K) as [S1 L1]; auto.
  { intros _. now apply var_lives. }
  eexists. split; [|split; [|exact L1]].
  - cbn [lstep]. rewrite Iv. cbn [bind]. rewrite Eu. cbn [bind]. unfold on_rc. rewrite E. reflexivity.
  - apply (ls_assign _ _ _ x); [congruence|exact S1].
Qed.
Lemma mnull_ok s v : lgood s -> llegal (lworld_of s) (MSetNull v) -> lresult s (MSetNull v).
Proof.
  intros LG (Lv & H1). pose proof LG as (G & I & _). destruct (var_ok s v Lv) as (K & Nv & Iv & Hv).
  assert (legal (world_of (rc s)) (PSetNull v)) as Lg by (apply (held_var s v v (ah (lworld_of s) v)); auto).
  destruct (step_ok _ (PSetNull v) G Lg) as (r' & q & E & Sp & G' & NL). inversion Sp; subst.
  destruct (collect_ok s v (Some None) r' (PSetNull v) None LG K) as [S1 L1]; auto.
  { intros _. now apply var_lives. }
  eexists. split; [|split; [|exact L1]].
  - cbn [lstep]. rewrite Iv. cbn [bind]. unfold on_rc. rewrite E. reflexivity.
  - apply ls_null. exact S1.
Qed.
Lemma mend_ok s v : lgood s -> llegal (lworld_of s) (MEnd v) -> lresult s (MEnd v).
Proof.
  intros LG (Lv & H1). pose proof LG as (G & I & _). destruct (var_ok s v Lv) as (K & Nv & Iv & Hv).
  assert (legal (world_of (rc s)) (PDestroy v)) as Lg by (split; [exact Nv|congruence]).
  destruct (step_ok _ (PDestroy v) G Lg) as (r' & q & E & Sp & G' & NL). inversion Sp; subst.
  destruct (collect_ok s v None r' (PDestroy v) None LG K) as [S1 L1]; auto.
  { intros Q. congruence. }
  eexists. split; [|split; [|exact L1]].
  - cbn [lstep]. rewrite Iv. cbn [bind]. unfold on_rc. rewrite E. reflexivity.
  - apply ls_end. exact S1.
Qed.

(* ---- new lists and objects ------------------------------------------------------------------ *)
Lemma at_more s h m a z : at_list (s ++ repeat (Some (mkL h 0 0 0)) m) a z <-> at_list s a z \/ (length s <= a < length s + m /\ z = mkL h 0 0 0).
Proof.
  unfold at_list. destruct (Nat.lt_ge_cases a (length s)) as [La|La].
  - rewrite nth_error_app1 by auto. split; [auto|]. intros [Q|[Q _]]; [auto|lia].
  - rewrite nth_error_app2 by auto. destruct (Nat.lt_ge_cases a (length s + m)).
    + rewrite nth_error_repeat by lia. split; [intros Q; right; split; [lia|congruence]|]. intros [Q|[_ ->]]; auto.
      exfalso. pose proof (nth_error_lt _ _ _ Q). lia.
    + replace (nth_error (repeat (Some (mkL h 0 0 0)) m) (a - length s)) with (@None (option lrec)). 2:{ symmetry. apply nth_error_None. rewrite repeat_length. lia. }
      split; [discriminate|]. intros [Q|[Q _]]; [|lia]. exfalso. pose proof (nth_error_lt _ _ _ Q). lia.
Qed.
Lemma Inv_lists w k s h m : Inv w k s -> (forall o, h = Some o -> o < wn w /\ wa w o = true) ->
  Inv w k (s ++ repeat (Some (mkL h 0 0 0)) m) /\
  asame (lw w k (s ++ repeat (Some (mkL h 0 0 0)) m))
        (mkA (av (lw w k s)) (ah (lw w k s)) (avar (lw w k s)) (fun l => if (length s <=? l) && (l <? length s + m) then Some [] else al (lw w k s) l)
             (fun l => if (length s <=? l) && (l <? length s + m) then h else alh (lw w k s) l) (wa w) (wn w) (length s + m)).
Proof.
  intros [J1 J2 J3 J4 J5 J6 J7 J8 J9 J10] Hh. pose proof (at_more s h m) as At. split.
  - constructor; auto.
    + intros u Q. destruct (J3 u Q) as (a & z & Q1 & Q2). exists a, z. split; auto. apply At. auto.
    + intros a z Q. apply At in Q. destruct Q as [Q|[_ ->]]; [eauto|cbn; lia].
    + intros a z i Q Li. apply At in Q. destruct Q as [Q|[_ ->]]; [eauto|cbn in Li; lia].
    + intros a z i Q Li. apply At in Q. destruct Q as [Q|[_ ->]]; [eauto|cbn in Li; lia].
    + intros a z i Q Li. apply At in Q. destruct Q as [Q|[_ ->]]; [eauto|cbn in Li; lia].
    + intros a1 a2 z1 z2 i j Q1 Q2 N Li Lj. apply At in Q1, Q2. destruct Q1 as [Q1|[_ ->]]; [|cbn in Li; lia]. destruct Q2 as [Q2|[_ ->]]; [|cbn in Lj; lia].
      apply (J8 a1 a2); auto.
    + intros a z o Q E. apply At in Q. destruct Q as [Q|[_ ->]]; [eauto|]. now apply Hh.
  - split; [|split; [|split; [|split; [|split; [|split; [|split]]]]]]; unfold lw; cbn [av ah avar al alh aa an aln]; auto.
    + intros a. destruct (Nat.lt_ge_cases a (length s)) as [La|La].
      * rewrite nth_error_app1 by auto. now replace (length s <=? a) with false by lia.
      * rewrite nth_error_app2 by auto. replace (length s <=? a) with true by lia. cbn [andb]. destruct (Nat.ltb_spec a (length s + m)).
        -- rewrite nth_error_repeat by lia. cbn [lhome]. destruct h as [o|]; auto. destruct (Hh o eq_refl) as [_ ->]. auto.
        -- replace (nth_error (repeat (Some (mkL h 0 0 0)) m) (a - length s)) with (@None (option lrec)). 2:{ symmetry. apply nth_error_None. rewrite repeat_length. lia. }
           replace (nth_error s a) with (@None (option lrec)); auto. symmetry. now apply nth_error_None.
    + intros a. destruct (Nat.lt_ge_cases a (length s)) as [La|La].
      * rewrite nth_error_app1 by auto. now replace (length s <=? a) with false by lia.
      * rewrite nth_error_app2 by auto. replace (length s <=? a) with true by lia. cbn [andb]. destruct (Nat.ltb_spec a (length s + m)).
        -- rewrite nth_error_repeat by lia. reflexivity.
        -- replace (nth_error (repeat (Some (mkL h 0 0 0)) m) (a - length s)) with (@None (option lrec)). 2:{ symmetry. apply nth_error_None. rewrite repeat_length. lia. }
           replace (nth_error s a) with (@None (option lrec)); auto. symmetry. now apply nth_error_None.
    + now rewrite app_length, repeat_length.
Qed.
Lemma lnew_ok s : lgood s -> llegal (lworld_of s) LNew -> lresult s LNew.
Proof.
  intros (G & I & NL & KP) _. destruct (Inv_lists _ _ _ None 1 I) as [I1 S1]; [discriminate|]. cbn [repeat] in I1, S1.
  eexists. split; [reflexivity|]. split.
  - apply ls_lnew. unfold lworld_of at 1. cbn [rc kd ls]. eapply asame_trans; [exact S1|].
    split; [auto|]. split; [auto|]. split; [auto|]. cbn [al alh aln]. split; [|split; [|split; [auto|split; [auto|]]]].
    + intros l. unfold lworld_of, lw at 2. cbn [aln]. replace ((length (ls s) <=? l) && (l <? length (ls s) + 1)) with (l =? length (ls s)) by lia. reflexivity.
    + intros l. unfold lworld_of. destruct ((length (ls s) <=? l) && (l <? length (ls s) + 1)) eqn:Q; auto. unfold lw. cbn [alh].
      replace (nth_error (ls s) l) with (@None (option lrec)); auto. symmetry. apply nth_error_None. lia.
    + unfold lworld_of, lw. cbn [aln]. lia.
  - split; [exact G|]. split; [exact I1|]. split; [exact NL|exact KP].
Qed.

Lemma Inv_raw w k s n w1 : Inv w k s ->
  (forall u, wv w1 u = if u <? wm w then wv w u else if u <? wm w + n then Some None else None) ->
  (forall u, wh w1 u = if u <? wm w then wh w u else if u <? wm w + n then Some (wn w) else None) ->
  (forall o, wa w1 o = if o =? wn w then true else wa w o) -> wn w1 = S (wn w) -> wm w1 = wm w + n ->
  Inv w1 (k ++ repeat KVar n) s.
Proof.
  intros I V H Al Hn Hm. pose proof (i_len _ _ _ I) as Lk.
  assert (forall a, kind_of (k ++ repeat KVar n) a = if inr a (wm w) n then KVar else kind_of k a) as K by (intros; rewrite kind_app_var, Lk; reflexivity).
  assert (forall l y i, at_list s l y -> i < room y -> base y + i < wm w) as Lc.
  { intros l y i A Li. rewrite <- Lk. apply kind_lt. rewrite (i_kind _ _ _ I _ _ _ A Li). destruct (i <? cnt y); discriminate. }
  constructor.
  - rewrite app_length, repeat_length. lia.
  - intros u o N. unfold refers. rewrite V. rewrite K in N. destruct (Nat.ltb_spec u (wm w)).
    + apply (i_blank _ _ _ I). revert N. rng. auto.
    + destruct (u <? wm w + n); discriminate.
  - intros u Q. apply (i_made _ _ _ I). rewrite K in Q. revert Q. rng; [discriminate|auto].
  - apply (i_cnt _ _ _ I).
  - intros l y i A Li. rewrite K. pose proof (Lc l y i A Li). rng. eapply (i_kind _ _ _ I); eauto.
  - intros l y i A Li. rewrite H. pose proof (Lc l y i A Li). replace (base y + i <? wm w) with true by lia. eapply (i_wh _ _ _ I); eauto.
  - intros l y i A Li Lh. rewrite V. pose proof (Lc l y i A Li). replace (base y + i <? wm w) with true by lia. eapply (i_wv _ _ _ I); eauto.
    intros o E. specialize (Lh o E). rewrite Al in Lh. pose proof (i_home _ _ _ I _ _ _ A E). now replace (o =? wn w) with false in Lh by lia.
  - apply (i_apart _ _ _ I).
  - intros l y h A E. pose proof (i_home _ _ _ I _ _ _ A E). lia.
  - intros u h. rewrite H, Al, V. destruct (u <? wm w) eqn:Q.
    + intros E D. apply (i_dead _ _ _ I u h E). destruct (h =? wn w); congruence.
    + destruct (u <? wm w + n); auto. intros E D. assert (h = wn w) by congruence. subst. rewrite Nat.eqb_refl in D. discriminate.
Qed.

Lemma mmake_ok s v n m : lgood s -> llegal (lworld_of s) (MMake v n m) -> lresult s (MMake v n m).
Proof.
  intros (G & I & NL & KP) Ls. destruct (slot_ok s v I Ls) as (K & F & Iv).
  destruct (step_ok _ (PRaw n) G Logic.I) as (r1 & q1 & E1 & Sp1 & G1 & NL1). inversion Sp1 as [|? ? ? V1 H1 Al1 Hn1 Hm1| | | | | | | | | | | |]; subst.
  set (w := world_of (rc s)) in *. set (w1 := world_of r1) in *. set (o := wn w) in *. destruct F as (F1 & F2 & F3).
  assert (forall u, ~ refers w u o) as Fresh.
  { intros u R. pose proof (good_refers _ _ _ G R) as Q. apply alive_lt in Q. unfold o in Q. cbn [world_of wn w] in Q. lia. }
  assert (legal w1 (PWrap v o)) as Lg.
  { split; [split; [lia|split]|split].
    - rewrite V1. now replace (v <? wm w) with true by lia.
    - rewrite H1. now replace (v <? wm w) with true by lia.
    - rewrite Al1. now rewrite Nat.eqb_refl.
    - intros u. unfold refers. rewrite V1. destruct (u <? wm w); [apply Fresh|]. destruct (u <? wm w + n); discriminate. }
  destruct (step_ok _ (PWrap v o) G1 Lg) as (r2 & q2 & E2 & Sp2 & G2 & NL2). inversion Sp2 as [| |? ? ? ? Sm| | | | | | | | | | |]; subst.
  fold w1 in Sm. pose proof (Inv_raw w (kd s) (ls s) n w1 I V1 H1 Al1 Hn1 Hm1) as I1.
  set (k1 := kd s ++ repeat KVar n) in *.
  destruct (Inv_lists w1 k1 (ls s) (Some o) m I1) as [I2 S2].
  { intros o' E. assert (o' = o) by congruence. subst o'. rewrite Hn1, Al1, Nat.eqb_refl. fold o. auto. }
  set (s1 := ls s ++ repeat (Some (mkL (Some o) 0 0 0)) m) in *.
  assert (forall a, kind_of k1 a = if inr a (wm w) n then KVar else kind_of (kd s) a) as K1.
  { intros a. unfold k1. rewrite kind_app_var. rewrite (i_len _ _ _ I). reflexivity. }
  assert (kind_of k1 v = KVar) as Kv by (rewrite K1; rng; auto).
  destruct (Inv_var w1 k1 s1 v (Some (Some o)) I2 Kv) as [I3 S3].
  { intros _ o' E. rewrite H1 in E. replace (v <? wm w) with true in E by lia. congruence. }
  destruct (Inv_same _ _ _ _ Sm I3) as [I4 S4].
  pose proof (asame_trans _ _ _ S4 (asame_trans _ _ _ S3 (asame_set_v _ _ v (Some (Some o)) S2))) as (B1 & B2 & B3 & B4 & B5 & B6 & B7 & B8).
  exists (mkT r2 k1 s1). split; [|split].
  - cbn [lstep]. rewrite Iv. cbn [bind]. rewrite E1. cbn [bind]. rewrite E2. reflexivity.
  - assert (forall u, kind_of (kd s) u = KVar -> u < wm w) as Lt by (intros u Q; rewrite <- (i_len _ _ _ I); apply kind_lt; congruence).
    apply (ls_make _ _ _ _ (wm w)).
    + intros i Li. unfold lworld_of, lw. cbn [avar]. destruct (kind_of (kd s) (wm w + i)) eqn:Q; auto. apply Lt in Q. lia.
    + intros u. unfold lworld_of. cbn [rc kd ls]. rewrite B3. unfold set_v, lw. cbn [avar]. rewrite K1. fold (inr u (wm w) n).
      destruct (inr u (wm w) n); [now rewrite orb_true_r|]. now rewrite orb_false_r.
    + intros u. unfold lworld_of. cbn [rc kd ls]. rewrite B1. unfold set_v, lw. cbn [av an]. fold w. fold (inr u (wm w) n). destruct (u =? v); auto. rewrite K1, V1.
      destruct (inr u (wm w) n) eqn:X.
      * apply inr_t in X. replace (u <? wm w) with false by lia. now replace (u <? wm w + n) with true by lia.
      * destruct (kind_of (kd s) u) eqn:Q; auto. apply Lt in Q. now replace (u <? wm w) with true by lia.
    + intros u. unfold lworld_of. cbn [rc kd ls]. rewrite B2. unfold set_v, lw. cbn [ah an]. fold w. fold (inr u (wm w) n). rewrite K1, H1.
      destruct (inr u (wm w) n) eqn:X.
      * apply inr_t in X. replace (u <? wm w) with false by lia. now replace (u <? wm w + n) with true by lia.
      * destruct (kind_of (kd s) u) eqn:Q; auto. apply Lt in Q. now replace (u <? wm w) with true by lia.
    + intros l. unfold lworld_of. cbn [rc kd ls]. rewrite B4. unfold set_v, lw. cbn [al aln]. destruct ((length (ls s) <=? l) && (l <? length (ls s) + m)); auto.
      destruct (nth_error (ls s) l) as [[y|]|] eqn:Q; auto. assert (lhome y = None \/ exists h, lhome y = Some h) as [E|[h E]] by (destruct (lhome y); eauto); rewrite E.
      * f_equal. apply items_ext; auto. intros i Li. rewrite V1. pose proof (i_cnt _ _ _ I _ _ Q).
        assert (base y + i < wm w); [|now replace (base y + i <? wm w) with true by lia].
        rewrite <- (i_len _ _ _ I). apply kind_lt. rewrite (i_kind _ _ _ I _ _ i Q) by lia. destruct (i <? cnt y); discriminate.
      * rewrite Al1. pose proof (i_home _ _ _ I _ _ _ Q E). fold o in H. replace (h =? o) with false by lia. fold w. destruct (wa w h); auto.
        f_equal. apply items_ext; auto. intros i Li. rewrite V1. pose proof (i_cnt _ _ _ I _ _ Q).
        assert (base y + i < wm w); [|now replace (base y + i <? wm w) with true by lia].
        rewrite <- (i_len _ _ _ I). apply kind_lt. rewrite (i_kind _ _ _ I _ _ i Q) by lia. destruct (i <? cnt y); discriminate.
    + intros l. unfold lworld_of. cbn [rc kd ls]. rewrite B5. reflexivity.
    + intros o'. unfold lworld_of. cbn [rc kd ls]. rewrite B6. unfold set_v. cbn [aa]. apply Al1.
    + unfold lworld_of. cbn [rc kd ls]. rewrite B7. unfold set_v. cbn [an]. exact Hn1.
    + unfold lworld_of. cbn [rc kd ls]. rewrite B8. reflexivity.
  - split; [exact G2|]. split; [exact I4|]. split; [auto|]. cbn [rc]. intros o' A. destruct Sm as (Sv & _ & Sa & _).
    change (wa (world_of r2) o' = true) in A. rewrite Sa in A. cbn [set_var wa] in A. rewrite Al1 in A. destruct (Nat.eqb_spec o' o) as [E0|N0].
    + exists v. unfold refers. rewrite Sv, E0. unfold set_var. cbn [wv]. now rewrite Nat.eqb_refl.
    + destruct (KP o' A) as [u R]. exists u. fold w in R. unfold refers in *. rewrite Sv. unfold set_var. cbn [wv].
      assert (u <> v) by (intros ->; congruence). replace (u =? v) with false by lia. rewrite V1.
      assert (u < wm w); [|now replace (u <? wm w) with true by lia]. unfold w in R. rewrite wv_of in R. destruct (ex (rc s) u) eqn:X; [eapply ex_lt; eauto|discriminate].
Qed.

Lemma lstep_ok s o : lgood s -> llegal (lworld_of s) o -> lresult s o.
Proof.
  intros G L. destruct o.
  - now apply mnew_ok.
  - now apply mmake_ok.
  - now apply mcopy_ok.
  - now apply massign_ok.
  - now apply mnull_ok.
  - now apply mend_ok.
  - now apply lnew_ok.
  - now apply lend_ok.
  - now apply insert_ok.
  - now apply set_ok.
  - now apply remove_ok.
  - now apply clear_ok.
  - now apply lmove_ok.
Qed.
