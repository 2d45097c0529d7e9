From Coq Require Import ZifyBool ZifyNat.
From Verif Require Import Base BaseFacts LstModel LstSpec LstProofs SrtModel SrtSpec SrtProofs DctModel DctProofs AnyModel AnySpec AnyProofs.
Open Scope Z_scope.

Lemma late_inv {B} (r : res B) a : late r = Ok a -> r = Ok a.
Proof. now destruct r. Qed.

Section Fixed.
  Context (A V : Type) (c : A -> A -> option comparison).
  Notation cmp := (fixed_cmp c). Notation less := (fixed_less c).
  Definition lift {B} (r : res B) : res (unit * option B) :=
    match r with Ok p => Ok (tt, Some p) | Err => Ok (tt, None) | UB => UB | NoFuel => NoFuel end.

  Lemma asearch_fixed x key : forall fuel s e index, asearch A unit cmp x key s e index fuel tt = lift (search A c x key s e index fuel).
  Proof.
    induction fuel as [|fuel IH]; intros s e index; cbn [asearch search]; [reflexivity|]. destruct (s <=? e); [|reflexivity]. cbv zeta.
    assert (R : read A (buf x) (s + Z.quot (e - s) 2) <> Err) by (unfold read, aget; destruct (znth _ _) as [[| |]|]; discriminate).
    destruct (read A (buf x) (s + Z.quot (e - s) 2)) as [y| | |]; cbn [bind]; try reflexivity; [|now destruct R].
    unfold fixed_cmp at 1. destruct (c y key) as [[| |]|]; auto.
  Qed.
  Lemma ainternal_fixed x key : ainternal A unit cmp x key tt = lift (index_of_internal A c x key).
  Proof. apply asearch_fixed. Qed.
  Lemma aadd_fixed x a st r : aadd A unit cmp less x a tt = Ok (st, r) ->
    s_add A c x a = match r with Some p => Ok p | None => Err end.
  Proof.
    unfold aadd, s_add. destruct (count x =? 0).
    - destruct (s_insert A x 0 a); cbn [bind]; intros E; try discriminate. now injection E as <- <-.
    - rewrite ainternal_fixed. destruct (index_of_internal A c x a) as [[r0 oi]| | |]; cbn [bind lift]; intros E; try discriminate.
      + destruct ((oi >=? 0) && (oi <? count x)); [|discriminate]. destruct (read A (buf x) oi) as [b| | |]; cbn [bind] in *; try discriminate.
        unfold fixed_less in E. cbv zeta in *. destruct (c b a) as [[| |]|]; (destruct (s_insert A x _ a) as [y| | |]; cbn [bind] in *; try discriminate; now injection E as <- <-).
      + now injection E as <- <-.
  Qed.
  Lemma astep_fixed x o y st r : astep A unit cmp less x tt o = Ok (y, st, r) -> s_step A c x o = Ok (y, r).
  Proof.
    unfold s_step. destruct o; cbn [astep s_step_raw]; unfold s_remove, s_index_of, catch; try rewrite ainternal_fixed.
    - destruct (aadd A unit cmp less x a tt) as [[st' q]| | |] eqn:E; cbn [bind]; intros Q; try discriminate.
      rewrite (aadd_fixed _ _ _ _ E). destruct q as [[z i]|]; cbn [bind]; injection Q as <- <- <-; reflexivity.
    - destruct (index_of_internal A c x a) as [[r0 oi]| | |]; cbn [bind lift]; intros Q; try discriminate; [|now injection Q as <- <- <-].
      destruct ((r0 >=? 0) && (r0 <? count x)); [|injection Q as <- <- <-; reflexivity].
      destruct (remove_at A x r0); cbn [bind] in *; try discriminate. now injection Q as <- <- <-.
    - destruct (remove_at A x i); cbn [bind]; intros Q; try discriminate; now injection Q as <- <- <-.
    - destruct (remove_range A x i n); cbn [bind]; intros Q; try discriminate; now injection Q as <- <- <-.
    - destruct (clear A x); cbn [bind]; intros Q; try discriminate; now injection Q as <- <- <-.
    - destruct (get A x i); cbn [bind]; intros Q; try discriminate; now injection Q as <- <- <-.
    - intros Q. now injection Q as <- <- <-.
    - destruct (index_of_internal A c x a) as [[r0 oi]| | |]; cbn [bind lift]; intros Q; try discriminate; now injection Q as <- <- <-.
    - destruct (index_of_internal A c x a) as [[r0 oi]| | |]; cbn [bind lift]; intros Q; try discriminate; now injection Q as <- <- <-.
  Qed.
  Lemma arun_fixed os : forall x y st rs, arun A unit cmp less x tt os = Ok (y, st, rs) -> s_run A c x os = Ok (y, rs).
  Proof.
    induction os as [|o os IH]; intros x y st rs; cbn [arun s_run]; [intros Q; now injection Q as <- <- <-|].
    destruct (astep A unit cmp less x tt o) as [[[x1 []] r]| | |] eqn:E; cbn [bind]; intros Q; try discriminate. rewrite (astep_fixed _ _ _ _ _ E). cbn [bind].
    destruct (arun A unit cmp less x1 tt os) as [[[x2 st2] rs2]| | |] eqn:E2; cbn [bind] in Q; try discriminate. injection Q as <- <- <-.
    now rewrite (IH _ _ _ _ E2).
  Qed.
  Lemma list_agrees os : Forall (client_ok A) os ->
    exists y rs, arun A unit cmp less empty_lst tt os = Ok (y, tt, rs) /\ s_run A c empty_lst os = Ok (y, rs).
  Proof.
    intros F. destruct (arun_ok A unit cmp less os empty_lst [] tt (empty_shows A) F) as (y & [] & rs & l & E & _). exists y, rs. split; [exact E|].
    eapply arun_fixed, E.
  Qed.

  Lemma adinsert_fixed d k v st q r : adinsert A V unit cmp less d k v tt = Ok (q, st, r) ->
    (do (ks, j) <- s_add A c (keys d) k; do vs <- late (insert V (vals d) j v); Ok (mkDict ks vs)) =
    match r with OError => Err | _ => Ok q end /\ (r = OError /\ q = d \/ r = OBool true).
  Proof.
    unfold adinsert. destruct (aadd A unit cmp less (keys d) k tt) as [[st' p]| | |] eqn:E; cbn [bind]; intros Q; try discriminate.
    rewrite (aadd_fixed _ _ _ _ E). destruct p as [[z i]|]; cbn [bind]; [|injection Q as <- <- <-; auto].
    destruct (late (insert V (vals d) i v)); cbn [bind] in *; try discriminate. injection Q as <- <- <-. auto.
  Qed.
  Lemma adstep_fixed d o q st r : adstep A V unit cmp less d tt o = Ok (q, st, r) -> d_step A V c d o = Ok (q, r).
  Proof.
    unfold d_step. destruct o as [k v|k v|k| |k|k| |i|i]; cbn [adstep d_step_raw]; unfold d_add, d_set, d_get, d_remove, d_clear, s_index_of; try rewrite ainternal_fixed.
    - destruct (index_of_internal A c (keys d) k) as [[r0 oi]| | |]; cbn [bind lift]; intros Q; try discriminate; [|now injection Q as <- <- <-].
      destruct (negb (r0 =? -1)); [now injection Q as <- <- <-|]. destruct (adinsert_fixed _ _ _ _ _ _ Q) as (E & D). rewrite E. now destruct D as [(-> & ->)| ->].
    - destruct (index_of_internal A c (keys d) k) as [[r0 oi]| | |]; cbn [bind lift]; intros Q; try discriminate; [|now injection Q as <- <- <-].
      destruct (r0 =? -1); [destruct (adinsert_fixed _ _ _ _ _ _ Q) as (E & D); rewrite E; now destruct D as [(-> & ->)| ->]|].
      destruct (late (set V (vals d) r0 v)) eqn:E; cbn [bind] in Q; try discriminate. rewrite (late_inv _ _ E). cbn [bind]. now injection Q as <- <- <-.
    - destruct (index_of_internal A c (keys d) k) as [[r0 oi]| | |]; cbn [bind lift]; intros Q; try discriminate; [|now injection Q as <- <- <-].
      destruct (negb (r0 =? -1)); [|now injection Q as <- <- <-]. destruct (late (remove_at A (keys d) r0)) eqn:E; cbn [bind] in Q; try discriminate. rewrite (late_inv _ _ E). cbn [bind].
      destruct (late (remove_at V (vals d) r0)) eqn:E2; cbn [bind] in *; try discriminate. now injection Q as <- <- <-.
    - destruct (clear A (keys d)); cbn [bind]; intros Q; try discriminate. destruct (late (clear V (vals d))); cbn [bind] in *; try discriminate. now injection Q as <- <- <-.
    - destruct (index_of_internal A c (keys d) k) as [[r0 oi]| | |]; cbn [bind lift]; intros Q; try discriminate; [|now injection Q as <- <- <-].
      destruct (get V (vals d) r0); cbn [bind] in *; try discriminate; now injection Q as <- <- <-.
    - destruct (index_of_internal A c (keys d) k) as [[r0 oi]| | |]; cbn [bind lift]; intros Q; try discriminate; now injection Q as <- <- <-.
    - intros Q. now injection Q as <- <- <-.
    - destruct (get A (keys d) i); cbn [bind]; intros Q; try discriminate; now injection Q as <- <- <-.
    - destruct (get V (vals d) i); cbn [bind]; intros Q; try discriminate; now injection Q as <- <- <-.
  Qed.
  Lemma adrun_fixed os : forall d q st rs, adrun A V unit cmp less d tt os = Ok (q, st, rs) -> d_run A V c d os = Ok (q, rs).
  Proof.
    induction os as [|o os IH]; intros d q st rs; cbn [adrun d_run]; [intros Q; now injection Q as <- <- <-|].
    destruct (adstep A V unit cmp less d tt o) as [[[x1 []] r]| | |] eqn:E; cbn [bind]; intros Q; try discriminate. rewrite (adstep_fixed _ _ _ _ _ E). cbn [bind].
    destruct (adrun A V unit cmp less x1 tt os) as [[[x2 st2] rs2]| | |] eqn:E2; cbn [bind] in Q; try discriminate. injection Q as <- <- <-.
    now rewrite (IH _ _ _ _ E2).
  Qed.
  Lemma dict_agrees os :
    exists d rs, adrun A V unit cmp less empty_dict tt os = Ok (d, tt, rs) /\ d_run A V c empty_dict os = Ok (d, rs).
  Proof.
    destruct (adrun_ok A V unit cmp less os empty_dict [] tt) as (y & [] & rs & l & E & _); [split; apply empty_shows|]. exists y, rs. split; [exact E|].
    eapply adrun_fixed, E.
  Qed.
End Fixed.

Section Pairing.
  Context (A V St : Type) (cmp : St -> A -> A -> St * option comparison) (less : St -> A -> A -> St * option bool).
  Definition given (os : list (dop A V)) (p : A * V) : Prop :=
    (exists v, In (DAdd (fst p) v) os \/ In (DSet (fst p) v) os) /\
    exists k, (In (DAdd k (snd p)) os \/ In (DSet k (snd p)) os) /\ (k = fst p \/ called_equal A St cmp (fst p) k).
  Lemma given_more os o p : given os p -> given (os ++ [o]) p.
  Proof.
    intros ((v & H1) & k & H2 & H3). split; [exists v|exists k; split; [|exact H3]]; rewrite !in_app_iff; intuition.
  Qed.
  Lemma step_given m o m' r os : pair_step A V St cmp less m o m' r -> (forall p, In p m -> given os p) -> forall p, In p m' -> given (os ++ [o]) p.
  Proof.
    assert (New : forall k v, o = DAdd k v \/ o = DSet k v -> given (os ++ [o]) (k, v)).
    { intros k v Ho. split; [exists v|exists k; split; [|now left]]; rewrite !in_app_iff; cbn; intuition. }
    intros S' H p Hp. destruct S'; try (apply given_more, H, Hp).
    1,2: apply in_app_or in Hp; destruct Hp as [Hp|[<-|Hp]]; [apply given_more, H, in_or_app; now left|apply New; auto|apply given_more, H, in_or_app; now right].
    - apply in_app_or in Hp. destruct Hp as [Hp|[<-|Hp]].
      1,3: apply given_more, H, in_or_app; cbn; auto.
      destruct (H (b, w)) as (H1 & _); [apply in_elt|]. destruct H1 as (v1 & H1). split.
      + exists v1. rewrite !in_app_iff. cbn in *. intuition.
      + exists k. split; [right; apply in_elt|now right].
    - apply given_more, H. apply in_app_or in Hp. apply in_or_app. cbn. intuition.
    - destruct Hp.
  Qed.
  Lemma run_given m os m' rs : pair_run A V St cmp less m os m' rs -> forall os0, (forall p, In p m -> given os0 p) -> forall p, In p m' -> given (os0 ++ os) p.
  Proof.
    induction 1 as [m|m o m1 r os m2 rs H1 H2 IH]; intros os0 H; [rewrite app_nil_r; exact H|].
    replace (os0 ++ o :: os) with ((os0 ++ [o]) ++ os) by now rewrite <- app_assoc. apply IH. eapply step_given; eauto.
  Qed.
End Pairing.

Lemma any_list_ok : forall (A St : Type) cmp less st os, Forall (client_ok A) os ->
  exists y st' rs l, arun A St cmp less empty_lst st os = Ok (y, st', rs) /\ lst_shows A y l /\ any_run A St cmp less [] os l rs.
Proof. intros. apply arun_ok; auto. apply empty_shows. Qed.
Lemma any_dict_ok : forall (A V St : Type) cmp less st os,
  exists d st' rs m, adrun A V St cmp less empty_dict st os = Ok (d, st', rs) /\
    lst_shows A (keys d) (map fst m) /\ lst_shows V (vals d) (map snd m) /\ pair_run A V St cmp less [] os m rs.
Proof.
  intros A V St cmp less st os. destruct (adrun_ok A V St cmp less os empty_dict [] st) as (d & st' & rs & m & E & (S1 & S2) & R); [split; apply empty_shows|]. eauto 9.
Qed.
Lemma any_pairs_ok : forall (A V St : Type) cmp less st os d st' rs k v i,
  adrun A V St cmp less empty_dict st os = Ok (d, st', rs) -> get A (keys d) i = Ok k -> get V (vals d) i = Ok v ->
  (exists w, In (DAdd k w) os \/ In (DSet k w) os) /\
  exists k', (In (DAdd k' v) os \/ In (DSet k' v) os) /\ (k' = k \/ called_equal A St cmp k k').
Proof.
  intros A V St cmp less st os d st' rs k v i E G1 G2. destruct (any_dict_ok A V St cmp less st os) as (d1 & st1 & rs1 & m & E1 & S1 & S2 & R).
  rewrite E1 in E. injection E as -> -> ->. rewrite (get_ok A _ _ i S1), znth_map in G1. rewrite (get_ok V _ _ i S2), znth_map in G2.
  destruct (znth m i) as [[k1 v1]|] eqn:N; cbn [option_map fst snd] in *; [|discriminate]. injection G1 as ->. injection G2 as ->.
  apply (run_given A V St cmp less _ _ _ _ R [] (fun p (H : In p []) => match H with end) (k, v)).
  unfold znth in N. destruct (i <? 0); [discriminate|]. eapply nth_error_In, N.
Qed.
