From Coq Require Import ZifyBool.
From Verif Require Import Base BaseFacts LstModel LstSpec LstProofs SrtModel SrtSpec SrtProofs DctModel DctSpec DctProofs LmModel LmSpec LmProofs DmModel DmSpec.
Open Scope Z_scope.

(* a statement without memory: undefined, or as with memory *)
Definition sim {X Y : Type} (R : X -> Y -> Prop) (r' : res X) (r : res Y) : Prop :=
  r' = UB \/ match r with Ok y => exists y', r' = Ok y' /\ R y' y | Err => r' = Err | _ => True end.
Lemma sim_bind {X Y X2 Y2} (R : X -> Y -> Prop) (R2 : X2 -> Y2 -> Prop) r' r (h' : X -> res X2) h :
  sim R r' r -> (forall y' y, r' = Ok y' -> r = Ok y -> R y' y -> sim R2 (h' y') (h y)) -> sim R2 (bind r' h') (bind r h).
Proof.
  intros [->|H] K; [left; reflexivity|]. destruct r as [y| | |]; cbn [bind].
  - destruct H as (y' & -> & HR). cbn [bind]. now apply K.
  - right. now rewrite H.
  - right. exact I.
  - right. exact I.
Qed.
Lemma sim_ok {X Y} (R : X -> Y -> Prop) y' y : R y' y -> sim R (Ok y') (Ok y).
Proof. right. eauto. Qed.
Lemma sim_late {X Y} (R : X -> Y -> Prop) r' r : sim R r' r -> sim R (late r') (late r).
Proof. intros [->|H]; [left; reflexivity|]. destruct r as [y| | |]; right; cbn [late]; auto. destruct H as (y' & -> & H). cbn [late]. eauto. Qed.
Lemma sim_refl {X} (r : res X) : sim eq r r.
Proof. right. destruct r; eauto. Qed.

Section Lists.
  Context {A : Type}.
  Definition twin (x' x : lst A) : Prop :=
    x' = x \/ (buf x' = [] /\ count x' = 0 /\ 0 < cap x' /\ count x = 0 /\ moves x' = moves x).
  Lemma twin_count x' x : twin x' x -> count x' = count x.
  Proof. intros [->|(_ & -> & _ & -> & _)]; reflexivity. Qed.
  Lemma twin_holds x' x l : twin x' x -> lst_shows A x l -> holds A x' l.
  Proof.
    intros [->|(B & C & _ & C0 & _)] (S1 & _ & S3); [split; assumption|]. assert (l = []) as -> by (apply length_zero_iff_nil; unfold zlen in S1; lia).
    split; [exact C|]. exists 0%nat. exact B.
  Qed.
  (* operations on memory do not raise errors *)
  Definition noerr {X} (r : res X) : Prop := r <> Err.
  Lemma noerr_bind {X Y} (r : res X) (h : X -> res Y) : noerr r -> (forall x, noerr (h x)) -> noerr (bind r h).
  Proof. unfold noerr. destruct r; cbn [bind]; auto; discriminate. Qed.
  Lemma noerr_aget {X} (l : list X) i : noerr (aget l i).
  Proof. unfold noerr, aget. destruct (znth l i); discriminate. Qed.
  Lemma noerr_aset {X} (l : list X) i x : noerr (aset l i x).
  Proof. unfold noerr, aset. destruct (_ && _); discriminate. Qed.
  Lemma noerr_destroy (m : mem A) i : noerr (destroy A m i).
  Proof. apply noerr_bind; [apply noerr_aget|]. intros x. destruct (is_raw A x); [discriminate|apply noerr_aset]. Qed.
  Lemma noerr_construct (m : mem A) i x : noerr (construct A m i x).
  Proof. apply noerr_bind; [apply noerr_aget|]. intros y. destruct (is_raw A y); [apply noerr_aset|discriminate]. Qed.
  Lemma noerr_assign (m : mem A) i x : noerr (assign A m i x).
  Proof. apply noerr_bind; [apply noerr_aget|]. intros y. destruct (is_raw A y); [discriminate|apply noerr_aset]. Qed.
  Lemma noerr_move_out (m : mem A) i : noerr (move_out A m i).
  Proof. apply noerr_bind; [apply noerr_aget|]. intros y. destruct (is_raw A y); [discriminate|]. apply noerr_bind; [apply noerr_aset|discriminate]. Qed.
  Lemma noerr_dtors n : forall (m : mem A) i, noerr (dtors A m i n).
  Proof. induction n as [|n IH]; intros m i; cbn [dtors]; [discriminate|]. apply noerr_bind; [apply noerr_destroy|auto]. Qed.
  Lemma noerr_across n : forall (d : mem A) di s si, noerr (move_across A d di s si n).
  Proof.
    induction n as [|n IH]; intros d di s si; cbn [move_across]; [discriminate|]. apply noerr_bind; [apply noerr_move_out|]. intros [s' x].
    apply noerr_bind; [apply noerr_construct|auto].
  Qed.
  Lemma noerr_overlapped (m : mem A) di si n : noerr (assign_overlapped A m di si n).
  Proof.
    unfold assign_overlapped. destruct (di <? si).
    - generalize (Z.to_nat n). clear n. intros n. revert m di si. induction n as [|n IH]; intros m di si; cbn [assign_fwd]; [discriminate|].
      apply noerr_bind; [apply noerr_move_out|]. intros [s' x]. apply noerr_bind; [apply noerr_assign|auto].
    - destruct (di >? si); [|discriminate]. generalize (Z.to_nat n). clear n. intros n. revert m. induction n as [|n IH]; intros m; cbn [assign_bwd]; [discriminate|].
      apply noerr_bind; [apply noerr_move_out|]. intros [s' x]. apply noerr_bind; [apply noerr_assign|auto].
  Qed.
  Lemma noerr_release (x : lst A) c : noerr (release A x c).
  Proof.
    unfold release. destruct (buf x); [discriminate|]. cbv zeta. apply noerr_bind; [destruct (_ <? _); [apply noerr_dtors|discriminate]|].
    intros m'. destruct (_ && _); [|discriminate]. destruct (_ <? _); [|discriminate]. apply noerr_bind; [apply noerr_across|]. intros [nb m2].
    apply noerr_bind; [apply noerr_dtors|]. intros m3. apply noerr_bind; [|discriminate]. unfold noerr, deallocate. destruct (forallb _ _); discriminate.
  Qed.
  Lemma ms_insert_eq bad x i a : 0 <= i <= count x -> ms_insert A bad x i a = m_insert A bad x i a.
  Proof. intros H. unfold ms_insert, m_insert. now replace ((i >=? 0) && (i <=? count x)) with true by lia. Qed.
  Lemma s_insert_eq x i a : 0 <= i <= count x -> s_insert A x i a = insert A x i a.
  Proof. intros H. unfold s_insert, insert. now replace ((i >=? 0) && (i <=? count x)) with true by lia. Qed.
  Lemma insert_sim bad x' x i a : twin x' x -> sim twin (m_insert A bad x' i a) (insert A x i a).
  Proof.
    intros [->|(B & C & D & E & _)].
    - destruct (insert_same A (fun _ _ => true) bad x i a) as [->|[_ ->]]; [|left; reflexivity]. right. destruct (insert A x i a); auto. eexists. split; [reflexivity|]. now left.
    - destruct (broken_insert A (fun _ _ => true) bad x' i a) as [(H & N)|H]; [repeat split; auto| |left; exact H]. rewrite H. right. unfold insert. now replace ((i >=? 0) && (i <=? count x)) with false by lia.
  Qed.
  Lemma release_sim bad x c : 0 <= count x -> sim twin (m_release A bad x c) (release A x c).
  Proof.
    intros H. destruct (release A x c) as [y| | |] eqn:E; try (right; exact I).
    - destruct (release_cases A bad x c y H E) as [->|[[_ ->]|(_ & C & -> & D)]]; [apply sim_ok; now left|left; reflexivity|].
      apply sim_ok. right. cbn [buf count cap moves]. repeat split; auto.
      unfold release in E. destruct (buf x); [injection E as <-; auto|]. cbv zeta in E. destruct (if count x <? c then _ else _); try discriminate. cbn [bind] in E.
      destruct (_ && _); [destruct (_ <? _)|].
      + destruct (move_across A _ _ _ _ _) as [[nb m']| | |]; try discriminate. cbn [bind] in E. destruct (dtors A m' _ _); try discriminate. cbn [bind] in E.
        destruct (deallocate A _); try discriminate. cbn [bind] in E. injection E as <-. exact C.
      + injection E as <-. exact C.
      + injection E as <-. exact C.
    - destruct (noerr_release x c E).
  Qed.
  Lemma remove_at_sim bad x' x i : twin x' x -> sim twin (m_remove_at A bad x' i) (remove_at A x i).
  Proof.
    intros [->|(B & C & D & E & _)].
    - unfold m_remove_at, remove_at. destruct ((i >=? 0) && (i <? count x)) eqn:E; [|right; reflexivity].
      eapply sim_bind; [apply sim_refl|]. intros y' y _ _ ->. apply release_sim. cbn [count]. lia.
    - unfold m_remove_at, remove_at. rewrite C, E. replace ((i >=? 0) && (i <? 0)) with false by lia. right. reflexivity.
  Qed.
  Lemma remove_range_sim bad x' x i n : twin x' x -> 0 <= count x -> sim twin (m_remove_range A bad x' i n) (remove_range A x i n) \/ n < 0 \/ (count x = 0 /\ i = 0 /\ n = 0).
  Proof.
    intros T Hc. destruct (Z_lt_dec n 0) as [|Hn]; [auto|]. destruct T as [->|(B & C & D & E & _)].
    - left. unfold m_remove_range, remove_range. destruct ((i >=? 0) && (i <=? count x)) eqn:E; [|right; reflexivity].
      destruct (negb _); [left; reflexivity|]. destruct ((i + n >=? 0) && (i + n <=? count x)) eqn:E2; [|right; reflexivity].
      eapply sim_bind; [apply sim_refl|]. intros y' y _ _ ->. apply release_sim. cbn [count]. lia.
    - destruct (Z.eq_dec i 0) as [->|]; [destruct (Z.eq_dec n 0) as [->|]; [auto|]|]; left; unfold m_remove_range, remove_range; rewrite C, E.
      + replace ((0 >=? 0) && (0 <=? 0)) with true by lia. destruct (negb _); [left; reflexivity|]. replace ((0 + n >=? 0) && (0 + n <=? 0)) with false by lia. right. reflexivity.
      + replace ((i >=? 0) && (i <=? 0)) with false by lia. right. reflexivity.
  Qed.
  Lemma get_sim x' x i : twin x' x -> sim eq (get A x' i) (get A x i).
  Proof.
    intros [->|(B & C & D & E & _)]; [apply sim_refl|]. unfold get. rewrite C, E. replace ((i >=? 0) && (i <? 0)) with false by lia. right. reflexivity.
  Qed.
  Lemma set_sim x' x i a : twin x' x -> sim twin (set A x' i a) (set A x i a).
  Proof.
    intros [->|(B & C & D & E & _)]; unfold set.
    - right. destruct ((i >=? 0) && (i <? count x)); [|reflexivity]. destruct (assign A (buf x) i (Live a)); cbn [bind]; auto. eexists. split; [reflexivity|]. now left.
    - rewrite C, E. replace ((i >=? 0) && (i <? 0)) with false by lia. right. reflexivity.
  Qed.
  Lemma clear_sim x' x : twin x' x -> sim twin (clear A x') (clear A x).
  Proof.
    intros [->|(B & C & D & E & M)]; unfold clear.
    - right. destruct (do m <- dtors A (buf x) 0 (Z.to_nat (count x)); do _ <- deallocate A m; Ok (mkLst [] 0 0 (moves x))) eqn:Q; auto. eexists. split; [reflexivity|]. now left.
    - rewrite B, C, E, M. change (Z.to_nat 0) with 0%nat. cbn [dtors bind]. unfold deallocate at 1. cbn [forallb bind].
      right. destruct (dealloc_cases A (buf x)) as [->| ->]; cbn [bind]; [|exact I]. eexists. split; [reflexivity|]. now left.
  Qed.
  Lemma destruct_sim x' x : twin x' x -> sim eq (destruct A x') (destruct A x).
  Proof.
    intros [->|(B & C & D & E & M)]; [apply sim_refl|]. unfold destruct at 1. rewrite B. unfold destruct. destruct (buf x) as [|s0 l0] eqn:Eb; [apply sim_refl|]. rewrite E. change (Z.to_nat 0) with 0%nat.
    cbn [dtors bind]. destruct (dealloc_cases A (s0 :: l0)) as [->| ->]; [apply sim_refl|right; exact I].
  Qed.
  Lemma index_of_sim eqb x' x a : twin x' x -> sim eq (index_of A eqb x' a) (index_of A eqb x a).
  Proof. intros [->|(B & C & D & E & M)]; [apply sim_refl|]. unfold index_of. rewrite C, E. apply sim_refl. Qed.
  Lemma remove_sim eqb bad x' x a : twin x' x -> sim (fun p q => twin (fst p) (fst q) /\ snd p = snd q) (m_remove A eqb bad x' a) (remove A eqb x a).
  Proof.
    intros T. unfold m_remove, remove. eapply sim_bind; [apply index_of_sim; eauto|]. intros i' i _ _ ->. rewrite (twin_count _ _ T).
    destruct ((i >=? 0) && (i <? count x)); [|apply sim_ok; auto]. eapply sim_bind; [apply remove_at_sim; eauto|]. intros y' y _ _ T'. apply sim_ok. auto.
  Qed.
  Variable cmp : A -> A -> option comparison.
  Lemma internal_sim x' x a : twin x' x -> sim eq (index_of_internal A cmp x' a) (index_of_internal A cmp x a).
  Proof. intros [->|(B & C & D & E & M)]; [apply sim_refl|]. unfold index_of_internal. rewrite C, E. change (Z.to_nat (0 + 1)) with 1%nat. cbn [search]. apply sim_refl. Qed.
  Lemma s_index_sim x' x a : twin x' x -> sim eq (s_index_of A cmp x' a) (s_index_of A cmp x a).
  Proof. intros T. unfold s_index_of. eapply sim_bind; [apply internal_sim; eauto|]. intros [p q] y _ _ <-. apply sim_ok. auto. Qed.
  Lemma s_add_sim bad x' x a : twin x' x -> 0 <= count x -> sim (fun p q => twin (fst p) (fst q) /\ snd p = snd q) (ms_add A cmp bad x' a) (s_add A cmp x a).
  Proof.
    intros T Hc. unfold ms_add, s_add. rewrite (twin_count _ _ T). destruct (Z.eqb_spec (count x) 0) as [E|E].
    - rewrite ms_insert_eq by (rewrite (twin_count _ _ T); lia). rewrite s_insert_eq by lia. eapply sim_bind; [apply insert_sim; eauto|].
      intros y' y _ _ T'. apply sim_ok. auto.
    - assert (x' = x) as -> by (destruct T as [T|(_ & _ & _ & T & _)]; [exact T|contradiction]).
      eapply sim_bind; [apply sim_refl|]. intros [p q] y _ _ <-. destruct ((q >=? 0) && (q <? count x)) eqn:Eq; [|right; reflexivity].
      eapply sim_bind; [apply sim_refl|]. intros b' b _ _ ->.
      assert (0 <= (match cmp b a with Some Lt => q + 1 | _ => q end) <= count x) as R by (destruct (cmp b a) as [[]|]; lia).
      rewrite ms_insert_eq, s_insert_eq by exact R. eapply sim_bind; [apply insert_sim; left; reflexivity|]. intros y' y _ _ T'. apply sim_ok. auto.
  Qed.
  Lemma s_remove_sim bad x' x a : twin x' x -> sim (fun p q => twin (fst p) (fst q) /\ snd p = snd q) (ms_remove A cmp bad x' a) (s_remove A cmp x a).
  Proof.
    intros T. unfold ms_remove, s_remove. eapply sim_bind; [apply s_index_sim; eauto|]. intros i' i _ _ ->. rewrite (twin_count _ _ T).
    destruct ((i >=? 0) && (i <? count x)); [|apply sim_ok; auto]. eapply sim_bind; [apply remove_at_sim; eauto|]. intros y' y _ _ T'. apply sim_ok. auto.
  Qed.
End Lists.

Definition tr {X Y Z : Type} (R : X -> Y -> Prop) (p : X * Z) (q : Y * Z) : Prop := R (fst p) (fst q) /\ snd p = snd q.
Section SortedRun.
  Context {A : Type} (c : A -> A -> comparison).
  Notation cmp := (fun a b => Some (c a b)).
  Lemma range_nothing bad (x' x : lst A) : buf x' = [] -> count x' = 0 -> 0 < cap x' -> count x = 0 -> moves x' = moves x ->
    forall y r, lst_shows A x [] -> remove_range A x 0 0 = Ok y -> r = m_remove_range A bad x' 0 0 -> sim twin r (Ok y).
  Proof.
    intros B C D E M y r S H ->. unfold m_remove_range. rewrite C. change ((0 >=? 0) && (0 <=? 0)) with true. cbv iota. change (negb _) with false. cbv iota.
    change ((0 + 0 >=? 0) && (0 + 0 <=? 0)) with true. cbv iota. unfold assign_overlapped. change (0 <? 0 + 0) with false. change (0 >? 0 + 0) with false. cbv iota. cbn [bind].
    unfold m_release. cbn [buf]. rewrite B.
    unfold remove_range in H. rewrite E in H. change ((0 >=? 0) && (0 <=? 0)) with true in H. cbv iota in H. change (negb _) with false in H. cbv iota in H.
    change ((0 + 0 >=? 0) && (0 + 0 <=? 0)) with true in H. cbv iota in H. unfold assign_overlapped in H. change (0 <? 0 + 0) with false in H. change (0 >? 0 + 0) with false in H. cbv iota in H. cbn [bind] in H.
    apply sim_ok. right. cbn [buf count cap moves]. 
    unfold release in H. cbn [buf count cap moves] in H. destruct (buf x); [injection H as <-; cbn [count moves]; repeat split; auto; lia|]. cbv zeta in H. change (0 - 0 <? 0) with false in H. cbv iota in H. cbn [bind] in H.
    destruct (_ && _); [destruct (_ <? _)|].
    - change (Z.to_nat (0 - 0)) with 0%nat in H. cbn [move_across bind dtors] in H. destruct (deallocate A _); try discriminate. cbn [bind] in H. injection H as <-. cbn [count moves]. repeat split; auto; lia.
    - injection H as <-. cbn [count moves]. repeat split; auto; lia.
    - injection H as <-. cbn [count moves]. repeat split; auto; lia.
  Qed.
  Lemma ms_step_sim x' x l o f : twin x' x -> lst_shows A x l -> client_ok A o -> sim (tr twin) (ms_step A cmp x' o f) (s_step A cmp x o).
  Proof.
    intros T S O. assert (0 <= count x) as Hc by (destruct S as [-> _]; unfold zlen; lia).
    assert (sim (tr twin) (ms_step_raw A cmp x' o f) (s_step_raw A cmp x o)) as H.
    { destruct o as [a|a|i|i n| |i| |a|a]; cbn [ms_step_raw s_step_raw].
      - eapply sim_bind; [apply s_add_sim; eauto|]. intros [y' i'] [y i] _ _ [T' E]. cbn [fst snd] in *. subst. apply sim_ok. split; auto.
      - eapply sim_bind; [apply s_remove_sim; eauto|]. intros [y' i'] [y i] _ _ [T' E]. cbn [fst snd] in *. subst. apply sim_ok. split; auto.
      - eapply sim_bind; [apply remove_at_sim; eauto|]. intros y' y _ _ T'. apply sim_ok. split; auto.
      - destruct (remove_range_sim (f 1%nat) x' x i n T Hc) as [H|[H|(E & -> & ->)]].
        + eapply sim_bind; [exact H|]. intros y' y _ _ T'. apply sim_ok. split; auto.
        + cbn [client_ok] in O. lia.
        + eapply sim_bind with (R := twin); [|intros y' y _ _ T'; apply sim_ok; split; auto].
          assert (l = []) as -> by (apply length_zero_iff_nil; destruct S as [S _]; unfold zlen in S; lia).
          destruct T as [->|(B & C & D & _ & M)].
          * unfold m_remove_range, remove_range. destruct ((0 >=? 0) && (0 <=? count x)); [|right; reflexivity]. change (negb ((- 2 ^ 63 <=? 0 + 0) && (0 + 0 <? 2 ^ 63))) with false. cbv iota.
            destruct ((0 + 0 >=? 0) && (0 + 0 <=? count x)); [|right; reflexivity].
            eapply sim_bind; [apply sim_refl|]. intros y' y _ _ ->. apply release_sim. cbn [count]. lia.
          * destruct (remove_range A x 0 0) as [y| | |] eqn:Q; try (right; exact I).
            -- eapply range_nothing; eauto.
            -- exfalso. unfold remove_range in Q. rewrite E in Q. change ((0 >=? 0) && (0 <=? 0)) with true in Q. cbv iota in Q. change (negb _) with false in Q. cbv iota in Q.
               change ((0 + 0 >=? 0) && (0 + 0 <=? 0)) with true in Q. cbv iota in Q. revert Q. apply noerr_bind; [apply noerr_overlapped|]. intros; apply noerr_release.
      - eapply sim_bind; [apply clear_sim; eauto|]. intros y' y _ _ T'. apply sim_ok. split; auto.
      - eapply sim_bind; [apply get_sim; eauto|]. intros y' y _ _ ->. apply sim_ok. split; auto.
      - apply sim_ok. split; [auto|]. cbn [snd]. now rewrite (twin_count _ _ T).
      - eapply sim_bind; [apply s_index_sim; eauto|]. intros y' y _ _ ->. apply sim_ok. split; auto.
      - eapply sim_bind; [apply s_index_sim; eauto|]. intros y' y _ _ ->. apply sim_ok. split; auto. }
    unfold ms_step, s_step. destruct H as [->|H]; [left; reflexivity|]. destruct (s_step_raw A cmp x o) as [y| | |]; try (right; exact I).
    - destruct H as (y' & -> & H). apply sim_ok. exact H.
    - rewrite H. apply sim_ok. split; auto.
  Qed.
End SortedRun.
Lemma ms_run_sim {A} (c : A -> A -> comparison) (TO : total_order c) p : forall x' x l, twin x' x -> lst_shows A x l -> ascending A c l -> Forall (client_ok A) (map fst p) ->
  ms_run A (fun a b => Some (c a b)) x' p = UB \/
  exists y' rs l2, ms_run A (fun a b => Some (c a b)) x' p = Ok (y', rs) /\ holds A y' l2 /\ ok_run A c l (map fst p) l2 rs.
Proof.
  induction p as [|[o f] p IH]; intros x' x l T S As F; cbn [ms_run map fst].
  - right. do 3 eexists. split; [reflexivity|]. split; [eapply twin_holds; eauto|constructor].
  - inversion F as [|? ? F1 F2]; subst. destruct (s_step_ok A c TO x l o S As F1) as (y & l' & r & E & S' & As' & O).
    pose proof (ms_step_sim c x' x l o f T S F1) as H. rewrite E in H. destruct H as [->|([y' r'] & -> & T' & Er)]; [left; reflexivity|].
    cbn [fst snd] in *. subst r'. cbn [bind]. destruct (IH y' y l' T' S' As' F2) as [->|(z & rs & l2 & -> & Hz & R)]; [left; reflexivity|]. cbn [bind].
    right. do 3 eexists. split; [reflexivity|]. split; [exact Hz|]. econstructor; eauto.
Qed.
Lemma sorted_never_wrong A (c : A -> A -> comparison) : total_order c -> forall p, Forall (client_ok A) (map fst p) ->
  ms_run A (fun a b => Some (c a b)) empty_lst p = UB \/
  exists x rs l, ms_run A (fun a b => Some (c a b)) empty_lst p = Ok (x, rs) /\ holds A x l /\ ok_run A c [] (map fst p) l rs.
Proof. intros TO p F. eapply ms_run_sim; eauto; [now left|apply empty_shows|constructor]. Qed.

Section Dict.
  Context {K V : Type} (c : K -> K -> comparison) (veq : V -> V -> bool).
  Notation cmp := (fun a b => Some (c a b)).
  Definition dtwin (d' d : dict K V) : Prop := twin (keys d') (keys d) /\ twin (vals d') (vals d).
  Lemma dm_step_sim d' d o f : dtwin d' d -> 0 <= count (keys d) -> sim (tr dtwin) (dm_step K V cmp d' o f) (d_step K V cmp d o).
  Proof.
    intros [TK TV] Hc.
    assert (sim (tr dtwin) (dm_step_raw K V cmp d' o f) (d_step_raw K V cmp d o)) as H.
    { assert (forall k v, sim dtwin
        (do (ks, j) <- ms_add K cmp (f 1%nat) (keys d') k; do vs <- late (m_insert V (f 2%nat) (vals d') j v); Ok (mkDict ks vs))
        (do (ks, j) <- s_add K cmp (keys d) k; do vs <- late (insert V (vals d) j v); Ok (mkDict ks vs))) as Add.
      { intros k v. eapply sim_bind; [apply s_add_sim; eauto|]. intros [ks' j'] [ks j] _ _ [T' E]. cbn [fst snd] in *. subst.
        eapply sim_bind; [apply sim_late, insert_sim; eauto|]. intros y' y _ _ T2. apply sim_ok. split; auto. }
      destruct o as [k v|k v|k| |k|k| |i|i]; cbn [dm_step_raw d_step_raw].
      - eapply sim_bind with (R := dtwin); [|intros; apply sim_ok; split; auto]. unfold md_add, d_add.
        eapply sim_bind; [apply s_index_sim; eauto|]. intros i' i _ _ ->. destruct (negb (i =? -1)); [right; reflexivity|]. apply Add.
      - eapply sim_bind with (R := dtwin); [|intros; apply sim_ok; split; auto]. unfold md_set, d_set.
        eapply sim_bind; [apply s_index_sim; eauto|]. intros i' i _ _ ->. destruct (i =? -1); [apply Add|].
        eapply sim_bind; [apply set_sim; eauto|]. intros y' y _ _ T2. apply sim_ok. split; auto.
      - eapply sim_bind with (R := tr dtwin); [|intros [y' b'] [y b] _ _ [T E]; cbn [fst snd] in *; subst; apply sim_ok; split; auto]. unfold md_remove, d_remove.
        eapply sim_bind; [apply s_index_sim; eauto|]. intros i' i _ _ ->. destruct (negb (i =? -1)); [|apply sim_ok; split; [split|]; auto].
        eapply sim_bind; [apply remove_at_sim; eauto|]. intros ks' ks _ _ T1. eapply sim_bind; [apply sim_late, remove_at_sim; eauto|]. intros vs' vs _ _ T2.
        apply sim_ok. split; [split|]; auto.
      - eapply sim_bind with (R := dtwin); [|intros; apply sim_ok; split; auto]. unfold d_clear.
        eapply sim_bind; [apply clear_sim; eauto|]. intros ks' ks _ _ T1. eapply sim_bind; [apply sim_late, clear_sim; eauto|]. intros vs' vs _ _ T2. apply sim_ok. split; auto.
      - unfold d_get. eapply sim_bind with (R := eq); [|intros y' y _ _ ->; apply sim_ok; split; [split|]; auto].
        eapply sim_bind; [apply s_index_sim; eauto|]. intros i' i _ _ ->. apply get_sim; auto.
      - eapply sim_bind; [apply s_index_sim; eauto|]. intros i' i _ _ ->. apply sim_ok; split; [split|]; auto.
      - apply sim_ok. split; [split; auto|]. cbn [snd]. now rewrite (twin_count _ _ TK).
      - eapply sim_bind; [apply get_sim; eauto|]. intros y' y _ _ ->. apply sim_ok; split; [split|]; auto.
      - eapply sim_bind; [apply get_sim; eauto|]. intros y' y _ _ ->. apply sim_ok; split; [split|]; auto. }
    unfold dm_step, d_step. destruct H as [->|H]; [left; reflexivity|]. destruct (d_step_raw K V cmp d o) as [y| | |]; try (right; exact I).
    - destruct H as (y' & -> & H). apply sim_ok. exact H.
    - rewrite H. apply sim_ok. split; [split|]; auto.
  Qed.
  Lemma shows_count A (x : lst A) l : lst_shows A x l -> 0 <= count x.
  Proof. intros [-> _]. unfold zlen. lia. Qed.
  Lemma dm_run_sim (TO : total_order c) p : forall d' d m, dtwin d' d -> d_shows K V c d m ->
    dm_run K V cmp d' p = UB \/
    exists e', dm_run K V cmp d' p = Ok (e', snd (md_run K V c m (map fst p))) /\ d_holds K V c e' (fst (md_run K V c m (map fst p))).
  Proof.
    induction p as [|[o f] p IH]; intros d' d m T S; cbn [dm_run map fst md_run].
    - right. exists d'. split; [reflexivity|]. destruct T as [T1 T2], S as (S1 & S2 & S3). repeat split; try (eapply twin_holds; eauto); auto; cbn [fst].
      all: try (destruct (twin_holds _ _ _ T1 S1); tauto). all: try (destruct (twin_holds _ _ _ T2 S2); tauto).
    - destruct (d_step_ok K V c TO d m o S) as (e & E & S'). pose proof (dm_step_sim d' d o f T (shows_count _ _ _ (proj1 S))) as H. rewrite E in H.
      destruct H as [->|([y' r'] & -> & T' & Er)]; [left; reflexivity|]. cbn [fst snd] in *. subst r'. cbn [bind].
      destruct (md_step K V c m o) as [m' r]. cbn [fst snd] in *. destruct (IH y' e m' T' S') as [->|(z & -> & Hz)]; [left; reflexivity|]. cbn [bind].
      right. destruct (md_run K V c m' (map fst p)) as [m2 rs]. cbn [fst snd] in *. eauto.
  Qed.
  Lemma dict_never_wrong : total_order c -> forall p,
    dm_run K V cmp empty_dict p = UB \/
    exists d, dm_run K V cmp empty_dict p = Ok (d, snd (md_run K V c [] (map fst p))) /\ d_holds K V c d (fst (md_run K V c [] (map fst p))).
  Proof. intros TO p. eapply dm_run_sim; eauto; [split; now left|apply d_empty]. Qed.

  (* ---- groups ---- *)
  Definition otwin (a b : option (lst V)) : Prop := match a, b with Some x, Some y => twin x y | None, None => True | _, _ => False end.
  Definition gtwin (g' g : group K V) : Prop := twin (gkeys g') (gkeys g) /\ twin (gvals g') (gvals g) /\ Forall2 otwin (gheap g') (gheap g).
  Lemma otwin_refl l : Forall2 otwin l l.
  Proof. induction l as [|[x|] l IH]; constructor; auto; [now left|exact I]. Qed.
  Lemma f2_nth h' h : Forall2 otwin h' h -> forall p, match nth_error h' p, nth_error h p with Some a, Some b => otwin a b | None, None => True | _, _ => False end.
  Proof. induction 1 as [|a b h' h H1 H2 IH]; intros [|p]; cbn [nth_error]; auto. apply IH. Qed.
  Lemma f2_upd h' h a b : Forall2 otwin h' h -> otwin a b -> forall p, Forall2 otwin (upd h' p a) (upd h p b).
  Proof. intros H Hab. induction H as [|x y h' h H1 H2 IH]; intros [|p]; cbn [upd]; constructor; auto. Qed.
  Lemma f2_length h' h : Forall2 otwin h' h -> length h' = length h.
  Proof. induction 1; cbn [length]; congruence. Qed.
  Lemma deref_sim g' g p : gtwin g' g -> sim twin (deref K V g' p) (deref K V g p).
  Proof.
    intros (_ & _ & H). unfold deref. pose proof (f2_nth _ _ H p) as Q. destruct (nth_error (gheap g') p) as [[x'|]|], (nth_error (gheap g) p) as [[x|]|]; try contradiction; try (right; exact I); try (left; reflexivity).
    apply sim_ok. exact Q.
  Qed.
  Lemma setcell_twin g' g p a b : gtwin g' g -> otwin a b -> gtwin (setcell K V g' p a) (setcell K V g p b).
  Proof. intros (T1 & T2 & T3) H. split; [|split]; cbn; auto. now apply f2_upd. Qed.
  Lemma delete_sim g' g p : gtwin g' g -> sim gtwin (delete K V g' p) (delete K V g p).
  Proof.
    intros T. unfold delete. eapply sim_bind; [apply deref_sim; eauto|]. intros x' x _ _ Tx. eapply sim_bind; [apply destruct_sim; eauto|]. intros [] [] _ _ _.
    apply sim_ok. apply setcell_twin; [exact T|exact I].
  Qed.
  Lemma delete_all_sim n : forall g' g i, gtwin g' g -> sim gtwin (g_delete_all K V g' i n) (g_delete_all K V g i n).
  Proof.
    induction n as [|n IH]; intros g' g i T; cbn [g_delete_all]; [apply sim_ok; auto|]. eapply sim_bind; [apply get_sim; apply T|]. intros p' p _ _ ->.
    eapply sim_bind; [apply delete_sim; eauto|]. auto.
  Qed.
  Lemma by_index_sim g' g i : gtwin g' g -> sim twin (g_by_index K V g' i) (g_by_index K V g i).
  Proof. intros T. unfold g_by_index. eapply sim_bind; [apply get_sim; apply T|]. intros p' p _ _ ->. now apply deref_sim. Qed.
  Lemma g_get_sim g' g k : gtwin g' g -> sim twin (g_get K V cmp g' k) (g_get K V cmp g k).
  Proof. intros T. unfold g_get. eapply sim_bind; [apply s_index_sim; apply T|]. intros p' p _ _ ->. now apply by_index_sim. Qed.
  (* the pair that cannot get its container *)
  Definition stuck (g : group K V) (o : gop K V) (f : nat -> bool) : bool :=
    match o with GAdd k _ => match s_index_of K cmp (gkeys g) k with Ok i => (i =? -1) && f 0%nat | _ => false end | _ => false end.
  Definition ts (p : group K V * option (dout K V)) (q : group K V * dout K V) : Prop := gtwin (fst p) (fst q) /\ snd p = Some (snd q).
  Lemma sim_lift X Y : sim (tr gtwin) X Y -> sim ts (do (g, r) <- X; Ok (g, Some r)) Y.
  Proof.
    intros [->|H]; [left; reflexivity|]. destruct Y as [y| | |]; try (right; exact I).
    - destruct H as ([y' r] & -> & T & E). cbn [bind fst snd] in *. subst r. apply sim_ok. split; auto.
    - rewrite H. right. reflexivity.
  Qed.
  Lemma gm_step_sim g' g o f : gtwin g' g -> 0 <= count (gkeys g) -> stuck g o f = false ->
    sim ts (gm_step K V cmp veq g' o f) (g_step K V cmp veq g o).
  Proof.
    intros T Hc Hs. destruct (T) as (TK & TV & TH).
    assert (sim ts (gm_step_raw K V cmp veq g' o f) (g_step_raw K V cmp veq g o)) as H.
    { destruct o as [k v|k|k v| |k|k v| |i|k|k i]; cbn [gm_step_raw g_step_raw].
      - eapply sim_bind with (R := fun p q => gtwin (fst p) q /\ snd p = true).
        2:{ intros [y' b'] y _ _ [T' E]. cbn [fst snd] in *. subst. apply sim_ok. split; auto. }
        unfold mg_add, g_add. unfold stuck in Hs. eapply sim_bind; [apply s_index_sim; eauto|]. intros i' i _ Ei ->. rewrite Ei in Hs. rewrite Hs.
        eapply sim_bind with (R := tr gtwin).
        + destruct (i =? -1).
          * cbv zeta. eapply sim_bind; [apply s_add_sim; eauto|]. intros [ks' j'] [ks j] _ _ [T' E]. cbn [fst snd] in *. subst.
            eapply sim_bind; [apply sim_late; rewrite (f2_length _ _ TH); apply insert_sim; eauto|]. intros y' y _ _ T2. apply sim_ok. split; [|cbn [snd]; now rewrite (f2_length _ _ TH)].
            split; [|split]; cbn; auto. apply Forall2_app; auto. constructor; [now left|constructor].
          * eapply sim_bind; [apply get_sim; eauto|]. intros p' p _ _ ->. apply sim_ok. split; auto.
        + intros [y' p'] [y p] _ _ [T' E]. cbn [fst snd] in *. subst. eapply sim_bind; [apply sim_late, deref_sim; eauto|]. intros x' x _ _ Tx.
          eapply sim_bind; [apply sim_late; rewrite (twin_count _ _ Tx); apply insert_sim; eauto|]. intros z' z _ _ Tz. apply sim_ok. split; [|reflexivity]. cbn [fst]. now apply setcell_twin.
      - eapply sim_bind with (R := tr gtwin); [|intros [y' b'] [y b] _ _ [T' E]; cbn [fst snd] in *; subst; apply sim_ok; split; auto]. unfold mg_remove, g_remove.
        eapply sim_bind; [apply s_index_sim; eauto|]. intros i' i _ _ ->. destruct (negb (i =? -1)); [|apply sim_ok; split; auto].
        eapply sim_bind; [apply remove_at_sim; eauto|]. intros ks' ks _ _ T1. eapply sim_bind; [apply sim_late, get_sim; eauto|]. intros p' p _ _ ->.
        eapply sim_bind; [apply sim_late, remove_at_sim; eauto|]. intros vs' vs _ _ T2. eapply sim_bind; [apply sim_late, delete_sim|intros y' y _ _ Ty; apply sim_ok; split; auto].
        split; [|split]; auto.
      - eapply sim_bind with (R := tr gtwin); [|intros [y' b'] [y b] _ _ [T' E]; cbn [fst snd] in *; subst; apply sim_ok; split; auto]. unfold mg_remove_value, g_remove_value.
        eapply sim_bind; [apply s_index_sim; eauto|]. intros i' i _ _ ->. destruct (negb (i =? -1)); [|apply sim_ok; split; auto].
        eapply sim_bind; [apply get_sim; eauto|]. intros p' p _ _ ->. eapply sim_bind; [apply deref_sim; eauto|]. intros x' x _ _ Tx.
        eapply sim_bind; [apply remove_sim; eauto|]. intros [y' b'] [y b] _ _ [Ty _]. cbn [fst snd] in *. cbv zeta. rewrite (twin_count _ _ Ty).
        assert (gtwin (setcell K V g' p (Some y')) (setcell K V g p (Some y))) as TS by now apply setcell_twin. destruct (TS) as (TS1 & TS2 & TS3).
        destruct (count y =? 0); [|apply sim_ok; split; auto]. eapply sim_bind; [apply sim_late, remove_at_sim; exact TS1|]. intros ks' ks _ _ T1.
        eapply sim_bind; [apply sim_late, remove_at_sim; exact TS2|]. intros vs' vs _ _ T2. eapply sim_bind; [apply sim_late, delete_sim|intros z' z _ _ Tz; apply sim_ok; split; auto].
        split; [|split]; auto.
      - apply sim_lift.
        eapply sim_bind with (R := gtwin); [|intros; apply sim_ok; split; auto]. unfold g_clear. rewrite (twin_count _ _ TV).
        eapply sim_bind; [apply delete_all_sim; eauto|]. intros y' y _ _ (T1 & T2 & T3). eapply sim_bind; [apply sim_late, clear_sim; eauto|]. intros ks' ks _ _ T4.
        eapply sim_bind; [apply sim_late, clear_sim; eauto|]. intros vs' vs _ _ T5. apply sim_ok. split; [|split]; auto.
      - apply sim_lift.
        eapply sim_bind; [apply s_index_sim; eauto|]. intros i' i _ _ ->. apply sim_ok. split; auto.
      - apply sim_lift. unfold g_contains_value.
        eapply sim_bind with (R := eq); [|intros y' y _ _ ->; apply sim_ok; split; auto]. eapply sim_bind; [apply s_index_sim; eauto|]. intros i' i _ _ ->.
        destruct (negb (i =? -1)); [|apply sim_ok; auto]. eapply sim_bind; [apply by_index_sim; eauto|]. intros x' x _ _ Tx. eapply sim_bind; [apply index_of_sim; eauto|]. intros j' j _ _ ->. now apply sim_ok.
      - apply sim_lift, sim_ok. split; [exact T|]. cbn [snd]. now rewrite (twin_count _ _ TK).
      - apply sim_lift.
        eapply sim_bind; [apply get_sim; eauto|]. intros i' j _ _ ->. apply sim_ok. split; auto.
      - apply sim_lift.
        eapply sim_bind; [apply g_get_sim; eauto|]. intros x' x _ _ Tx. apply sim_ok. split; [auto|]. cbn [snd]. now rewrite (twin_count _ _ Tx).
      - apply sim_lift.
        eapply sim_bind; [apply g_get_sim; eauto|]. intros x' x _ _ Tx. eapply sim_bind; [apply get_sim; eauto|]. intros v' v _ _ ->. apply sim_ok. split; auto. }
    unfold gm_step, g_step. destruct H as [->|H]; [left; reflexivity|]. destruct (g_step_raw K V cmp veq g o) as [y| | |]; try (right; exact I).
    - destruct H as (y' & -> & H). apply sim_ok. exact H.
    - rewrite H. apply sim_ok. split; auto.
  Qed.
  Lemma gtwin_holds g' g m : gtwin g' g -> g_shows K V c g m -> g_holds K V c g' m.
  Proof.
    intros (T1 & T2 & T3) (ps & S1 & S2 & S3 & S4 & S5 & S6 & S7). exists ps. split; [eapply twin_holds; eauto|]. split; [eapply twin_holds; eauto|].
    split; [|split; [exact S4|split; [|auto]]].
    - clear - S3 T3. induction S3 as [|p kv ps m H S3 IH]; constructor; auto. destruct H as (x & Ex & Sx). pose proof (f2_nth _ _ T3 p) as Q. rewrite Ex in Q.
      destruct (nth_error (gheap g') p) as [[x'|]|]; try contradiction. exists x'. split; [reflexivity|]. eapply twin_holds; eauto.
    - intros p x' E. pose proof (f2_nth _ _ T3 p) as Q. rewrite E in Q. destruct (nth_error (gheap g) p) as [[x|]|] eqn:Ex; try contradiction. eauto.
  Qed.
  Lemma stuck_spec (TO : total_order c) g m k : g_shows K V c g m ->
    exists i, s_index_of K cmp (gkeys g) k = Ok i /\ ((i =? -1) = match lookup K (list V) c k m with Some _ => false | None => true end).
  Proof.
    intros (ps & HK & HP & HC & ND & HL & Ha & HN). destruct (index_cases K (list V) c TO _ _ k HK Ha) as [(m1 & k0 & vs & m2 & F & E)|(m1 & m2 & F & E)]; rewrite E; eexists; (split; [reflexivity|]).
    - rewrite (lookup_found _ _ _ _ _ _ _ _ _ F). unfold zlen. lia.
    - now rewrite (lookup_absent _ _ _ _ _ _ _ F).
  Qed.
  Lemma gm_run_sim (TO : total_order c) p : forall g' g m, gtwin g' g -> g_shows K V c g m ->
    gm_run K V cmp veq g' p = UB \/
    exists e', gm_run K V cmp veq g' p = Ok (e', snd (short_run K V c veq m p)) /\ g_holds K V c e' (fst (short_run K V c veq m p)).
  Proof.
    induction p as [|[o f] p IH]; intros g' g m T S; cbn [gm_run short_run].
    - right. exists g'. split; [reflexivity|]. eapply gtwin_holds; eauto.
    - assert (0 <= count (gkeys g)) as Hc by (destruct S as (ps & S1 & _); eapply shows_count; eauto).
      assert (gm_step K V cmp veq g' o f = UB \/ exists y' y, gm_step K V cmp veq g' o f = Ok (y', snd (short_step K V c veq m o (f 0%nat))) /\
        gtwin y' y /\ g_shows K V c y (fst (short_step K V c veq m o (f 0%nat)))) as [->|(y' & y & -> & T' & S')].
      { destruct (stuck g o f) eqn:Hs.
        - destruct o as [k v|k|k v| |k|k v| |i|k|k i]; try discriminate. cbn [stuck] in Hs. destruct (stuck_spec TO g m k S) as (i & Ei & Hi). rewrite Ei in Hs.
          apply andb_prop in Hs. destruct Hs as [H1 H2]. unfold gm_step. cbn [gm_step_raw short_step]. unfold mg_add.
          pose proof (s_index_sim cmp (gkeys g') (gkeys g) k (proj1 T)) as Q. rewrite Ei in Q. destruct Q as [->|(j & -> & ->)]; [left; reflexivity|]. cbn [bind]. rewrite H1, H2. cbn [andb bind].
          rewrite Hi in H1. destruct (lookup K (list V) c k m) eqn:L; [discriminate|]. right. exists g', g. split; [reflexivity|]. split; auto.
        - pose proof (gm_step_sim g' g o f T Hc Hs) as H. destruct (g_step_ok K V c TO veq g m o S) as (g2 & E & S2). rewrite E in H.
          destruct H as [->|([y' r] & -> & T2 & Er)]; [left; reflexivity|]. cbn [fst snd] in *. subst r. right. exists y', g2.
          assert (short_step K V c veq m o (f 0%nat) = (fst (mg_step K V c veq m o), Some (snd (mg_step K V c veq m o)))) as ->; [|auto].
          unfold short_step. destruct (mg_step K V c veq m o) as [m2 r2] eqn:Em. cbn [fst snd]. destruct o as [k v|k|k v| |k|k v| |i|k|k i]; auto.
          destruct (lookup K (list V) c k m) eqn:L; auto. destruct (f 0%nat) eqn:F0; auto. exfalso. cbn [stuck] in Hs.
          destruct (stuck_spec TO g m k S) as (i & Ei & Hi). rewrite Ei, F0 in Hs. rewrite L in Hi. rewrite Hi in Hs. discriminate. }
      + left. reflexivity.
      + cbn [bind]. destruct (short_step K V c veq m o (f 0%nat)) as [m' r]. cbn [fst snd] in *. destruct (IH y' y m' T' S') as [->|(z & -> & Hz)]; [left; reflexivity|]. cbn [bind].
        right. destruct (short_run K V c veq m' p) as [m2 rs]. cbn [fst snd] in *. eauto.
  Qed.
  Lemma group_never_wrong : total_order c -> forall p,
    gm_run K V cmp veq empty_group p = UB \/
    exists g, gm_run K V cmp veq empty_group p = Ok (g, snd (short_run K V c veq [] p)) /\ g_holds K V c g (fst (short_run K V c veq [] p)).
  Proof. intros TO p. eapply gm_run_sim; eauto; [split; [now left|split; [now left|constructor]]|apply g_empty]. Qed.
End Dict.

(* ---- enough memory ---- *)
Section Enough.
  Lemma ms_insert_good {A} (x : lst A) i a : ms_insert A false x i a = s_insert A x i a.
  Proof. unfold ms_insert, s_insert, m_insert_uninitialized, insert_uninitialized. cbn [m_alloc]. destruct (count x + 1 >? cap x); reflexivity. Qed.
  Lemma m_insert_good {A} (x : lst A) i a : m_insert A false x i a = insert A x i a.
  Proof. apply (LmProofs.m_insert_good A (fun _ _ => true)). Qed.
  Lemma ms_add_good {A} cmp (x : lst A) a : ms_add A cmp false x a = s_add A cmp x a.
  Proof.
    unfold ms_add, s_add. rewrite ms_insert_good. destruct (count x =? 0); [reflexivity|]. destruct (index_of_internal A cmp x a) as [[p q]| | |]; cbn [bind]; try reflexivity.
    destruct (_ && _); [|reflexivity]. destruct (read A (buf x) q); cbn [bind]; try reflexivity. cbv zeta. now rewrite ms_insert_good.
  Qed.
  Lemma ms_step_good {A} cmp (x : lst A) o : ms_step A cmp x o enough = s_step A cmp x o.
  Proof. unfold ms_step, s_step. destruct o; cbn [ms_step_raw s_step_raw]; change (enough 1%nat) with false; rewrite ?ms_add_good; reflexivity. Qed.
  Lemma ms_run_good {A} cmp os : forall x : lst A, ms_run A cmp x (map (fun o => (o, enough)) os) = s_run A cmp x os.
  Proof.
    induction os as [|o os IH]; intros x; [reflexivity|]. cbn [map ms_run s_run]. rewrite ms_step_good. destruct (s_step A cmp x o) as [[y r]| | |]; cbn [bind]; try reflexivity.
    now rewrite IH.
  Qed.
  Lemma md_add_good {K V} cmp (d : dict K V) k v : md_add K V cmp enough d k v = d_add K V cmp d k v.
  Proof.
    unfold md_add, d_add. destruct (s_index_of K cmp (keys d) k); cbn [bind]; try reflexivity. destruct (negb _); [reflexivity|]. change (enough 1%nat) with false. change (enough 2%nat) with false. rewrite ms_add_good.
    destruct (s_add K cmp (keys d) k) as [[ks j]| | |]; cbn [bind]; try reflexivity. now rewrite m_insert_good.
  Qed.
  Lemma md_set_good {K V} cmp (d : dict K V) k v : md_set K V cmp enough d k v = d_set K V cmp d k v.
  Proof.
    unfold md_set, d_set. destruct (s_index_of K cmp (keys d) k) as [i| | |]; cbn [bind]; try reflexivity. destruct (i =? -1); [|reflexivity]. change (enough 1%nat) with false. change (enough 2%nat) with false. rewrite ms_add_good.
    destruct (s_add K cmp (keys d) k) as [[ks j]| | |]; cbn [bind]; try reflexivity. now rewrite m_insert_good.
  Qed.
  Lemma dm_step_good {K V} cmp (d : dict K V) o : dm_step K V cmp d o enough = d_step K V cmp d o.
  Proof. unfold dm_step, d_step. destruct o; cbn [dm_step_raw d_step_raw]; rewrite ?md_add_good, ?md_set_good; reflexivity. Qed.
  Lemma dm_run_good {K V} cmp os : forall d : dict K V, dm_run K V cmp d (map (fun o => (o, enough)) os) = d_run K V cmp d os.
  Proof.
    induction os as [|o os IH]; intros x; [reflexivity|]. cbn [map dm_run d_run]. rewrite dm_step_good. destruct (d_step K V cmp x o) as [[y r]| | |]; cbn [bind]; try reflexivity.
    now rewrite IH.
  Qed.
  Definition some_out {K V} (r : res (group K V * dout K V)) : res (group K V * option (dout K V)) := do (g, r) <- r; Ok (g, Some r).
  Lemma mg_add_good {K V} cmp f (g : group K V) k v : f 0%nat = false -> f 1%nat = false -> f 2%nat = false -> f 3%nat = false -> mg_add K V cmp f g k v = do g <- g_add K V cmp g k v; Ok (g, true).
  Proof.
    intros F0 F1 F2 F3. unfold mg_add, g_add. rewrite F0, F1, F2, F3. destruct (s_index_of K cmp (gkeys g) k) as [i| | |]; cbn [bind]; try reflexivity. rewrite Bool.andb_false_r.
    destruct (i =? -1).
    - cbv zeta. rewrite ms_add_good. destruct (s_add K cmp (gkeys g) k) as [[ks j]| | |]; cbn [bind]; try reflexivity. rewrite m_insert_good.
      destruct (late (insert nat (gvals g) j (length (gheap g)))); cbn [bind]; try reflexivity. destruct (late (deref K V _ _)); cbn [bind]; try reflexivity.
      rewrite m_insert_good. destruct (late (insert V _ _ _)); reflexivity.
    - destruct (get nat (gvals g) i); cbn [bind]; try reflexivity. destruct (late (deref K V g _)); cbn [bind]; try reflexivity. rewrite m_insert_good. destruct (late (insert V _ _ _)); reflexivity.
  Qed.
  Lemma gm_step_good {K V} cmp veq (g : group K V) o : gm_step K V cmp veq g o enough = some_out (g_step K V cmp veq g o).
  Proof.
    unfold gm_step, g_step, some_out. assert (gm_step_raw K V cmp veq g o enough = do (g, r) <- g_step_raw K V cmp veq g o; Ok (g, Some r)) as ->.
    - destruct o; cbn [gm_step_raw g_step_raw]; try reflexivity.
      + rewrite mg_add_good by reflexivity. destruct (g_add K V cmp g k v); reflexivity.
      + change (mg_remove K V cmp enough g k) with (g_remove K V cmp g k). destruct (g_remove K V cmp g k) as [[? ?]| | |]; reflexivity.
      + change (mg_remove_value K V cmp veq enough g k v) with (g_remove_value K V cmp veq g k v). destruct (g_remove_value K V cmp veq g k v) as [[? ?]| | |]; reflexivity.
    - destruct (g_step_raw K V cmp veq g o) as [[? ?]| | |]; reflexivity.
  Qed.
  Lemma gm_run_good {K V} cmp veq os : forall g : group K V,
    gm_run K V cmp veq g (map (fun o => (o, enough)) os) = do (g, rs) <- g_run K V cmp veq g os; Ok (g, map Some rs).
  Proof.
    induction os as [|o os IH]; intros x; [reflexivity|]. cbn [map gm_run g_run]. rewrite gm_step_good. unfold some_out. destruct (g_step K V cmp veq x o) as [[y r]| | |]; cbn [bind]; try reflexivity.
    rewrite IH. destruct (g_run K V cmp veq y os) as [[z rs]| | |]; reflexivity.
  Qed.
End Enough.

(* ---- what fails ---- *)
Section Exact.
  Lemma insert_exact {A} (bad : bool) x l i (a : A) : lst_shows A x l -> 0 <= i <= zlen l ->
    m_insert A bad x i a = if bad && (zlen l =? cap x) then UB else insert A x i a.
  Proof.
    intros S Hi. destruct bad; cbn [andb]; [|apply m_insert_good]. destruct (insert_short A (fun _ _ => true) x l i a S Hi) as [H1 H2].
    assert (zlen l <= cap x) by (destruct S as (_ & <- & k & ->); rewrite zlen_app, zlen_map; pose proof (zlen_nonneg (repeat (@Raw A) k)); lia).
    destruct (zlen l =? cap x) eqn:E; [apply H1|apply H2]; lia.
  Qed.
  Lemma add_exact {A} cmp (bad : bool) x l (a : A) : lst_shows A x l ->
    match s_add A cmp x a with Ok _ => True | _ => False end ->
    ms_add A cmp bad x a = if bad && (zlen l =? cap x) then UB else s_add A cmp x a.
  Proof.
    intros S. pose proof S as (C & _). unfold ms_add, s_add. destruct (count x =? 0) eqn:E0.
    - rewrite ms_insert_eq, s_insert_eq by lia. rewrite (insert_exact bad x l) by (auto; lia). intros _. now destruct (bad && _).
    - destruct (index_of_internal A cmp x a) as [[p q]| | |]; cbn [bind]; try contradiction. destruct ((q >=? 0) && (q <? count x)) eqn:Eq; [|contradiction].
      destruct (read A (buf x) q) as [b| | |]; cbn [bind]; try contradiction. cbv zeta. intros _.
      assert (0 <= match cmp b a with Some Lt => q + 1 | _ => q end <= count x) as R by (destruct (cmp b a) as [[]|]; lia).
      rewrite ms_insert_eq, s_insert_eq by exact R. rewrite (insert_exact bad x l) by (auto; lia). now destruct (bad && _).
  Qed.
  Lemma sorted_add_exact A (c : A -> A -> comparison) : total_order c -> forall x l a f, lst_shows A x l -> ascending A c l ->
    ms_step A (fun a b => Some (c a b)) x (SAdd a) f = if f 1%nat && (zlen l =? cap x) then UB else s_step A (fun a b => Some (c a b)) x (SAdd a).
  Proof.
    intros TO x l a f S As. destruct (s_add_ok A c TO x l a S As) as (y & l1 & l2 & _ & E & _). unfold ms_step, s_step. cbn [ms_step_raw s_step_raw].
    rewrite (add_exact _ (f 1%nat) x l a S) by now rewrite E. now destruct (f 1%nat && _).
  Qed.
  Section D.
    Context {K V : Type} (c : K -> K -> comparison) (veq : V -> V -> bool) (TO : total_order c).
    Notation cmp := (fun a b => Some (c a b)).
    Lemma absent_index {W} x (m : fmap K W) k : lst_shows K x (map fst m) -> ascending_keys K W c m -> lookup K W c k m = None ->
      s_index_of K cmp x k = Ok (-1) /\ exists y j, s_add K cmp x k = Ok (y, j) /\ 0 <= j <= zlen m.
    Proof.
      intros H Ha L. destruct (index_cases K W c TO _ _ k H Ha) as [(m1 & k0 & vs & m2 & F & E)|(m1 & m2 & F & E)].
      - rewrite (lookup_found _ _ _ _ _ _ _ _ _ F) in L. discriminate.
      - split; [exact E|]. destruct (add_absent K W c TO _ _ _ _ _ H Ha F) as (y & n1 & n2 & (-> & _) & Ea & _). exists y, (zlen n1). split; [exact Ea|].
        rewrite zlen_app. pose proof (zlen_nonneg n1). pose proof (zlen_nonneg n2). lia.
    Qed.
    Lemma dict_add_exact d m k v f : d_shows K V c d m -> lookup K V c k m = None ->
      let o := DAdd k v in
      dm_step K V cmp d o f = if f 1%nat && (zlen m =? cap (keys d)) || f 2%nat && (zlen m =? cap (vals d)) then UB else d_step K V cmp d o.
    Proof.
      intros (HK & HV & Ha) L o. subst o. destruct (absent_index _ _ _ HK Ha L) as (E & y & j & Ea & Hj). unfold dm_step, d_step. cbn [dm_step_raw d_step_raw]. unfold md_add, d_add.
      rewrite E. cbn [bind]. change (negb (-1 =? -1)) with false. cbv iota. rewrite (add_exact _ (f 1%nat) _ _ _ HK) by now rewrite Ea. rewrite zlen_map, Ea.
      destruct (f 1%nat && _) eqn:F1; cbn [bind orb]; [reflexivity|]. rewrite (insert_exact (f 2%nat) _ _ _ v HV) by (rewrite zlen_map; lia). rewrite zlen_map.
      now destruct (f 2%nat && _).
    Qed.
    Lemma group_add_exact g m k v f : g_shows K V c g m -> lookup K (list V) c k m = None ->
      let o := GAdd k v in
      gm_step K V cmp veq g o f =
        if f 0%nat then Ok (g, None)
        else if f 1%nat && (zlen m =? cap (gkeys g)) || f 2%nat && (zlen m =? cap (gvals g)) || f 3%nat then UB
        else do (g', r) <- g_step K V cmp veq g o; Ok (g', Some r).
    Proof.
      intros S L o. pose proof (g_step_ok K V c TO veq g m o S) as (g2 & Q & _). destruct S as (ps & HK & HP & HC & ND & HL & Ha & HN). subst o.
      assert (zlen ps = zlen m) as Lp by (clear - HC; unfold zlen; induction HC; cbn [length]; lia).
      destruct (absent_index _ _ _ HK Ha L) as (E & y & j & Ea & Hj). unfold gm_step. cbn [gm_step_raw]. unfold mg_add.
      unfold g_step in *. cbn [g_step_raw] in *. unfold g_add in *. rewrite E in *. cbn [bind] in *. change (-1 =? -1) with true in *. cbn [andb] in *.
      destruct (f 0%nat); [reflexivity|]. cbv iota in *. rewrite (add_exact _ (f 1%nat) _ _ _ HK) by now rewrite Ea. rewrite zlen_map. rewrite Ea in *.
      destruct (f 1%nat && _) eqn:F1; cbn [bind orb] in *; [reflexivity|]. rewrite (insert_exact (f 2%nat) _ _ _ (length (gheap g)) HP) by lia. rewrite Lp.
      destruct (f 2%nat && _) eqn:F2; cbn [bind orb late] in *; [reflexivity|]. destruct (insert nat (gvals g) j (length (gheap g))) as [vs| | |]; cbn [bind late] in *; try reflexivity; try discriminate.
      unfold deref in *. cbn [gheap] in *. rewrite nth_error_app2 in * by lia. rewrite Nat.sub_diag in *. cbn [nth_error late bind] in *. destruct (f 3%nat) eqn:F3.
      - reflexivity.
      - rewrite m_insert_good. destruct (late (insert V empty_lst (count empty_lst) v)); reflexivity.
    Qed.
  End D.
End Exact.

Lemma removal_then_add : forall k v f, 
  let w := [(DAdd 1 10, enough); (DRemove 1, only 1)] in
  dm_run Z Z (fun a b => Some (a ?= b)) empty_dict (w ++ [(DCount, enough)]) = Ok (mkDict (mkLst [] 0 1 0) (mkLst [Raw] 0 1 0), [OBool true; OBool true; OInt 0]) /\
  dm_run Z Z (fun a b => Some (a ?= b)) empty_dict (w ++ [(DAdd k v, f)]) = UB.
Proof. intros k v f. split; reflexivity. Qed.
