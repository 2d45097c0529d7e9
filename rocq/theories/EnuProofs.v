From Coq Require Import ZifyBool ZifyNat.
From Verif Require Import Base BaseFacts LstModel LstSpec LstProofs SrtModel SrtSpec SrtProofs DctModel DctSpec DctProofs EnuModel EnuSpec.
Open Scope Z_scope.

Section ListEnum.
  Variable A : Type.
  Variable eqb : A -> A -> bool.

  Lemma buf_room x (l : list A) : lst_shows A x l -> zlen l <= cap x /\ (buf x = [] -> cap x = 0).
  Proof.
    intros (C & Z & k & B). split; [rewrite <- Z, B; zl; lia|]. intros E. rewrite E in Z. now rewrite <- Z.
  Qed.
  Lemma insert_room x (l : list A) i a y l' : lst_shows A x l -> insert A x i a = Ok y -> lst_shows A y l' ->
    cap y = grown (cap x) (zlen l').
  Proof.
    intros H E (C' & _). apply insert_cap in E. destruct H as (C & _). unfold grown.
    destruct E as (E & [(H1 & H2 & _)|(H1 & H2 & _)]).
    - replace (zlen l' <=? cap x) with true by lia. exact H2.
    - replace (zlen l' <=? cap x) with false by lia. rewrite H2. do 3 f_equal. lia.
  Qed.
  Lemma release_room x n y : (buf x = [] -> cap x = 0) -> release A x n = Ok y ->
    count y = count x /\ (0 <= count x -> cap y = shrunk (cap x) (count x)).
  Proof.
    intros Hb E. unfold release in E. unfold shrunk.
    assert (K : forall a b : lst A, Ok a = Ok b -> a = b) by congruence.
    destruct (buf x) as [|s0 b0] eqn:EB.
    - apply K in E. subst y. split; [reflexivity|]. intros Hc. rewrite (Hb eq_refl).
      replace (count x <? 0 * 5 / 8) with false; [now rewrite andb_false_r|]. change (0 * 5 / 8) with 0. lia.
    - cbv zeta in E. apply bind_ok in E. destruct E as (m & _ & E).
      destruct ((count x <=? cap x / 2) && (count x <=? 8)) eqn:E1; cbn [andb].
      + destruct (count x <? cap x * 5 / 8) eqn:E2; cbn [andb].
        * apply bind_ok in E. destruct E as ([nb m'] & _ & E). apply bind_ok in E. destruct E as (m2 & _ & E).
          apply bind_ok in E. destruct E as (u & _ & E). apply K in E. subst y. cbn [count cap]. auto.
        * apply K in E. subst y. cbn [count cap]. auto.
      + apply K in E. subst y. cbn [count cap]. auto.
  Qed.
  Lemma remove_room x (l : list A) i n y : lst_shows A x l -> 0 <= i -> 0 <= n -> i + n <= zlen l ->
    (do m <- assign_overlapped A (buf x) i (i + n) (count x - i - n);
     release A (mkLst m (count x - n) (cap x) (moves x + (count x - i - n))) (count x)) = Ok y ->
    cap y = shrunk (cap x) (count y).
  Proof.
    intros H Hi Hn Hl E. destruct (remove_core A x l i n H Hi Hn Hl) as (y' & E' & Sy).
    assert (y' = y) by congruence. subst y'. clear E'.
    apply bind_ok in E. destruct E as (m & E1 & E). destruct (H) as (C & Z & k & B).
    destruct m as [|s0 m0].
    - (* only when the list has no buffer *)
      assert (y = mkLst [] (count x - n) (cap x) (moves x + (count x - i - n))) by (unfold release in E; cbn [buf] in E; congruence).
      subst y. destruct Sy as (Cy & Zy & _). cbn [count cap buf] in *.
      rewrite zlen_nil in Zy. rewrite <- Zy. unfold shrunk. pose proof (zlen_nonneg (ztake A i l ++ zdrop A (i + n) l)).
      replace (count x - n <? 0 * 5 / 8) with false; [now rewrite andb_false_r|]. change (0 * 5 / 8) with 0. lia.
    - apply release_room in E; [|discriminate]. destruct E as [Hc Hr]. cbn [count cap] in *.
      rewrite Hr by lia. f_equal. lia.
  Qed.
  Lemma remove_at_room x (l : list A) i y : lst_shows A x l -> remove_at A x i = Ok y -> cap y = shrunk (cap x) (count y).
  Proof.
    intros H E. unfold remove_at in E. destruct ((i >=? 0) && (i <? count x)) eqn:Hi; [|discriminate].
    destruct (H) as (C & _). eapply (remove_room x l i 1); eauto; lia.
  Qed.
  Lemma remove_range_room x (l : list A) i n y : lst_shows A x l -> 0 <= n -> remove_range A x i n = Ok y ->
    cap y = shrunk (cap x) (count y).
  Proof.
    intros H Hn E. unfold remove_range in E. destruct ((i >=? 0) && (i <=? count x)) eqn:Hi; [|discriminate].
    destruct (negb _); [discriminate|].
    destruct ((i + n >=? 0) && (i + n <=? count x)) eqn:Hj; [|discriminate].
    destruct (H) as (C & _). eapply (remove_room x l i n); eauto; lia.
  Qed.

  Definition one (x : lst A) (l : list A) : shows A [Some x] [Some l] -> lst_shows A x l.
  Proof. intros H. now inversion H. Qed.

  (* one method call *)
  Lemma list_op x (l : list A) o : lst_shows A x l -> on_list A o = true -> sensible A o ->
    exists l' r y, sstep A eqb [Some l] o = Ok ([Some l'], r) /\ step A eqb [Some x] o = Ok ([Some y], r) /\
      lst_shows A y l' /\ cap y = room_after A (cap x) o r l'.
  Proof.
    intros H Ho Hs.
    assert (S0 : shows A [Some x] [Some l]) by (constructor; [exact H|constructor]).
    assert (exists l' r, sstep A eqb [Some l] o = Ok ([Some l'], r)) as (l' & r & E).
    { unfold sstep. destruct o as [| | | |v a|v i a|v i|v i n|v a|v|v i a|v i|v|v a|v a]; try discriminate; destruct v; try discriminate;
        cbn [sstep_raw sread nth_error bind upd]; eauto.
      - unfold sinsert. destruct ((0 <=? i) && (i <=? zlen l)); cbn [bind]; eauto.
      - destruct ((0 <=? i) && (i <? zlen l)); eauto.
      - unfold sremove. cbn [sensible] in Hs. destruct ((0 <=? i) && (i <=? zlen l)) eqn:Ei; cbn [bind]; eauto.
        replace ((- 2 ^ 63 <=? i + n) && (i + n <? 2 ^ 63)) with true by lia. cbn [negb].
        replace (i + n <? 0) with false by lia. replace (n <? 0) with false by lia.
        destruct (i + n <=? zlen l); cbn [bind]; eauto.
      - cbv zeta. destruct (first_pos A eqb a l =? -1); eauto.
      - unfold sset. destruct ((0 <=? i) && (i <? zlen l)); cbn [bind]; eauto.
      - destruct (znth l i); eauto. }
    destruct (step_sim A eqb _ _ _ _ _ S0 E) as (s' & E' & S').
    assert (exists y, s' = [Some y]) as (y & ->).
    { inversion S' as [|a b la lb Hab Hl E1 E2]. subst. inversion Hl. subst. destruct a; [eauto|contradiction]. }
    apply one in S'. exists l', r, y. split; [exact E|]. split; [exact E'|]. split; [exact S'|].
    clear E S0. unfold step in E'.
    assert (KK : forall (a b : lst A) (p q : out A), Ok ([Some a], p) = Ok ([Some b], q) -> a = b /\ p = q) by (intros; split; congruence).
    destruct (buf_room _ _ S') as [Hr _]. destruct (buf_room _ _ H) as [Hr0 _].
    assert (G : y = x -> cap y = grown (cap x) (zlen l')).
    { intros ->. unfold grown. now replace (zlen l' <=? cap x) with true by lia. }
    destruct (S') as (C' & _). destruct (H) as (C0 & _).
    destruct o as [| | | |v a|v i a|v i|v i n|v a|v|v i a|v i|v|v a|v a]; try discriminate; destruct v; try discriminate;
      cbn [step_raw var nth_error bind upd room_after] in *.
    - destruct (insert A x (count x) a) as [z| | |] eqn:Ez; cbn [bind] in E'; try discriminate.
      + apply KK in E'. destruct E' as [-> <-]. eapply insert_room; eauto.
      + apply KK in E'. destruct E' as [<- <-]. auto.
    - destruct (insert A x i a) as [z| | |] eqn:Ez; cbn [bind] in E'; try discriminate.
      + apply KK in E'. destruct E' as [-> <-]. eapply insert_room; eauto.
      + apply KK in E'. destruct E' as [<- <-]. auto.
    - destruct (remove_at A x i) as [z| | |] eqn:Ez; cbn [bind] in E'; try discriminate; apply KK in E'; destruct E' as [<- <-]; auto.
      rewrite <- C'. eapply remove_at_room; eauto.
    - destruct (remove_range A x i n) as [z| | |] eqn:Ez; cbn [bind] in E'; try discriminate; apply KK in E'; destruct E' as [<- <-]; auto.
      rewrite <- C'. eapply remove_range_room; eauto. now destruct Hs.
    - unfold remove in E'. rewrite (index_of_ok A eqb x l a H) in E'. cbn [bind] in E'.
      destruct ((first_pos A eqb a l >=? 0) && (first_pos A eqb a l <? count x)).
      + destruct (remove_at A x (first_pos A eqb a l)) as [z| | |] eqn:Ez; cbn [bind] in E'; try discriminate; apply KK in E'; destruct E' as [<- <-]; auto.
        rewrite <- C'. eapply remove_at_room; eauto.
      + cbn [bind] in E'. apply KK in E'. destruct E' as [<- <-]. auto.
    - unfold clear in E'. destruct (dtors A (buf x) 0 (Z.to_nat (count x))) as [m| | |] eqn:Em; cbn [bind] in E'; try discriminate.
      + destruct (deallocate A m) as [[]| | |] eqn:Ed; cbn [bind] in E'; try discriminate; apply KK in E'; destruct E' as [<- <-]; auto.
        exfalso. unfold deallocate in Ed. destruct (forallb _ _); discriminate.
      + exfalso. destruct (clear_ok A x l H) as (z & Ez & _). unfold clear in Ez. rewrite Em in Ez. discriminate.
    - unfold set in E'. destruct ((i >=? 0) && (i <? count x)).
      + destruct (assign A (buf x) i (Live a)) as [z| | |] eqn:Ez; cbn [bind] in E'; try discriminate; apply KK in E'; destruct E' as [<- <-]; auto.
      + cbn [bind] in E'. apply KK in E'. destruct E' as [<- <-]. auto.
    - destruct (get A x i) as [z| | |]; cbn [bind] in E'; try discriminate; apply KK in E'; destruct E' as [<- <-]; auto.
    - apply KK in E'. destruct E' as [<- <-]. auto.
    - destruct (index_of A eqb x a) as [z| | |]; cbn [bind] in E'; try discriminate; apply KK in E'; destruct E' as [<- <-]; auto.
    - destruct (index_of A eqb x a) as [z| | |]; cbn [bind] in E'; try discriminate; apply KK in E'; destruct E' as [<- <-]; auto.
  Qed.

  (* ---- histories ---- *)
  Definition good (t : sst A) : Prop :=
    Forall (fun i => -1 <= i) (sens t) /\ Forall (fun p : option (nat * Z) => match p with Some (_, i) => 0 <= i | None => True end) (srefs t).

  Lemma Forall_upd {B} (P : B -> Prop) l n x : Forall P l -> P x -> Forall P (upd l n x).
  Proof.
    intros H Hx. revert n. induction H as [|a l Ha H IH]; intros [|n]; cbn [upd]; auto.
  Qed.
  Lemma nth_Forall {B} (P : B -> Prop) l n x : Forall P l -> nth_error l n = Some x -> P x.
  Proof. intros H E. rewrite Forall_forall in H. apply H. eapply nth_error_In; eauto. Qed.

  (* outside the elements there is nothing to read *)
  Lemma slot_raw x (l : list A) i : lst_shows A x l -> zlen l <= i -> 0 <= i < zlen (buf x) -> znth (buf x) i = Some Raw.
  Proof.
    intros (C & Z & k & B) Hi Hb. rewrite znth_z by lia. rewrite B in *. zl. rewrite nth_error_app2; rewrite map_length; unfold zlen in *; [|lia].
    rewrite nth_error_repeat; [reflexivity|lia].
  Qed.
  Lemma read_at x (l : list A) i : lst_shows A x l -> 0 <= i ->
    read A (buf x) i = match znth l i with Some a => Ok a | None => UB end.
  Proof.
    intros H Hi. destruct (Z.lt_ge_cases i (zlen l)) as [Hl|Hl].
    - pose proof (get_ok A x l i H) as G. unfold get in G. destruct (H) as (C & _).
      replace ((i >=? 0) && (i <? count x)) with true in G by lia.
      rewrite G. destruct (znth l i) eqn:E; [reflexivity|]. exfalso. rewrite znth_z in E by lia.
      apply nth_error_None in E. unfold zlen in *. lia.
    - replace (znth l i) with (@None A).
      + unfold read, aget. destruct (Z.lt_ge_cases i (zlen (buf x))) as [Hb|Hb].
        * rewrite (slot_raw x l i H) by lia. reflexivity.
        * rewrite znth_z by lia. rewrite (proj2 (nth_error_None _ _)); [reflexivity|]. unfold zlen in *. lia.
      + symmetry. rewrite znth_z by lia. apply nth_error_None. unfold zlen in *. lia.
  Qed.
  Lemma assign_out x (l : list A) i s : lst_shows A x l -> zlen l <= i -> assign A (buf x) i s = UB.
  Proof.
    intros H Hi. pose proof (zlen_nonneg l). apply assign_raw. intros Hb. eapply slot_raw; eauto.
  Qed.

  Definition sim (s : est A) (t : sst A) (o : eop A) (q : res (sst A * out A)) : Prop :=
    match q with
    | Ok (t', r) => exists s', estep A eqb s o = Ok (s', r) /\ e_shows A s' t' /\ good t' /\
                      length (sens t') = length (sens t) /\ length (srefs t') = length (srefs t)
    | UB => estep A eqb s o = UB
    | _ => False
    end.

  Lemma refer_sim s t r i : e_shows A s t -> good t -> 
    match srefer A t r i with
    | Ok (t', q) => match refer A s r i with Err => q = RError /\ t' = t | Ok (s', q') => q = q' /\ e_shows A s' t' /\ good t' /\
        length (sens t') = length (sens t) /\ length (srefs t') = length (srefs t) | _ => False end
    | UB => refer A s r i = UB
    | _ => False
    end.
  Proof.
    intros (Sx & Hc & Hg & He & Hr) (G1 & G2). unfold srefer, refer. destruct (Sx) as (C & _). rewrite C, Hg, He, Hr.
    replace ((i >=? 0) && (i <? zlen (sl t))) with ((0 <=? i) && (i <? zlen (sl t))) by lia.
    destruct ((0 <=? i) && (i <? zlen (sl t))) eqn:E; [|auto]. destruct (nth_error (srefs t) r); [|reflexivity].
    split; [reflexivity|]. split; [|split].
    - split; [exact Sx|]. cbn [lx gen ens refs sl sroom sgen sens srefs]. auto.
    - split; [exact G1|]. cbn [srefs]. apply Forall_upd; [exact G2|]. cbv beta. lia.
    - cbn [sens srefs]. now rewrite upd_length.
  Qed.

  Lemma estep_sim s t o : e_shows A s t -> good t -> sensible_e A o -> sim s t o (ssstep A eqb t o).
  Proof.
    intros H G Hs. destruct (H) as (Sx & Hc & Hg & He & Hr). destruct (G) as (G1 & G2).
    assert (ME : forall e i, -1 <= i -> e_shows A (set_enum A s e i) (move_to A t e i) /\ good (move_to A t e i) /\
       length (sens (move_to A t e i)) = length (sens t) /\ length (srefs (move_to A t e i)) = length (srefs t)).
    { intros e i Hi. split; [|split].
      - split; [exact Sx|]. cbn [set_enum move_to lx gen ens refs sl sroom sgen sens srefs]. rewrite He. auto.
      - split; [|exact G2]. cbn [move_to sens]. now apply Forall_upd.
      - cbn [move_to sens srefs]. now rewrite upd_length. }
    assert (Same : e_shows A s t /\ good t /\ length (sens t) = length (sens t) /\ length (srefs t) = length (srefs t)) by auto.
    unfold sim, estep. destruct o as [o|e|e f|e|e|e|r e|r i|r|r a]; cbn [ssstep estep_raw].
    - destruct (on_list A o) eqn:Ho; [|reflexivity].
      destruct (list_op (lx s) (sl t) o Sx Ho Hs) as (l' & r & y & E1 & E2 & Sy & Cy). rewrite E1, E2. cbn [bind].
      eexists. split; [reflexivity|]. rewrite Hc in Cy. split; [|split].
      + split; [exact Sy|]. cbn [lx gen ens refs sl sroom sgen sens srefs]. rewrite Cy, Hc, Hg. auto.
      + split; assumption.
      + cbn [sens srefs]. auto.
    - unfold with_enum, enum. rewrite He. destruct (nth_error (sens t) e); cbn [bind]; [|reflexivity].
      eexists. split; [reflexivity|]. apply ME. lia.
    - unfold with_enum, enum. rewrite He. destruct (nth_error (sens t) e); cbn [bind]; [|reflexivity].
      destruct (nth_error (sens t) f) as [i|] eqn:Ef; cbn [bind]; [|reflexivity].
      eexists. split; [reflexivity|]. apply ME. exact (nth_Forall _ _ _ _ G1 Ef).
    - unfold with_enum, enum. rewrite He. destruct (nth_error (sens t) e) as [i|] eqn:Ee; cbn [bind]; [|reflexivity].
      pose proof (nth_Forall _ _ _ _ G1 Ee) as Hi. cbv beta in Hi. destruct (Sx) as (C & _). rewrite C.
      replace ((i + 1 >=? 0) && (i + 1 <? zlen (sl t))) with (i + 1 <? zlen (sl t)) by lia.
      eexists. split; [reflexivity|]. apply ME. lia.
    - unfold with_enum, enum. rewrite He. destruct (nth_error (sens t) e) as [i|] eqn:Ee; cbn [bind]; [|reflexivity].
      eexists. split; [reflexivity|]. exact Same.
    - unfold with_enum, enum. rewrite He. destruct (nth_error (sens t) e); cbn [bind]; [|reflexivity].
      eexists. split; [reflexivity|]. apply ME. lia.
    - unfold enum. rewrite He. destruct (nth_error (sens t) e) as [i|]; cbn [bind]; [|reflexivity].
      pose proof (refer_sim s t r i H G) as R. destruct (srefer A t r i) as [[t' q]| | |]; try contradiction.
      + destruct (refer A s r i) as [[s' q']| | |]; try contradiction.
        * destruct R as (-> & R). eauto.
        * destruct R as (-> & ->). eauto.
      + now rewrite R.
    - pose proof (refer_sim s t r i H G) as R. destruct (srefer A t r i) as [[t' q]| | |]; try contradiction.
      + destruct (refer A s r i) as [[s' q']| | |]; try contradiction.
        * destruct R as (-> & R). eauto.
        * destruct R as (-> & ->). eauto.
      + now rewrite R.
    - unfold target, spos. rewrite Hr, Hg. destruct (nth_error (srefs t) r) as [[[g i]|]|] eqn:Er; cbn [bind]; try reflexivity.
      pose proof (nth_Forall _ _ _ _ G2 Er) as Hi. cbv beta iota in Hi.
      destruct (Nat.eqb g (sgen t)); cbn [andb bind]; [|reflexivity].
      rewrite (read_at (lx s) (sl t) i Sx Hi). destruct (i <? zlen (sl t)) eqn:El.
      + destruct (znth (sl t) i); cbn [bind]; [|reflexivity]. eauto.
      + replace (znth (sl t) i) with (@None A); [reflexivity|]. symmetry. rewrite znth_z by lia. apply nth_error_None. unfold zlen in *. lia.
    - unfold target, spos. rewrite Hr, Hg. destruct (nth_error (srefs t) r) as [[[g i]|]|] eqn:Er; cbn [bind]; try reflexivity.
      pose proof (nth_Forall _ _ _ _ G2 Er) as Hi. cbv beta iota in Hi.
      destruct (Nat.eqb g (sgen t)); cbn [andb bind]; [|reflexivity].
      destruct (i <? zlen (sl t)) eqn:El.
      + destruct (set_ok A (lx s) (sl t) i a Sx) as (y & Ey & Sy); [lia|]. unfold set in Ey. destruct (Sx) as (C & _).
        replace ((i >=? 0) && (i <? count (lx s))) with true in Ey by lia.
        destruct (assign A (buf (lx s)) i (Live a)) as [m| | |]; cbn [bind] in Ey |- *; try discriminate.
        eexists. split; [reflexivity|].
        assert (y = mkLst m (count (lx s)) (cap (lx s)) (moves (lx s))) as -> by congruence. split; [|split].
        * split; [exact Sy|]. cbn [lx gen ens refs sl sroom sgen sens srefs cap]. auto.
        * exact G.
        * cbn [sens srefs]. auto.
      + rewrite (assign_out (lx s) (sl t) i (Live a) Sx) by lia. reflexivity.
  Qed.

  Lemma start_shows n m : e_shows A (estart A n m) (sstart A n m) /\ good (sstart A n m).
  Proof.
    split.
    - split; [apply empty_shows|]. cbn [estart sstart lx gen ens refs sl sroom sgen sens srefs]. auto.
    - split; cbn [sstart sens srefs]; apply Forall_forall; intros x Hx; apply repeat_spec in Hx; subst x; [lia|exact I].
  Qed.

  Lemma erun_sim os : forall s t, e_shows A s t -> good t -> Forall (sensible_e A) os ->
    match ssrun A eqb t os with
    | Ok (t', rs) => exists s', erun A eqb s os = Ok (s', rs) /\ e_shows A s' t' /\ good t' /\
                      length (sens t') = length (sens t) /\ length (srefs t') = length (srefs t)
    | UB => erun A eqb s os = UB
    | _ => False
    end.
  Proof.
    induction os as [|o os IH]; intros s t H G F; cbn [ssrun erun].
    - exists s. auto.
    - inversion F as [|? ? Fo Fs]; subst. pose proof (estep_sim s t o H G Fo) as R. unfold sim in R.
      destruct (ssstep A eqb t o) as [[t1 r]| | |]; cbn [bind]; try contradiction.
      + destruct R as (s1 & R & H1 & G1 & L1 & L2). rewrite R. cbn [bind]. specialize (IH s1 t1 H1 G1 Fs).
        destruct (ssrun A eqb t1 os) as [[t2 rs]| | |]; cbn [bind]; try contradiction.
        * destruct IH as (s2 & IH & H2 & G2 & L3 & L4). rewrite IH. cbn [bind]. exists s2. split; [reflexivity|].
          split; [assumption|]. split; [assumption|]. split; congruence.
        * now rewrite IH.
      + now rewrite R.
  Qed.

  Lemma history n m os : Forall (sensible_e A) os ->
    outs (erun A eqb (estart A n m) os) = outs (ssrun A eqb (sstart A n m) os) /\
    (forall t rs, ssrun A eqb (sstart A n m) os = Ok (t, rs) ->
       exists s, erun A eqb (estart A n m) os = Ok (s, rs) /\ e_shows A s t).
  Proof.
    intros F. destruct (start_shows n m) as [H G]. pose proof (erun_sim os _ _ H G F) as R.
    destruct (ssrun A eqb (sstart A n m) os) as [[t rs]| | |]; try contradiction.
    - destruct R as (s & R & S' & _). rewrite R. split; [reflexivity|]. intros t' rs' E. assert (t = t' /\ rs = rs') as [-> ->] by (split; congruence). eauto.
    - rewrite R. split; [reflexivity|]. discriminate.
  Qed.

  (* enumerators are always usable *)
  Lemma safe_step n m s t o : e_shows A s t -> good t -> sensible_e A o -> length (ens s) = n -> length (refs s) = m -> no_reference A n m o ->
    exists t' r, ssstep A eqb t o = Ok (t', r).
  Proof.
    intros H G Hs Hn Hm Ho. destruct (H) as (Sx & Hc & Hg & He & Hr). rewrite He in Hn. rewrite Hr in Hm.
    assert (E : forall e, (e < n)%nat -> exists i, nth_error (sens t) e = Some i).
    { intros e L. destruct (nth_error (sens t) e) eqn:E; eauto. apply nth_error_None in E. lia. }
    assert (R : forall r i, (r < m)%nat -> exists t' q, srefer A t r i = Ok (t', q)).
    { intros r i L. unfold srefer. destruct ((0 <=? i) && (i <? zlen (sl t))); eauto.
      destruct (nth_error (srefs t) r) eqn:E'; eauto. apply nth_error_None in E'. lia. }
    destruct o as [o|e|e f|e|e|e|r e|r i|r|r a]; cbn [ssstep no_reference] in *; unfold with_enum.
    - rewrite Ho. destruct (list_op (lx s) (sl t) o Sx Ho Hs) as (l' & r & y & E1 & _). rewrite E1. eauto.
    - destruct (E e Ho) as (i & ->). eauto.
    - destruct Ho as [H1 H2]. destruct (E e H1) as (i & ->). destruct (E f H2) as (j & ->). eauto.
    - destruct (E e Ho) as (i & ->). eauto.
    - destruct (E e Ho) as (i & ->). eauto.
    - destruct (E e Ho) as (i & ->). eauto.
    - destruct Ho as [H1 H2]. destruct (E e H2) as (i & ->). apply R. exact H1.
    - apply R. exact Ho.
    - contradiction.
    - contradiction.
  Qed.
  Lemma safe_run n m os : forall s t, e_shows A s t -> good t -> Forall (sensible_e A) os -> length (ens s) = n -> length (refs s) = m ->
    Forall (no_reference A n m) os -> exists s' rs, erun A eqb s os = Ok (s', rs).
  Proof.
    induction os as [|o os IH]; intros s t H G F Hn Hm N; cbn [erun]; eauto.
    inversion F as [|? ? Fo Fs]; subst. inversion N as [|? ? No Ns]; subst.
    destruct (safe_step _ _ s t o H G Fo eq_refl eq_refl No) as (t1 & r & E).
    pose proof (estep_sim s t o H G Fo) as R. unfold sim in R. rewrite E in R. destruct R as (s1 & R & H1 & G1 & L1 & L2).
    rewrite R. cbn [bind]. destruct (H1) as (_ & _ & _ & He & Hr).
    destruct (H) as (_ & _ & _ & He0 & Hr0). destruct (IH s1 t1 H1 G1 Fs) as (s2 & rs & E2); try congruence. rewrite E2. cbn [bind]. eauto.
  Qed.
  Lemma enumerators_safe n m os : Forall (sensible_e A) os -> Forall (no_reference A n m) os ->
    exists s rs, erun A eqb (estart A n m) os = Ok (s, rs).
  Proof.
    intros F N. destruct (start_shows n m) as [H G]. apply (safe_run n m os _ _ H G F); auto; cbn [estart ens refs]; apply repeat_length.
  Qed.

  (* ---- references ---- *)
  Lemma reachable n m os s rs : Forall (sensible_e A) os -> erun A eqb (estart A n m) os = Ok (s, rs) ->
    exists t, e_shows A s t /\ good t /\ length (ens s) = n /\ length (refs s) = m.
  Proof.
    intros F E. destruct (start_shows n m) as [H G]. pose proof (erun_sim os _ _ H G F) as R.
    destruct (ssrun A eqb (sstart A n m) os) as [[t rs']| | |]; try contradiction; [|congruence].
    destruct R as (s' & R & S' & G' & L1 & L2). assert (s' = s) by congruence. subst s'. exists t. split; [exact S'|]. split; [exact G'|].
    destruct S' as (_ & _ & _ & He & Hr). cbn [sstart sens srefs] in L1, L2. rewrite repeat_length in L1, L2. rewrite He, Hr. auto.
  Qed.
  (* operations in place keep the references, the storage and the number of elements *)
  Lemma in_place_step t o t' q r p : good t -> in_place A o -> ~ rebinds A r o -> nth_error (srefs t) r = Some p -> sensible_e A o ->
    ssstep A eqb t o = Ok (t', q) -> nth_error (srefs t') r = Some p /\ sgen t' = sgen t /\ zlen (sl t') = zlen (sl t).
  Proof.
    intros G Hi Hb Hp Hs E. assert (K : forall (a b : sst A) (x y : out A), Ok (a, x) = Ok (b, y) -> a = b) by (intros; congruence).
    assert (R : forall r' i, r <> r' -> srefer A t r' i = Ok (t', q) -> nth_error (srefs t') r = Some p /\ sgen t' = sgen t /\ zlen (sl t') = zlen (sl t)).
    { intros r' i N E'. unfold srefer in E'. destruct ((0 <=? i) && (i <? zlen (sl t))); [|apply K in E'; subst t'; auto].
      destruct (nth_error (srefs t) r'); [|discriminate]. apply K in E'. subst t'. cbn [srefs sgen sl]. rewrite upd_other by congruence. auto. }
    destruct o as [o|e|e f|e|e|e|r' e|r' i|r'|r' a]; cbn [ssstep in_place rebinds] in *; unfold with_enum in *.
    - destruct (on_list A o) eqn:Ho; [|discriminate].
      destruct (sstep A eqb [Some (sl t)] o) as [[[|[l|] [|? ?]] r1]| | |] eqn:Es; try discriminate. apply K in E. subst t'. cbn [srefs sgen sl sroom].
      split; [exact Hp|]. unfold sstep in Es.
      assert (K2 : forall (a b : list A) (p q : out A), Ok ([Some a], p) = Ok ([Some b], q) -> a = b /\ p = q) by (intros; split; congruence).
      destruct o as [| | | |v a|v i a|v i|v i n|v a|v|v i a|v i|v|v a|v a]; try discriminate; destruct v; try discriminate; try contradiction;
        cbn [sstep_raw sread nth_error bind upd room_after] in *; rewrite Z.eqb_refl.
      + split; [reflexivity|]. unfold sset in Es. destruct ((0 <=? i) && (i <? zlen (sl t))) eqn:Ei; cbn [bind] in Es; apply K2 in Es; destruct Es as [<- _]; [|reflexivity].
        destruct (zsplit1 (sl t) i) as (a1 & y & b1 & E1 & L & _ & E2 & E3); [lia|]. unfold ztake, zdrop. rewrite <- E2, <- E3. rewrite E1. zl. reflexivity.
      + split; [reflexivity|]. destruct (znth (sl t) i); apply K2 in Es; destruct Es as [<- _]; reflexivity.
      + split; [reflexivity|]. apply K2 in Es; destruct Es as [<- _]; reflexivity.
      + split; [reflexivity|]. apply K2 in Es; destruct Es as [<- _]; reflexivity.
      + split; [reflexivity|]. apply K2 in Es; destruct Es as [<- _]; reflexivity.
    - destruct (nth_error (sens t) e); [|discriminate]. apply K in E. subst t'. auto.
    - destruct (nth_error (sens t) e); [|discriminate]. destruct (nth_error (sens t) f); [|discriminate]. apply K in E. subst t'. auto.
    - destruct (nth_error (sens t) e); [|discriminate]. apply K in E. subst t'. auto.
    - destruct (nth_error (sens t) e); [|discriminate]. apply K in E. subst t'. auto.
    - destruct (nth_error (sens t) e); [|discriminate]. apply K in E. subst t'. auto.
    - destruct (nth_error (sens t) e); [|discriminate]. eapply R; eauto.
    - eapply R; eauto.
    - destruct (spos A t r'); [|discriminate]. destruct (znth (sl t) z); [|discriminate]. apply K in E. subst t'. auto.
    - destruct (spos A t r') as [i|] eqn:Ep; [|discriminate]. apply K in E. subst t'. cbn [srefs sgen sl]. split; [exact Hp|]. split; [reflexivity|].
      unfold spos in Ep. destruct (nth_error (srefs t) r') as [[[g j]|]|] eqn:Er; try discriminate.
      destruct (Nat.eqb g (sgen t) && (j <? zlen (sl t))) eqn:Ej; [|discriminate]. assert (j = i) by congruence. subst j.
      destruct G as [_ G2]. pose proof (nth_Forall _ _ _ _ G2 Er) as Hi0. cbv beta iota in Hi0.
      destruct (zsplit1 (sl t) i) as (a1 & y & b1 & E1 & L & _ & E2 & E3); [lia|]. unfold ztake, zdrop. rewrite <- E2, <- E3. rewrite E1. zl. reflexivity.
  Qed.
  Lemma in_place_run os : forall t t' q r p, good t -> Forall (in_place A) os -> Forall (fun o => ~ rebinds A r o) os ->
    nth_error (srefs t) r = Some p -> Forall (sensible_e A) os -> (exists s, e_shows A s t) ->
    ssrun A eqb t os = Ok (t', q) -> nth_error (srefs t') r = Some p /\ sgen t' = sgen t /\ zlen (sl t') = zlen (sl t).
  Proof.
    induction os as [|o os IH]; intros t t' q r p G Fi Fb Hp Fs [s Sh] E; cbn [ssrun] in E.
    - assert (t = t') by congruence. subst. auto.
    - inversion Fi; inversion Fb; inversion Fs; subst. apply bind_ok in E. destruct E as ([t1 q1] & E1 & E). apply bind_ok in E. destruct E as ([t2 q2] & E2 & E).
      assert (t2 = t') by congruence. subst t2.
      pose proof (estep_sim s t o Sh G H9) as R. unfold sim in R. rewrite E1 in R. destruct R as (s1 & _ & Sh1 & G1 & _).
      destruct (in_place_step _ _ _ _ r p G H1 H5 Hp H9 E1) as (Hp1 & Hg1 & Hl1).
      destruct (IH t1 t' q2 r p G1 H2 H6 Hp1 H10 (ex_intro _ s1 Sh1) E2) as (Hp2 & Hg2 & Hl2). split; [exact Hp2|]. split; congruence.
  Qed.
  Lemma usable_read s t r i : e_shows A s t -> good t -> usable A t r i ->
    estep A eqb s (ERead r) = estep A eqb s (EList (LGet 0 i)) /\
    forall a, exists s', estep A eqb s (EWrite r a) = Ok (s', RNone) /\ estep A eqb s (EList (LSet 0 i a)) = Ok (s', RBool true).
  Proof.
    intros (Sx & Hc & Hg & He & Hr) G (Hn & Hi). destruct (Sx) as (C & _). unfold estep. cbn [estep_raw on_list].
    unfold target. rewrite Hr, Hn, Hg, Nat.eqb_refl. cbn [bind].
    split.
    - unfold step. cbn [step_raw var nth_error bind]. unfold get. replace ((i >=? 0) && (i <? count (lx s))) with true by lia.
      rewrite (read_at (lx s) (sl t) i Sx) by lia. destruct (znth (sl t) i) eqn:E; cbn [bind].
      + rewrite Z.eqb_refl, <- Hg, <- Hr. destruct s; reflexivity.
      + exfalso. rewrite znth_z in E by lia. apply nth_error_None in E. unfold zlen in *. lia.
    - intros a. destruct (set_ok A (lx s) (sl t) i a Sx Hi) as (y & Ey & Sy). unfold step. cbn [step_raw var nth_error bind].
      unfold set in *. replace ((i >=? 0) && (i <? count (lx s))) with true in * by lia.
      destruct (assign A (buf (lx s)) i (Live a)) as [m| | |]; cbn [bind] in Ey |- *; try discriminate.
      eexists. split; [reflexivity|]. cbn [upd cap]. rewrite Z.eqb_refl. reflexivity.
  Qed.
  Lemma reference n m os1 os2 s1 s2 rs1 rs2 r i :
    Forall (sensible_e A) os1 -> Forall (sensible_e A) os2 ->
    erun A eqb (estart A n m) os1 = Ok (s1, rs1) -> (r < m)%nat -> 0 <= i < count (lx s1) ->
    Forall (in_place A) os2 -> Forall (fun o => ~ rebinds A r o) os2 ->
    erun A eqb s1 (ERefer r i :: os2) = Ok (s2, rs2) ->
    estep A eqb s2 (ERead r) = estep A eqb s2 (EList (LGet 0 i)) /\
    forall a, exists s3, estep A eqb s2 (EWrite r a) = Ok (s3, RNone) /\ estep A eqb s2 (EList (LSet 0 i a)) = Ok (s3, RBool true).
  Proof.
    intros F1 F2 E1 Hrm Hi Fi Fb E2. destruct (reachable _ _ _ _ _ F1 E1) as (t1 & S1 & G1 & L1 & L2).
    assert (F2' : Forall (sensible_e A) (ERefer r i :: os2)) by (constructor; [exact I|exact F2]).
    pose proof (erun_sim _ s1 t1 S1 G1 F2') as R. destruct (ssrun A eqb t1 (ERefer r i :: os2)) as [[t2 q2]| | |] eqn:Es; try contradiction; [|congruence].
    destruct R as (s' & R & S2 & G2 & _). assert (s' = s2) by congruence. subst s'.
    apply (usable_read s2 t2 r i S2 G2). destruct (S1) as (Sx & _ & _ & _ & Hr). destruct (Sx) as (C & _).
    cbn [ssrun] in Es. apply bind_ok in Es. destruct Es as ([t3 q3] & E3 & Es). apply bind_ok in Es. destruct Es as ([t4 q4] & E4 & Es).
    assert (t4 = t2) by congruence. subst t4. pose proof (estep_sim s1 t1 (ERefer r i) S1 G1 I) as R3. unfold sim in R3. rewrite E3 in R3.
    destruct R3 as (s3 & _ & S3 & G3 & _). cbn [ssstep] in E3. unfold srefer in E3.
    replace ((0 <=? i) && (i <? zlen (sl t1))) with true in E3 by lia.
    destruct (nth_error (srefs t1) r) eqn:En; [|discriminate].
    assert (t3 = mkSst (sl t1) (sroom t1) (sgen t1) (sens t1) (upd (srefs t1) r (Some (sgen t1, i)))) as -> by congruence.
    destruct (in_place_run os2 _ t2 q4 r (Some (sgen t1, i)) G3 Fi Fb) as (P1 & P2 & P3); auto.
    - cbn [srefs]. apply upd_same. eapply nth_error_lt; eauto.
    - eauto.
    - cbn [sgen sl] in P2, P3. split; [congruence|lia].
  Qed.
  (* a reference that is not usable *)
  Lemma reference_exact n m os s rs r : Forall (sensible_e A) os -> erun A eqb (estart A n m) os = Ok (s, rs) ->
    (estep A eqb s (ERead r) = UB <-> ~ exists i, nth_error (refs s) r = Some (Some (gen s, i)) /\ i < count (lx s)).
  Proof.
    intros F E. destruct (reachable _ _ _ _ _ F E) as (t & S1 & G1 & L1 & L2).
    pose proof (estep_sim s t (ERead r) S1 G1 I) as R. unfold sim in R. destruct (S1) as (Sx & Hc & Hg & He & Hr). destruct (Sx) as (C & _). cbn [ssstep] in R.
    unfold spos in R. rewrite Hr, Hg, C. split.
    - intros U (i & Hn & Hi). rewrite Hn, Nat.eqb_refl in R. replace (i <? zlen (sl t)) with true in R by lia. cbn [andb] in R.
      destruct G1 as [_ G2]. pose proof (nth_Forall _ _ _ _ G2 Hn) as Hi0. cbv beta iota in Hi0.
      destruct (znth (sl t) i) eqn:Ez.
      + destruct R as (s' & R & _). congruence.
      + rewrite znth_z in Ez by lia. apply nth_error_None in Ez. unfold zlen in *. lia.
    - intros N. destruct (nth_error (srefs t) r) as [[[g i]|]|] eqn:Er; auto.
      destruct (Nat.eqb g (sgen t)) eqn:Eg; cbn [andb] in R; auto. apply Nat.eqb_eq in Eg. subst g.
      destruct (i <? zlen (sl t)) eqn:Ei; auto. exfalso. apply N. exists i. split; [reflexivity|lia].
  Qed.

  (* every reference is lost by adding enough elements *)
  Definition born (t : sst A) : Prop :=
    Forall (fun p : option (nat * Z) => match p with Some (g, _) => (g <= sgen t)%nat | None => True end) (srefs t).
  Lemma born_mono (refs : list (option (nat * Z))) g g' : (g <= g')%nat ->
    Forall (fun p : option (nat * Z) => match p with Some (h, _) => (h <= g)%nat | None => True end) refs ->
    Forall (fun p : option (nat * Z) => match p with Some (h, _) => (h <= g')%nat | None => True end) refs.
  Proof. intros L F. eapply Forall_impl; [|exact F]. intros [[h i]|]; auto. lia. Qed.
  Lemma born_step t o t' q : born t -> ssstep A eqb t o = Ok (t', q) -> born t'.
  Proof.
    intros B E. assert (K : forall (a b : sst A) (x y : out A), Ok (a, x) = Ok (b, y) -> a = b) by (intros; congruence).
    assert (R : forall r i, srefer A t r i = Ok (t', q) -> born t').
    { intros r i E'. unfold srefer in E'. destruct ((0 <=? i) && (i <? zlen (sl t))); [|apply K in E'; now subst t'].
      destruct (nth_error (srefs t) r); [|discriminate]. apply K in E'. subst t'. unfold born. cbn [srefs sgen]. now apply Forall_upd. }
    destruct o as [o|e|e f|e|e|e|r e|r i|r|r a]; cbn [ssstep] in E; unfold with_enum in E.
    - destruct (on_list A o); [|discriminate]. destruct (sstep A eqb [Some (sl t)] o) as [[[|[l|] [|? ?]] r1]| | |]; try discriminate.
      apply K in E. subst t'. unfold born. cbn [srefs sgen]. eapply born_mono; [|exact B]. destruct (_ =? _); lia.
    - destruct (nth_error (sens t) e); [|discriminate]. apply K in E. now subst t'.
    - destruct (nth_error (sens t) e); [|discriminate]. destruct (nth_error (sens t) f); [|discriminate]. apply K in E. now subst t'.
    - destruct (nth_error (sens t) e); [|discriminate]. apply K in E. now subst t'.
    - destruct (nth_error (sens t) e); [|discriminate]. apply K in E. now subst t'.
    - destruct (nth_error (sens t) e); [|discriminate]. apply K in E. now subst t'.
    - destruct (nth_error (sens t) e); [|discriminate]. eauto.
    - eauto.
    - destruct (spos A t r); [|discriminate]. destruct (znth (sl t) z); [|discriminate]. apply K in E. now subst t'.
    - destruct (spos A t r) as [i|]; [|discriminate]. apply K in E. now subst t'.
  Qed.
  Lemma born_run os : forall t t' q, born t -> ssrun A eqb t os = Ok (t', q) -> born t'.
  Proof.
    induction os as [|o os IH]; intros t t' q B E; cbn [ssrun] in E.
    - assert (t = t') by congruence. now subst.
    - apply bind_ok in E. destruct E as ([t1 q1] & E1 & E). apply bind_ok in E. destruct E as ([t2 q2] & E2 & E).
      assert (t2 = t') by congruence. subst t2. apply (IH t1 t' q2); [exact (born_step t o t1 q1 B E1)|exact E2].
  Qed.
  Lemma adds_lose a r k : forall t, sroom t - zlen (sl t) = Z.of_nat k -> born t ->
    outs (ssrun A eqb t (repeat (EList (LAdd 0 a)) (S k) ++ [ERead r])) = UB.
  Proof.
    induction k as [|k IH]; intros t Hk B.
    - cbn [repeat app ssrun ssstep on_list sstep sstep_raw sread nth_error bind upd]. unfold sstep. cbn [sstep_raw sread nth_error bind upd room_after].
      unfold grown. zl. replace (zlen (sl t) + (1 + 0) <=? sroom t) with false by lia. cbv zeta.
      destruct ((zlen (sl t) + (1 + 0)) * 5 / 4 + 1 =? sroom t) eqn:E; [exfalso|].
      + pose proof (zlen_nonneg (sl t)). lia.
      + unfold spos. cbn [srefs sgen sl]. destruct (nth_error (srefs t) r) as [[[g i]|]|] eqn:Er; try reflexivity.
        unfold born in B. pose proof (nth_Forall _ _ _ _ B Er) as Hg. cbv beta iota in Hg.
        replace (Nat.eqb g (S (sgen t))) with false; [reflexivity|]. symmetry. apply Nat.eqb_neq. lia.
    - change (repeat (EList (LAdd 0 a)) (S (S k)) ++ [ERead r]) with (EList (LAdd 0 a) :: repeat (EList (LAdd 0 a)) (S k) ++ [ERead r]).
      cbn [ssrun ssstep on_list]. unfold sstep. cbn [sstep_raw sread nth_error bind upd room_after]. unfold grown. zl.
      replace (zlen (sl t) + (1 + 0) <=? sroom t) with true by lia. cbv zeta. rewrite Z.eqb_refl. cbn [bind].
      set (t1 := mkSst (sl t ++ [a]) (sroom t) (sgen t) (sens t) (srefs t)).
      specialize (IH t1). unfold outs in *. destruct (ssrun A eqb t1 _) as [[t2 q2]| | |]; cbn [bind] in *.
      + exfalso. assert (H : Ok q2 = UB); [|discriminate]. apply IH; [|exact B]. subst t1. cbn [sl sroom]. zl. lia.
      + exfalso. assert (H : @Err (list (out A)) = UB); [|discriminate]. apply IH; [|exact B]. subst t1. cbn [sl sroom]. zl. lia.
      + reflexivity.
      + exfalso. assert (H : @NoFuel (list (out A)) = UB); [|discriminate]. apply IH; [|exact B]. subst t1. cbn [sl sroom]. zl. lia.
  Qed.
  Lemma reference_lost n m os s rs r a : Forall (sensible_e A) os -> erun A eqb (estart A n m) os = Ok (s, rs) ->
    exists k, outs (erun A eqb s (repeat (EList (LAdd 0 a)) k ++ [ERead r])) = UB.
  Proof.
    intros F E. destruct (start_shows n m) as [H0 G0]. pose proof (erun_sim os _ _ H0 G0 F) as R.
    destruct (ssrun A eqb (sstart A n m) os) as [[t rs']| | |] eqn:Es; try contradiction; [|congruence].
    destruct R as (s' & R & S' & G' & _). assert (s' = s) by congruence. subst s'.
    assert (B : born t).
    { refine (born_run os _ t rs' _ Es). unfold born. cbn [sstart srefs]. apply Forall_forall. intros x Hx. apply repeat_spec in Hx. now subst x. }
    destruct (S') as (Sx & Hc & _). destruct (buf_room _ _ Sx) as [Hroom _].
    exists (S (Z.to_nat (sroom t - zlen (sl t)))).
    assert (F' : Forall (sensible_e A) (repeat (EList (LAdd 0 a)) (S (Z.to_nat (sroom t - zlen (sl t)))) ++ [ERead r])).
    { apply Forall_app. split; [|constructor; [exact I|constructor]]. apply Forall_forall. intros x Hx. apply repeat_spec in Hx. subst x. exact I. }
    pose proof (adds_lose a r _ t (eq_sym (Z2Nat.id (sroom t - zlen (sl t)) ltac:(lia))) B) as L.
    pose proof (erun_sim _ _ _ S' G' F') as R'. destruct (ssrun A eqb t _) as [[t2 q2]| | |]; try contradiction; [discriminate|].
    now rewrite R'.
  Qed.

  (* ---- loops ---- *)
  Lemma lops_sim os : forall x l, lst_shows A x l -> Forall (sensible A) os ->
    match slops A eqb l os with
    | Ok l' => exists y, lops A eqb x os = Ok y /\ lst_shows A y l'
    | UB => lops A eqb x os = UB
    | _ => False
    end.
  Proof.
    induction os as [|o os IH]; intros x l H F; cbn [slops lops]; eauto.
    inversion F; subst. destruct (on_list A o) eqn:Ho; [|reflexivity].
    destruct (list_op x l o H Ho) as (l' & r & y & E1 & E2 & Sy & _); auto. rewrite E1, E2. cbn [bind]. now apply IH.
  Qed.
  Lemma loop_sim fuel body : (forall i a, Forall (sensible A) (body i a)) -> forall x l i, lst_shows A x l -> -1 <= i ->
    match sloop A eqb fuel body l (i + 1) with
    | Ok (vs, l') => exists y, eloop A eqb fuel body x i = Ok (vs, y) /\ lst_shows A y l'
    | UB => eloop A eqb fuel body x i = UB
    | NoFuel => eloop A eqb fuel body x i = NoFuel
    | Err => False
    end.
  Proof.
    intros Fb. induction fuel as [|fuel IH]; intros x l i H Hi; cbn [sloop eloop]; [reflexivity|]. cbv zeta.
    pose proof (get_ok A x l (i + 1) H) as G. destruct (H) as (C & _). unfold get in G. rewrite C in *.
    destruct ((i + 1 >=? 0) && (i + 1 <? zlen l)) eqn:E.
    - destruct (znth l (i + 1)) as [a|] eqn:Ez.
      + unfold get. rewrite C, E, G. cbn [bind]. pose proof (lops_sim (body (i + 1) a) x l H (Fb _ _)) as L.
        destruct (slops A eqb l (body (i + 1) a)) as [l1| | |]; cbn [bind]; try contradiction.
        * destruct L as (y & -> & Sy). cbn [bind]. specialize (IH y l1 (i + 1) Sy).
          destruct (sloop A eqb fuel body l1 (i + 1 + 1)) as [[vs l2]| | |]; cbn [bind].
          -- destruct IH as (z & -> & Sz); [lia|]. cbn [bind]. eauto.
          -- apply IH. lia.
          -- rewrite IH by lia. reflexivity.
          -- rewrite IH by lia. reflexivity.
        * rewrite L. reflexivity.
      + exfalso. rewrite znth_z in Ez by lia. apply nth_error_None in Ez. unfold zlen in *. lia.
    - replace (znth l (i + 1)) with (@None A); eauto. symmetry. rewrite znth_z by lia. apply nth_error_None. unfold zlen in *. lia.
  Qed.
  Lemma loop_ok fuel body x l : lst_shows A x l -> (forall i a, Forall (sensible A) (body i a)) ->
    match sloop A eqb fuel body l 0 with
    | Ok (vs, l') => exists y, eloop A eqb fuel body x (-1) = Ok (vs, y) /\ lst_shows A y l'
    | UB => eloop A eqb fuel body x (-1) = UB
    | NoFuel => eloop A eqb fuel body x (-1) = NoFuel
    | Err => False
    end.
  Proof. intros H F. apply (loop_sim fuel body F x l (-1) H). lia. Qed.

  Lemma znth_mid {B} (d : list B) a l : znth (d ++ a :: l) (zlen d) = Some a.
  Proof. rewrite znth_z by apply zlen_nonneg. rewrite zlen_to_nat, nth_error_app2, Nat.sub_diag by lia. reflexivity. Qed.
  Lemma znth_end {B} (d : list B) i : zlen d <= i -> znth d i = None.
  Proof. intros H. pose proof (zlen_nonneg d). rewrite znth_z by lia. apply nth_error_None. unfold zlen in *. lia. Qed.
  Lemma znth_in {B} (d : list B) i : 0 <= i < zlen d -> exists a, znth d i = Some a.
  Proof. intros H. rewrite znth_z by lia. destruct (nth_error d (Z.to_nat i)) eqn:E; eauto. apply nth_error_None in E. unfold zlen in *. lia. Qed.

  Lemma slops_append ys : forall l, slops A eqb l (map (LAdd 0) ys) = Ok (l ++ ys).
  Proof.
    induction ys as [|y ys IH]; intros l; cbn [map slops on_list]; [now rewrite app_nil_r|].
    unfold sstep. cbn [sstep_raw sread nth_error bind upd]. rewrite IH. now rewrite <- app_assoc.
  Qed.
  Lemma worklist_shape f fuel : forall d l,
    match sloop A eqb fuel (appends A f) (d ++ l) (zlen d) with
    | Ok (vs, l') => l' = d ++ vs /\ vs = l ++ flat_map f vs
    | NoFuel => True
    | _ => False
    end.
  Proof.
    induction fuel as [|fuel IH]; intros d l; cbn [sloop]; [exact I|]. destruct l as [|a l].
    - rewrite app_nil_r, znth_end by lia. rewrite app_nil_r. auto.
    - rewrite znth_mid. unfold appends at 1. rewrite slops_append. cbn [bind].
      specialize (IH (d ++ [a]) (l ++ f a)). replace (zlen (d ++ [a])) with (zlen d + 1) in IH by (zl; lia).
      replace ((d ++ [a]) ++ l ++ f a) with ((d ++ a :: l) ++ f a) in IH by (rewrite <- !app_assoc; reflexivity).
      destruct (sloop A eqb fuel (appends A f) ((d ++ a :: l) ++ f a) (zlen d + 1)) as [[vs l']| | |]; cbn [bind]; auto.
      destruct IH as [-> E]. split; [now rewrite <- app_assoc|]. cbn [app flat_map]. f_equal. rewrite E at 1. now rewrite <- app_assoc.
  Qed.
  Lemma worklist_ends f w : forall d l, w = l ++ flat_map f w ->
    exists vs z, sloop A eqb (S (length w)) (appends A f) (d ++ l) (zlen d) = Ok (vs, d ++ vs) /\ w = vs ++ z.
  Proof.
    induction w as [|a w IH]; intros d l E.
    - destruct l; [|discriminate]. exists [], []. cbn [sloop length]. rewrite app_nil_r, znth_end by lia. auto.
    - destruct l as [|b l].
      + exists [], (a :: w). cbn [sloop length]. rewrite app_nil_r, znth_end by lia. auto.
      + cbn [app] in E. assert (a = b) by congruence. subst b. cbn [flat_map] in E.
        assert (E' : w = (l ++ f a) ++ flat_map f w) by (rewrite <- app_assoc; congruence).
        destruct (IH (d ++ [a]) (l ++ f a) E') as (vs & z & R & Ew).
        replace (zlen (d ++ [a])) with (zlen d + 1) in R by (zl; lia).
        replace ((d ++ [a]) ++ l ++ f a) with ((d ++ a :: l) ++ f a) in R by (rewrite <- !app_assoc; reflexivity).
        exists (a :: vs), z. cbn [length]. cbn [sloop] in R |- *. rewrite znth_mid. unfold appends at 1. rewrite slops_append. cbn [bind].
        rewrite R. cbn [bind]. split; [|cbn [app]; congruence]. now rewrite <- app_assoc.
  Qed.
  Lemma sensible_appends f i a : Forall (sensible A) (appends A f i a).
  Proof. unfold appends. apply Forall_forall. intros o Ho. apply in_map_iff in Ho. destruct Ho as (b & <- & _). exact I. Qed.

  Lemma worklist x l f : lst_shows A x l ->
    (forall fuel vs y, eloop A eqb fuel (appends A f) x (-1) = Ok (vs, y) ->
       lst_shows A y vs /\ vs = l ++ flat_map f vs /\ forall w, w = l ++ flat_map f w -> exists z, w = vs ++ z) /\
    ((exists fuel r, eloop A eqb fuel (appends A f) x (-1) = Ok r) <-> exists w, w = l ++ flat_map f w) /\
    (forall fuel, eloop A eqb fuel (appends A f) x (-1) = NoFuel \/ exists r, eloop A eqb fuel (appends A f) x (-1) = Ok r).
  Proof.
    intros H.
    assert (P : forall fuel, match eloop A eqb fuel (appends A f) x (-1) with
        | Ok (vs, y) => lst_shows A y vs /\ vs = l ++ flat_map f vs /\ sloop A eqb fuel (appends A f) l 0 = Ok (vs, vs)
        | NoFuel => True | _ => False end).
    { intros fuel. pose proof (loop_ok fuel (appends A f) x l H (sensible_appends f)) as R.
      pose proof (worklist_shape f fuel [] l) as W. cbn [app] in W. change (zlen (@nil A)) with 0 in W.
      destruct (sloop A eqb fuel (appends A f) l 0) as [[vs l']| | |]; try contradiction.
      - destruct R as (y & R & Sy). rewrite R. destruct W as [-> E]. auto.
      - now rewrite R. }
    assert (T : forall w, w = l ++ flat_map f w -> exists vs z, sloop A eqb (S (length w)) (appends A f) l 0 = Ok (vs, vs) /\ w = vs ++ z).
    { intros w E. destruct (worklist_ends f w [] l E) as (vs & z & R & Ew). exists vs, z. auto. }
    assert (D : forall f1 f2 i l0 r1 r2, sloop A eqb f1 (appends A f) l0 i = Ok r1 -> sloop A eqb f2 (appends A f) l0 i = Ok r2 -> r1 = r2).
    { induction f1 as [|f1 IH]; intros f2 i l0 r1 r2 E1 E2; [discriminate|]. destruct f2 as [|f2]; [discriminate|]. cbn [sloop] in E1, E2.
      destruct (znth l0 i); [|congruence]. apply bind_ok in E1. destruct E1 as (l1 & L1 & E1). apply bind_ok in E1. destruct E1 as ([v1 m1] & M1 & E1).
      apply bind_ok in E2. destruct E2 as (l2 & L2 & E2). apply bind_ok in E2. destruct E2 as ([v2 m2] & M2 & E2).
      assert (l1 = l2) by congruence. subst l2. pose proof (IH _ _ _ _ _ M1 M2). congruence. }
    split; [|split].
    - intros fuel vs y E. specialize (P fuel). rewrite E in P. destruct P as (P1 & P2 & P3). split; [exact P1|]. split; [exact P2|].
      intros w Ew. destruct (T w Ew) as (vs' & z & R & Ew'). pose proof (D _ _ _ _ _ _ P3 R). exists z. congruence.
    - split.
      + intros (fuel & [vs y] & E). specialize (P fuel). rewrite E in P. destruct P as (_ & P2 & _). eauto.
      + intros (w & Ew). destruct (T w Ew) as (vs & z & R & _). exists (S (length w)).
        pose proof (loop_ok (S (length w)) (appends A f) x l H (sensible_appends f)) as L. rewrite R in L. destruct L as (y & L & _). eauto.
    - intros fuel. specialize (P fuel). destruct (eloop A eqb fuel (appends A f) x (-1)); try contradiction; eauto.
  Qed.
  Lemma worklist_endless x l f fuel : lst_shows A x l -> l <> [] -> (forall a, f a <> []) -> eloop A eqb fuel (appends A f) x (-1) = NoFuel.
  Proof.
    intros H Hl Hf. destruct (worklist x l f H) as (P1 & _ & P3). destruct (P3 fuel) as [E|([vs y] & E)]; [exact E|exfalso].
    destruct (P1 _ _ _ E) as (_ & Ev & _).
    assert (L : forall w, (length w <= length (flat_map f w))%nat).
    { induction w as [|a w IH]; cbn [flat_map]; [auto|]. rewrite app_length. specialize (Hf a). destruct (f a); [congruence|]. cbn [length]. lia. }
    specialize (L vs). apply (f_equal (@length A)) in Ev. rewrite app_length in Ev. destruct l; [congruence|]. cbn [length] in Ev. lia.
  Qed.
  Lemma prepend_endless x l b fuel : lst_shows A x l -> l <> [] -> eloop A eqb fuel (prepends A b) x (-1) = NoFuel.
  Proof.
    intros H Hl. assert (S0 : forall i a, Forall (sensible A) (prepends A b i a)) by (intros; constructor; [exact I|constructor]).
    pose proof (loop_ok fuel (prepends A b) x l H S0) as R.
    assert (E : forall fuel l i, 0 <= i < zlen l -> sloop A eqb fuel (prepends A b) l i = NoFuel).
    { clear. induction fuel as [|fuel IH]; intros l i Hi; cbn [sloop]; [reflexivity|].
      destruct (znth_in l i Hi) as (a & ->). cbn [prepends slops on_list]. unfold sstep. cbn [sstep_raw sread nth_error bind upd].
      unfold sinsert. replace ((0 <=? 0) && (0 <=? zlen l)) with true by lia. cbn [bind]. unfold ztake, zdrop. change (Z.to_nat 0) with O. cbn [firstn skipn app].
      rewrite IH; [reflexivity|]. zl. lia. }
    rewrite E in R; [exact R|]. destruct l; [congruence|]. zl. pose proof (zlen_nonneg l). lia.
  Qed.
  Lemma removing p fuel : forall d l, (length l < fuel)%nat ->
    sloop A eqb fuel (removes A p) (d ++ l) (zlen d) = Ok (seen A (length l) p l, d ++ left_over A (length l) p l).
  Proof.
    induction fuel as [|fuel IH]; intros d l Hf; [lia|]. cbn [sloop]. destruct l as [|a l].
    - rewrite app_nil_r, znth_end by lia. cbn [seen left_over length]. now rewrite app_nil_r.
    - rewrite znth_mid. cbn [length] in Hf. unfold removes at 1.
      assert (Fm : forall n m (q : list A), (length q <= n)%nat -> (length q <= m)%nat -> seen A n p q = seen A m p q /\ left_over A n p q = left_over A m p q).
      { clear. induction n as [n IH] using lt_wf_ind. intros m q Hn Hm. destruct n as [|n], m as [|m], q as [|b q]; cbn [length] in *; try lia; auto.
        cbn [seen left_over]. split.
        - f_equal. destruct (p b); [destruct q; cbn [tl length] in *; apply (IH n); cbn [length]; lia|apply (IH n); lia].
        - destruct (p b); [destruct q; [reflexivity|]; cbn [length] in *; f_equal; apply (IH n); lia|f_equal; apply (IH n); lia]. }
      destruct (p a) eqn:Ep; cbn [slops on_list].
      + unfold sstep. cbn [sstep_raw sread nth_error bind upd]. pose proof (zlen_nonneg d). pose proof (zlen_nonneg l).
        replace ((0 <=? zlen d) && (zlen d <? zlen (d ++ a :: l))) with true by (zl; lia).
        assert (ET : ztake A (zlen d) (d ++ a :: l) ++ zdrop A (zlen d + 1) (d ++ a :: l) = d ++ l).
        { unfold ztake, zdrop. rewrite Z2Nat.inj_add, zlen_to_nat by lia. change (Z.to_nat 1) with 1%nat.
          rewrite firstn_app, firstn_all, Nat.sub_diag. cbn [firstn]. rewrite app_nil_r. f_equal.
          rewrite skipn_app, skipn_all2 by lia. replace (length d + 1 - length d)%nat with 1%nat by lia. reflexivity. }
        rewrite ET. cbn [slops bind]. cbn [seen left_over length]. rewrite Ep. destruct l as [|b l].
        * rewrite app_nil_r. cbn [length] in Hf. destruct fuel as [|fuel]; [lia|]. cbn [sloop]. rewrite znth_end by lia. reflexivity.
        * specialize (IH (d ++ [b]) l). replace (zlen (d ++ [b])) with (zlen d + 1) in IH by (zl; lia). rewrite <- app_assoc in IH. cbn [app] in IH.
          rewrite IH by (cbn [length] in *; lia). cbn [bind tl length].
          destruct (Fm (length l) (S (length l)) l) as [-> ->]; try lia. rewrite <- app_assoc. reflexivity.
      + cbn [bind]. specialize (IH (d ++ [a]) l). replace (zlen (d ++ [a])) with (zlen d + 1) in IH by (zl; lia). rewrite <- app_assoc in IH. cbn [app] in IH.
        rewrite IH by lia. cbn [bind seen left_over length]. rewrite Ep. now rewrite <- app_assoc.
  Qed.
  Lemma loop_removes x l p : lst_shows A x l ->
    exists y, eloop A eqb (S (length l)) (removes A p) x (-1) = Ok (seen A (length l) p l, y) /\ lst_shows A y (left_over A (length l) p l).
  Proof.
    intros H. assert (S0 : forall i a, Forall (sensible A) (removes A p i a)) by (intros; unfold removes; destruct (p a); repeat constructor).
    pose proof (loop_ok (S (length l)) (removes A p) x l H S0) as R.
    pose proof (removing p (S (length l)) [] l ltac:(lia)) as E. cbn [app] in E. change (zlen (@nil A)) with 0 in E. rewrite E in R. exact R.
  Qed.
  Lemma replacing f fuel : forall d l, (length l < fuel)%nat ->
    sloop A eqb fuel (replaces A f) (d ++ l) (zlen d) = Ok (l, d ++ map f l).
  Proof.
    induction fuel as [|fuel IH]; intros d l Hf; [lia|]. cbn [sloop]. destruct l as [|a l].
    - rewrite app_nil_r, znth_end by lia. cbn [map]. now rewrite app_nil_r.
    - rewrite znth_mid. cbn [length] in Hf. unfold replaces at 1. cbn [slops on_list]. unfold sstep. cbn [sstep_raw sread nth_error bind upd].
      pose proof (zlen_nonneg d). pose proof (zlen_nonneg l). unfold sset. replace ((0 <=? zlen d) && (zlen d <? zlen (d ++ a :: l))) with true by (zl; lia).
      assert (ET : ztake A (zlen d) (d ++ a :: l) ++ f a :: zdrop A (zlen d + 1) (d ++ a :: l) = (d ++ [f a]) ++ l).
      { unfold ztake, zdrop. rewrite Z2Nat.inj_add, zlen_to_nat by lia. change (Z.to_nat 1) with 1%nat.
        rewrite firstn_app, firstn_all, Nat.sub_diag. cbn [firstn]. rewrite app_nil_r, <- app_assoc. f_equal. cbn [app]. f_equal.
        rewrite skipn_app, skipn_all2 by lia. replace (length d + 1 - length d)%nat with 1%nat by lia. reflexivity. }
      rewrite ET. cbn [bind slops]. specialize (IH (d ++ [f a]) l). replace (zlen (d ++ [f a])) with (zlen d + 1) in IH by (zl; lia).
      rewrite IH by lia. cbn [bind map]. now rewrite <- app_assoc.
  Qed.
  Lemma loop_replaces x l f : lst_shows A x l ->
    exists y, eloop A eqb (S (length l)) (replaces A f) x (-1) = Ok (l, y) /\ lst_shows A y (map f l).
  Proof.
    intros H. assert (S0 : forall i a, Forall (sensible A) (replaces A f i a)) by (intros; repeat constructor).
    pose proof (loop_ok (S (length l)) (replaces A f) x l H S0) as R.
    pose proof (replacing f (S (length l)) [] l ltac:(lia)) as E. cbn [app] in E. change (zlen (@nil A)) with 0 in E. rewrite E in R. exact R.
  Qed.
  Lemma slops_query os : forall l, Forall (queries A) os -> slops A eqb l os = Ok l.
  Proof.
    induction os as [|o os IH]; intros l F; [reflexivity|]. inversion F as [|? ? Q Fs]; subst.
    destruct o as [| | | |v a|v i a|v i|v i n|v a|v|v i a|v i|v|v a|v a]; try contradiction; destruct v; try contradiction;
      cbn [slops on_list]; unfold sstep; cbn [sstep_raw sread nth_error bind]; auto.
    destruct (znth l i); auto.
  Qed.
  Lemma loop_queries x l body : lst_shows A x l -> (forall i a, Forall (queries A) (body i a)) ->
    exists y, eloop A eqb (S (length l)) body x (-1) = Ok (l, y) /\ lst_shows A y l.
  Proof.
    intros H Q. assert (S0 : forall i a, Forall (sensible A) (body i a)).
    { intros i a. eapply Forall_impl; [|apply Q]. intros [] Hq; try contradiction; exact I. }
    pose proof (loop_ok (S (length l)) body x l H S0) as R.
    assert (E : forall d l0, sloop A eqb (S (length l0)) body (d ++ l0) (zlen d) = Ok (l0, d ++ l0)).
    { clear - Q. intros d l0. revert d. induction l0 as [|a l0 IH]; intros d.
      - cbn [sloop length]. rewrite znth_end; [reflexivity|]. rewrite app_nil_r. lia.
      - cbn [length]. cbn [sloop] in *. rewrite znth_mid, slops_query by apply Q. cbn [bind]. specialize (IH (d ++ [a])).
        replace (zlen (d ++ [a])) with (zlen d + 1) in IH by (zl; lia). rewrite <- app_assoc in IH. cbn [app] in IH. rewrite IH. reflexivity. }
    specialize (E [] l). cbn [app] in E. change (zlen (@nil A)) with 0 in E. rewrite E in R. exact R.
  Qed.
End ListEnum.

Section DictEnum.
  Variable K V : Type.
  Variable c : K -> K -> comparison.
  Variable TO : total_order c.
  Notation cmp := (fun a b => Some (c a b)).

  Lemma s_insert_room x i (a : K) y : s_insert K x i a = Ok y -> cap y = grown (cap x) (count y).
  Proof.
    unfold s_insert. intros E. apply bind_ok in E. destruct E as (z & E1 & E). apply bind_ok in E. destruct E as (m & E2 & E).
    apply insert_uninit_cap in E1. assert (y = mkLst m (count z) (cap z) (moves z)) as -> by congruence. cbn [cap count].
    unfold grown. destruct E1 as (-> & [(H1 & -> & _)|(H1 & -> & _)]).
    - now replace (count x + 1 <=? cap x) with true by lia.
    - now replace (count x + 1 <=? cap x) with false by lia.
  Qed.
  Lemma s_add_room x (a : K) y j : s_add K cmp x a = Ok (y, j) -> cap y = grown (cap x) (count y).
  Proof.
    unfold s_add. intros E. destruct (count x =? 0).
    - apply bind_ok in E. destruct E as (z & E1 & E). assert (z = y) by congruence. subst z. eapply s_insert_room; eauto.
    - apply bind_ok in E. destruct E as ([r oi] & _ & E). destruct ((oi >=? 0) && (oi <? count x)); [|discriminate].
      apply bind_ok in E. destruct E as (b & _ & E). cbv zeta in E. apply bind_ok in E. destruct E as (z & E1 & E).
      assert (z = y) by congruence. subst z. eapply s_insert_room; eauto.
  Qed.
  Lemma late_inv {B} (r : res B) b : late r = Ok b -> r = Ok b.
  Proof. destruct r; cbn [late]; congruence. Qed.

  Lemma dict_op d m o : d_shows K V c d m -> cap (keys d) = cap (vals d) ->
    exists d', d_step K V cmp d o = Ok (d', snd (md_step K V c m o)) /\ d_shows K V c d' (fst (md_step K V c m o)) /\
      cap (keys d') = mroom_after K V (cap (keys d)) o (snd (md_step K V c m o)) (fst (md_step K V c m o)) /\ cap (vals d') = cap (keys d').
  Proof.
    intros H Hc. destruct (d_step_ok K V c TO d m o H) as (d' & E & S'). exists d'. split; [exact E|]. split; [exact S'|].
    destruct (md_step K V c m o) as [m' r] eqn:Em. cbn [fst snd] in *.
    destruct (H) as (HK & HV & _). destruct (S') as (HK' & HV' & _).
    destruct (buf_room K _ _ HK) as [Rk _]. destruct (buf_room V _ _ HV) as [Rv _].
    destruct (buf_room K _ _ HK') as [Rk' _]. destruct (buf_room V _ _ HV') as [Rv' _].
    destruct HK as (Ck & HK). destruct HV as (Cv & HV). destruct (HK') as (Ck' & _). destruct (HV') as (Cv' & _).
    rewrite zlen_map in Ck. rewrite zlen_map in Cv. rewrite zlen_map in Ck'. rewrite zlen_map in Cv'.
    rewrite zlen_map in Rk. rewrite zlen_map in Rv. rewrite zlen_map in Rk'. rewrite zlen_map in Rv'.
    assert (G : d' = d -> cap (keys d') = grown (cap (keys d)) (zlen m') /\ cap (vals d') = cap (keys d')).
    { intros ->. unfold grown. replace (zlen m' <=? cap (keys d)) with true by lia. auto. }
    assert (NC : d' = d -> cap (keys d') = cap (keys d) /\ cap (vals d') = cap (keys d')) by (intros ->; auto).
    assert (KK : forall (a b : dict K V) (p q : dout K V), Ok (a, p) = Ok (b, q) -> a = b /\ p = q) by (intros; split; congruence).
    assert (AD : forall k v ks j vs, s_add K cmp (keys d) k = Ok (ks, j) -> late (insert V (vals d) j v) = Ok vs -> d' = mkDict ks vs ->
              cap (keys d') = grown (cap (keys d)) (zlen m') /\ cap (vals d') = cap (keys d')).
    { intros k v ks j vs E1 E2 ->. cbn [keys vals] in *. apply late_inv in E2. rewrite (s_add_room _ _ _ _ E1), Ck'. split; [reflexivity|].
      rewrite Hc. pose proof (insert_room V (fun _ _ => true) (vals d) (map snd m) j v vs (map snd m') ltac:(split; [now rewrite zlen_map|exact HV]) E2 HV') as R. rewrite zlen_map in R. exact R. }
    unfold d_step in E. destruct o as [k v|k v|k| |k|k| |i|i]; cbn [d_step_raw mroom_after] in *.
    - unfold d_add in E. destruct (s_index_of K cmp (keys d) k) as [i| | |]; cbn [bind] in E; try discriminate.
      + destruct (negb (i =? -1)); cbn [bind] in E; [apply KK in E; destruct E as [<- _]; auto|].
        destruct (s_add K cmp (keys d) k) as [[ks j]| | |] eqn:Ea; cbn [bind] in E; try discriminate.
        * destruct (late (insert V (vals d) j v)) as [vs| | |] eqn:Ei; cbn [bind] in E; try discriminate; apply KK in E; destruct E as [<- _].
          -- eapply AD; eauto.
          -- exfalso. unfold late in Ei. destruct (insert V (vals d) j v); discriminate.
        * apply KK in E; destruct E as [<- _]; auto.
      + apply KK in E; destruct E as [<- _]; auto.
    - unfold d_set in E. destruct (s_index_of K cmp (keys d) k) as [i| | |]; cbn [bind] in E; try discriminate.
      + destruct (i =? -1); cbn [bind] in E.
        * destruct (s_add K cmp (keys d) k) as [[ks j]| | |] eqn:Ea; cbn [bind] in E; try discriminate.
          -- destruct (late (insert V (vals d) j v)) as [vs| | |] eqn:Ei; cbn [bind] in E; try discriminate; apply KK in E; destruct E as [<- _].
             ++ eapply AD; eauto.
             ++ exfalso. unfold late in Ei. destruct (insert V (vals d) j v); discriminate.
          -- apply KK in E; destruct E as [<- _]; auto.
        * destruct (set V (vals d) i v) as [vs| | |] eqn:Es; cbn [bind] in E; try discriminate; apply KK in E; destruct E as [<- _]; auto.
          cbn [keys vals] in *. unfold set in Es. destruct ((i >=? 0) && (i <? count (vals d))); [|discriminate].
          apply bind_ok in Es. destruct Es as (mm & _ & Es). assert (vs = mkLst mm (count (vals d)) (cap (vals d)) (moves (vals d))) as -> by congruence.
          cbn [cap]. unfold grown. replace (zlen m' <=? cap (keys d)) with true by lia. auto.
      + apply KK in E; destruct E as [<- _]; auto.
    - unfold d_remove in E. destruct (s_index_of K cmp (keys d) k) as [i| | |]; cbn [bind] in E; try discriminate.
      + destruct (negb (i =? -1)); cbn [bind] in E; [|apply KK in E; destruct E as [<- <-]; auto].
        destruct (remove_at K (keys d) i) as [ks| | |] eqn:Ek; cbn [bind] in E; try discriminate.
        * destruct (late (remove_at V (vals d) i)) as [vs| | |] eqn:Ev; cbn [bind] in E; try discriminate; apply KK in E; destruct E as [<- <-].
          -- cbn [keys vals] in *. apply late_inv in Ev.
             pose proof (remove_at_room K (keys d) (map fst m) i ks ltac:(split; [now rewrite zlen_map|exact HK]) Ek) as R1.
             pose proof (remove_at_room V (vals d) (map snd m) i vs ltac:(split; [now rewrite zlen_map|exact HV]) Ev) as R2.
             rewrite R1, R2, Ck', Cv', Hc. auto.
          -- exfalso. unfold late in Ev. destruct (remove_at V (vals d) i); discriminate.
        * apply KK in E; destruct E as [<- <-]; auto.
      + apply KK in E; destruct E as [<- <-]; auto.
    - assert (CL : forall B (x : lst B) y, clear B x = Ok y -> cap y = 0).
      { intros B x y Ec. unfold clear in Ec. apply bind_ok in Ec. destruct Ec as (mm & _ & Ec). apply bind_ok in Ec. destruct Ec as (u & _ & Ec).
        assert (y = mkLst [] 0 0 (moves x)) as -> by congruence. reflexivity. }
      destruct (clear_ok K (keys d) (map fst m)) as (ks & Ek & _); [split; [now rewrite zlen_map|exact HK]|].
      destruct (clear_ok V (vals d) (map snd m)) as (vs & Ev & _); [split; [now rewrite zlen_map|exact HV]|].
      unfold d_clear in E. rewrite Ek, Ev in E. cbn [bind late] in E. apply KK in E. destruct E as [<- _]. cbn [keys vals].
      rewrite (CL _ _ _ Ek), (CL _ _ _ Ev). auto.
    - destruct (d_get K V cmp d k); cbn [bind] in E; try discriminate; apply KK in E; destruct E as [<- _]; auto.
    - destruct (s_index_of K cmp (keys d) k); cbn [bind] in E; try discriminate; apply KK in E; destruct E as [<- _]; auto.
    - apply KK in E; destruct E as [<- _]; auto.
    - destruct (get K (keys d) i); cbn [bind] in E; try discriminate; apply KK in E; destruct E as [<- _]; auto.
    - destruct (get V (vals d) i); cbn [bind] in E; try discriminate; apply KK in E; destruct E as [<- _]; auto.
  Qed.

  Definition mgood (t : mst K V) : Prop :=
    Forall (fun ip : Z * option (nat * Z) => -1 <= fst ip /\ match snd ip with Some (_, i) => 0 <= i | None => True end) (mes K V t).
  Definition view (ip : Z * option (nat * Z)) : den := mkDen (fst ip) (option_map (fun gi => (gi, gi)) (snd ip)).
  Lemma map_upd {B C} (f : B -> C) l n x : map f (upd l n x) = upd (map f l) n (f x).
  Proof. revert n. induction l as [|a l IH]; intros [|n]; cbn [upd map]; auto. now rewrite IH. Qed.

  Definition dsim (s : dst K V) (t : mst K V) (o : deop K V) (q : res (mst K V * dres K V)) : Prop :=
    match q with
    | Ok (t', r) => exists s', dstep K V cmp s o = Ok (s', r) /\ m_shows K V c s' t' /\ mgood t' /\ length (mes K V t') = length (mes K V t)
    | UB => dstep K V cmp s o = UB
    | _ => False
    end.
  Lemma dstep_sim s t o : m_shows K V c s t -> mgood t -> dsim s t o (mstep K V c t o).
  Proof.
    intros H G. destruct (H) as (Sd & Hk & Hv & Hg & Hg' & He). fold view in He.
    assert (ME : forall e ip, -1 <= fst ip -> match snd ip with Some (_, i) => 0 <= i | None => True end ->
       m_shows K V c (set_den K V s e (view ip)) (mset K V t e (fst ip) (snd ip)) /\ mgood (mset K V t e (fst ip) (snd ip)) /\
       length (mes K V (mset K V t e (fst ip) (snd ip))) = length (mes K V t)).
    { intros e [i p] Hi Hp. cbn [fst snd] in *. split; [|split].
      - unfold m_shows. cbn [set_den mset dx kgen vgen des ml mroom mgen mes]. split; [exact Sd|]. do 4 (split; [assumption|]). rewrite He.
        fold view. now rewrite map_upd.
      - unfold mgood. cbn [mset mes]. apply Forall_upd; [exact G|]. cbn [fst snd]. auto.
      - cbn [mset mes]. apply upd_length. }
    assert (DE : forall e, den_of K V s e = match nth_error (mes K V t) e with Some ip => Ok (view ip) | None => UB end).
    { intros e. unfold den_of. rewrite He, nth_error_map. destruct (nth_error (mes K V t) e); reflexivity. }
    destruct (Sd) as (HK & HV & _). destruct (HK) as (Ck & _). destruct (HV) as (Cv & _). rewrite zlen_map in Ck. rewrite zlen_map in Cv.
    assert (Ng : forall e ip, nth_error (mes K V t) e = Some ip -> -1 <= fst ip /\ match snd ip with Some (_, i) => 0 <= i | None => True end).
    { intros e ip E. exact (nth_Forall _ _ _ _ G E). }
    unfold dsim. destruct o as [o|e|e f|e|e|e|e]; cbn [mstep dstep]; unfold with_den.
    - destruct (dict_op (dx K V s) (ml K V t) o Sd (eq_trans Hk (eq_sym Hv))) as (d' & E & S' & C1 & C2).
      destruct (md_step K V c (ml K V t) o) as [m' r]. cbn [fst snd] in *. rewrite E. cbn [bind].
      eexists. split; [reflexivity|]. split; [|split; [exact G|reflexivity]].
      unfold m_shows. cbn [dx kgen vgen des ml mroom mgen mes]. rewrite C2, C1, Hk, Hv, <- Hg, Hg'. auto 10.
    - rewrite DE. destruct (nth_error (mes K V t) e) as [[i0 p0]|]; cbn [bind]; [|reflexivity]. eexists. split; [reflexivity|].
      apply (ME e (-1, None)); cbn [fst snd]; [lia|exact I].
    - rewrite !DE. destruct (nth_error (mes K V t) e) as [[i0 p0]|]; cbn [bind]; [|reflexivity].
      destruct (nth_error (mes K V t) f) as [[i p]|] eqn:Ef; cbn [bind]; [|reflexivity]. eexists. split; [reflexivity|].
      destruct (Ng _ _ Ef) as [Hi _]. apply (ME e (i, None)); cbn [fst snd] in *; [lia|exact I].
    - rewrite DE. destruct (nth_error (mes K V t) e) as [[i p]|] eqn:Ee; cbn [bind]; [|reflexivity].
      destruct (Ng _ _ Ee) as [Hi Hp]. cbn [fst snd] in *. unfold update_cur. cbn [view di dc fst snd]. rewrite Ck, Cv.
      destruct (i + 1 <? zlen (ml K V t)) eqn:El.
      + replace ((i + 1 >=? 0) && true) with true by lia. cbn [set_den dx di]. rewrite Ck, El.
        replace ((i + 1 >=? 0) && true) with true by lia. eexists. split; [reflexivity|].
        rewrite <- Hg, Hg'. apply (ME e (i + 1, Some (mgen K V t, i + 1))); cbn [fst snd]; lia.
      + cbn [set_den dx di]. rewrite Ck, El, andb_false_r. eexists. split; [reflexivity|].
        apply (ME e (i + 1, p)); cbn [fst snd]; [lia|exact Hp].
    - rewrite DE. destruct (nth_error (mes K V t) e) as [[i p]|] eqn:Ee; cbn [bind]; [|reflexivity]. eexists. split; [reflexivity|]. auto.
    - rewrite DE. destruct (nth_error (mes K V t) e) as [[i p]|] eqn:Ee; cbn [bind]; [|reflexivity].
      destruct (Ng _ _ Ee) as [Hi Hp]. cbn [fst snd] in *. unfold update_cur. cbn [view di dc fst snd]. rewrite Ck.
      pose proof (zlen_nonneg (ml K V t)). replace (-1 <? zlen (ml K V t)) with true by lia. cbn [andb Z.geb Z.compare].
      eexists. split; [reflexivity|]. apply (ME e (-1, p)); cbn [fst snd]; [lia|exact Hp].
    - rewrite DE. destruct (nth_error (mes K V t) e) as [[i p]|] eqn:Ee; cbn [bind]; [|reflexivity].
      destruct (Ng _ _ Ee) as [Hi Hp]. cbn [view dc fst snd] in *. destruct p as [[g j]|]; cbn [option_map].
      + rewrite <- Hg, Hg'. destruct (Nat.eqb g (mgen K V t)); cbn [andb]; [|reflexivity].
        rewrite (read_at K (keys (dx K V s)) _ j HK Hp), (read_at V (vals (dx K V s)) _ j HV Hp).
        rewrite !znth_z by lia. rewrite !nth_error_map. destruct (nth_error (ml K V t) (Z.to_nat j)) as [[k v]|]; cbn [option_map bind fst snd]; [|reflexivity].
        eexists. split; [reflexivity|]. auto.
      + eexists. split; [reflexivity|]. auto.
  Qed.
  Lemma dstart_shows n : m_shows K V c (dstart K V n) (mstart K V n) /\ mgood (mstart K V n).
  Proof.
    split.
    - unfold m_shows. cbn [dstart mstart dx kgen vgen des ml mroom mgen mes]. split.
      + split; [apply empty_shows|]. split; [apply empty_shows|]. constructor.
      + do 4 (split; [reflexivity|]). induction n; cbn [repeat map]; [reflexivity|]. now rewrite <- IHn.
    - unfold mgood. cbn [mstart mes]. apply Forall_forall. intros x Hx. apply repeat_spec in Hx. subst x. cbn [fst snd]. split; [lia|exact I].
  Qed.
  Lemma drun_sim os : forall s t, m_shows K V c s t -> mgood t ->
    match mrun K V c t os with
    | Ok (t', rs) => exists s', drun K V cmp s os = Ok (s', rs) /\ m_shows K V c s' t' /\ mgood t' /\ length (mes K V t') = length (mes K V t)
    | UB => drun K V cmp s os = UB
    | _ => False
    end.
  Proof.
    induction os as [|o os IH]; intros s t H G; cbn [mrun drun]; [eauto|].
    pose proof (dstep_sim s t o H G) as R. unfold dsim in R.
    destruct (mstep K V c t o) as [[t1 r]| | |]; cbn [bind]; try contradiction.
    - destruct R as (s1 & R & H1 & G1 & L1). rewrite R. cbn [bind]. specialize (IH s1 t1 H1 G1).
      destruct (mrun K V c t1 os) as [[t2 rs]| | |]; cbn [bind]; try contradiction.
      + destruct IH as (s2 & IH & H2 & G2 & L2). rewrite IH. cbn [bind]. exists s2. split; [reflexivity|]. split; [assumption|]. split; [assumption|congruence].
      + now rewrite IH.
    - now rewrite R.
  Qed.
  Lemma dict_history n os :
    outs (drun K V cmp (dstart K V n) os) = outs (mrun K V c (mstart K V n) os) /\
    (forall t rs, mrun K V c (mstart K V n) os = Ok (t, rs) -> exists s, drun K V cmp (dstart K V n) os = Ok (s, rs) /\ m_shows K V c s t).
  Proof.
    destruct (dstart_shows n) as [H G]. pose proof (drun_sim os _ _ H G) as R.
    destruct (mrun K V c (mstart K V n) os) as [[t rs]| | |]; try contradiction.
    - destruct R as (s & R & S' & _). rewrite R. split; [reflexivity|]. intros t' rs' E. assert (t = t' /\ rs = rs') as [-> ->] by (split; congruence). eauto.
    - rewrite R. split; [reflexivity|]. discriminate.
  Qed.
  Lemma dict_enumerators n os : Forall (no_current K V n) os -> exists s rs, drun K V cmp (dstart K V n) os = Ok (s, rs).
  Proof.
    destruct (dstart_shows n) as [H G]. assert (L : length (mes K V (mstart K V n)) = n) by apply repeat_length.
    revert H G L. generalize (dstart K V n) (mstart K V n). induction os as [|o os IH]; intros s t H G L F; cbn [drun]; [eauto|].
    inversion F as [|? ? Fo Fs]; subst.
    assert (exists t1 r, mstep K V c t o = Ok (t1, r)) as (t1 & r & E).
    { assert (N : forall e, (e < length (mes K V t))%nat -> exists i p, nth_error (mes K V t) e = Some (i, p)).
      { intros e Le. destruct (nth_error (mes K V t) e) as [[i p]|] eqn:E; eauto. apply nth_error_None in E. lia. }
      destruct o as [o|e|e f|e|e|e|e]; cbn [mstep no_current] in *; unfold with_den.
      - destruct (md_step K V c (ml K V t) o). eauto.
      - destruct (N e Fo) as (i & p & ->). eauto.
      - destruct Fo as [F1 F2]. destruct (N e F1) as (i & p & ->). destruct (N f F2) as (j & q & ->). eauto.
      - destruct (N e Fo) as (i & p & ->). eauto.
      - destruct (N e Fo) as (i & p & ->). eauto.
      - destruct (N e Fo) as (i & p & ->). eauto.
      - contradiction. }
    pose proof (dstep_sim s t o H G) as R. unfold dsim in R. rewrite E in R. destruct R as (s1 & R & H1 & G1 & L1).
    rewrite R. cbn [bind]. destruct (IH s1 t1 H1 G1 L1 Fs) as (s2 & rs & E2). rewrite E2. cbn [bind]. eauto.
  Qed.
End DictEnum.

Lemma remove_loses : ~ forall n js, Forall (fun j => 0 < j) js -> outs (erun Z Z.eqb (estart Z 0 1) (add_then_remove n js)) <> UB.
Proof.
  intros H. apply (H 8%nat [7; 6; 5]); [repeat constructor|]. vm_compute. reflexivity.
Qed.
Lemma add_loses : ~ forall ks, Forall (fun k => 0 < k) ks -> outs (drun Z Z (fun a b => Some (Z.compare a b)) (dstart Z Z 1) (visit_then_add ks)) <> UB.
Proof.
  intros H. apply (H [1; 2]); [repeat constructor|]. vm_compute. reflexivity.
Qed.
Lemma built (l : list Z) : exists x, append_all Z empty_lst l = Ok x /\ lst_shows Z x l.
Proof. destruct (append_cost Z l) as (y & E & S' & _). eauto. Qed.
Lemma remove_all_wrong : ~ forall (p : Z -> bool) x l, lst_shows Z x l -> exists fuel vs y,
  eloop Z Z.eqb fuel (removes Z p) x (-1) = Ok (vs, y) /\ lst_shows Z y (filter (fun a => negb (p a)) l).
Proof.
  intros H. destruct (built [1; 2]) as (x & Ex & Sx). destruct (H (fun _ => true) x [1; 2] Sx) as (fuel & vs & y & E & (C & _)).
  vm_compute in Ex. assert (x = mkLst [Live 1; Live 2] 2 2 0) as -> by congruence.
  destruct fuel as [|[|fuel]]; try discriminate. vm_compute in E. assert (y = mkLst [Live 2; Raw] 1 2 1) as -> by congruence. discriminate.
Qed.
Lemma ex_history : Forall (sensible_e Z) (add_then_remove 3 [1]) /\ exists s, erun Z Z.eqb (estart Z 0 1) (add_then_remove 3 [1]) = Ok (s, [RInt 0; RInt 1; RInt 2; RNone; RBool true; RVal 0]).
Proof. split; [repeat constructor|]. eexists. vm_compute. reflexivity. Qed.
Lemma ex_enum : exists s, erun Z Z.eqb (estart Z 1 1) [EList (LAdd 0 5); ENext 0; ECurrent 0 0; EList (LInsert 0 0 4); EWrite 0 9; ENext 0; ECurrent 0 0; ERead 0; ENext 0; ECurrent 0 0; EList (LGet 0 0)]
  = Ok (s, [RInt 0; RBool true; RNone; RInt 0; RNone; RBool true; RNone; RVal 5; RBool false; RError; RVal 9]).
Proof. eexists. vm_compute. reflexivity. Qed.
Lemma ex_safe : Forall (sensible_e Z) [EList (LAdd 0 5); ENext 0; ECurrent 0 0; EList (LClear 0); ENext 0] /\
  Forall (no_reference Z 1 1) [EList (LAdd 0 5); ENext 0; ECurrent 0 0; EList (LClear 0); ENext 0].
Proof. split; repeat constructor. Qed.
Lemma ex_dict : exists s, drun Z Z (fun a b => Some (Z.compare a b)) (dstart Z Z 2)
    [FDict Z Z (DAdd 2 20); FNext Z Z 0; FDict Z Z (DAdd 1 10); FCurrent Z Z 0; FClone Z Z 1 0; FCurrent Z Z 1; FNext Z Z 0; FCurrent Z Z 0; FDict Z Z (DSet 2 21); FCurrent Z Z 0; FNext Z Z 0; FCurrent Z Z 0; FReset Z Z 0]
  = Ok (s, [DRes Z Z (OBool true); DRes Z Z (OBool true); DRes Z Z (OBool true); DPair Z Z 1 10; DNone Z Z; DError Z Z; DRes Z Z (OBool true); DPair Z Z 2 20;
            DRes Z Z (OBool true); DPair Z Z 2 21; DRes Z Z (OBool false); DPair Z Z 2 21; DError Z Z]).
Proof. eexists. vm_compute. reflexivity. Qed.
