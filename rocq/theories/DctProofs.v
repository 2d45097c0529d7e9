From Coq Require Import Permutation.
From Verif Require Import Base BaseFacts LstModel LstSpec LstProofs SrtModel SrtSpec SrtProofs DctModel DctSpec.
Open Scope Z_scope.

Lemma ztake_app_len {A} (l1 l2 : list A) : ztake A (zlen l1) (l1 ++ l2) = l1.
Proof. unfold ztake. rewrite zlen_to_nat, firstn_app, firstn_all, Nat.sub_diag. cbn [firstn]. apply app_nil_r. Qed.
Lemma zdrop_app_len {A} (l1 l2 : list A) : zdrop A (zlen l1) (l1 ++ l2) = l2.
Proof. unfold zdrop. rewrite zlen_to_nat, skipn_app, skipn_all, Nat.sub_diag. reflexivity. Qed.
Lemma zdrop_app_cons {A} (l1 : list A) b l2 : zdrop A (zlen l1 + 1) (l1 ++ b :: l2) = l2.
Proof.
  replace (l1 ++ b :: l2) with ((l1 ++ [b]) ++ l2) by (rewrite <- app_assoc; reflexivity).
  replace (zlen l1 + 1) with (zlen (l1 ++ [b])) by (rewrite zlen_app, zlen_cons, zlen_nil; lia). apply zdrop_app_len.
Qed.
Lemma znth_app_len {A} (l1 : list A) b l2 : znth (l1 ++ b :: l2) (zlen l1) = Some b.
Proof.
  unfold znth. pose proof (zlen_nonneg l1). replace (zlen l1 <? 0) with false by lia. rewrite zlen_to_nat.
  rewrite nth_error_app2 by lia. now rewrite Nat.sub_diag.
Qed.
Lemma znth_map {A B} (f : A -> B) l i : znth (map f l) i = option_map f (znth l i).
Proof. unfold znth. destruct (i <? 0); auto. apply nth_error_map. Qed.
Lemma late_ok {A} (a : A) r : r = Ok a -> late r = Ok a. Proof. now intros ->. Qed.

(* list operations at a known split *)
Section At.
  Variable A : Type.
  Lemma insert_mid x l1 l2 (a : A) : lst_shows A x (l1 ++ l2) -> exists y, insert A x (zlen l1) a = Ok y /\ lst_shows A y (l1 ++ a :: l2).
  Proof.
    intros H. pose proof (zlen_nonneg l1). pose proof (zlen_nonneg l2).
    destruct (insert_at A x _ (zlen l1) a H) as (y & E & S'); [rewrite zlen_app; lia|].
    rewrite ztake_app_len, zdrop_app_len in S'. eauto.
  Qed.
  Lemma remove_mid x l1 b l2 : lst_shows A x (l1 ++ b :: l2) -> exists y, remove_at A x (zlen l1) = Ok y /\ lst_shows A y (l1 ++ l2).
  Proof.
    intros H. pose proof (zlen_nonneg l1). pose proof (zlen_nonneg l2).
    destruct (remove_at_at A x _ (zlen l1) H) as (y & E & S'); [rewrite zlen_app, zlen_cons; lia|].
    rewrite ztake_app_len, zdrop_app_cons in S'. eauto.
  Qed.
  Lemma set_mid x l1 b l2 (a : A) : lst_shows A x (l1 ++ b :: l2) -> exists y, set A x (zlen l1) a = Ok y /\ lst_shows A y (l1 ++ a :: l2).
  Proof.
    intros H. pose proof (zlen_nonneg l1). pose proof (zlen_nonneg l2).
    destruct (set_ok A x _ (zlen l1) a H) as (y & E & S'); [rewrite zlen_app, zlen_cons; lia|].
    rewrite ztake_app_len, zdrop_app_cons in S'. eauto.
  Qed.
  Lemma get_mid x l1 b l2 : lst_shows A x (l1 ++ b :: l2) -> get A x (zlen l1) = Ok b.
  Proof. intros H. rewrite (get_ok A _ _ _ H). now rewrite znth_app_len. Qed.
  Lemma get_neg x l : lst_shows A x l -> get A x (-1) = Err.
  Proof. intros H. now rewrite (get_ok A _ _ _ H). Qed.
  Lemma append_last x l (a : A) : lst_shows A x l -> exists y, insert A x (count x) a = Ok y /\ lst_shows A y (l ++ [a]).
  Proof. intros H. destruct (H) as (C & _). rewrite C. apply insert_mid. now rewrite app_nil_r. Qed.
End At.

Section Keys.
  Variable K V : Type.
  Variable c : K -> K -> comparison.
  Variable TO : total_order c.
  Notation cmp := (fun a b => Some (c a b)).
  Notation asck := (ascending_keys K V c).
  Notation lookup := (lookup K V c).
  Notation put := (put K V c).
  Notation del := (del K V c).

  Definition below (m : fmap K V) k := forall p, In p m -> c (fst p) k = Lt.
  Definition above (m : fmap K V) k := forall p, In p m -> c (fst p) k = Gt.
  Definition found (m : fmap K V) k m1 k0 v0 m2 := m = m1 ++ (k0, v0) :: m2 /\ c k0 k = Eq /\ below m1 k /\ above m2 k.
  Definition absent (m : fmap K V) k m1 m2 := m = m1 ++ m2 /\ below m1 k /\ above m2 k.

  Lemma asck_app m1 m2 : asck (m1 ++ m2) <-> asck m1 /\ asck m2 /\ forall a b, In a m1 -> In b m2 -> c (fst a) (fst b) = Lt.
  Proof.
    unfold ascending_keys. induction m1 as [|x m1 IH]; cbn [app map].
    - split; [intros H; split; [constructor|split; [exact H|intros a b []]]|tauto].
    - split.
      + intros H. inversion H as [|? ? H1 H2]; subst. apply IH in H1. destruct H1 as (A1 & A2 & A3).
        rewrite map_app in H2. apply Forall_app in H2. destruct H2 as [F1 F2]. split; [now constructor|]. split; [exact A2|].
        intros a b [<-|Ha] Hb; [|now apply A3]. rewrite Forall_forall in F2. apply F2. now apply in_map.
      + intros (A1 & A2 & A3). inversion A1 as [|? ? H1 H2]; subst. constructor.
        * apply IH. split; [exact H1|]. split; [exact A2|]. intros a b Ha Hb. apply A3; auto. now right.
        * rewrite map_app. apply Forall_app. split; [exact H2|]. rewrite Forall_forall. intros k Hk.
          apply in_map_iff in Hk. destruct Hk as (b & <- & Hb). apply A3; auto. now left.
  Qed.
  Lemma asck_cons k v m : asck ((k, v) :: m) <-> asck m /\ forall b, In b m -> c k (fst b) = Lt.
  Proof.
    change ((k, v) :: m) with ([(k, v)] ++ m). rewrite asck_app. split.
    - intros (_ & H & F). split; [exact H|]. intros b Hb. apply (F (k, v) b); auto. now left.
    - intros (H & F). split; [repeat constructor|]. split; [exact H|]. intros a b [<-|[]] Hb. now apply F.
  Qed.
  Lemma asck_asc m : asck m -> ascending K c (map fst m).
  Proof.
    unfold ascending_keys, ascending. induction 1 as [|a l H IH F]; constructor; auto.
    eapply Forall_impl; [|exact F]. intros b Hb. unfold le. congruence.
  Qed.
  Lemma found_iff m k m1 k0 v0 m2 : asck m -> m = m1 ++ (k0, v0) :: m2 -> c k0 k = Eq -> found m k m1 k0 v0 m2.
  Proof.
    intros H -> E. split; [reflexivity|]. split; [exact E|]. apply asck_app in H. destruct H as (_ & H & F).
    apply asck_cons in H. destruct H as (_ & G). split.
    - intros p Hp. apply (lt_le_trans K c TO _ k0); [apply (F p (k0, v0)); auto; now left|congruence].
    - intros p Hp. apply (gt_lt K c TO). apply (le_lt_trans K c TO _ k0); [|now apply G].
      rewrite (eq_sym_c K c TO _ _ E). discriminate.
  Qed.
  Lemma map_split {A B} (f : A -> B) l a b : map f l = a ++ b -> exists l1 l2, l = l1 ++ l2 /\ map f l1 = a /\ map f l2 = b.
  Proof. intros H. apply map_eq_app in H. destruct H as (l1 & l2 & H). exists l1, l2. tauto. Qed.

  Lemma index_cases x m k : lst_shows K x (map fst m) -> asck m ->
    (exists m1 k0 v0 m2, found m k m1 k0 v0 m2 /\ s_index_of K cmp x k = Ok (zlen m1)) \/
    (exists m1 m2, absent m k m1 m2 /\ s_index_of K cmp x k = Ok (-1)).
  Proof.
    intros H Ha. destruct (s_index_ok K c TO x _ k H (asck_asc m Ha)) as [(l1 & b & l2 & El & Cb & E)|(l1 & l2 & El & B1 & B2 & E)].
    - left. apply map_split in El. destruct El as (m1 & m2' & -> & <- & El). destruct m2' as [|[k0 v0] m2]; [discriminate|].
      cbn [map fst] in El. injection El as -> <-. exists m1, b, v0, m2. split; [now apply found_iff|]. rewrite E. now rewrite zlen_map.
    - right. apply map_split in El. destruct El as (m1 & m2 & -> & <- & <-). exists m1, m2. split; [|exact E].
      split; [reflexivity|]. split; intros p Hp; [apply B1|apply B2]; now apply in_map.
  Qed.
  Lemma absent_not_in m k m1 m2 b : absent m k m1 m2 -> In b m -> c (fst b) k <> Eq.
  Proof. intros (-> & B & A) H. apply in_app_or in H. destruct H as [H|H]; [rewrite (B _ H)|rewrite (A _ H)]; discriminate. Qed.
  Lemma add_absent x m k m1 m2 : lst_shows K x (map fst m) -> asck m -> absent m k m1 m2 ->
    exists y n1 n2, absent m k n1 n2 /\ s_add K cmp x k = Ok (y, zlen n1) /\ lst_shows K y (map fst n1 ++ k :: map fst n2).
  Proof.
    intros H Ha Hb. destruct (s_add_ok K c TO x _ k H (asck_asc m Ha)) as (y & l1 & l2 & El & E & Sh & _ & D).
    apply map_split in El. destruct El as (n1 & n2 & -> & <- & <-). exists y, n1, n2.
    split; [|split; [now rewrite E, zlen_map|exact Sh]].
    destruct D as [(b & Hi & Eb)|(D1 & D2)].
    - exfalso. apply in_map_iff in Hi. destruct Hi as (p & <- & Hp). exact (absent_not_in _ _ _ _ p Hb Hp Eb).
    - split; [reflexivity|]. split; intros p Hp; [apply D1|apply D2]; now apply in_map.
  Qed.

  Lemma lookup_below m1 k m2 : below m1 k -> lookup k (m1 ++ m2) = lookup k m2.
  Proof.
    induction m1 as [|[k0 v0] m1 IH]; intros B; auto. cbn [app DctSpec.lookup].
    rewrite (B (k0, v0) (or_introl eq_refl) : c k0 k = Lt). apply IH. intros p Hp. apply B. now right.
  Qed.
  Lemma lookup_above m k : above m k -> lookup k m = None.
  Proof.
    induction m as [|[k0 v0] m IH]; intros B; auto. cbn [DctSpec.lookup].
    rewrite (B (k0, v0) (or_introl eq_refl) : c k0 k = Gt). apply IH. intros p Hp. apply B. now right.
  Qed.
  Lemma lookup_found m k m1 k0 v0 m2 : found m k m1 k0 v0 m2 -> lookup k m = Some v0.
  Proof. intros (-> & E & B & _). rewrite (lookup_below _ _ _ B). cbn [DctSpec.lookup]. now rewrite E. Qed.
  Lemma lookup_absent m k m1 m2 : absent m k m1 m2 -> lookup k m = None.
  Proof. intros (-> & B & A). rewrite (lookup_below _ _ _ B). now apply lookup_above. Qed.
  Lemma put_below m1 k v m2 : below m1 k -> put k v (m1 ++ m2) = m1 ++ put k v m2.
  Proof.
    induction m1 as [|[k0 v0] m1 IH]; intros B; auto. cbn [app DctSpec.put].
    rewrite (B (k0, v0) (or_introl eq_refl) : c k0 k = Lt). f_equal. apply IH. intros p Hp. apply B. now right.
  Qed.
  Lemma put_found m k m1 k0 v0 m2 v : found m k m1 k0 v0 m2 -> put k v m = m1 ++ (k0, v) :: m2.
  Proof. intros (-> & E & B & _). rewrite (put_below _ _ _ _ B). cbn [DctSpec.put]. now rewrite E. Qed.
  Lemma put_absent m k m1 m2 v : absent m k m1 m2 -> put k v m = m1 ++ (k, v) :: m2.
  Proof.
    intros (-> & B & A). rewrite (put_below _ _ _ _ B). f_equal. destruct m2 as [|[k0 v0] m2]; auto. cbn [DctSpec.put].
    now rewrite (A (k0, v0) (or_introl eq_refl) : c k0 k = Gt).
  Qed.
  Lemma del_below m1 k m2 : below m1 k -> del k (m1 ++ m2) = m1 ++ del k m2.
  Proof.
    induction m1 as [|[k0 v0] m1 IH]; intros B; auto. cbn [app DctSpec.del].
    rewrite (B (k0, v0) (or_introl eq_refl) : c k0 k = Lt). f_equal. apply IH. intros p Hp. apply B. now right.
  Qed.
  Lemma del_found m k m1 k0 v0 m2 : found m k m1 k0 v0 m2 -> del k m = m1 ++ m2.
  Proof. intros (-> & E & B & _). rewrite (del_below _ _ _ B). cbn [DctSpec.del]. now rewrite E. Qed.
  Lemma asck_replace m1 k0 v0 m2 v : asck (m1 ++ (k0, v0) :: m2) -> asck (m1 ++ (k0, v) :: m2).
  Proof. unfold ascending_keys. now rewrite !map_app. Qed.
  Lemma asck_insert m k m1 m2 v : asck m -> absent m k m1 m2 -> asck (m1 ++ (k, v) :: m2).
  Proof.
    intros H (-> & B & A). apply asck_app in H. destruct H as (H1 & H2 & F). apply asck_app. split; [exact H1|]. split.
    - apply asck_cons. split; [exact H2|]. intros b Hb. apply (gt_lt K c TO). now apply A.
    - intros a b Ha [<-|Hb]; [now apply B|now apply F].
  Qed.
  Lemma asck_drop m1 p m2 : asck (m1 ++ p :: m2) -> asck (m1 ++ m2).
  Proof.
    destruct p as [k0 v0]. rewrite !asck_app, asck_cons. intros (H1 & (H2 & _) & F). split; [exact H1|]. split; [exact H2|].
    intros a b Ha Hb. apply F; auto. now right.
  Qed.
  Lemma pos_cases m k : asck m -> (exists m1 k0 v0 m2, found m k m1 k0 v0 m2) \/ (exists m1 m2, absent m k m1 m2).
  Proof.
    induction m as [|[k0 v0] m IH]; intros H.
    - right. exists [], []. split; [reflexivity|]. split; intros p [].
    - apply asck_cons in H. destruct H as [H F]. destruct (c k0 k) eqn:E.
      + left. exists [], k0, v0, m. apply found_iff; auto. apply asck_cons. auto.
      + destruct (IH H) as [(m1 & k1 & v1 & m2 & -> & E1 & B & A)|(m1 & m2 & -> & B & A)].
        * left. exists ((k0, v0) :: m1), k1, v1, m2. split; [reflexivity|]. split; [exact E1|]. split; [|exact A].
          intros p [<-|Hp]; auto.
        * right. exists ((k0, v0) :: m1), m2. split; [reflexivity|]. split; [|exact A]. intros p [<-|Hp]; auto.
      + right. exists [], ((k0, v0) :: m). split; [reflexivity|]. split; [intros p []|].
        intros p [<-|Hp]; [exact E|]. apply (gt_lt K c TO). apply (lt_le_trans K c TO _ k0).
        * now apply (gt_lt K c TO).
        * rewrite (F p Hp). discriminate.
  Qed.

  (* the laws of finite maps *)
  Lemma lookup_cong m k k' : c k k' = Eq -> lookup k m = lookup k' m.
  Proof.
    intros E. induction m as [|[k0 v0] m IH]; auto. cbn [DctSpec.lookup]. rewrite IH.
    replace (c k0 k') with (c k0 k); auto.
    destruct (c k0 k) eqn:E1; destruct (c k0 k') eqn:E2; auto; exfalso.
    - assert (c k0 k = Lt) by (apply (lt_le_trans K c TO _ k'); auto; rewrite (eq_sym_c K c TO _ _ E); discriminate). congruence.
    - apply (gt_lt K c TO) in E2. assert (c k' k0 <> Lt); [|congruence]. rewrite (to_opp c TO k0 k').
      assert (c k0 k' <> Gt) by (apply (to_trans c TO _ k); congruence). destruct (c k0 k'); cbn; congruence.
    - assert (c k0 k' = Lt) by (apply (lt_le_trans K c TO _ k); auto; congruence). congruence.
    - assert (c k0 k' = Lt) by (apply (lt_le_trans K c TO _ k); auto; congruence). congruence.
    - assert (c k0 k <> Gt) by (apply (to_trans c TO _ k'); [congruence|rewrite (eq_sym_c K c TO _ _ E); discriminate]). congruence.
    - assert (c k0 k = Lt) by (apply (lt_le_trans K c TO _ k'); auto; rewrite (eq_sym_c K c TO _ _ E); discriminate). congruence.
  Qed.
  Lemma put_asc m k v : asck m -> asck (put k v m).
  Proof.
    intros H. destruct (pos_cases m k H) as [(m1 & k0 & v0 & m2 & F)|(m1 & m2 & F)].
    - rewrite (put_found _ _ _ _ _ _ v F). destruct F as (-> & _). eapply asck_replace; eauto.
    - rewrite (put_absent _ _ _ _ v F). eapply asck_insert; eauto.
  Qed.
  Lemma del_asc m k : asck m -> asck (del k m).
  Proof.
    intros H. destruct (pos_cases m k H) as [(m1 & k0 & v0 & m2 & F)|(m1 & m2 & F)].
    - rewrite (del_found _ _ _ _ _ _ F). destruct F as (-> & _). eapply asck_drop; eauto.
    - replace (del k m) with m; auto. destruct F as (-> & B & A).
      rewrite (del_below _ _ _ B). f_equal. clear B H. induction m2 as [|[k0 v0] m2 IH]; auto. cbn [DctSpec.del].
      rewrite (A (k0, v0) (or_introl eq_refl) : c k0 k = Gt). f_equal. apply IH. intros p Hp. apply A. now right.
  Qed.
  Lemma eq_cong_l a b k : c a b = Eq -> (c a k = Eq <-> c b k = Eq).
  Proof.
    intros E. assert (E' := eq_sym_c K c TO _ _ E). split; intros H.
    - destruct (c b k) eqn:D; auto; exfalso.
      + assert (c a k = Lt) by (apply (le_lt_trans K c TO _ b); congruence). congruence.
      + assert (c b k <> Gt) by (apply (to_trans c TO _ a); congruence). congruence.
    - destruct (c a k) eqn:D; auto; exfalso.
      + assert (c b k = Lt) by (apply (le_lt_trans K c TO _ a); congruence). congruence.
      + assert (c a k <> Gt) by (apply (to_trans c TO _ b); congruence). congruence.
  Qed.
  Lemma lookup_put m k v k' : lookup k' (put k v m) = match c k k' with Eq => Some v | _ => lookup k' m end.
  Proof.
    induction m as [|[k0 v0] m IH]; [reflexivity|]. cbn [DctSpec.put]. destruct (c k0 k) eqn:E; cbn [DctSpec.lookup].
    - pose proof (eq_cong_l k0 k k' E) as [H1 H2]. destruct (c k0 k') eqn:E1; [rewrite H1 by auto; reflexivity| |];
      destruct (c k k') eqn:E2; auto; specialize (H2 eq_refl); congruence.
    - rewrite IH. destruct (c k0 k') eqn:E1; auto. destruct (c k k') eqn:E2; auto.
      assert (c k0 k = Eq); [|congruence]. apply (eq_cong_l k0 k' k); auto. now apply (eq_sym_c K c TO).
    - reflexivity.
  Qed.
  Lemma lookup_del m k k' : asck m -> lookup k' (del k m) = match c k k' with Eq => None | _ => lookup k' m end.
  Proof.
    induction m as [|[k0 v0] m IH]; intros H; [now destruct (c k k')|]. cbn [DctSpec.del].
    destruct (found_iff ((k0, v0) :: m) k0 [] k0 v0 m H eq_refl (c_refl K c TO k0)) as (_ & _ & _ & Ab).
    apply asck_cons in H. destruct H as [H F]. specialize (IH H).
    destruct (c k0 k) eqn:E; cbn [DctSpec.lookup].
    - pose proof (eq_cong_l k0 k k' E) as [H1 H2]. destruct (c k0 k') eqn:E1.
      + rewrite H1 by auto. rewrite <- (lookup_cong m k0 k' E1). now apply lookup_above.
      + destruct (c k k') eqn:E2; auto. specialize (H2 eq_refl); congruence.
      + destruct (c k k') eqn:E2; auto. specialize (H2 eq_refl); congruence.
    - rewrite IH. destruct (c k0 k') eqn:E1; auto. destruct (c k k') eqn:E2; auto.
      assert (c k0 k = Eq); [|congruence]. apply (eq_cong_l k0 k' k); auto. now apply (eq_sym_c K c TO).
    - rewrite IH. destruct (c k0 k') eqn:E1; auto. destruct (c k k') eqn:E2; auto.
      assert (c k0 k = Eq); [|congruence]. apply (eq_cong_l k0 k' k); auto. now apply (eq_sym_c K c TO).
  Qed.
End Keys.

Section Dict.
  Variable K V : Type.
  Variable c : K -> K -> comparison.
  Variable TO : total_order c.
  Notation cmp := (fun a b => Some (c a b)).
  Notation shows := (d_shows K V c).

  Lemma absent_put_eq x m k v : lst_shows K (keys x) (map fst m) -> lst_shows V (vals x) (map snd m) -> ascending_keys K V c m ->
    forall m1 m2, absent K V c m k m1 m2 ->
    exists ks j vs, s_add K cmp (keys x) k = Ok (ks, j) /\ late (insert V (vals x) j v) = Ok vs /\
      shows (mkDict ks vs) (put K V c k v m).
  Proof.
    intros HK HV Ha m1 m2 Hb. destruct (add_absent K V c TO _ _ _ _ _ HK Ha Hb) as (y & n1 & n2 & Hn & E & Sy).
    rewrite (put_absent K V c _ _ _ _ v Hn). pose proof (asck_insert K V c TO _ _ _ _ v Ha Hn) as A'.
    destruct Hn as (-> & _). rewrite map_app in HV. destruct (insert_mid V (vals x) _ _ v HV) as (z & Ez & Sz).
    rewrite zlen_map in Ez. do 3 eexists. split; [exact E|]. split; [exact (late_ok z _ Ez)|].
    unfold d_shows. rewrite !map_app. cbn [map fst snd keys vals]. auto.
  Qed.
  Lemma d_step_ok d m o : shows d m ->
    exists d', d_step K V cmp d o = Ok (d', snd (md_step K V c m o)) /\ shows d' (fst (md_step K V c m o)).
  Proof.
    intros (HK & HV & Ha). unfold d_step, md_step. destruct o as [k v|k v|k| |k|k| |i|i]; cbn [d_step_raw md_step_raw].
    - (* Add *)
      unfold d_add. destruct (index_cases K V c TO _ _ k HK Ha) as [(m1 & k0 & v0 & m2 & F & E)|(m1 & m2 & F & E)]; rewrite E; cbn [bind].
      + pose proof (zlen_nonneg m1). replace (zlen m1 =? -1) with false by lia. cbn [negb bind].
        rewrite (lookup_found K V c _ _ _ _ _ _ F). eexists. split; [reflexivity|]. exact (conj HK (conj HV Ha)).
      + cbn [Z.eqb Pos.eqb negb]. rewrite (lookup_absent K V c _ _ _ _ F).
        destruct (absent_put_eq d m k v HK HV Ha _ _ F) as (ks & j & vs & E1 & E2 & S'). rewrite E1. cbn [bind]. rewrite E2. cbn [bind]. eexists. split; [reflexivity|]. exact S'.
    - (* Set *)
      unfold d_set. destruct (index_cases K V c TO _ _ k HK Ha) as [(m1 & k0 & v0 & m2 & F & E)|(m1 & m2 & F & E)]; rewrite E; cbn [bind].
      + pose proof (zlen_nonneg m1). replace (zlen m1 =? -1) with false by lia.
        rewrite (put_found K V c _ _ _ _ _ _ v F). destruct F as (-> & _). rewrite map_app in HV. cbn [map snd] in HV.
        destruct (set_mid V _ _ _ _ v HV) as (z & Ez & Sz). rewrite zlen_map in Ez. rewrite Ez. cbn [bind].
        eexists. split; [reflexivity|]. cbn [fst snd]. unfold d_shows. cbn [keys vals]. rewrite !map_app in *. cbn [map fst snd] in *.
        split; [exact HK|]. split; [exact Sz|]. eapply asck_replace; eauto.
      + cbn [Z.eqb Pos.eqb]. destruct (absent_put_eq d m k v HK HV Ha _ _ F) as (ks & j & vs & E1 & E2 & S'). rewrite E1. cbn [bind].
        rewrite E2. cbn [bind]. eexists. split; [reflexivity|]. exact S'.
    - (* Remove *)
      unfold d_remove. destruct (index_cases K V c TO _ _ k HK Ha) as [(m1 & k0 & v0 & m2 & F & E)|(m1 & m2 & F & E)]; rewrite E; cbn [bind].
      + pose proof (zlen_nonneg m1). replace (zlen m1 =? -1) with false by lia. cbn [negb].
        rewrite (lookup_found K V c _ _ _ _ _ _ F), (del_found K V c _ _ _ _ _ _ F). destruct F as (-> & _).
        rewrite map_app in HK, HV. cbn [map fst snd] in *.
        destruct (remove_mid K _ _ _ _ HK) as (y & Ey & Sy). destruct (remove_mid V _ _ _ _ HV) as (z & Ez & Sz).
        rewrite zlen_map in Ey. rewrite zlen_map in Ez. rewrite Ey. cbn [bind]. rewrite (late_ok z _ Ez). cbn [bind].
        eexists. split; [reflexivity|]. cbn [fst snd]. unfold d_shows. cbn [keys vals]. rewrite !map_app.
        split; [exact Sy|]. split; [exact Sz|]. eapply asck_drop; eauto.
      + cbn [Z.eqb Pos.eqb negb bind]. rewrite (lookup_absent K V c _ _ _ _ F). eexists. split; [reflexivity|]. exact (conj HK (conj HV Ha)).
    - (* Clear *)
      unfold d_clear. destruct (clear_ok K _ _ HK) as (y & Ey & Sy). destruct (clear_ok V _ _ HV) as (z & Ez & Sz).
      rewrite Ey. cbn [bind]. rewrite (late_ok z _ Ez). cbn [bind]. eexists. split; [reflexivity|].
      split; [exact Sy|]. split; [exact Sz|]. constructor.
    - (* Get *)
      unfold d_get. destruct (index_cases K V c TO _ _ k HK Ha) as [(m1 & k0 & v0 & m2 & F & E)|(m1 & m2 & F & E)]; rewrite E; cbn [bind].
      + rewrite (lookup_found K V c _ _ _ _ _ _ F). destruct F as (-> & _).
        assert (HV' := HV). rewrite map_app in HV'. cbn [map snd] in HV'. pose proof (get_mid V _ _ _ _ HV') as G.
        rewrite zlen_map in G. rewrite G. cbn [bind]. eexists. split; [reflexivity|]. exact (conj HK (conj HV Ha)).
      + rewrite (get_neg V _ _ HV), (lookup_absent K V c _ _ _ _ F). cbn [bind]. eexists. split; [reflexivity|]. exact (conj HK (conj HV Ha)).
    - (* Contains *)
      destruct (index_cases K V c TO _ _ k HK Ha) as [(m1 & k0 & v0 & m2 & F & E)|(m1 & m2 & F & E)]; rewrite E; cbn [bind].
      + pose proof (zlen_nonneg m1). replace (zlen m1 =? -1) with false by lia. rewrite (lookup_found K V c _ _ _ _ _ _ F).
        eexists. split; [reflexivity|]. exact (conj HK (conj HV Ha)).
      + rewrite (lookup_absent K V c _ _ _ _ F). eexists. split; [reflexivity|]. exact (conj HK (conj HV Ha)).
    - (* Count *)
      destruct (HK) as (C & _). rewrite C, zlen_map. eexists. split; [reflexivity|]. exact (conj HK (conj HV Ha)).
    - rewrite (get_ok K _ _ i HK), znth_map. destruct (znth m i) as [[k v]|]; cbn [option_map fst bind];
      (eexists; split; [reflexivity|]; exact (conj HK (conj HV Ha))).
    - rewrite (get_ok V _ _ i HV), znth_map. destruct (znth m i) as [[k v]|]; cbn [option_map snd bind];
      (eexists; split; [reflexivity|]; exact (conj HK (conj HV Ha))).
  Qed.
  Lemma d_run_ok os : forall d m, shows d m ->
    exists d', d_run K V cmp d os = Ok (d', snd (md_run K V c m os)) /\ shows d' (fst (md_run K V c m os)).
  Proof.
    induction os as [|o os IH]; intros d m H; cbn [d_run md_run].
    - exists d. now split.
    - destruct (d_step_ok d m o H) as (d' & E & H'). rewrite E. cbn [bind]. destruct (md_step K V c m o) as [m' r].
      cbn [fst snd] in *. destruct (IH d' m' H') as (d'' & E' & H''). rewrite E'. cbn [bind].
      destruct (md_run K V c m' os) as [m'' rs]. cbn [fst snd] in *. exists d''. now split.
  Qed.
  Lemma d_empty : shows empty_dict [].
  Proof. split; [apply empty_shows|]. split; [apply empty_shows|]. constructor. Qed.

  (* enumeration *)
  Lemma d_drive_ok d : forall m2 m1 e fuel, shows d (m1 ++ m2) -> d_index e = zlen m1 - 1 -> (length m2 < fuel)%nat ->
    d_drive K V d e fuel = Ok (combine (map Z.of_nat (seq (length m1) (length m2))) m2).
  Proof.
    induction m2 as [|[k v] m2 IH]; intros m1 e fuel H Hi Hf; (destruct fuel as [|fuel]; [lia|]); cbn [d_drive]; unfold d_next, d_update;
    cbn [d_index]; destruct (H) as (HK & HV & _); destruct (HK) as (C & _); rewrite C, zlen_map, zlen_app, Hi.
    - rewrite zlen_nil. replace (zlen m1 - 1 + 1 <? zlen m1 + 0) with false by lia. cbn [bind d_index].
      now rewrite Hi, Bool.andb_false_r || (replace (zlen m1 - 1 + 1 <? zlen m1 + 0) with false by lia; now rewrite Bool.andb_false_r).
    - rewrite zlen_cons. pose proof (zlen_nonneg m2). pose proof (zlen_nonneg m1).
      replace (zlen m1 - 1 + 1) with (zlen m1) by lia. replace (zlen m1 <? zlen m1 + (1 + zlen m2)) with true by lia.
      rewrite map_app in HK, HV. cbn [map fst snd] in HK, HV.
      pose proof (get_mid K _ _ _ _ HK) as G1. pose proof (get_mid V _ _ _ _ HV) as G2. rewrite zlen_map in G1. rewrite zlen_map in G2.
      rewrite G1, G2. cbn [bind d_index]. replace ((zlen m1 >=? 0) && (zlen m1 <? zlen m1 + (1 + zlen m2))) with true by lia.
      unfold d_cur. cbn [d_current bind].
      rewrite (IH (m1 ++ [(k, v)])); [|now rewrite <- app_assoc|cbn [d_index]; rewrite zlen_app, zlen_cons, zlen_nil; lia|cbn [length] in Hf; lia].
      cbn [bind length seq map combine]. unfold zlen. f_equal. rewrite app_length. cbn [length]. now rewrite Nat.add_1_r.
  Qed.
  Lemma d_enum_ok d m : shows d m -> d_drive K V d d_enum (length m + 1) = Ok (numbered m).
  Proof. intros H. apply (d_drive_ok d m []); auto; cbn; lia. Qed.
  Lemma d_reset_err d m e : shows d m -> d_reset K V d e = Err.
  Proof.
    intros (HK & _). unfold d_reset, d_update. cbn [d_index]. destruct (HK) as (C & _). rewrite C.
    pose proof (zlen_nonneg (map fst m)). replace (-1 <? zlen (map fst m)) with true by lia.
    now rewrite (get_neg K _ _ HK).
  Qed.
End Dict.

Section GroupP.
  Variable K V : Type.
  Variable c : K -> K -> comparison.
  Variable TO : total_order c.
  Notation cmp := (fun a b => Some (c a b)).
  Notation shows := (g_shows K V c).
  Notation L := (list V).
  Notation cell h p kv := (exists x, nth_error h p = Some (Some x) /\ lst_shows V x (snd kv)).
  Definition cells (h : list (option (lst V))) (ps : list nat) (m : fmap K L) : Prop := Forall2 (fun p kv => cell h p kv) ps m.

  Lemma cells_upd h ps m p z : cells h ps m -> ~ In p ps -> cells (upd h p z) ps m.
  Proof.
    unfold cells. induction 1 as [|q kv ps m (x & E & Sx) H IH]; intros N; constructor.
    - exists x. split; [|exact Sx]. rewrite upd_other; auto. intros ->. apply N. now left.
    - apply IH. intros Hi. apply N. now right.
  Qed.
  Lemma cells_grow h ps m z : cells h ps m -> cells (h ++ z) ps m.
  Proof.
    unfold cells. induction 1 as [|q kv ps m (x & E & Sx) H IH]; constructor; auto.
    exists x. split; [|exact Sx]. rewrite nth_error_app1; auto. now apply nth_error_lt in E.
  Qed.
  Lemma cells_split h ps m1 kv m2 : cells h ps (m1 ++ kv :: m2) ->
    exists ps1 p ps2, ps = ps1 ++ p :: ps2 /\ zlen ps1 = zlen m1 /\ cells h ps1 m1 /\ cell h p kv /\ cells h ps2 m2.
  Proof.
    unfold cells. intros H. apply Forall2_app_inv_r in H. destruct H as (ps1 & ps' & H1 & H2 & ->).
    inversion H2 as [|p ? ps2 ? Hp H3]; subst. exists ps1, p, ps2. split; [reflexivity|].
    split; [unfold zlen; now rewrite (Forall2_len _ _ _ H1)|]. auto.
  Qed.
  Lemma cells_join h ps1 p ps2 m1 kv m2 : cells h ps1 m1 -> cell h p kv -> cells h ps2 m2 -> cells h (ps1 ++ p :: ps2) (m1 ++ kv :: m2).
  Proof. intros H1 H2 H3. apply Forall2_app; [exact H1|]. constructor; auto. Qed.
  Lemma cells_lt h ps m p : cells h ps m -> In p ps -> (p < length h)%nat.
  Proof. induction 1 as [|q kv ps m (x & E & Sx) H IH]; intros Hi; [destruct Hi|]. destruct Hi as [<-|Hi]; auto. now apply nth_error_lt in E. Qed.
  Lemma NoDup_mid {A} (l1 : list A) a l2 : NoDup (l1 ++ a :: l2) -> ~ In a l1 /\ ~ In a l2 /\ NoDup (l1 ++ l2).
  Proof.
    intros H. pose proof (NoDup_remove_1 _ _ _ H). apply NoDup_remove_2 in H. rewrite in_app_iff in H. tauto.
  Qed.
  Lemma NoDup_mid_inv {A} (l1 : list A) a l2 : ~ In a (l1 ++ l2) -> NoDup (l1 ++ l2) -> NoDup (l1 ++ a :: l2).
  Proof. intros N H. apply (Permutation_NoDup (l := a :: l1 ++ l2)); [apply Permutation_middle|]. now constructor. Qed.

  Lemma by_index_ok g ps m1 kv m2 : lst_shows nat (gvals g) ps -> cells (gheap g) ps (m1 ++ kv :: m2) ->
    exists x, g_by_index K V g (zlen m1) = Ok x /\ lst_shows V x (snd kv).
  Proof.
    intros HP HC. destruct (cells_split _ _ _ _ _ HC) as (ps1 & p & ps2 & -> & Lp & _ & (x & E & Sx) & _).
    unfold g_by_index. rewrite <- Lp, (get_mid nat _ _ _ _ HP). cbn [bind]. unfold deref. rewrite E. eauto.
  Qed.

  Variable veq : V -> V -> bool.
  Lemma remove_first_pos v l : remove_first V veq v l =
    if first_pos V veq v l =? -1 then l else ztake V (first_pos V veq v l) l ++ zdrop V (first_pos V veq v l + 1) l.
  Proof.
    induction l as [|x l IH]; [reflexivity|]. cbn [remove_first first_pos]. destruct (veq x v) eqn:E; [reflexivity|]. cbv zeta.
    pose proof (first_pos_range V veq v l). rewrite IH. destruct (first_pos V veq v l =? -1) eqn:E1; [reflexivity|].
    replace (first_pos V veq v l + 1 =? -1) with false by lia. unfold ztake, zdrop.
    replace (Z.to_nat (first_pos V veq v l + 1)) with (S (Z.to_nat (first_pos V veq v l))) by lia.
    replace (Z.to_nat (first_pos V veq v l + 1 + 1)) with (S (S (Z.to_nat (first_pos V veq v l)))) by lia. reflexivity.
  Qed.
  Lemma remove_val_ok x l v : lst_shows V x l -> exists y b, remove V veq x v = Ok (y, b) /\ lst_shows V y (remove_first V veq v l).
  Proof.
    intros H. unfold remove. rewrite (index_of_ok V veq x l v H). cbn [bind]. destruct (H) as (C & _). rewrite C.
    pose proof (first_pos_range V veq v l) as R. rewrite remove_first_pos. destruct (first_pos V veq v l =? -1) eqn:E.
    - replace (first_pos V veq v l >=? 0) with false by lia. cbn [andb]. eauto.
    - replace ((first_pos V veq v l >=? 0) && (first_pos V veq v l <? zlen l)) with true by lia.
      destruct (remove_at_at V x l (first_pos V veq v l) H) as (y & Ey & Sy); [lia|]. rewrite Ey. cbn [bind]. eauto.
  Qed.

  Lemma delete_all_ok : forall ps2 ps1 g, lst_shows nat (gvals g) (ps1 ++ ps2) -> NoDup ps2 ->
    (forall p, In p ps2 -> exists x l, nth_error (gheap g) p = Some (Some x) /\ lst_shows V x l) ->
    exists g', g_delete_all K V g (zlen ps1) (length ps2) = Ok g' /\ gkeys g' = gkeys g /\ gvals g' = gvals g /\
      length (gheap g') = length (gheap g) /\
      forall q x, nth_error (gheap g') q = Some (Some x) -> nth_error (gheap g) q = Some (Some x) /\ ~ In q ps2.
  Proof.
    induction ps2 as [|p ps2 IH]; intros ps1 g HP ND HC; cbn [length g_delete_all].
    - exists g. repeat split; auto.
    - rewrite (get_mid nat _ _ _ _ HP). cbn [bind]. destruct (HC p (or_introl eq_refl)) as (x & l & E & Sx).
      unfold delete, deref. rewrite E. cbn [bind]. rewrite (destruct_ok V x l Sx). cbn [bind].
      inversion ND as [|? ? N1 N2]; subst. assert (Hp := nth_error_lt _ _ _ E).
      destruct (IH (ps1 ++ [p]) (setcell K V g p None)) as (g' & E' & G1 & G2 & G3 & G4).
      + now rewrite <- app_assoc.
      + exact N2.
      + intros q Hq. destruct (HC q (or_intror Hq)) as (x' & l' & Eq' & Sq). exists x', l'. split; [|exact Sq].
        cbn [gheap setcell]. rewrite upd_other; auto. congruence.
      + rewrite zlen_app, zlen_cons, zlen_nil in E'. replace (zlen ps1 + (1 + 0)) with (zlen ps1 + 1) in E' by lia.
        rewrite E'. exists g'. split; [reflexivity|]. cbn [gkeys gvals gheap setcell] in *. rewrite upd_length in G3.
        repeat split; auto.
        * destruct (G4 _ _ H) as [G5 _]. destruct (Nat.eq_dec q p) as [->|Nq]; [rewrite upd_same in G5 by auto; discriminate|].
          now rewrite upd_other in G5 by auto.
        * destruct (G4 _ _ H) as [G5 G6]. intros [<-|Hq]; auto. rewrite upd_same in G5 by auto. discriminate.
  Qed.

  Lemma g_step_ok g m o : shows g m ->
    exists g', g_step K V cmp veq g o = Ok (g', snd (mg_step K V c veq m o)) /\ shows g' (fst (mg_step K V c veq m o)).
  Proof.
    intros Hg. destruct (Hg) as (ps & HK & HP & HC & ND & HL & Ha & HN). unfold g_step, mg_step.
    destruct o as [k v|k|k v| |k|k v| |i|k|k i]; cbn [g_step_raw mg_step_raw].
    - (* Add *)
      unfold g_add. destruct (index_cases K L c TO _ _ k HK Ha) as [(m1 & k0 & vs & m2 & F & E)|(m1 & m2 & F & E)]; rewrite E; cbn [bind].
      + pose proof (zlen_nonneg m1). replace (zlen m1 =? -1) with false by lia.
        rewrite (lookup_found K L c _ _ _ _ _ _ F), (put_found K L c _ _ _ _ _ _ (vs ++ [v]) F). destruct F as (-> & _).
        destruct (cells_split _ _ _ _ _ HC) as (ps1 & p & ps2 & -> & Lp & C1 & (x & Ex & Sx) & C2). cbn [snd] in Sx.
        rewrite <- Lp, (get_mid nat _ _ _ _ HP). cbn [bind]. unfold deref. rewrite Ex. cbn [late bind].
        destruct (append_last V x vs v Sx) as (y & Ey & Sy). rewrite (late_ok y _ Ey). cbn [bind].
        eexists. split; [reflexivity|]. cbn [fst snd]. destruct (NoDup_mid _ _ _ ND) as (N1 & N2 & _).
        assert (Hp := nth_error_lt _ _ _ Ex).
        exists (ps1 ++ p :: ps2). cbn [gkeys gvals gheap setcell]. split; [rewrite map_app in *; exact HK|]. split; [exact HP|]. split.
        { apply cells_join; [now apply cells_upd| |now apply cells_upd]. exists y. cbn [snd]. split; [now apply upd_same|exact Sy]. }
        split; [exact ND|]. split.
        { intros q z Hq. destruct (Nat.eq_dec q p) as [->|Nq]; [apply in_or_app; right; now left|].
          rewrite upd_other in Hq by auto. eapply HL; eauto. }
        split; [eapply asck_replace; eauto|]. apply Forall_app in HN. destruct HN as [HN1 HN2]. inversion HN2; subst.
        apply Forall_app. split; [exact HN1|]. constructor; [|assumption]. cbn [snd]. now destruct vs.
      + cbn [Z.eqb Pos.eqb]. rewrite (lookup_absent K L c _ _ _ _ F).
        destruct (add_absent K L c TO _ _ _ _ _ HK Ha F) as (y & n1 & n2 & Hn & Ea & Sy). rewrite Ea. cbn [bind].
        rewrite (put_absent K L c _ _ _ _ [v] Hn). pose proof (asck_insert K L c TO _ _ _ _ [v] Ha Hn) as A'.
        destruct Hn as (-> & _). clear F. assert (HC' := HC). apply Forall2_app_inv_r in HC'. destruct HC' as (ps1 & ps2 & C1 & C2 & ->).
        destruct (insert_mid nat _ _ _ (length (gheap g)) HP) as (z & Ez & Sz).
        replace (zlen ps1) with (zlen n1) in Ez by (unfold zlen; now rewrite (Forall2_len _ _ _ C1)).
        rewrite (late_ok z _ Ez). cbn [bind]. unfold deref. cbn [gheap]. rewrite nth_error_app2 by lia. rewrite Nat.sub_diag.
        cbn [nth_error late bind]. destruct (append_last V _ _ v (empty_shows V)) as (w & Ew & Sw). rewrite (late_ok w _ Ew).
        cbn [bind]. eexists. split; [reflexivity|]. cbn [fst snd]. exists (ps1 ++ length (gheap g) :: ps2). cbn [gkeys gvals gheap setcell].
        assert (Nh : ~ In (length (gheap g)) (ps1 ++ ps2)) by (intros Hi; pose proof (cells_lt _ _ _ _ HC Hi); lia).
        split; [rewrite map_app; exact Sy|]. split; [exact Sz|]. split.
        { apply cells_join.
          - apply cells_upd; [now apply cells_grow|]. intros Hi. apply Nh. apply in_or_app. now left.
          - exists w. split; [|exact Sw]. apply upd_same. rewrite app_length. cbn [length]. lia.
          - apply cells_upd; [now apply cells_grow|]. intros Hi. apply Nh. apply in_or_app. now right. }
        split; [now apply NoDup_mid_inv|]. split.
        { intros q u Hq. destruct (Nat.eq_dec q (length (gheap g))) as [->|Nq]; [apply in_or_app; right; now left|].
          rewrite upd_other in Hq by auto. pose proof (nth_error_lt _ _ _ Hq) as Hl. rewrite app_length in Hl. cbn [length] in Hl.
          rewrite nth_error_app1 in Hq by lia. apply HL in Hq. rewrite in_app_iff in *. cbn [In]. tauto. }
        split; [exact A'|]. apply Forall_app in HN. destruct HN as [HN1 HN2]. apply Forall_app. split; [exact HN1|].
        constructor; [discriminate|exact HN2].
    - (* Remove(key) *)
      unfold g_remove. destruct (index_cases K L c TO _ _ k HK Ha) as [(m1 & k0 & vs & m2 & F & E)|(m1 & m2 & F & E)]; rewrite E; cbn [bind].
      + pose proof (zlen_nonneg m1). replace (zlen m1 =? -1) with false by lia. cbn [negb].
        rewrite (lookup_found K L c _ _ _ _ _ _ F), (del_found K L c _ _ _ _ _ _ F). destruct F as (-> & _).
        destruct (cells_split _ _ _ _ _ HC) as (ps1 & p & ps2 & -> & Lp & C1 & (x & Ex & Sx) & C2). cbn [snd] in Sx.
        rewrite map_app in HK. cbn [map fst] in HK. destruct (remove_mid K _ _ _ _ HK) as (y & Ey & Sy). rewrite zlen_map in Ey.
        rewrite Ey. cbn [bind]. rewrite <- Lp, (late_ok p _ (get_mid nat _ _ _ _ HP)). cbn [bind].
        destruct (remove_mid nat _ _ _ _ HP) as (z & Ez & Sz). rewrite (late_ok z _ Ez). cbn [bind]. unfold delete, deref. cbn [gheap].
        rewrite Ex. cbn [bind]. rewrite (destruct_ok V x vs Sx). cbn [late bind].
        eexists. split; [reflexivity|]. cbn [fst snd]. destruct (NoDup_mid _ _ _ ND) as (N1 & N2 & N3).
        assert (Hp := nth_error_lt _ _ _ Ex).
        exists (ps1 ++ ps2). cbn [gkeys gvals gheap setcell]. split; [rewrite map_app; exact Sy|]. split; [exact Sz|]. split.
        { apply Forall2_app; now apply cells_upd. }
        split; [exact N3|]. split.
        { intros q u Hq. destruct (Nat.eq_dec q p) as [->|Nq]; [rewrite upd_same in Hq by auto; discriminate|].
          rewrite upd_other in Hq by auto. apply HL in Hq. rewrite in_app_iff in *. cbn [In] in Hq. intuition congruence. }
        split; [eapply asck_drop; eauto|]. apply Forall_app in HN. destruct HN as [HN1 HN2]. inversion HN2; subst.
        apply Forall_app. now split.
      + cbn [Z.eqb Pos.eqb negb bind]. rewrite (lookup_absent K L c _ _ _ _ F). eexists. split; [reflexivity|]. exact Hg.
    - (* Remove(key, value) *)
      unfold g_remove_value. destruct (index_cases K L c TO _ _ k HK Ha) as [(m1 & k0 & vs & m2 & F & E)|(m1 & m2 & F & E)]; rewrite E; cbn [bind].
      + pose proof (zlen_nonneg m1). replace (zlen m1 =? -1) with false by lia. cbn [negb].
        rewrite (lookup_found K L c _ _ _ _ _ _ F), (del_found K L c _ _ _ _ _ _ F).
        pose proof (fun w => put_found K L c _ _ _ _ _ _ w F) as PF. destruct F as (-> & _).
        destruct (cells_split _ _ _ _ _ HC) as (ps1 & p & ps2 & -> & Lp & C1 & (x & Ex & Sx) & C2). cbn [snd] in Sx.
        rewrite <- Lp, (get_mid nat _ _ _ _ HP). cbn [bind]. unfold deref at 1. rewrite Ex. cbn [bind].
        destruct (remove_val_ok x vs v Sx) as (w & b & Ew & Sw). rewrite Ew. cbn [bind]. cbv zeta.
        destruct (NoDup_mid _ _ _ ND) as (N1 & N2 & N3). assert (Hp := nth_error_lt _ _ _ Ex).
        assert (Cw : count w = zlen (remove_first V veq v vs)) by apply Sw. rewrite Cw.
        destruct (remove_first V veq v vs) as [|v1 vs1] eqn:Er.
        * cbn [zlen length Z.of_nat Z.eqb]. rewrite map_app in HK. cbn [map fst] in HK. cbn [gkeys gvals setcell].
          destruct (remove_mid K _ _ _ _ HK) as (y & Ey & Sy). rewrite zlen_map in Ey.
          rewrite Lp. rewrite (late_ok y _ Ey). cbn [bind]. rewrite <- Lp.
          destruct (remove_mid nat _ _ _ _ HP) as (z & Ez & Sz). rewrite (late_ok z _ Ez). cbn [bind]. unfold delete, deref. cbn [gheap setcell].
          rewrite upd_same by auto. cbn [bind]. rewrite (destruct_ok V w _ Sw). cbn [late bind].
          eexists. split; [reflexivity|]. cbn [fst snd]. 
          exists (ps1 ++ ps2). cbn [gkeys gvals gheap setcell]. split; [rewrite map_app; exact Sy|]. split; [exact Sz|]. split.
          { apply Forall2_app; (apply cells_upd; [now apply cells_upd|auto]). }
          split; [exact N3|]. split.
          { intros q u Hq. destruct (Nat.eq_dec q p) as [->|Nq]; [rewrite upd_same in Hq by (rewrite upd_length; auto); discriminate|].
            rewrite !upd_other in Hq by auto. apply HL in Hq. rewrite in_app_iff in *. cbn [In] in Hq. intuition congruence. }
          split; [eapply asck_drop; eauto|]. apply Forall_app in HN. destruct HN as [HN1 HN2]. inversion HN2; subst.
          apply Forall_app. now split.
        * rewrite zlen_cons. pose proof (zlen_nonneg vs1). replace (1 + zlen vs1 =? 0) with false by lia. cbn [bind].
          rewrite PF. eexists. split; [reflexivity|]. cbn [fst snd].
          exists (ps1 ++ p :: ps2). cbn [gkeys gvals gheap setcell]. split; [rewrite map_app in *; exact HK|]. split; [exact HP|]. split.
          { apply cells_join; [now apply cells_upd| |now apply cells_upd]. exists w. cbn [snd]. split; [now apply upd_same|exact Sw]. }
          split; [exact ND|]. split.
          { intros q z Hq. destruct (Nat.eq_dec q p) as [->|Nq]; [apply in_or_app; right; now left|].
            rewrite upd_other in Hq by auto. eapply HL; eauto. }
          split; [eapply asck_replace; eauto|]. apply Forall_app in HN. destruct HN as [HN1 HN2]. inversion HN2; subst.
          apply Forall_app. split; [exact HN1|]. constructor; [discriminate|assumption].
      + cbn [Z.eqb Pos.eqb negb bind]. rewrite (lookup_absent K L c _ _ _ _ F). eexists. split; [reflexivity|]. exact Hg.
    - (* Clear *)
      unfold g_clear. assert (Cv : count (gvals g) = zlen ps) by apply HP. rewrite Cv, zlen_to_nat.
      destruct (delete_all_ok ps [] g HP ND) as (g' & E' & G1 & G2 & G3 & G4).
      { intros p Hp. apply in_split in Hp. destruct Hp as (ps1 & ps2 & ->). apply Forall2_app_inv_l in HC.
        destruct HC as (m1 & m2 & _ & C2 & _). inversion C2 as [|? kv ? ? (x & Ex & Sx) _]; subst. eauto. }
      change (zlen []) with 0 in E'. rewrite E'. cbn [bind]. rewrite G1, G2.
      destruct (clear_ok K _ _ HK) as (y & Ey & Sy). destruct (clear_ok nat _ _ HP) as (z & Ez & Sz).
      rewrite (late_ok y _ Ey). cbn [bind]. rewrite (late_ok z _ Ez). cbn [bind]. eexists. split; [reflexivity|]. cbn [fst snd].
      exists []. cbn [gkeys gvals gheap map]. split; [exact Sy|]. split; [exact Sz|]. split; [constructor|]. split; [constructor|]. split.
      { intros q x Hq. destruct (G4 _ _ Hq) as [G5 G6]. apply HL in G5. contradiction. }
      split; constructor.
    - (* Contains(key) *)
      destruct (index_cases K L c TO _ _ k HK Ha) as [(m1 & k0 & v0 & m2 & F & E)|(m1 & m2 & F & E)]; rewrite E; cbn [bind].
      + pose proof (zlen_nonneg m1). replace (zlen m1 =? -1) with false by lia. rewrite (lookup_found K L c _ _ _ _ _ _ F).
        eexists. split; [reflexivity|]. exact Hg.
      + rewrite (lookup_absent K L c _ _ _ _ F). eexists. split; [reflexivity|]. exact Hg.
    - (* Contains(key, value) *)
      unfold g_contains_value. destruct (index_cases K L c TO _ _ k HK Ha) as [(m1 & k0 & vs & m2 & F & E)|(m1 & m2 & F & E)]; rewrite E; cbn [bind].
      + pose proof (zlen_nonneg m1). replace (zlen m1 =? -1) with false by lia. cbn [negb]. rewrite (lookup_found K L c _ _ _ _ _ _ F).
        destruct F as (-> & _). destruct (by_index_ok g ps _ _ _ HP HC) as (x & Ex & Sx). rewrite Ex. cbn [bind snd] in *.
        rewrite (index_of_ok V veq x vs v Sx). cbn [bind]. rewrite first_pos_existsb. eexists. split; [reflexivity|]. exact Hg.
      + rewrite (lookup_absent K L c _ _ _ _ F). cbn [Z.eqb Pos.eqb negb bind]. eexists. split; [reflexivity|]. exact Hg.
    - destruct (HK) as (C & _). rewrite C, zlen_map. eexists. split; [reflexivity|]. exact Hg.
    - rewrite (get_ok K _ _ i HK), znth_map. destruct (znth m i) as [[k v]|]; cbn [option_map fst bind];
      (eexists; split; [reflexivity|]; exact Hg).
    - unfold g_get. destruct (index_cases K L c TO _ _ k HK Ha) as [(m1 & k0 & vs & m2 & F & E)|(m1 & m2 & F & E)]; rewrite E; cbn [bind].
      + rewrite (lookup_found K L c _ _ _ _ _ _ F).
        destruct F as (-> & _). destruct (by_index_ok g ps _ _ _ HP HC) as (x & Ex & Sx). rewrite Ex. cbn [bind snd] in *.
        destruct (Sx) as (C & _). rewrite C. eexists. split; [reflexivity|]. exact Hg.
      + unfold g_by_index. rewrite (get_neg nat _ _ HP), (lookup_absent K L c _ _ _ _ F). cbn [bind]. eexists. split; [reflexivity|]. exact Hg.
    - unfold g_get. destruct (index_cases K L c TO _ _ k HK Ha) as [(m1 & k0 & vs & m2 & F & E)|(m1 & m2 & F & E)]; rewrite E; cbn [bind].
      + rewrite (lookup_found K L c _ _ _ _ _ _ F).
        destruct F as (-> & _). destruct (by_index_ok g ps _ _ _ HP HC) as (x & Ex & Sx). rewrite Ex. cbn [bind snd] in *.
        rewrite (get_ok V _ _ i Sx). destruct (znth vs i); cbn [bind]; (eexists; split; [reflexivity|]; exact Hg).
      + unfold g_by_index. rewrite (get_neg nat _ _ HP), (lookup_absent K L c _ _ _ _ F). cbn [bind]. eexists. split; [reflexivity|]. exact Hg.
  Qed.
  Lemma g_run_ok os : forall g m, shows g m ->
    exists g', g_run K V cmp veq g os = Ok (g', snd (mg_run K V c veq m os)) /\ shows g' (fst (mg_run K V c veq m os)).
  Proof.
    induction os as [|o os IH]; intros d m H; cbn [g_run mg_run].
    - exists d. now split.
    - destruct (g_step_ok d m o H) as (d' & E & H'). rewrite E. cbn [bind]. destruct (mg_step K V c veq m o) as [m' r].
      cbn [fst snd] in *. destruct (IH d' m' H') as (d'' & E' & H''). rewrite E'. cbn [bind].
      destruct (mg_run K V c veq m' os) as [m'' rs]. cbn [fst snd] in *. exists d''. now split.
  Qed.
  Lemma g_empty : shows empty_group [].
  Proof.
    exists []. split; [apply empty_shows|]. split; [apply empty_shows|]. split; [constructor|]. split; [constructor|].
    split; [|split; constructor]. intros p x H. destruct p; discriminate.
  Qed.
  Lemma g_no_leak g p x : shows g [] -> nth_error (gheap g) p <> Some (Some x).
  Proof. intros (ps & _ & _ & C & _ & HL & _) E. inversion C; subst. exact (HL _ _ E). Qed.
End GroupP.

Section GroupE.
  Variable K V : Type.
  Variable c : K -> K -> comparison.
  Notation shows := (g_shows K V c).
  Notation L := (list V).
  Notation pairs := (pairs_of K V).

  Lemma pairs_app a b : pairs (a ++ b) = pairs a ++ pairs b.
  Proof. apply flat_map_app. Qed.
  Lemma g_by_ok g m1 kv m2 : shows g (m1 ++ kv :: m2) -> exists x, g_by_index K V g (zlen m1) = Ok x /\ lst_shows V x (snd kv).
  Proof. intros (ps & _ & HP & HC & _). eapply by_index_ok; eauto. Qed.
  Lemma g_count g m : shows g m -> count (gkeys g) = zlen m.
  Proof. intros (ps & (C & _) & _). now rewrite C, zlen_map. Qed.
  Lemma g_key_mid g m1 k vs m2 : shows g (m1 ++ (k, vs) :: m2) -> get K (gkeys g) (zlen m1) = Ok k.
  Proof. intros (ps & HK & _). rewrite map_app in HK. pose proof (get_mid K _ _ _ _ HK) as G. now rewrite zlen_map in G. Qed.
  Lemma g_sum_ok g : forall m2 m1 m3, shows g (m1 ++ m2 ++ m3) -> g_sum K V g (zlen m1) (length m2) = Ok (zlen (pairs m2)).
  Proof.
    induction m2 as [|kv m2 IH]; intros m1 m3 H; cbn [length g_sum]; [reflexivity|].
    destruct (g_by_ok _ _ _ _ H) as (x & E & (C & _)). rewrite E. cbn [bind].
    specialize (IH (m1 ++ [kv]) m3). rewrite <- app_assoc, zlen_app, zlen_cons, zlen_nil in IH.
    replace (zlen m1 + (1 + 0)) with (zlen m1 + 1) in IH by lia. rewrite (IH H). cbn [bind]. f_equal.
    unfold pairs_of. cbn [flat_map]. rewrite zlen_app, zlen_map, C. reflexivity.
  Qed.
  (* one step inside a key *)
  Lemma g_next_here g m1 k vs1 v vs2 m2 cur fuel : shows g (m1 ++ (k, vs1 ++ v :: vs2) :: m2) ->
    g_next_loop K V g (mkGEnum (zlen m1) (zlen vs1 - 1) cur) (S fuel) = Ok (mkGEnum (zlen m1) (zlen vs1) (Some (k, v)), true).
  Proof.
    intros H. cbn [g_next_loop]. cbv zeta. cbn [g_key g_val g_current]. rewrite (g_count g _ H). pose proof (zlen_nonneg m2).
    rewrite zlen_app, zlen_cons. replace (zlen m1 <? zlen m1 + (1 + zlen m2)) with true by lia.
    destruct (g_by_ok _ _ _ _ H) as (x & E & Sx). cbn [snd] in Sx. rewrite E. cbn [bind]. destruct (Sx) as (C & _). rewrite C.
    replace (zlen vs1 - 1 + 1) with (zlen vs1) by lia. rewrite zlen_app, zlen_cons. pose proof (zlen_nonneg vs2).
    replace (zlen vs1 <? zlen vs1 + (1 + zlen vs2)) with true by lia. unfold g_update. cbn [g_key g_val].
    rewrite (g_count g _ H), zlen_app, zlen_cons. replace (zlen m1 <? zlen m1 + (1 + zlen m2)) with true by lia.
    rewrite E. cbn [bind]. rewrite C, zlen_app, zlen_cons. replace (zlen vs1 <? zlen vs1 + (1 + zlen vs2)) with true by lia.
    rewrite (g_key_mid _ _ _ _ _ H). cbn [bind]. rewrite (get_mid V _ _ _ _ Sx). reflexivity.
  Qed.
  (* leaving a key *)
  Lemma g_next_leave g m1 k vs m2 cur fuel : shows g (m1 ++ (k, vs) :: m2) ->
    g_next_loop K V g (mkGEnum (zlen m1) (zlen vs - 1) cur) (S fuel) = g_next_loop K V g (mkGEnum (zlen m1 + 1) (-1) cur) fuel.
  Proof.
    intros H. cbn [g_next_loop]. cbv zeta. cbn [g_key g_val g_current]. rewrite (g_count g _ H). pose proof (zlen_nonneg m2).
    rewrite zlen_app, zlen_cons. replace (zlen m1 <? zlen m1 + (1 + zlen m2)) with true by lia.
    destruct (g_by_ok _ _ _ _ H) as (x & E & Sx). cbn [snd] in Sx. rewrite E. cbn [bind]. destruct (Sx) as (C & _). rewrite C.
    now replace (zlen vs - 1 + 1 <? zlen vs) with false by lia.
  Qed.
  Lemma g_next_stop g m cur fuel : shows g m -> g_next_loop K V g (mkGEnum (zlen m) (-1) cur) (S fuel) = Ok (mkGEnum (zlen m) (-1) cur, false).
  Proof. intros H. cbn [g_next_loop g_key]. rewrite (g_count g _ H). now replace (zlen m <? zlen m) with false by lia. Qed.
  Lemma g_index_ok g m1 kv m2 j cur : shows g (m1 ++ kv :: m2) ->
    g_index K V g (mkGEnum (zlen m1) j cur) = Ok (zlen (pairs m1) + j).
  Proof.
    intros H. unfold g_index. cbn [g_key g_val]. rewrite (g_count g _ H), zlen_app, zlen_cons.
    pose proof (zlen_nonneg m1). pose proof (zlen_nonneg m2).
    replace ((0 <=? zlen m1) && (zlen m1 <? zlen m1 + (1 + zlen m2))) with true by lia.
    rewrite zlen_to_nat. pose proof (g_sum_ok g m1 [] (kv :: m2) H) as E. change (zlen []) with 0 in E. rewrite E. reflexivity.
  Qed.
  Lemma g_drive_ok g : forall fuel m1 k vs1 vs2 m2 cur, shows g (m1 ++ (k, vs1 ++ vs2) :: m2) ->
    (length (map (pair k) vs2 ++ pairs m2) < fuel)%nat ->
    g_drive K V g (mkGEnum (zlen m1) (zlen vs1 - 1) cur) fuel =
      Ok (combine (map Z.of_nat (seq (length (pairs m1) + length vs1) (length (map (pair k) vs2 ++ pairs m2)))) (map (pair k) vs2 ++ pairs m2)).
  Proof.
    induction fuel as [|fuel IH]; intros m1 k vs1 vs2 m2 cur H Hf; [lia|]. cbn [g_drive]. unfold g_next. cbn [g_key].
    pose proof (zlen_nonneg m1). replace (zlen m1 =? -1) with false by lia.
    rewrite (g_count g _ H). rewrite zlen_app, zlen_cons. pose proof (zlen_nonneg m2).
    destruct vs2 as [|v vs2].
    - rewrite app_nil_r in H. replace (Z.to_nat (zlen m1 + (1 + zlen m2)) + 1)%nat with (S (S (Z.to_nat (zlen m1 + zlen m2)))) by lia.
      rewrite (g_next_leave g m1 k vs1 m2 cur _ H). destruct m2 as [|[k2 vs2] m2].
      + replace (zlen m1 + 1) with (zlen (m1 ++ [(k, vs1)])) by (rewrite zlen_app, zlen_cons, zlen_nil; lia).
        rewrite (g_next_stop g _ cur _ H). reflexivity.
      + assert (H2 : shows g ((m1 ++ [(k, vs1)]) ++ (k2, vs2) :: m2)) by now rewrite <- app_assoc.
        assert (Hv : vs2 <> []).
        { destruct H as (ps & _ & _ & _ & _ & _ & _ & HN). apply Forall_app in HN. destruct HN as [_ HN]. inversion HN as [|? ? _ HN2]; subst.
          inversion HN2; subst. assumption. }
        destruct vs2 as [|v vs2]; [congruence|]. 
        replace (zlen m1 + 1) with (zlen (m1 ++ [(k, vs1)])) by (rewrite zlen_app, zlen_cons, zlen_nil; lia).
        change (-1) with (zlen (@nil V) - 1) at 1.
        rewrite (g_next_here g (m1 ++ [(k, vs1)]) k2 [] v vs2 m2 cur _ H2). cbn [bind].
        rewrite (g_index_ok g (m1 ++ [(k, vs1)]) (k2, v :: vs2) m2 _ _ H2). unfold g_cur. cbn [bind g_current].
        cbn [map app pairs_of flat_map] in Hf |- *. fold pairs in *. cbn [fst snd map app length] in Hf |- *.
        specialize (IH (m1 ++ [(k, vs1)]) k2 [v] vs2 m2 (Some (k2, v)) H2).
        replace (zlen [v] - 1) with (zlen (@nil V)) in IH by reflexivity. rewrite IH; [|unfold pairs_of in *; lia]. clear IH. cbn [bind seq map combine].
        assert (Ep : length (pairs (m1 ++ [(k, vs1)])) = (length (pairs m1) + length vs1)%nat).
        { rewrite pairs_app, app_length. cbn [pairs_of flat_map fst snd]. rewrite app_nil_r, map_length. reflexivity. }
        unfold zlen. rewrite Ep. cbn [length Z.of_nat]. rewrite Z.add_0_r, Nat.add_1_r. reflexivity.
    - rewrite Nat.add_1_r. rewrite (g_next_here g m1 k vs1 v vs2 m2 cur _ H). cbn [bind].
      rewrite (g_index_ok g m1 _ m2 _ _ H). unfold g_cur. cbn [bind g_current].
      cbn [map app length] in Hf |- *. specialize (IH m1 k (vs1 ++ [v]) vs2 m2 (Some (k, v))). rewrite <- app_assoc in IH. specialize (IH H).
      rewrite zlen_app, zlen_cons, zlen_nil in IH. replace (zlen vs1 + (1 + 0) - 1) with (zlen vs1) in IH by lia.
      rewrite IH by lia. cbn [bind seq map combine]. rewrite app_length. cbn [length].
      replace (length (pairs m1) + (length vs1 + 1))%nat with (S (length (pairs m1) + length vs1)) by lia.
      unfold zlen. now rewrite Nat2Z.inj_add.
  Qed.
  Lemma g_enum_ok g m : shows g m -> g_drive K V g g_enum (length (pairs m) + 1) = Ok (numbered (pairs m)).
  Proof.
    intros H. destruct m as [|[k vs] m].
    - cbn [pairs_of flat_map length Nat.add g_drive]. unfold g_next. cbn [g_enum g_key g_val g_current Z.eqb Pos.eqb].
      rewrite Nat.add_1_r. cbn [g_next_loop g_key]. rewrite (g_count g _ H). reflexivity.
    - pose proof (g_drive_ok g (length (pairs ((k, vs) :: m)) + 1) [] k [] vs m None H) as E.
      cbn [pairs_of flat_map fst snd] in E |- *. fold (pairs m) in *. specialize (E ltac:(lia)).
      rewrite Nat.add_1_r in *. cbn [length Nat.add] in E. unfold numbered. rewrite <- E. reflexivity.
  Qed.
  Lemma g_reset_err g m e : shows g m -> g_reset K V g e = Err.
  Proof.
    intros H. unfold g_reset, g_update. cbn [g_key]. rewrite (g_count g _ H). pose proof (zlen_nonneg m).
    replace (-1 <? zlen m) with true by lia. unfold g_by_index. destruct H as (ps & _ & HP & _). now rewrite (get_neg nat _ _ HP).
  Qed.
End GroupE.

Section JoinP.
  Variable K V W : Type.
  Variable c : K -> K -> comparison.
  Variable TO : total_order c.
  Notation cmp := (fun a b => Some (c a b)).
  Fixpoint mj (m : fmap K (list V)) (n : fmap K (list W)) (fuel : nat) : list (event K V W) :=
    match fuel with
    | O => []
    | S fuel' =>
        match m, n with
        | (k1, vs) :: m', (k2, ws) :: n' =>
            match c k1 k2 with
            | Lt => Discard1 k1 vs :: mj m' n fuel'
            | Gt => Discard2 k2 ws :: mj m n' fuel'
            | Eq => Accept k1 vs ws :: mj m' n' fuel'
            end
        | (k1, vs) :: m', [] => Discard1 k1 vs :: mj m' n fuel'
        | [], (k2, ws) :: n' => Discard2 k2 ws :: mj m n' fuel'
        | [], [] => []
        end
    end.
  Lemma contents_ok {U} (x : lst U) l : lst_shows U x l -> contents x = Ok l.
  Proof.
    intros H. unfold contents. destruct (H) as (C & _). rewrite C, zlen_to_nat. 
    enough (G : forall l2 l1 i, l = l1 ++ l2 -> i = zlen l1 ->
      (fix go (i : Z) (n : nat) : res (list U) :=
        match n with O => Ok [] | S n' => do v <- get U x i; do l <- go (i + 1) n'; Ok (v :: l) end) i (length l2) = Ok l2)
      by (apply (G l []); reflexivity).
    induction l2 as [|a l2 IH]; intros l1 i El Ei; [reflexivity|]. cbn [length]. subst i. rewrite El in H.
    rewrite (get_mid U _ _ _ _ H). cbn [bind]. rewrite (IH (l1 ++ [a])); [reflexivity| |].
    - rewrite El. now rewrite <- app_assoc.
    - rewrite zlen_app, zlen_cons, zlen_nil. lia.
  Qed.
  Lemma join_ok a b : forall fuel m1 m2 n1 n2, g_shows K V c a (m1 ++ m2) -> g_shows K W c b (n1 ++ n2) ->
    (length m2 + length n2 < fuel)%nat -> join K V W cmp a b (zlen m1) (zlen n1) fuel = Ok (mj m2 n2 fuel).
  Proof.
    induction fuel as [|fuel IH]; intros m1 m2 n1 n2 HA HB Hf; [lia|]. cbn [join mj].
    rewrite (g_count K V c _ _ HA), (g_count K W c _ _ HB), !zlen_app.
    pose proof (zlen_nonneg m1). pose proof (zlen_nonneg n1).
    assert (Nx : forall (T : Type) (x : list T) y, zlen x + 1 = zlen (x ++ [y])) by (intros; rewrite zlen_app, zlen_cons, zlen_nil; lia).
    assert (GA : forall k vs m', m2 = (k, vs) :: m' -> (zlen m1 <? zlen m1 + zlen m2) = true /\ get K (gkeys a) (zlen m1) = Ok k /\
       (exists x, g_by_index K V a (zlen m1) = Ok x /\ contents x = Ok vs) /\ g_shows K V c a ((m1 ++ [(k, vs)]) ++ m')).
    { intros k vs m' ->. rewrite zlen_cons. pose proof (zlen_nonneg m'). split; [lia|]. split; [eapply g_key_mid; eauto|].
      split; [|now rewrite <- app_assoc]. destruct (g_by_ok K V c _ _ _ _ HA) as (x & E & Sx). exists x. split; auto. now apply contents_ok in Sx. }
    assert (GB : forall k vs n', n2 = (k, vs) :: n' -> (zlen n1 <? zlen n1 + zlen n2) = true /\ get K (gkeys b) (zlen n1) = Ok k /\
       (exists x, g_by_index K W b (zlen n1) = Ok x /\ contents x = Ok vs) /\ g_shows K W c b ((n1 ++ [(k, vs)]) ++ n')).
    { intros k vs m' ->. rewrite zlen_cons. pose proof (zlen_nonneg m'). split; [lia|]. split; [eapply g_key_mid; eauto|].
      split; [|now rewrite <- app_assoc]. destruct (g_by_ok K W c _ _ _ _ HB) as (x & E & Sx). exists x. split; auto. now apply contents_ok in Sx. }
    destruct m2 as [|[k1 vs] m']; [clear GA|destruct (GA _ _ _ eq_refl) as (-> & -> & (x1 & -> & Ex1) & HA'); cbn [bind]];
    (destruct n2 as [|[k2 ws] n']; [clear GB|destruct (GB _ _ _ eq_refl) as (-> & -> & (x2 & -> & Ex2) & HB'); cbn [bind]]);
    rewrite ?zlen_nil, ?Z.add_0_r, ?Z.ltb_irrefl; auto.
    - rewrite Ex2. cbn [bind]. rewrite (Nx _ n1 (k2, ws)), (IH m1 [] _ n'); auto. cbn [length] in *. lia.
    - rewrite Ex1. cbn [bind]. rewrite (Nx _ m1 (k1, vs)), (IH _ m' n1 []); auto. cbn [length] in *. lia.
    - destruct (c k1 k2) eqn:E.
      + rewrite Ex1, Ex2. cbn [bind]. rewrite (Nx _ m1 (k1, vs)), (Nx _ n1 (k2, ws)), (IH _ m' _ n'); auto. cbn [length] in *. lia.
      + rewrite Ex1. cbn [bind]. rewrite (Nx _ m1 (k1, vs)), (IH _ m' n1 ((k2, ws) :: n')); auto. cbn [length] in *. lia.
      + rewrite Ex2. cbn [bind]. rewrite (Nx _ n1 (k2, ws)), (IH m1 ((k1, vs) :: m') _ n'); auto. cbn [length] in *. lia.
  Qed.
  Lemma flat_map_ext_in {A B} (f g : A -> list B) l : (forall a, In a l -> f a = g a) -> flat_map f l = flat_map g l.
  Proof. induction l as [|a l IH]; intros H; auto. cbn [flat_map]. rewrite (H a) by now left. f_equal. apply IH. intros; apply H. now right. Qed.
  Lemma lookup_skip {U} k0 (v0 : U) m k : c k0 k <> Eq -> lookup K U c k ((k0, v0) :: m) = lookup K U c k m.
  Proof. intros H. cbn [lookup]. now destruct (c k0 k). Qed.
  Lemma lookup_none_lt {U} (m : fmap K U) k : (forall p, In p m -> c k (fst p) = Lt) -> lookup K U c k m = None.
  Proof. intros H. apply lookup_above. intros p Hp. apply (gt_lt K c TO). now apply H. Qed.

  Lemma mj_ok : forall fuel m n, ascending_keys K (list V) c m -> ascending_keys K (list W) c n -> (length m + length n < fuel)%nat ->
    accepts K V W (mj m n fuel) = joined K V W c m n /\
    discards1 K V W (mj m n fuel) = only_first K V W c m n /\
    discards2 K V W (mj m n fuel) = only_second K V W c m n /\
    StronglySorted (fun x y => c x y = Lt) (map event_key (mj m n fuel)) /\
    (forall e, In e (mj m n fuel) -> In (event_key e) (map fst m) \/ In (event_key e) (map fst n)).
  Proof.
    induction fuel as [|fuel IH]; intros m n Hm Hn Hf; [lia|]. destruct m as [|[k1 vs] m]; destruct n as [|[k2 ws] n].
    - cbn. split; [reflexivity|]. split; [reflexivity|]. split; [reflexivity|]. split; [constructor|]. intros e [].
    - destruct (IH [] n) as (I1 & I2 & I3 & I4 & I5); auto; [apply asck_cons in Hn; tauto|cbn [length] in *; lia|].
      cbn [mj accepts discards1 discards2 flat_map app]. fold (accepts K V W) (discards1 K V W) (discards2 K V W).
      split; [exact I1|]. split; [exact I2|]. split; [unfold only_second in *; cbn [filter lookup]; now f_equal|]. split.
      + cbn [map event_key]. constructor; auto. rewrite Forall_forall. intros k Hk. apply in_map_iff in Hk. destruct Hk as (e & <- & He).
        destruct (I5 e He) as [[]|Hi]. apply in_map_iff in Hi. destruct Hi as (p & <- & Hp). apply asck_cons in Hn. now apply Hn.
      + intros e [<-|He]; [right; now left|]. destruct (I5 e He); [now left|right; now right].
    - destruct (IH m []) as (I1 & I2 & I3 & I4 & I5); auto; [apply asck_cons in Hm; tauto|cbn [length] in *; lia|].
      cbn [mj accepts discards1 discards2 flat_map app]. fold (accepts K V W) (discards1 K V W) (discards2 K V W).
      split; [exact I1|]. split; [unfold only_first in *; cbn [filter lookup]; now f_equal|]. split; [exact I3|]. split.
      + cbn [map event_key]. constructor; auto. rewrite Forall_forall. intros k Hk. apply in_map_iff in Hk. destruct Hk as (e & <- & He).
        destruct (I5 e He) as [Hi|[]]. apply in_map_iff in Hi. destruct Hi as (p & <- & Hp). apply asck_cons in Hm. now apply Hm.
      + intros e [<-|He]; [left; now left|]. destruct (I5 e He); [left; now right|now right].
    - cbn [mj]. assert (Hm0 := Hm). assert (Hn0 := Hn). apply asck_cons in Hm. destruct Hm as [Hm Fm]. apply asck_cons in Hn. destruct Hn as [Hn Fn].
      cbn [length] in Hf. destruct (c k1 k2) eqn:E.
      + assert (E' := eq_sym_c K c TO _ _ E).
        assert (X1 : forall p, In p m -> c k2 (fst p) = Lt) by (intros p Hp; apply (le_lt_trans K c TO _ k1); [congruence|now apply Fm]).
        assert (X2 : forall p, In p n -> c k1 (fst p) = Lt) by (intros p Hp; apply (le_lt_trans K c TO _ k2); [congruence|now apply Fn]).
        destruct (IH m n) as (I1 & I2 & I3 & I4 & I5); auto; [lia|].
        cbn [accepts discards1 discards2 flat_map app]. fold (accepts K V W) (discards1 K V W) (discards2 K V W).
        assert (Lk : lookup K (list W) c k1 ((k2, ws) :: n) = Some ws) by (cbn [lookup]; now rewrite E').
        assert (Lk' : lookup K (list V) c k2 ((k1, vs) :: m) = Some vs) by (cbn [lookup]; now rewrite E).
        split; [|split; [|split; [|split]]].
        * unfold joined in *. cbn [flat_map fst snd]. rewrite Lk. cbn [app]. f_equal.
          transitivity (joined K V W c m n); [exact I1|]. apply flat_map_ext_in. intros p Hp. rewrite lookup_skip; auto. rewrite (X1 p Hp). discriminate.
        * unfold only_first in *. cbn [filter fst]. rewrite Lk.
          transitivity (only_first K V W c m n); [exact I2|]. apply filter_ext_in. intros p Hp. rewrite lookup_skip; auto. rewrite (X1 p Hp). discriminate.
        * unfold only_second in *. cbn [filter fst]. rewrite Lk'.
          transitivity (only_second K V W c m n); [exact I3|]. apply filter_ext_in. intros p Hp. rewrite lookup_skip; auto. rewrite (X2 p Hp). discriminate.
        * cbn [map event_key]. constructor; auto. rewrite Forall_forall. intros k Hk. apply in_map_iff in Hk. destruct Hk as (e & <- & He).
          destruct (I5 e He) as [Hi|Hi]; apply in_map_iff in Hi; destruct Hi as (p & <- & Hp); auto.
        * intros e [<-|He]; [left; now left|]. destruct (I5 e He); [left; now right|right; now right].
      + assert (X2 : forall p, In p n -> c k1 (fst p) = Lt) by (intros p Hp; apply (lt_le_trans K c TO _ k2); [auto|rewrite Fn by auto; discriminate]).
        assert (X : forall p, In p ((k2, ws) :: n) -> c k1 (fst p) = Lt) by (intros p [<-|Hp]; auto).
        destruct (IH m ((k2, ws) :: n)) as (I1 & I2 & I3 & I4 & I5); auto; [cbn [length]; lia|].
        cbn [accepts discards1 discards2 flat_map app]. fold (accepts K V W) (discards1 K V W) (discards2 K V W).
        assert (Lk : lookup K (list W) c k1 ((k2, ws) :: n) = None) by now apply lookup_none_lt.
        split; [|split; [|split; [|split]]].
        * unfold joined in *. cbn [flat_map fst snd]. rewrite Lk. cbn [app]. exact I1.
        * unfold only_first in *. cbn [filter fst]. rewrite Lk. f_equal. exact I2.
        * transitivity (only_second K V W c m ((k2, ws) :: n)); [exact I3|]. unfold only_second. apply filter_ext_in. intros p Hp.
          rewrite lookup_skip; auto. rewrite (X p Hp). discriminate.
        * cbn [map event_key]. constructor; auto. rewrite Forall_forall. intros k Hk. apply in_map_iff in Hk. destruct Hk as (e & <- & He).
          destruct (I5 e He) as [Hi|Hi]; apply in_map_iff in Hi; destruct Hi as (p & <- & Hp); auto.
        * intros e [<-|He]; [left; now left|]. destruct (I5 e He); [left; now right|now right].
      + assert (E' : c k2 k1 = Lt) by now apply (gt_lt K c TO).
        assert (X1 : forall p, In p m -> c k2 (fst p) = Lt) by (intros p Hp; apply (lt_le_trans K c TO _ k1); [auto|rewrite Fm by auto; discriminate]).
        assert (X : forall p, In p ((k1, vs) :: m) -> c k2 (fst p) = Lt) by (intros p [<-|Hp]; auto).
        destruct (IH ((k1, vs) :: m) n) as (I1 & I2 & I3 & I4 & I5); auto; [cbn [length]; lia|].
        cbn [accepts discards1 discards2 flat_map app]. fold (accepts K V W) (discards1 K V W) (discards2 K V W).
        assert (Lk : lookup K (list V) c k2 ((k1, vs) :: m) = None) by now apply lookup_none_lt.
        split; [|split; [|split; [|split]]].
        * transitivity (joined K V W c ((k1, vs) :: m) n); [exact I1|]. unfold joined. apply flat_map_ext_in. intros p Hp. rewrite lookup_skip; auto. rewrite (X p Hp). discriminate.
        * transitivity (only_first K V W c ((k1, vs) :: m) n); [exact I2|]. unfold only_first. apply filter_ext_in. intros p Hp.
          rewrite lookup_skip; auto. rewrite (X p Hp). discriminate.
        * unfold only_second in *. cbn [filter fst]. rewrite Lk. f_equal. exact I3.
        * cbn [map event_key]. constructor; auto. rewrite Forall_forall. intros k Hk. apply in_map_iff in Hk. destruct Hk as (e & <- & He).
          destruct (I5 e He) as [Hi|Hi]; apply in_map_iff in Hi; destruct Hi as (p & <- & Hp); auto.
        * intros e [<-|He]; [right; now left|]. destruct (I5 e He); [now left|right; now right].
  Qed.
  Lemma group_join_ok a b m n : g_shows K V c a m -> g_shows K W c b n ->
    exists es, group_inner_join K V W cmp a b = Ok es /\
      accepts K V W es = joined K V W c m n /\ discards1 K V W es = only_first K V W c m n /\
      discards2 K V W es = only_second K V W c m n /\ StronglySorted (fun x y => c x y = Lt) (map event_key es).
  Proof.
    intros HA HB. unfold group_inner_join. rewrite (g_count K V c _ _ HA), (g_count K W c _ _ HB).
    pose proof (join_ok a b (Z.to_nat (zlen m + zlen n) + 1) [] m [] n HA HB ltac:(unfold zlen; lia)) as J.
    eexists. split; [exact J|].
    destruct HA as (? & _ & _ & _ & _ & _ & Am & _). destruct HB as (? & _ & _ & _ & _ & _ & An & _).
    destruct (mj_ok (Z.to_nat (zlen m + zlen n) + 1) m n Am An) as (I1 & I2 & I3 & I4 & _); [unfold zlen; lia|]. auto.
  Qed.
End JoinP.

Lemma Z_total : total_order Z.compare.
Proof.
  split.
  - intros a b. apply Z.compare_antisym.
  - intros a b d H1 H2. apply Z.le_trans with b; [exact H1|exact H2].
Qed.
Lemma remove_value_ok : forall K V c veq, total_order c -> forall g m k v, g_shows K V c g m ->
  exists g', g_remove_value K V (fun a b => Some (c a b)) veq g k v =
      Ok (g', match lookup K (list V) c k m with Some _ => true | None => false end) /\
    g_shows K V c g' (match lookup K (list V) c k m with
                      | Some vs => match remove_first V veq v vs with [] => del K _ c k m | vs' => put K _ c k vs' m end
                      | None => m
                      end).
Proof.
  intros K V c veq TO g m k v H. destruct (g_step_ok K V c TO veq g m (GRemoveValue k v) H) as (g' & E & H').
  unfold g_step, mg_step in *. cbn [g_step_raw mg_step_raw] in *.
  destruct (g_remove_value K V (fun a b => Some (c a b)) veq g k v) as [[g1 b1]| | |]; cbn [bind] in E;
  destruct (lookup K (list V) c k m); cbn [fst snd] in *; try discriminate.
  - assert (g1 = g') by congruence. assert (b1 = true) by congruence. subst. eauto.
  - assert (g1 = g') by congruence. assert (b1 = false) by congruence. subst. eauto.
Qed.
Lemma remove_value_lies :
  exists g g', g_shows Z Z Z.compare g [(1, [10])] /\
    g_remove_value Z Z (fun a b => Some (a ?= b)) Z.eqb g 1 99 = Ok (g', true) /\
    g_shows Z Z Z.compare g' [(1, [10])].
Proof.
  destruct (g_run_ok Z Z Z.compare Z_total Z.eqb [GAdd 1 10] _ _ (g_empty Z Z Z.compare)) as (g & _ & Hg).
  destruct (remove_value_ok Z Z Z.compare Z.eqb Z_total g _ 1 99 Hg) as (g' & E & H'). exists g, g'. auto.
Qed.
