From Verif Require Import Base BaseFacts LzyModel LzySpec LzyProofs ForModel ForSpec.
Open Scope Z_scope.

Definition views {A V : Type} (star : A -> Z -> V) (k : nat) (l : list A) : list V :=
  map (fun p => star (fst p) (Z.of_nat (snd p))) (combine l (seq k (length l))).
Lemma views_cons A V (star : A -> Z -> V) k x l : views star k (x :: l) = star x (Z.of_nat k) :: views star (S k) l.
Proof. reflexivity. Qed.

Lemma advance_true A (e e' : enum A) i : yields (fun f => next f e) (true, e') ->
  yields (fun f => advance f (Iter (Some e) i)) (Some (Iter (Some e') (i + 1), 0)).
Proof. intros [N H]. exists N. intros f Hf. unfold advance. cbn [ptr idx]. rewrite (H f Hf). reflexivity. Qed.
Lemma advance_false A (e e' : enum A) i : yields (fun f => next f e) (false, e') ->
  yields (fun f => advance f (Iter (Some e) i)) (Some (Iter None (i + 1), 1)).
Proof. intros [N H]. exists N. intros f Hf. unfold advance. cbn [ptr idx]. rewrite (H f Hf). reflexivity. Qed.

Section Loop.
  Variables A V : Type.
  Variable star : A -> Z -> V.
  Variable body : list V -> V -> decision.
  Definition result (before rest : list V) : report V := let (s, h) := walk body before rest in Report s 1 1 h.
  Variable l : list A.
  Variable i0 : Z * Z.
  Variable rs : bool.
  Variable P : option nat -> enum A -> Prop.
  Variable HS : sim l i0 rs P.
  Lemma go_ok : forall m k e x vs, (length l - k = m)%nat -> nth_error l k = Some x -> P (Some (S k)) e ->
    yields (fun f => go f star body (Iter (Some e) (Z.of_nat k)) vs 0) (result vs (views star k (skipn k l))).
  Proof.
    induction m as [|m IH]; intros k e x vs Hm Hx HP; pose proof (s_bound _ _ _ _ HS _ _ HP) as Hb; [lia|].
    destruct (s_cur _ _ _ _ HS _ _ HP) as (y & Ey & Ec). assert (y = x) by congruence. subst y.
    rewrite (skipn_cons _ _ _ _ Hx), views_cons. unfold result. cbn [walk].
    eapply y_step; [intros f; cbn [go ptr idx]; reflexivity|]. rewrite Ec.
    destruct (body vs (star x (Z.of_nat k))); [|apply y_ret|apply y_ret].
    destruct (Nat.eq_dec (S k) (length l)) as [E|E].
    - rewrite E in HP. destruct (s_end _ _ _ _ HS _ HP) as (e' & Y & _). eapply y_bind; [eapply advance_false; exact Y|].
      rewrite E, skipn_all. cbn [views length combine map walk].
      eapply y_step; [intros f; cbn [go ptr]; reflexivity|]. apply y_ret.
    - destruct (s_next _ _ _ _ HS _ _ HP) as (e' & Y & HP'); [lia|]. destruct (nth_lt A l (S k)) as (z & Ez); [lia|].
      eapply y_bind; [eapply advance_true; exact Y|]. cbv beta iota. replace (Z.of_nat k + 1) with (Z.of_nat (S k)) by lia.
      rewrite Z.add_0_r. apply (IH (S k) e' z); auto. lia.
  Qed.
  Lemma loop_run e : P (Some 0%nat) e -> yields (fun f => loop f star body e) (result [] (views star 0 l)).
  Proof.
    intros HP. unfold loop. destruct l as [|x l'] eqn:El.
    - destruct (s_end _ _ _ _ HS _ HP) as (e' & Y & _). eapply y_bind; [eapply advance_false; exact Y|].
      eapply y_step; [intros f; cbn [go ptr]; reflexivity|]. apply y_ret.
    - destruct (s_next _ _ _ _ HS _ _ HP) as (e' & Y & HP'); [cbn [length]; lia|].
      eapply y_bind; [eapply advance_true; exact Y|]. cbv beta iota. change (-1 + 1) with (Z.of_nat 0). rewrite <- El in *.
      apply (go_ok _ 0%nat e' x [] eq_refl); [now rewrite El|]. auto.
  Qed.
End Loop.

Lemma loop_ok A V (star : A -> Z -> V) body (p : pipe A) : tame p ->
  yields (on p (fun f e => loop f star body e)) (result V body [] (views star 0 (denote p))).
Proof.
  intros T. destruct (build_ok A p T) as (e & i & Y & (P & HS & HP) & _). eapply on_bind; [exact Y|]. eapply loop_run; eauto.
Qed.
Lemma views_plain A k (l : list A) : views (fun x _ => x) k l = l.
Proof. revert k. induction l as [|x l IH]; intros k; [reflexivity|]. rewrite views_cons, IH. reflexivity. Qed.
Lemma views_numbered_at A k (l : list A) : views (fun x i => (x, i)) k l = combine l (map Z.of_nat (seq k (length l))).
Proof. revert k. induction l as [|x l IH]; intros k; [reflexivity|]. rewrite views_cons, IH. reflexivity. Qed.

Lemma for_each_ok A (p : pipe A) body s h : tame p -> walk body [] (denote p) = (s, h) ->
  yields (on p (fun f e => for_each f body e)) (Report s 1 1 h).
Proof.
  intros T E. pose proof (loop_ok A A (fun x _ => x) body p T) as L. rewrite views_plain in L. unfold result in L. now rewrite E in L.
Qed.
Lemma for_indexed_ok A (p : pipe A) body s h : tame p -> walk body [] (numbered (denote p)) = (s, h) ->
  yields (on p (fun f e => for_indexed f body e)) (Report s 1 1 h).
Proof.
  intros T E. pose proof (loop_ok A _ (fun x i => (x, i)) body p T) as L. rewrite views_numbered_at in L.
  unfold result in L. unfold numbered in E. now rewrite E in L.
Qed.

(* ---- any enumerator: what was created is deleted, unless the first Next raised ------------- *)
Lemma go_balance A V (star : A -> Z -> V) body : forall f it vs d r, go f star body it vs d = Ok r -> d + destroy it = 1 ->
  made r = 1 /\ freed r = 1 /\ exists more, seen r = vs ++ more.
Proof.
  induction f as [|f IH]; intros it vs d r E D; cbn [go] in E; [discriminate|].
  destruct (ptr it) as [e|] eqn:Ep.
  - destruct (current e) as [x| | |]; try discriminate.
    + destruct (body vs (star x (idx it))).
      * unfold advance in E. rewrite Ep in E. destruct (next f e) as [[[] e']| | |]; cbn [bind] in E; try discriminate.
        -- destruct (IH _ _ _ _ E) as (H1 & H2 & more & H3); [unfold destroy in *; cbn [ptr]; rewrite Ep in D; lia|].
           repeat split; auto. rewrite <- app_assoc in H3. eauto.
        -- destruct (IH _ _ _ _ E) as (H1 & H2 & more & H3); [unfold destroy in *; cbn [ptr]; rewrite Ep in D; lia|].
           repeat split; auto. rewrite <- app_assoc in H3. eauto.
        -- injection E as <-. cbn [made freed seen]. eauto.
      * injection E as <-. cbn [made freed seen]. eauto.
      * injection E as <-. cbn [made freed seen]. eauto.
    + injection E as <-. cbn [made freed seen]. repeat split; auto. exists []. now rewrite app_nil_r.
  - injection E as <-. cbn [made freed seen]. repeat split; auto. exists []. now rewrite app_nil_r.
Qed.
Lemma loop_balance A V (star : A -> Z -> V) body f e r : loop f star body e = Ok r ->
  made r = 1 /\ (freed r = 1 \/ next f e = Err /\ freed r = 0 /\ seen r = [] /\ how r = Failed).
Proof.
  unfold loop, advance. cbn [ptr idx]. intros E. destruct (next f e) as [[[] e']| | |]; cbn [bind] in E; try discriminate.
  - destruct (go_balance _ _ _ _ _ _ _ _ _ E) as (H1 & H2 & _); [reflexivity|]. auto.
  - destruct (go_balance _ _ _ _ _ _ _ _ _ E) as (H1 & H2 & _); [reflexivity|]. auto.
  - injection E as <-. cbn [made freed seen how]. auto 6.
Qed.
Lemma each_balance A body f (e : enum A) r : for_each f body e = Ok r ->
  made r = 1 /\ (freed r = 1 \/ next f e = Err /\ freed r = 0 /\ seen r = [] /\ how r = Failed).
Proof. apply loop_balance. Qed.
Lemma indexed_balance A body f (e : enum A) r : for_indexed f body e = Ok r ->
  made r = 1 /\ (freed r = 1 \/ next f e = Err /\ freed r = 0 /\ seen r = [] /\ how r = Failed).
Proof. apply loop_balance. Qed.

(* ---- an empty dictionary repeated: Reset raises inside the constructor --------------------- *)
Lemma leak_run A body : yields (on (PRepeat (POnce (@nil A)) 2) (fun f e => for_each f body e)) (Report [] 1 0 Failed).
Proof. exists 3%nat. intros [|[|[|f]]] Hf; try lia. reflexivity. Qed.
Lemma leak_witness : exists p : pipe Z, forall body, exists r, yields (on p (fun f e => for_each f body e)) r /\ made r = 1 /\ freed r = 0.
Proof. exists (PRepeat (POnce []) 2). intros body. eexists. split; [apply leak_run|]. split; reflexivity. Qed.

(* what [walk] is: all of the values and Finished, or a prefix whose last value stopped it *)
Lemma walk_shape V (body : list V -> V -> decision) : forall rest before s h, walk body before rest = (s, h) ->
  (h = Finished /\ s = before ++ rest /\ forall a v b, rest = a ++ v :: b -> body (before ++ a) v = Continue) \/
  exists a v b, rest = a ++ v :: b /\ s = before ++ a ++ [v] /\ body (before ++ a) v <> Continue /\
    (h = Left /\ body (before ++ a) v = Leave \/ h = Threw /\ body (before ++ a) v = Throw) /\
    forall a' v' b', a = a' ++ v' :: b' -> body (before ++ a') v' = Continue.
Proof.
  induction rest as [|v rest IH]; intros before s h E; cbn [walk] in E.
  - injection E as <- <-. left. rewrite app_nil_r. repeat split; auto. intros [|? ?] ? ? H; discriminate.
  - destruct (body before v) eqn:B.
    + destruct (IH _ _ _ E) as [(-> & -> & H)|(a & w & b & -> & -> & H1 & H2 & H3)].
      * left. rewrite <- app_assoc. repeat split; auto. intros [|c a] w b Hw; cbn [app] in Hw; injection Hw as -> ->.
        -- now rewrite app_nil_r.
        -- specialize (H a w b eq_refl). now rewrite <- app_assoc in H.
      * right. exists (v :: a), w, b. rewrite <- !app_assoc in *. cbn [app] in *. repeat split; auto.
        intros [|c a'] v' b' Ha; cbn [app] in Ha; injection Ha as -> ->; [now rewrite app_nil_r|].
        specialize (H3 a' v' b' eq_refl). now rewrite <- app_assoc in H3.
    + injection E as <- <-. right. exists [], v, rest. rewrite app_nil_r. cbn [app]. repeat split; auto; try congruence.
      intros [|? ?] ? ? H; discriminate.
    + injection E as <- <-. right. exists [], v, rest. rewrite app_nil_r. cbn [app]. repeat split; auto; try congruence.
      intros [|? ?] ? ? H; discriminate.
Qed.
