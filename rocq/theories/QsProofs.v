From Verif Require Import Base BaseFacts LstProofs SrtSpec SrtProofs QsModel QsSpec.
Open Scope Z_scope.

Ltac lst := cbn [app]; repeat (rewrite <- app_assoc; cbn [app]); reflexivity.

Lemma perm_exch {A} (y z : A) N E : Permutation (y :: N ++ z :: E) (z :: N ++ y :: E).
Proof.
  transitivity (y :: z :: N ++ E); [apply perm_skip, Permutation_sym, Permutation_middle|].
  rewrite perm_swap. apply perm_skip, Permutation_middle.
Qed.

Lemma last_case {A} (l : list A) : l = [] \/ exists l0 z, l = l0 ++ [z].
Proof. induction l using rev_ind; eauto. Qed.

Section Qs.
  Variable T : Type.
  Variable cmp : T -> T -> option comparison.
  Notation swap := (swap T).

  Lemma swap_mid (l1 : list T) x l2 y l3 i j : i = zlen l1 -> j = zlen l1 + 1 + zlen l2 ->
    swap (l1 ++ x :: l2 ++ y :: l3) i j = Ok (l1 ++ y :: l2 ++ x :: l3).
  Proof.
    intros Hi Hj. unfold QsModel.swap. rewrite aget_app by auto. cbn [bind].
    assert (G : forall u, l1 ++ u :: l2 ++ y :: l3 = (l1 ++ u :: l2) ++ y :: l3) by (intros; now rewrite <- app_assoc).
    rewrite (G x), aget_app by (rewrite zlen_app, zlen_cons; lia). cbn [bind]. rewrite <- (G x), aset_app by auto. cbn [bind].
    rewrite (G y), aset_app by (rewrite zlen_app, zlen_cons; lia). now rewrite <- app_assoc.
  Qed.
  Lemma swap_mid' (l1 : list T) x l2 y l3 i j : i = zlen l1 -> j = zlen l1 + 1 + zlen l2 ->
    swap (l1 ++ x :: l2 ++ y :: l3) j i = Ok (l1 ++ y :: l2 ++ x :: l3).
  Proof.
    intros Hi Hj. unfold QsModel.swap.
    assert (G : forall u w, l1 ++ u :: l2 ++ w :: l3 = (l1 ++ u :: l2) ++ w :: l3) by (intros; now rewrite <- app_assoc).
    rewrite (G x), aget_app by (rewrite zlen_app, zlen_cons; lia). cbn [bind]. rewrite <- (G x), aget_app by auto. cbn [bind].
    rewrite (G x), aset_app by (rewrite zlen_app, zlen_cons; lia). cbn [bind]. rewrite <- (G x), aset_app by auto. reflexivity.
  Qed.

  Definition ge_p p x := cmp p x = Some Gt \/ cmp p x = Some Eq.
  Definition le_p p x := cmp p x = Some Lt \/ cmp p x = Some Eq.

  (* the pivot value never changes; it sits at the left or the right end of what is unread *)
  Lemma phase1_ok p pre post base len : base = zlen pre -> forall mid Ll Rr (flag : bool) pivot left right fuel,
    left = zlen Ll -> right = zlen Rr -> len = left + 1 + zlen mid + right -> pivot = (if flag then len - right - 1 else left) ->
    (length mid < fuel)%nat -> Forall (ge_p p) Ll -> Forall (le_p p) Rr ->
    (phase1 T cmp (pre ++ Ll ++ (if flag then mid ++ [p] else p :: mid) ++ Rr ++ post) base len pivot left right flag fuel = Err /\
       exists x, In x mid /\ cmp p x = None) \/
    (exists L' R', phase1 T cmp (pre ++ Ll ++ (if flag then mid ++ [p] else p :: mid) ++ Rr ++ post) base len pivot left right flag fuel =
        Ok (pre ++ L' ++ p :: R' ++ post, zlen L', zlen L', zlen R') /\
       len = zlen L' + 1 + zlen R' /\ Permutation (Ll ++ mid ++ Rr) (L' ++ R') /\ Forall (ge_p p) L' /\ Forall (le_p p) R').
  Proof.
    intros Hb mid. remember (length mid) as n eqn:Hn. revert mid Hn.
    induction n as [|n IH]; intros mid Hn Ll Rr flag pivot left right fuel Hl Hr Hlen Hp Hf FL FR; (destruct fuel as [|fuel]; [lia|]);
    cbn [phase1]; cbv zeta; pose proof (zlen_nonneg Ll); pose proof (zlen_nonneg Rr); pose proof (zlen_nonneg mid).
    - destruct mid; [|discriminate]. right. exists Ll, Rr. rewrite zlen_nil in Hlen. replace (left + right + 1 =? len) with true by lia.
      split; [|split; [lia|]; split; [reflexivity|]; now split]. rewrite Hl, Hr. 
      replace pivot with (zlen Ll) by (destruct flag; lia). destruct flag; reflexivity.
    - assert (Hm : 0 < zlen mid) by (unfold zlen; lia). replace (left + right + 1 =? len) with false by lia. destruct flag.
      + (* pivot on the right, candidate is the first of mid *)
        destruct mid as [|y mid]; [discriminate|]. cbn [length] in Hn. rewrite zlen_cons in *.
        assert (G1 : aget (pre ++ Ll ++ ((y :: mid) ++ [p]) ++ Rr ++ post) (base + pivot) = Ok p).
        { replace (pre ++ Ll ++ ((y :: mid) ++ [p]) ++ Rr ++ post) with ((pre ++ Ll ++ y :: mid) ++ p :: Rr ++ post)
            by lst. apply aget_app. rewrite !zlen_app, zlen_cons. lia. }
        assert (G2 : aget (pre ++ Ll ++ ((y :: mid) ++ [p]) ++ Rr ++ post) (base + left) = Ok y).
        { replace (pre ++ Ll ++ ((y :: mid) ++ [p]) ++ Rr ++ post) with ((pre ++ Ll) ++ y :: mid ++ [p] ++ Rr ++ post)
            by lst. apply aget_app. rewrite !zlen_app. lia. }
        rewrite G1, G2. cbn [bind]. destruct (cmp p y) as [o|] eqn:Eo; [|left; split; [reflexivity|]; exists y; split; [now left|auto]].
        cbn [negb andb orb].
        assert (Hge : o <> Lt -> ge_p p y) by (unfold ge_p; rewrite Eo; destruct o; intuition congruence).
        destruct o; cbn [negb].
        1, 3: (specialize (IH mid ltac:(lia) (Ll ++ [y]) Rr true pivot (left + 1) right fuel);
          replace (pre ++ Ll ++ ((y :: mid) ++ [p]) ++ Rr ++ post) with (pre ++ (Ll ++ [y]) ++ (mid ++ [p]) ++ Rr ++ post)
            by lst;
          destruct IH as [(E & x & Hx & Hc)|(L' & R' & E & HL & HP & F1 & F2)];
          [rewrite zlen_app, zlen_cons, zlen_nil; lia|lia|lia|lia|lia|apply Forall_app; split; [exact FL|constructor; [apply Hge; congruence|constructor]]|exact FR
          |left; split; [exact E|exists x; split; [now right|exact Hc]]
          |right; exists L', R'; split; [exact E|]; split; [exact HL|]; split; [|now split];
           rewrite <- HP; repeat (rewrite <- app_assoc; cbn [app]); reflexivity]).
        * (* swap *)
          replace (pre ++ Ll ++ ((y :: mid) ++ [p]) ++ Rr ++ post) with ((pre ++ Ll) ++ y :: mid ++ p :: Rr ++ post)
            by lst.
          rewrite (swap_mid' (pre ++ Ll) y mid p (Rr ++ post)) by (rewrite zlen_app; lia). cbn [bind negb].
          specialize (IH mid ltac:(lia) Ll (y :: Rr) false left left (right + 1) fuel).
          replace ((pre ++ Ll) ++ p :: mid ++ y :: Rr ++ post) with (pre ++ Ll ++ (p :: mid) ++ (y :: Rr) ++ post)
            by lst.
          destruct IH as [(E & x & Hx & Hc)|(L' & R' & E & HL & HP & F1 & F2)];
          [lia|rewrite zlen_cons; lia|lia|lia|lia|exact FL|constructor; [left; exact Eo|exact FR]
          |left; split; [exact E|exists x; split; [now right|exact Hc]]
          |right; exists L', R'; split; [exact E|]; split; [exact HL|]; split; [|now split]].
          rewrite <- HP. apply Permutation_app_head. apply Permutation_middle.
      + (* pivot on the left, candidate is the last of mid *)
        destruct (rev mid) as [|y rmid] eqn:Er; [apply (f_equal (@rev T)) in Er; rewrite rev_involutive in Er; subst; discriminate|].
        apply (f_equal (@rev T)) in Er. rewrite rev_involutive in Er. cbn [rev] in Er. remember (rev rmid) as mid'. clear Heqmid' rmid. subst mid.
        rewrite app_length in Hn. cbn [length] in Hn. rewrite zlen_app, zlen_cons, zlen_nil in *.
        assert (G1 : aget (pre ++ Ll ++ (p :: mid' ++ [y]) ++ Rr ++ post) (base + pivot) = Ok p).
        { replace (pre ++ Ll ++ (p :: mid' ++ [y]) ++ Rr ++ post) with ((pre ++ Ll) ++ p :: mid' ++ y :: Rr ++ post)
            by lst. apply aget_app. rewrite !zlen_app. lia. }
        assert (G2 : aget (pre ++ Ll ++ (p :: mid' ++ [y]) ++ Rr ++ post) (base + (len - right - 1)) = Ok y).
        { replace (pre ++ Ll ++ (p :: mid' ++ [y]) ++ Rr ++ post) with ((pre ++ Ll ++ p :: mid') ++ y :: Rr ++ post)
            by lst. apply aget_app. rewrite !zlen_app, zlen_cons. lia. }
        rewrite G1, G2. cbn [bind].
        destruct (cmp p y) as [o|] eqn:Eo; [|left; split; [reflexivity|]; exists y; split; [apply in_or_app; right; now left|auto]].
        cbn [negb andb orb].
        assert (Hle : o <> Gt -> le_p p y) by (unfold le_p; rewrite Eo; destruct o; intuition congruence).
        destruct o; cbn [negb orb].
        1, 2: (specialize (IH mid' ltac:(lia) Ll (y :: Rr) false pivot left (right + 1) fuel);
          replace (pre ++ Ll ++ (p :: mid' ++ [y]) ++ Rr ++ post) with (pre ++ Ll ++ (p :: mid') ++ (y :: Rr) ++ post)
            by lst;
          destruct IH as [(E & x & Hx & Hc)|(L' & R' & E & HL & HP & F1 & F2)];
          [lia|rewrite zlen_cons; lia|lia|lia|lia|exact FL|constructor; [apply Hle; congruence|exact FR]
          |left; split; [exact E|exists x; split; [apply in_or_app; now left|exact Hc]]
          |right; exists L', R'; split; [exact E|]; split; [exact HL|]; split; [|now split];
           rewrite <- HP; repeat (rewrite <- app_assoc; cbn [app]); reflexivity]).
        replace (pre ++ Ll ++ (p :: mid' ++ [y]) ++ Rr ++ post) with ((pre ++ Ll) ++ p :: mid' ++ y :: Rr ++ post)
          by lst.
        rewrite (swap_mid (pre ++ Ll) p mid' y (Rr ++ post)) by (rewrite zlen_app; lia). cbn [bind negb].
        specialize (IH mid' ltac:(lia) (Ll ++ [y]) Rr true (len - right - 1) (left + 1) right fuel).
        replace ((pre ++ Ll) ++ y :: mid' ++ p :: Rr ++ post) with (pre ++ (Ll ++ [y]) ++ (mid' ++ [p]) ++ Rr ++ post)
          by lst.
        destruct IH as [(E & x & Hx & Hc)|(L' & R' & E & HL & HP & F1 & F2)];
        [rewrite zlen_app, zlen_cons, zlen_nil; lia|lia|lia|lia|lia|apply Forall_app; split; [exact FL|constructor; [left; exact Eo|constructor]]|exact FR
        |left; split; [exact E|exists x; split; [apply in_or_app; now left|exact Hc]]
        |right; exists L', R'; split; [exact E|]; split; [exact HL|]; split; [|now split]].
        rewrite <- HP. rewrite <- !app_assoc. apply Permutation_app_head. cbn [app]. apply Permutation_sym, Permutation_middle.
  Qed.

  (* what is read so far: N are the different ones, E the equal ones *)
  Lemma phase2_ok p pre base pivot post : base = zlen pre -> forall U N E reading writing n,
    reading = zlen U - 1 -> writing = zlen U + zlen N - 1 -> n = length U -> pivot = zlen U + zlen N + zlen E ->
    Forall (ge_p p) U -> Forall (fun x => cmp p x = Some Gt) N -> Forall (fun x => cmp p x = Some Eq) E ->
    exists N' E', phase2 T cmp (pre ++ U ++ N ++ E ++ p :: post) base pivot reading writing n =
        Ok (pre ++ N' ++ E' ++ p :: post, zlen N') /\
      Permutation (U ++ N ++ E) (N' ++ E') /\ Forall (fun x => cmp p x = Some Gt) N' /\ Forall (fun x => cmp p x = Some Eq) E'.
  Proof.
    intros Hb U. induction U as [|y U IH] using rev_ind; intros N E reading writing n Hr Hw Hn Hp FU FN FE; subst n.
    - cbn [length phase2 app]. exists N, E. rewrite zlen_nil in *. split; [|split; [reflexivity|now split]]. repeat f_equal. lia.
    - rewrite app_length. cbn [length]. rewrite Nat.add_1_r. cbn [phase2]. rewrite zlen_app, zlen_cons, zlen_nil in *.
      apply Forall_app in FU. destruct FU as [FU FY]. inversion FY as [|? ? Hy _]; subst x l.
      replace (pre ++ (U ++ [y]) ++ N ++ E ++ p :: post) with ((pre ++ U ++ y :: N ++ E) ++ p :: post)
        by lst.
      rewrite aget_app by (rewrite !zlen_app, zlen_cons, zlen_app; lia). cbn [bind].
      replace ((pre ++ U ++ y :: N ++ E) ++ p :: post) with ((pre ++ U) ++ y :: N ++ E ++ p :: post)
        by lst.
      rewrite aget_app by (rewrite !zlen_app; lia). cbn [bind]. destruct Hy as [Hy|Hy]; rewrite Hy.
      + replace ((pre ++ U) ++ y :: N ++ E ++ p :: post) with (pre ++ U ++ (y :: N) ++ E ++ p :: post)
          by lst.
        destruct (IH (y :: N) E (reading - 1) writing (length U)) as (N' & E' & E1 & P1 & F1 & F2);
          [lia|rewrite zlen_cons; lia|reflexivity|rewrite zlen_cons; lia|auto|constructor; auto|auto|].
        exists N', E'. split; [exact E1|]. split; [|now split]. rewrite <- P1. repeat (rewrite <- app_assoc; cbn [app]). reflexivity.
      + destruct (last_case N) as [->|(N0 & z & EN)]; [|subst N; rename N0 into N].
        * change (zlen (@nil T)) with 0 in *. replace (reading =? writing) with true by lia. cbn [negb bind].
          replace ((pre ++ U) ++ y :: [] ++ E ++ p :: post) with (pre ++ U ++ [] ++ (y :: E) ++ p :: post)
            by lst.
          destruct (IH [] (y :: E) (reading - 1) (writing - 1) (length U)) as (N' & E' & E1 & P1 & F1 & F2);
            [lia|rewrite zlen_nil; lia|reflexivity|rewrite zlen_nil, zlen_cons; lia|auto|auto|constructor; auto|].
          exists N', E'. split; [exact E1|]. split; [|now split]. rewrite <- P1. repeat (rewrite <- app_assoc; cbn [app]). reflexivity.
        * zl. pose proof (zlen_nonneg N). replace (reading =? writing) with false by lia. cbn [negb].
          replace ((pre ++ U) ++ y :: (N ++ [z]) ++ E ++ p :: post) with ((pre ++ U) ++ y :: N ++ z :: E ++ p :: post)
            by lst.
          rewrite swap_mid by (rewrite zlen_app; lia). cbn [bind].
          replace ((pre ++ U) ++ z :: N ++ y :: E ++ p :: post) with (pre ++ U ++ (z :: N) ++ (y :: E) ++ p :: post)
            by lst.
          apply Forall_app in FN. destruct FN as [FN FZ]. inversion FZ as [|? ? Hz _]; subst x l.
          destruct (IH (z :: N) (y :: E) (reading - 1) (writing - 1) (length U)) as (N' & E' & E1 & P1 & F1 & F2);
            [lia|rewrite zlen_cons; lia|reflexivity|rewrite !zlen_cons; lia|auto|constructor; auto|constructor; auto|].
          exists N', E'. split; [exact E1|]. split; [|now split]. rewrite <- P1. repeat (rewrite <- app_assoc; cbn [app]). apply Permutation_app_head.
          apply perm_exch.
  Qed.

  Lemma phase3_ok p pre base len pivot post : forall U E N L1 reading writing n,
    pivot = zlen L1 -> base = zlen pre -> writing = zlen L1 + 1 + zlen E -> reading = zlen L1 + 1 + zlen E + zlen N ->
    n = length U -> len = zlen L1 + 1 + zlen E + zlen N + zlen U ->
    Forall (le_p p) U -> Forall (fun x => cmp p x = Some Lt) N -> Forall (fun x => cmp p x = Some Eq) E ->
    exists E' N', phase3 T cmp (pre ++ L1 ++ p :: E ++ N ++ U ++ post) base len pivot reading writing n =
        Ok (pre ++ L1 ++ p :: E' ++ N' ++ post, zlen N') /\
      Permutation (E ++ N ++ U) (E' ++ N') /\ Forall (fun x => cmp p x = Some Lt) N' /\ Forall (fun x => cmp p x = Some Eq) E'.
  Proof.
    induction U as [|y U IH]; intros E N L1 reading writing n Hpv Hb Hw Hr Hn Hl FU FN FE; subst n; cbn [length phase3].
    - exists E, N. zl. cbn [app]. rewrite app_nil_r. split; [|split; [reflexivity|now split]]. repeat f_equal. lia.
    - zl. inversion FU as [|? ? Hy FU']; subst x l.
      replace (pre ++ L1 ++ p :: E ++ N ++ (y :: U) ++ post) with ((pre ++ L1) ++ p :: E ++ N ++ y :: U ++ post)
        by lst.
      rewrite aget_app by (rewrite !zlen_app; lia). cbn [bind].
      replace ((pre ++ L1) ++ p :: E ++ N ++ y :: U ++ post) with ((pre ++ L1 ++ p :: E ++ N) ++ y :: U ++ post)
        by lst.
      rewrite aget_app by (rewrite !zlen_app, zlen_cons, zlen_app; lia). cbn [bind]. destruct Hy as [Hy|Hy]; rewrite Hy.
      + replace ((pre ++ L1 ++ p :: E ++ N) ++ y :: U ++ post) with (pre ++ L1 ++ p :: E ++ (N ++ [y]) ++ U ++ post)
          by lst.
        destruct (IH E (N ++ [y]) L1 (reading + 1) writing (length U)) as (E' & N' & E1 & P1 & F1 & F2);
          [lia|lia|lia|rewrite zlen_app, zlen_cons, zlen_nil; lia|reflexivity|rewrite zlen_app, zlen_cons, zlen_nil; lia|auto|apply Forall_app; split; auto|auto|].
        exists E', N'. split; [exact E1|]. split; [|now split]. rewrite <- P1. repeat (rewrite <- app_assoc; cbn [app]). reflexivity.
      + destruct N as [|z N].
        * change (zlen (@nil T)) with 0 in *. replace (reading =? writing) with true by lia. cbn [negb bind].
          replace ((pre ++ L1 ++ p :: E ++ []) ++ y :: U ++ post) with (pre ++ L1 ++ p :: (E ++ [y]) ++ [] ++ U ++ post)
            by lst.
          destruct (IH (E ++ [y]) [] L1 (reading + 1) (writing + 1) (length U)) as (E' & N' & E1 & P1 & F1 & F2);
            [lia|lia|rewrite zlen_app, zlen_cons, zlen_nil; lia|rewrite zlen_app, zlen_cons, !zlen_nil; lia|reflexivity
            |rewrite zlen_app, zlen_cons, !zlen_nil; lia|auto|auto|apply Forall_app; split; auto|].
          exists E', N'. split; [exact E1|]. split; [|now split]. rewrite <- P1. repeat (rewrite <- app_assoc; cbn [app]). reflexivity.
        * zl. pose proof (zlen_nonneg N). replace (reading =? writing) with false by lia. cbn [negb].
          replace ((pre ++ L1 ++ p :: E ++ z :: N) ++ y :: U ++ post) with ((pre ++ L1 ++ p :: E) ++ z :: N ++ y :: U ++ post)
            by lst.
          rewrite (swap_mid' (pre ++ L1 ++ p :: E) z N y (U ++ post)) by (rewrite !zlen_app, zlen_cons; lia). cbn [bind].
          replace ((pre ++ L1 ++ p :: E) ++ y :: N ++ z :: U ++ post) with (pre ++ L1 ++ p :: (E ++ [y]) ++ (N ++ [z]) ++ U ++ post)
            by lst.
          inversion FN as [|? ? Hz FN']; subst x l.
          destruct (IH (E ++ [y]) (N ++ [z]) L1 (reading + 1) (writing + 1) (length U)) as (E' & N' & E1 & P1 & F1 & F2);
            [lia|lia|rewrite zlen_app, zlen_cons, zlen_nil; lia|rewrite !zlen_app, !zlen_cons, !zlen_nil; lia|reflexivity
            |rewrite !zlen_app, !zlen_cons, !zlen_nil; lia|auto|apply Forall_app; split; auto|apply Forall_app; split; auto|].
          exists E', N'. split; [exact E1|]. split; [|now split]. rewrite <- P1. repeat (rewrite <- app_assoc; cbn [app]). apply Permutation_app_head.
          rewrite (Permutation_app_comm (z :: N) (y :: U)). cbn [app]. apply perm_skip. 
          rewrite Permutation_app_comm. cbn [app]. apply Permutation_middle.
  Qed.

  Lemma partition_ok p rest pre post base len : base = zlen pre -> len = zlen (p :: rest) ->
    (partition T cmp (pre ++ (p :: rest) ++ post) base len = Err /\ exists x, In x rest /\ cmp p x = None) \/
    (exists L' E1 E2 R', partition T cmp (pre ++ (p :: rest) ++ post) base len =
         Ok (pre ++ L' ++ (E1 ++ p :: E2) ++ R' ++ post, zlen L', zlen R') /\
       Permutation rest (L' ++ E1 ++ E2 ++ R') /\
       Forall (fun x => cmp p x = Some Gt) L' /\ Forall (fun x => cmp p x = Some Eq) (E1 ++ E2) /\ Forall (fun x => cmp p x = Some Lt) R').
  Proof.
    intros Hb Hl. rewrite zlen_cons in Hl. unfold partition.
    destruct (phase1_ok p pre post base len Hb rest [] [] false 0 0 0 (Z.to_nat len)) as [(E & H)|(L1 & R1 & E & HL & HP & F1 & F2)];
      [reflexivity|reflexivity|lia|reflexivity|unfold zlen in *; lia|constructor|constructor| |].
    - left. change (if false then _ else p :: rest) with (p :: rest) in E. cbn [app] in E |- *. rewrite E. now split.
    - right. cbn [app] in E, HP. rewrite app_nil_r in HP. cbn [app]. rewrite E. cbn [bind].
      destruct (phase2_ok p pre base (zlen L1) (R1 ++ post) Hb L1 [] [] (zlen L1 - 1) (zlen L1 - 1) (length L1))
        as (N1 & E1 & Q1 & P1 & G1 & G2); try reflexivity; try (rewrite !zlen_nil; lia); try lia; auto.
      rewrite zlen_to_nat. cbn [app] in Q1. rewrite Q1. cbn [bind]. rewrite zlen_to_nat. rewrite !app_nil_r in P1.
      assert (LN : zlen L1 = zlen N1 + zlen E1) by (rewrite <- zlen_app; unfold zlen; now rewrite (Permutation_length P1)).
      destruct (phase3_ok p pre base len (zlen L1) post R1 [] [] (N1 ++ E1) (len - zlen R1) (len - zlen R1) (length R1))
        as (E2 & N2 & Q2 & P2 & G3 & G4); rewrite ?zlen_app, ?zlen_nil; try reflexivity; try lia; auto.
      cbn [app] in Q2. rewrite <- app_assoc in Q2. rewrite Q2. cbn [bind]. exists N1, E1, E2, N2.
      split; [repeat (rewrite <- app_assoc; cbn [app]); reflexivity|]. split; [|split; [exact G1|split; [apply Forall_app; now split|exact G3]]].
      rewrite HP, P1. cbn [app] in P2. rewrite P2. rewrite <- !app_assoc. reflexivity.
  Qed.

  (* any comparator: stays in bounds, permutes, or stops with an error on an unordered pair *)
  Lemma sort_any : forall fuel seg pre post, (length seg < fuel)%nat ->
    (qsort T cmp (pre ++ seg ++ post) (zlen pre) (zlen seg) fuel = Err /\ exists x y, In x seg /\ In y seg /\ cmp x y = None) \/
    (exists seg' d, qsort T cmp (pre ++ seg ++ post) (zlen pre) (zlen seg) fuel = Ok (pre ++ seg' ++ post, d) /\
       Permutation seg seg' /\ 2 ^ Z.of_nat d <= zlen seg + 1).
  Proof.
    induction fuel as [|fuel IH]; intros seg pre post Hf; [lia|]. cbn [qsort].
    destruct seg as [|p rest].
    - right. exists [], O. cbn. split; [reflexivity|]. split; [constructor|]. lia.
    - pose proof (zlen_nonneg rest). replace (zlen (p :: rest) =? 0) with false by (rewrite zlen_cons; lia).
      destruct (partition_ok p rest pre post (zlen pre) (zlen (p :: rest)) eq_refl eq_refl) as [(E & x & Hx & Hc)|(L' & E1 & E2 & R' & E & HP & F1 & F2 & F3)].
      + left. rewrite E. split; [reflexivity|]. exists p, x. split; [now left|]. split; [now right|exact Hc].
      + rewrite E. cbn [bind]. pose proof (Permutation_length HP) as Lp. rewrite !app_length in Lp. cbn [length] in Hf.
        assert (Pin : forall x, In x (L' ++ R') -> In x (p :: rest)).
        { intros x Hx. right. apply (Permutation_in x (Permutation_sym HP)). rewrite !in_app_iff in *. tauto. }
        set (M := E1 ++ p :: E2) in *. assert (LM : zlen M = 1 + zlen E1 + zlen E2) by (unfold M; rewrite zlen_app, zlen_cons; lia).
        assert (Lt' : zlen (p :: rest) = zlen L' + zlen M + zlen R') by (rewrite LM, zlen_cons; unfold zlen; lia).
        pose proof (zlen_nonneg L'). pose proof (zlen_nonneg R'). pose proof (zlen_nonneg E1). pose proof (zlen_nonneg E2).
        assert (B1 : zlen pre + (zlen (p :: rest) - zlen R') = zlen (pre ++ L' ++ M)) by (rewrite Lt', !zlen_app; lia).
        assert (PermF : forall l r, Permutation L' l -> Permutation R' r -> Permutation (p :: rest) (l ++ M ++ r)).
        { intros l r P1 P2. rewrite <- P1, <- P2. unfold M. rewrite HP. repeat (rewrite <- app_assoc; cbn [app]).
          rewrite <- (Permutation_middle L' (E1 ++ p :: E2 ++ R') p) || idtac.
          transitivity (L' ++ p :: E1 ++ E2 ++ R'); [apply Permutation_middle|]. apply Permutation_app_head. apply Permutation_middle. }
        destruct (zlen L' <? zlen R') eqn:Elr.
        * destruct (IH L' pre (M ++ R' ++ post)) as [(Ea & x & y & Hx & Hy & Hc)|(l' & d1 & Ea & Pa & Da)]; [lia| |].
          { left. rewrite Ea. split; [reflexivity|]. exists x, y. split; [apply Pin; apply in_or_app; now left|]. split; [apply Pin; apply in_or_app; now left|auto]. }
          rewrite Ea. cbn [bind]. rewrite B1. replace (zlen (pre ++ L' ++ M)) with (zlen (pre ++ l' ++ M))
            by (rewrite !zlen_app; unfold zlen; now rewrite (Permutation_length Pa)).
          replace (pre ++ l' ++ M ++ R' ++ post) with ((pre ++ l' ++ M) ++ R' ++ post) by now rewrite <- !app_assoc.
          destruct (IH R' (pre ++ l' ++ M) post) as [(Eb & x & y & Hx & Hy & Hc)|(r' & d2 & Eb & Pb & Db)]; [lia| |].
          { left. rewrite Eb. split; [reflexivity|]. exists x, y. split; [apply Pin; apply in_or_app; now right|]. split; [apply Pin; apply in_or_app; now right|auto]. }
          right. rewrite Eb. cbn [bind]. exists (l' ++ M ++ r'), (Nat.max (S d1) d2).
          split; [repeat (rewrite <- app_assoc; cbn [app]); reflexivity|]. split; [now apply PermF|].
          destruct (Nat.max_spec (S d1) d2) as [[_ ->]|[_ ->]]; [lia|]. rewrite Nat2Z.inj_succ, Z.pow_succ_r by lia. lia.
        * rewrite B1. replace (pre ++ L' ++ M ++ R' ++ post) with ((pre ++ L' ++ M) ++ R' ++ post) by now rewrite <- !app_assoc.
          destruct (IH R' (pre ++ L' ++ M) post) as [(Eb & x & y & Hx & Hy & Hc)|(r' & d2 & Eb & Pb & Db)]; [lia| |].
          { left. rewrite Eb. split; [reflexivity|]. exists x, y. split; [apply Pin; apply in_or_app; now right|]. split; [apply Pin; apply in_or_app; now right|auto]. }
          rewrite Eb. cbn [bind]. replace ((pre ++ L' ++ M) ++ r' ++ post) with (pre ++ L' ++ (M ++ r' ++ post)) by now rewrite <- !app_assoc.
          destruct (IH L' pre (M ++ r' ++ post)) as [(Ea & x & y & Hx & Hy & Hc)|(l' & d1 & Ea & Pa & Da)]; [lia| |].
          { left. rewrite Ea. split; [reflexivity|]. exists x, y. split; [apply Pin; apply in_or_app; now left|]. split; [apply Pin; apply in_or_app; now left|auto]. }
          right. rewrite Ea. cbn [bind]. exists (l' ++ M ++ r'), (Nat.max (S d2) d1).
          split; [repeat (rewrite <- app_assoc; cbn [app]); reflexivity|]. split; [now apply PermF|].
          destruct (Nat.max_spec (S d2) d1) as [[_ ->]|[_ ->]]; [lia|]. rewrite Nat2Z.inj_succ, Z.pow_succ_r by lia. lia.
  Qed.
End Qs.

Section Total.
  Variable T : Type.
  Variable c : T -> T -> comparison.
  Variable TO : total_order c.
  Notation cmp := (fun a b => Some (c a b)).
  Notation asc := (ascending T c).

  Lemma asc_three l E r p : asc l -> asc r -> Forall (fun x => c p x = Gt) l -> Forall (fun x => c p x = Eq) E ->
    Forall (fun x => c p x = Lt) r -> asc (l ++ E ++ r).
  Proof.
    intros Al Ar Fl FE Fr. rewrite Forall_forall in *.
    assert (LE : forall a b, (In a l \/ In a E) -> (In b E \/ In b r) -> le T c a b).
    { intros a b Ha Hb. unfold le. apply (to_trans c TO a p b).
      - rewrite (to_opp c TO p a). destruct Ha as [Ha|Ha]; [rewrite (Fl a Ha)|rewrite (FE a Ha)]; discriminate.
      - destruct Hb as [Hb|Hb]; [rewrite (FE b Hb)|rewrite (Fr b Hb)]; discriminate. }
    apply (asc_app T c). split; [exact Al|]. split.
    - apply (asc_app T c). split; [|split; [exact Ar|intros a b Ha Hb; apply LE; auto]].
      clear - LE. revert LE. induction E as [|e E IH]; intros LE; [constructor|]. constructor.
      + apply IH. intros a b Ha Hb. apply LE; cbn [In]; tauto.
      + rewrite Forall_forall. intros b Hb. apply LE; cbn [In]; tauto.
    - intros a b Ha Hb. apply in_app_or in Hb. apply LE; tauto.
  Qed.
  Lemma sort_total : forall fuel seg pre post, (length seg < fuel)%nat ->
    exists seg' d, qsort T cmp (pre ++ seg ++ post) (zlen pre) (zlen seg) fuel = Ok (pre ++ seg' ++ post, d) /\
       Permutation seg seg' /\ asc seg'.
  Proof.
    induction fuel as [|fuel IH]; intros seg pre post Hf; [lia|]. cbn [qsort].
    destruct seg as [|p rest].
    - exists [], O. cbn. split; [reflexivity|]. split; constructor.
    - pose proof (zlen_nonneg rest). replace (zlen (p :: rest) =? 0) with false by (rewrite zlen_cons; lia).
      destruct (partition_ok T cmp p rest pre post (zlen pre) (zlen (p :: rest)) eq_refl eq_refl) as [(E & x & Hx & Hc)|(L' & E1 & E2 & R' & E & HP & F1 & F2 & F3)];
        [discriminate|].
      rewrite E. cbn [bind]. pose proof (Permutation_length HP) as Lp. rewrite !app_length in Lp. cbn [length] in Hf.
      set (M := E1 ++ p :: E2) in *. assert (LM : zlen M = 1 + zlen E1 + zlen E2) by (unfold M; rewrite zlen_app, zlen_cons; lia).
      assert (Lt' : zlen (p :: rest) = zlen L' + zlen M + zlen R') by (rewrite LM, zlen_cons; unfold zlen; lia).
      assert (B1 : zlen pre + (zlen (p :: rest) - zlen R') = zlen (pre ++ L' ++ M)) by (rewrite Lt', !zlen_app; lia).
      assert (PermF : forall l r, Permutation L' l -> Permutation R' r -> Permutation (p :: rest) (l ++ M ++ r)).
      { intros l r P1 P2. rewrite <- P1, <- P2. unfold M. rewrite HP. repeat (rewrite <- app_assoc; cbn [app]).
        transitivity (L' ++ p :: E1 ++ E2 ++ R'); [apply Permutation_middle|]. apply Permutation_app_head. apply Permutation_middle. }
      assert (AscF : forall l r, Permutation L' l -> Permutation R' r -> asc l -> asc r -> asc (l ++ M ++ r)).
      { intros l r P1 P2 A1 A2. apply asc_three with p; auto.
        - rewrite Forall_forall in *. intros x Hx. specialize (F1 x (Permutation_in x (Permutation_sym P1) Hx)). congruence.
        - unfold M. apply Forall_app in F2. destruct F2 as [G1 G2]. apply Forall_app. split.
          + eapply Forall_impl; [|exact G1]. cbn. congruence.
          + constructor; [apply (c_refl T c TO)|]. eapply Forall_impl; [|exact G2]. cbn. congruence.
        - rewrite Forall_forall in *. intros x Hx. specialize (F3 x (Permutation_in x (Permutation_sym P2) Hx)). congruence. }
      destruct (zlen L' <? zlen R') eqn:Elr.
      + destruct (IH L' pre (M ++ R' ++ post)) as (l' & d1 & Ea & Pa & Da); [lia|].
        rewrite Ea. cbn [bind]. rewrite B1. replace (zlen (pre ++ L' ++ M)) with (zlen (pre ++ l' ++ M))
          by (rewrite !zlen_app; unfold zlen; now rewrite (Permutation_length Pa)).
        replace (pre ++ l' ++ M ++ R' ++ post) with ((pre ++ l' ++ M) ++ R' ++ post) by now rewrite <- !app_assoc.
        destruct (IH R' (pre ++ l' ++ M) post) as (r' & d2 & Eb & Pb & Db); [lia|].
        rewrite Eb. cbn [bind]. exists (l' ++ M ++ r'), (Nat.max (S d1) d2).
        split; [repeat (rewrite <- app_assoc; cbn [app]); reflexivity|]. split; [now apply PermF|now apply AscF].
      + rewrite B1. replace (pre ++ L' ++ M ++ R' ++ post) with ((pre ++ L' ++ M) ++ R' ++ post) by now rewrite <- !app_assoc.
        destruct (IH R' (pre ++ L' ++ M) post) as (r' & d2 & Eb & Pb & Db); [lia|].
        rewrite Eb. cbn [bind]. replace ((pre ++ L' ++ M) ++ r' ++ post) with (pre ++ L' ++ (M ++ r' ++ post)) by now rewrite <- !app_assoc.
        destruct (IH L' pre (M ++ r' ++ post)) as (l' & d1 & Ea & Pa & Da); [lia|].
        rewrite Ea. cbn [bind]. exists (l' ++ M ++ r'), (Nat.max (S d2) d1).
        split; [repeat (rewrite <- app_assoc; cbn [app]); reflexivity|]. split; [now apply PermF|now apply AscF].
  Qed.
End Total.

Lemma sort_array_any T cmp (pre seg post : list T) :
  (sort_array T cmp (pre ++ seg ++ post) (zlen pre) (zlen seg) = Err /\ exists x y, In x seg /\ In y seg /\ cmp x y = None) \/
  (exists seg' d, sort_array T cmp (pre ++ seg ++ post) (zlen pre) (zlen seg) = Ok (pre ++ seg' ++ post, d) /\
     Permutation seg seg' /\ 2 ^ Z.of_nat d <= zlen seg + 1).
Proof. apply sort_any. rewrite zlen_to_nat. lia. Qed.
Lemma sort_array_total T c (TO : total_order c) (pre seg post : list T) :
  exists seg' d, sort_array T (fun a b => Some (c a b)) (pre ++ seg ++ post) (zlen pre) (zlen seg) = Ok (pre ++ seg' ++ post, d) /\
     Permutation seg seg' /\ ascending T c seg'.
Proof. apply sort_total; auto. rewrite zlen_to_nat. lia. Qed.
Lemma order_by_ok T c (TO : total_order c) (source : list T) :
  exists out, order_by T (fun a b => Some (c a b)) source = Ok out /\ Permutation source out /\ ascending T c out.
Proof.
  unfold order_by. destruct (0 <? zlen source) eqn:E.
  - destruct (sort_array_total T c TO [] source []) as (s & d & E1 & P & A). cbn [app] in E1. rewrite !app_nil_r in E1.
    change (zlen []) with 0 in E1. rewrite E1. cbn [bind]. eauto.
  - exists source. split; [reflexivity|]. split; [reflexivity|]. destruct source; [constructor|]. rewrite zlen_cons in E. pose proof (zlen_nonneg source). lia.
Qed.
Lemma key_total T U (f : T -> U) c : total_order c -> total_order (fun a b => c (f a) (f b)).
Proof. intros TO. split; intros; [apply (to_opp c TO)|eapply (to_trans c TO); eauto]. Qed.
