From Coq Require Import ZifyBool ZifyNat.
From Verif Require Import Base BaseFacts LstModel LstSpec LstProofs SrtModel SrtSpec SrtProofs AnyModel AnySpec AnyProofs AnyProofs2 AngProofs3 AnsModel AnsSpec AnsProofs DxnModel DxnSpec DxnProofs.
Open Scope Z_scope.

Section Exact.
  Context (A : Type) (c : A -> A -> comparison) (TO : total_order c).
  Notation oc := (fun a b => Some (c a b)). Notation cmp := (fixed_cmp oc). Notation less := (fixed_less oc).
  Notation shows := (lst_shows A). Notation asc := (ascending A c). Notation firsts := (firsts A c).

  Section Ref.
    Context (ref : option (bool * lst A)) (p : A -> bool) (W : forall a, wanted A unit cmp ref a tt = Ok (tt, Some (p a))).
    Lemma walk_exact o : forall xs s l sn, shows s l -> asc l -> (forall b, In b l <-> In b sn) ->
      (firsts sn (filter p xs) = [] /\ walk A unit cmp less ref s o xs tt = Ok (tt, mkDen [] s o, No)) \/
      exists a zs xs' y l1 l2, firsts sn (filter p xs) = a :: zs /\ walk A unit cmp less ref s o xs tt = Ok (tt, mkDen xs' y (Some a), Yes) /\
        l = l1 ++ l2 /\ shows y (l1 ++ a :: l2) /\ asc (l1 ++ a :: l2) /\ firsts (a :: sn) (filter p xs') = zs.
    Proof.
      induction xs as [|a xs IH]; intros s l sn H Ha L; cbn [walk filter]; [left; auto|]. rewrite W. cbn [bind]. destruct (p a); [|now apply (IH s l)].
      rewrite (has_exact A c TO s l a H Ha). cbn [bind AnsSpec.firsts]. rewrite (isin_ext A c l sn a L). destruct (isin A c sn a); [now apply (IH s l)|]. right.
      cbv zeta. destruct (aadd_exact A c TO s l a H Ha) as (y & i & l1 & l2 & E & El & S' & A'). rewrite E. cbn [bind].
      exists a, (firsts (a :: sn) (filter p xs)), xs, y, l1, l2. auto 10.
    Qed.
    Lemma xrun_exact src os : forall d l sn n, shows (seen d) l -> asc l -> (forall b, In b l <-> In b sn) -> length l = n ->
      firsts sn (filter p (rest d)) = skipn n (firsts [] (filter p src)) ->
      exists d', xrun A unit cmp less ref src d tt os = Ok (d', tt, plain_run A (firsts [] (filter p src)) n (last d) os).
    Proof.
      induction os as [|o os IH]; intros d l sn n H Ha L N F; cbn [xrun plain_run]; [now exists d|]. destruct o; cbn [xstep plain_step].
      - unfold next. destruct (walk_exact (last d) (rest d) (seen d) l sn H Ha L) as [(E0 & E)|(a & zs & xs' & y & l1 & l2 & E0 & E & -> & S' & A' & E1)]; rewrite E; cbn [bind].
        + rewrite E0 in F. assert (Q : nth_error (firsts [] (filter p src)) n = None) by (apply nth_error_None; pose proof (skipn_length n (firsts [] (filter p src))); rewrite <- F in *; cbn [length] in *; lia).
          rewrite Q. destruct (IH (mkDen [] (seen d) (last d)) l sn n H Ha L N) as (d' & R); [exact F|]. rewrite R. cbn [bind]. exists d'. reflexivity.
        + rewrite E0 in F. assert (Q : firsts [] (filter p src) = firstn n (firsts [] (filter p src)) ++ a :: zs) by (rewrite F; symmetry; apply firstn_skipn).
          assert (Ln : length (firstn n (firsts [] (filter p src))) = n).
          { apply firstn_length_le. pose proof (skipn_length n (firsts [] (filter p src))). rewrite <- F in *. cbn [length] in *. lia. }
          assert (Q1 : nth_error (firsts [] (filter p src)) n = Some a) by (rewrite Q, nth_error_app2, Ln, Nat.sub_diag by lia; reflexivity).
          rewrite Q1.
          destruct (IH (mkDen xs' y (Some a)) (l1 ++ a :: l2) (a :: sn) (S n) S' A') as (d' & R).
          * intros b. cbn [In]. rewrite <- L, !in_app_iff. cbn [In]. tauto.
          * rewrite <- N, !app_length. cbn [length]. lia.
          * cbn [rest]. rewrite E1, Q, skipn_app, Ln, skipn_all2 by lia. replace (S n - n)%nat with 1%nat by lia. reflexivity.
          * rewrite R. cbn [bind]. exists d'. reflexivity.
      - cbn [bind]. destruct (IH d l sn n H Ha L N F) as (d' & R). rewrite R. cbn [bind]. now exists d'.
      - cbn [bind]. destruct (IH d l sn n H Ha L N F) as (d' & R). rewrite R. cbn [bind]. destruct (H) as (C & _). rewrite C. exists d'. unfold zlen. rewrite N. reflexivity.
      - destruct (clear_ok A _ _ H) as (y & E & S'). rewrite E. cbn [bind].
        destruct (IH (mkDen src y (last d)) [] [] 0%nat S') as (d' & R); [constructor|easy|reflexivity|reflexivity|]. rewrite R. cbn [bind last]. now exists d'.
    Qed.
  End Ref.
  Lemma set_enumerates op xs os : exists ref d, opened A unit cmp less op tt = Ok (tt, Some ref) /\
    xrun A unit cmp less ref (reads A op xs) (fresh (reads A op xs)) tt os = Ok (d, tt, plain_run A (exact_op A c op xs) 0 None os).
  Proof.
    pose proof (empty_shows A) as H0. assert (A0 : asc []) by constructor.
    assert (G : forall ref p src, (forall a, wanted A unit cmp ref a tt = Ok (tt, Some (p a))) ->
      exists d, xrun A unit cmp less ref src (fresh src) tt os = Ok (d, tt, plain_run A (firsts [] (filter p src)) 0 None os)).
    { intros ref p src W. apply (xrun_exact ref p W src os (fresh src) [] [] 0%nat); [exact H0|exact A0|easy|reflexivity|reflexivity]. }
    destruct op as [|ys|ys|ys]; cbn [opened exact_op reads].
    - exists None. destruct (G None (fun _ => true) xs ltac:(reflexivity)) as (d & E). rewrite filter_all in E. exists d. auto.
    - exists None. destruct (G None (fun _ => true) (xs ++ ys) ltac:(reflexivity)) as (d & E). rewrite filter_all in E. exists d. auto.
    - destruct (gather_exact A c TO ys empty_lst [] [] H0 A0) as (y & l & E & S' & A' & L); [easy|]. rewrite E. cbn [bind].
      destruct (G (Some (true, y)) (isin A c ys) xs) as (d & E2).
      + intros a. cbn [wanted]. rewrite (has_exact A c TO y l a S' A'). cbn [bind]. rewrite (isin_ext A c l ys a L). now destruct (isin A c ys a).
      + exists (Some (true, y)), d. auto.
    - destruct (gather_exact A c TO ys empty_lst [] [] H0 A0) as (y & l & E & S' & A' & L); [easy|]. rewrite E. cbn [bind].
      destruct (G (Some (false, y)) (fun a => negb (isin A c ys a)) xs) as (d & E2).
      + intros a. cbn [wanted]. rewrite (has_exact A c TO y l a S' A'). cbn [bind]. rewrite (isin_ext A c l ys a L). now destruct (isin A c ys a).
      + exists (Some (false, y)), d. auto.
  Qed.
End Exact.
