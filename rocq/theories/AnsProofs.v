From Coq Require Import ZifyBool ZifyNat.
From Verif Require Import Base BaseFacts LstModel LstSpec LstProofs SrtModel SrtSpec SrtProofs AnyModel AnySpec AnyProofs AnyProofs2 AngProofs3 AnsModel AnsSpec.
Open Scope Z_scope.

Section Ans.
  Context (A St : Type) (cmp : St -> A -> A -> St * option comparison) (less : St -> A -> A -> St * option bool).
  Notation shows := (lst_shows A). Notation eqi := (equal_in A St cmp). Notation fli := (fail_in A St cmp less).
  Notation has := (has A St cmp). Notation drive := (drive A St cmp less). Notation gather := (gather A St cmp less).

  Lemma has_ok x l a st : shows x l ->
    exists st' r, has x a st = Ok (st', r) /\ match r with None => fli l a | Some true => eqi l a | Some false => True end.
  Proof.
    intros H. unfold AnsModel.has. destruct (ainternal_ok A St cmp less x l a st H) as (st' & [(b & Hb & Fb & E)|(r & oi & E & [->|(l1 & b & l2 & -> & -> & Q)] & _)]); rewrite E; cbn [bind];
      do 2 eexists; (split; [reflexivity|]).
    - exists b. auto.
    - exact I.
    - pose proof (zlen_nonneg l1). replace (zlen l1 =? -1) with false by lia. cbn [negb]. exists b. split; [apply in_elt|exact Q].
  Qed.
  Definition ref_shows (ref : option (bool * lst A)) (over : list A) : Prop := match ref with None => over = [] | Some (_, x) => exists l, shows x l /\ forall b, In b l <-> In b over end.
  Definition takes (ref : option (bool * lst A)) (over : list A) (a : A) : Prop := match ref with Some (true, _) => eqi over a | _ => True end.
  Definition skips (ref : option (bool * lst A)) (over : list A) (a : A) : Prop := match ref with None => False | Some (true, _) => True | Some (false, _) => eqi over a end.
  Lemma wanted_ok ref over a st : ref_shows ref over ->
    exists st' r, wanted A St cmp ref a st = Ok (st', r) /\ match r with None => fli over a | Some true => takes ref over a | Some false => skips ref over a end.
  Proof.
    intros H. unfold wanted. destruct ref as [[keep x]|]; [|do 2 eexists; split; [reflexivity|exact I]].
    destruct H as (l & S' & L). destruct (has_ok x l a st S') as (st' & r & E & R). rewrite E. cbn [bind]. do 2 eexists. split; [reflexivity|].
    assert (T : eqi l a -> eqi over a) by (intros (b & Hb & Q); exists b; split; [now apply L|exact Q]).
    destruct r as [[|]|]; [destruct keep; cbn [Bool.eqb takes skips]; auto..|]. destruct R as (b & Hb & Q). exists b. split; [now apply L|exact Q].
  Qed.
  Lemma drive_ok ref over : ref_shows ref over -> forall xs x l seen st, shows x l -> (forall b, In b l <-> In b seen) ->
    exists st' ys ok, drive ref x xs st = Ok (st', ys, ok) /\ yields A St cmp less (takes ref over) (skips ref over) over seen xs ys ok.
  Proof.
    intros HR. induction xs as [|a xs IH]; intros x l seen st H L; cbn [AnsModel.drive]; [do 3 eexists; split; [reflexivity|constructor]|].
    destruct (wanted_ok ref over a st HR) as (st1 & w & E1 & W). rewrite E1. cbn [bind]. destruct w as [[|]|].
    - destruct (has_ok x l a st1 H) as (st2 & h & E2 & Hh). rewrite E2. cbn [bind]. destruct h as [[|]|].
      + destruct (IH x l seen st2 H L) as (st' & ys & ok & E & Y). do 3 eexists. split; [exact E|]. apply yl_dup; auto. destruct Hh as (b & Hb & Q). exists b. split; [now apply L|exact Q].
      + destruct (aadd_ok A St cmp less x l a st2 H) as (st3 & [(b & Hb & Fb & E3)|(y & l1 & l2 & E3 & -> & S')]); rewrite E3; cbn [bind].
        * do 3 eexists. split; [reflexivity|]. apply yl_throw. exists b. split; [apply in_or_app; left; now apply L|exact Fb].
        * destruct (IH y (l1 ++ a :: l2) (a :: seen) st3 S') as (st' & ys & ok & E & Y).
          { intros b. cbn [In]. rewrite <- L, !in_app_iff. cbn [In]. tauto. }
          rewrite E. cbn [bind]. do 3 eexists. split; [reflexivity|]. now apply yl_take.
      + do 3 eexists. split; [reflexivity|]. apply yl_throw. destruct Hh as (b & Hb & Q). exists b. split; [apply in_or_app; left; now apply L|exact Q].
    - destruct (IH x l seen st1 H L) as (st' & ys & ok & E & Y). do 3 eexists. split; [exact E|]. now apply yl_skip.
    - do 3 eexists. split; [reflexivity|]. apply yl_throw. destruct W as (b & Hb & Q). exists b. split; [apply in_or_app; now right|exact Q].
  Qed.
  Lemma gather_ok ys : forall x l pre st, shows x l -> (forall b, In b l <-> In b pre) ->
    exists st', (exists a b, In a ys /\ In b (pre ++ ys) /\ can_fail A St cmp less b a /\ gather x ys st = Ok (st', None)) \/
      exists y l', gather x ys st = Ok (st', Some y) /\ shows y l' /\ forall b, In b l' <-> In b (pre ++ ys).
  Proof.
    induction ys as [|a ys IH]; intros x l pre st H L; cbn [AnsModel.gather].
    - exists st. right. exists x, l. rewrite app_nil_r. auto.
    - destruct (aadd_ok A St cmp less x l a st H) as (st1 & [(b & Hb & Fb & E)|(y & l1 & l2 & E & -> & S')]); rewrite E; cbn [bind].
      + exists st1. left. exists a, b. split; [now left|]. split; [apply in_or_app; left; now apply L|]. auto.
      + destruct (IH y (l1 ++ a :: l2) (pre ++ [a]) st1 S') as (st' & [(a' & b & Ha & Hb & F & E')|(z & l' & E' & S2 & L2)]).
        { intros b. rewrite !in_app_iff, <- L, in_app_iff. cbn [In]. tauto. }
        * exists st'. left. exists a', b. rewrite <- app_assoc in Hb. split; [now right|]. auto.
        * exists st'. right. exists z, l'. rewrite <- app_assoc in L2. auto.
  Qed.
  Lemma set_any o xs st : exists st' zs ok, set_op A St cmp less o xs st = Ok (st', zs, ok) /\ may_yield A St cmp less o xs zs ok.
  Proof.
    pose proof (empty_shows A) as H0. destruct o as [|ys|ys|ys]; cbn [set_op].
    - destruct (drive_ok None [] eq_refl xs empty_lst [] [] st H0) as (st' & zs & ok & E & Y); [easy|]. do 3 eexists. split; [exact E|]. now constructor.
    - destruct (drive_ok None [] eq_refl (xs ++ ys) empty_lst [] [] st H0) as (st' & zs & ok & E & Y); [easy|]. do 3 eexists. split; [exact E|]. now constructor.
    - destruct (gather_ok ys empty_lst [] [] st H0) as (st1 & [(a & b & Ha & Hb & F & E)|(y & l & E & S' & L)]); [easy| |]; rewrite E; cbn [bind].
      + do 3 eexists. split; [reflexivity|]. cbn [app] in Hb. apply (my_throw A St cmp less _ ys xs b a); auto.
      + destruct (drive_ok (Some (true, y)) ys) with (xs := xs) (x := @empty_lst A) (l := @nil A) (seen := @nil A) (st := st1) as (st' & zs & ok & E2 & Y); [exists l; auto|exact H0|easy|].
        do 3 eexists. split; [exact E2|]. now constructor.
    - destruct (gather_ok ys empty_lst [] [] st H0) as (st1 & [(a & b & Ha & Hb & F & E)|(y & l & E & S' & L)]); [easy| |]; rewrite E; cbn [bind].
      + do 3 eexists. split; [reflexivity|]. cbn [app] in Hb. apply (my_throw A St cmp less _ ys xs b a); auto.
      + destruct (drive_ok (Some (false, y)) ys) with (xs := xs) (x := @empty_lst A) (l := @nil A) (seen := @nil A) (st := st1) as (st' & zs & ok & E2 & Y); [exists l; auto|exact H0|easy|].
        do 3 eexists. split; [exact E2|]. now constructor.
  Qed.

  (* exceptions are not swallowed *)
  Context (calm : St -> Prop) (K : keeps_calm cmp less calm).
  Lemma has_calm x a st st' b : calm st -> has x a st = Ok (st', Some b) -> calm st'.
  Proof.
    intros H. unfold AnsModel.has. destruct (ainternal A St cmp x a st) as [[st1 [[i oi]|]]| | |] eqn:E; cbn [bind]; intros Q; try discriminate. injection Q as <- <-.
    eapply ainternal_calm; eauto.
  Qed.
  Lemma wanted_calm ref a st st' b : calm st -> wanted A St cmp ref a st = Ok (st', Some b) -> calm st'.
  Proof.
    intros H. unfold wanted. destruct ref as [[keep x]|]; [|intros Q; now injection Q as <- <-].
    destruct (has x a st) as [[st1 [h|]]| | |] eqn:E; cbn [bind]; intros Q; try discriminate. injection Q as <- <-. eapply has_calm; eauto.
  Qed.
  Lemma drive_calm ref : forall xs x st st' ys, calm st -> drive ref x xs st = Ok (st', ys, true) -> calm st'.
  Proof.
    induction xs as [|a xs IH]; intros x st st' ys H; cbn [AnsModel.drive]; [intros Q; now injection Q as <- <-|].
    destruct (wanted A St cmp ref a st) as [[st1 [[|]|]]| | |] eqn:E1; cbn [bind]; try discriminate; apply wanted_calm in E1; auto; [|now apply IH].
    destruct (has x a st1) as [[st2 [[|]|]]| | |] eqn:E2; cbn [bind]; try discriminate; apply has_calm in E2; auto; [now apply IH|].
    destruct (aadd A St cmp less x a st2) as [[st3 [[y i]|]]| | |] eqn:E3; cbn [bind]; try discriminate. eapply aadd_calm in E3; eauto.
    destruct (drive ref y xs st3) as [[[st4 zs] ok]| | |] eqn:E4; cbn [bind]; intros Q; try discriminate. injection Q as <- <- ->. eapply IH; eauto.
  Qed.
  Lemma gather_calm : forall ys x st st' y, calm st -> gather x ys st = Ok (st', Some y) -> calm st'.
  Proof.
    induction ys as [|a ys IH]; intros x st st' y H; cbn [AnsModel.gather]; [intros Q; now injection Q as <- <-|].
    destruct (aadd A St cmp less x a st) as [[st1 [[z i]|]]| | |] eqn:E; cbn [bind]; try discriminate. eapply aadd_calm in E; eauto.
  Qed.
  Lemma set_calm o xs st st' zs : calm st -> set_op A St cmp less o xs st = Ok (st', zs, true) -> calm st'.
  Proof.
    intros H. destruct o as [|ys|ys|ys]; cbn [set_op]; try (now apply drive_calm);
      (destruct (gather empty_lst ys st) as [[st1 [y|]]| | |] eqn:E; cbn [bind]; try discriminate; apply gather_calm in E; auto; now apply drive_calm).
  Qed.
End Ans.

Section Exact.
  Context (A : Type) (c : A -> A -> comparison) (TO : total_order c).
  Notation oc := (fun a b => Some (c a b)). Notation cmp := (fixed_cmp oc). Notation less := (fixed_less oc).
  Notation shows := (lst_shows A). Notation asc := (ascending A c). Notation isin := (isin A c).

  Lemma isin_true l a : isin l a = true <-> exists b, In b l /\ c b a = Eq.
  Proof.
    unfold AnsSpec.isin. rewrite existsb_exists. split; intros (b & Hb & Q); exists b; (split; [exact Hb|]); [now destruct (c b a)|now rewrite Q].
  Qed.
  Lemma isin_ext l s a : (forall b, In b l <-> In b s) -> isin l a = isin s a.
  Proof. intros L. apply eq_true_iff_eq. rewrite !isin_true. split; intros (b & Hb & Q); exists b; (split; [now apply L|exact Q]). Qed.
  Lemma has_exact x l a : shows x l -> asc l -> has A unit cmp x a tt = Ok (tt, Some (isin l a)).
  Proof.
    intros H Ha. unfold has. rewrite ainternal_fixed. destruct (internal_ok A c TO x l a H Ha) as (r & oi & E & [(Hr & _ & b & N & Q)|(-> & p & Hp & Hb & Hab & _)]); rewrite E; cbn [lift bind]; do 3 f_equal.
    - replace (r =? -1) with false by lia. cbn [negb]. symmetry. apply isin_true. exists b. split; [|exact Q].
      destruct (zsplit1 l r Hr) as (l1 & b' & l2 & -> & _ & N' & _). rewrite N in N'. injection N' as <-. apply in_elt.
    - cbn [Z.eqb Pos.eqb negb]. symmetry. apply not_true_iff_false. rewrite isin_true. intros (b & Hi & Q).
      destruct (split_below A c l a p Hp Hb Hab) as [B1 B2]. rewrite <- (firstn_skipn (Z.to_nat p) l) in Hi. apply in_app_or in Hi.
      destruct Hi as [Hi|Hi]; [rewrite (B1 b Hi) in Q|rewrite (B2 b Hi) in Q]; discriminate.
  Qed.
  Lemma aadd_exact x l a : shows x l -> asc l -> exists y i l1 l2, aadd A unit cmp less x a tt = Ok (tt, Some (y, i)) /\ l = l1 ++ l2 /\ shows y (l1 ++ a :: l2) /\ asc (l1 ++ a :: l2).
  Proof.
    intros H Ha. destruct (s_add_ok A c TO x l a H Ha) as (y & l1 & l2 & El & E & S' & A' & _).
    destruct (aadd_ok A unit cmp less x l a tt H) as ([] & [(b & _ & _ & E')|(y' & n1 & n2 & E' & _)]); pose proof (aadd_fixed _ _ _ _ _ _ E') as F; rewrite E in F; [discriminate|].
    injection F as <- _. exists y, (zlen n1), l1, l2. auto.
  Qed.
  Lemma gather_exact ys : forall x l pre, shows x l -> asc l -> (forall b, In b l <-> In b pre) ->
    exists y l', gather A unit cmp less x ys tt = Ok (tt, Some y) /\ shows y l' /\ asc l' /\ forall b, In b l' <-> In b (pre ++ ys).
  Proof.
    induction ys as [|a ys IH]; intros x l pre H Ha L; cbn [gather].
    - exists x, l. rewrite app_nil_r. auto.
    - destruct (aadd_exact x l a H Ha) as (y & i & l1 & l2 & E & -> & S' & A'). rewrite E. cbn [bind].
      destruct (IH y (l1 ++ a :: l2) (pre ++ [a]) S' A') as (z & l' & E' & S2 & A2 & L2). { intros b. rewrite !in_app_iff, <- L, in_app_iff. cbn [In]. tauto. }
      exists z, l'. rewrite <- app_assoc in L2. auto.
  Qed.
  Lemma drive_exact ref p : (forall a, wanted A unit cmp ref a tt = Ok (tt, Some (p a))) -> forall xs x l seen, shows x l -> asc l -> (forall b, In b l <-> In b seen) ->
    drive A unit cmp less ref x xs tt = Ok (tt, firsts A c seen (filter p xs), true).
  Proof.
    intros W. induction xs as [|a xs IH]; intros x l seen H Ha L; cbn [drive filter]; [reflexivity|]. rewrite W. cbn [bind]. destruct (p a); [|now apply (IH x l)].
    rewrite (has_exact x l a H Ha). cbn [bind firsts]. rewrite (isin_ext l seen a L). destruct (isin seen a); [now apply (IH x l)|].
    destruct (aadd_exact x l a H Ha) as (y & i & l1 & l2 & E & -> & S' & A'). rewrite E. cbn [bind].
    rewrite (IH y (l1 ++ a :: l2) (a :: seen) S' A'); [reflexivity|]. intros b. cbn [In]. rewrite <- L, !in_app_iff. cbn [In]. tauto.
  Qed.
  Lemma filter_all (xs : list A) : filter (fun _ => true) xs = xs.
  Proof. induction xs; cbn [filter]; congruence. Qed.
  Lemma set_exact o xs : set_op A unit cmp less o xs tt = Ok (tt, exact_op A c o xs, true).
  Proof.
    pose proof (empty_shows A) as H0. assert (A0 : asc []) by constructor. destruct o as [|ys|ys|ys]; cbn [set_op exact_op].
    - rewrite (drive_exact None (fun _ => true) ltac:(reflexivity) _ _ _ [] H0 A0) by easy. now rewrite filter_all.
    - rewrite (drive_exact None (fun _ => true) ltac:(reflexivity) _ _ _ [] H0 A0) by easy. now rewrite filter_all.
    - destruct (gather_exact ys empty_lst [] [] H0 A0) as (y & l & E & S' & A' & L); [easy|]. rewrite E. cbn [bind].
      rewrite (drive_exact (Some (true, y)) (AnsSpec.isin A c ys)) with (l := @nil A) (seen := @nil A); [reflexivity| |exact H0|exact A0|easy].
      intros a. cbn [wanted]. rewrite (has_exact y l a S' A'). cbn [bind]. rewrite (isin_ext l ys a L). now destruct (isin ys a).
    - destruct (gather_exact ys empty_lst [] [] H0 A0) as (y & l & E & S' & A' & L); [easy|]. rewrite E. cbn [bind].
      rewrite (drive_exact (Some (false, y)) (fun a => negb (AnsSpec.isin A c ys a))) with (l := @nil A) (seen := @nil A); [reflexivity| |exact H0|exact A0|easy].
      intros a. cbn [wanted]. rewrite (has_exact y l a S' A'). cbn [bind]. rewrite (isin_ext l ys a L). now destruct (isin ys a).
  Qed.
End Exact.
