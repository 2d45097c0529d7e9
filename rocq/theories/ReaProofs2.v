(* Lists of Ptr whose objects add to the list when they are destroyed: programs *)
From Coq Require Import Permutation.
From Coq Require Import ZifyBool ZifyNat.
From Verif Require Import Base BaseFacts ReaModel ReaSpec ReaProofs.
Open Scope nat_scope.

Section Proofs.
Variables (V : Type) (adds : V -> list (option V)).
Notation fulls := (map (@Full V)).
Notation remains := (remains V).
Notation add_all := (add_all V).
Notation brings := (brings V adds). Notation shows := (shows V).

Lemma shows_mk g l rest ls gone : Permutation (ls ++ remains rest) gone ->
  shows (mkL g (fulls l ++ rest) (length l) (length l + length rest) ls) l (length l + length rest) gone.
Proof.
  intros P. split; [reflexivity|]. split; [reflexivity|]. split; [cbn [cells]; now rewrite app_length, map_length|]. now exists rest.
Qed.
Lemma shows_form x l room gone : shows x l room gone -> exists g rest ls,
  x = mkL g (fulls l ++ rest) (length l) (length l + length rest) ls /\ room = length l + length rest /\ Permutation (ls ++ remains rest) gone.
Proof.
  intros (C & K & L & rest & E & P). destruct x as [g cs c k ls]. cbn [count cap cells lost] in *. subst. exists g, rest, ls.
  rewrite app_length, map_length. auto.
Qed.
Lemma take_give (ls : list (option V)) k rest gone : Permutation (ls ++ remains rest) gone ->
  Permutation ((ls ++ remains (firstn k rest)) ++ remains (skipn k rest)) gone.
Proof. intros P. rewrite <- app_assoc, <- remains_app, firstn_skipn. exact P. Qed.

Lemma settle g l rest ls gone k : k = length l + length rest -> Permutation (ls ++ remains rest) gone ->
  exists y, (if (length l <=? k / 2) && (length l <=? 8) && (length l <? k * 5 / 8)
             then to_buffer V (mkL g (fulls l ++ rest) (length l) k ls) (length l) (k * 5 / 8) (length l)
             else Ok (mkL g (fulls l ++ rest) (length l) k ls)) = Ok y /\
    shows y l (if too_roomy k (length l) then k * 5 / 8 else k) gone.
Proof.
  intros K P. unfold too_roomy. destruct ((length l <=? k / 2) && (length l <=? 8) && (length l <? k * 5 / 8)) eqn:T.
  - unfold to_buffer. cbn [cells gen lost]. rewrite contents_fulls. cbn [bind]. eexists. split; [reflexivity|].
    set (nc := k * 5 / 8) in *. assert (length l < nc) by lia.
    replace nc with (length l + length (repeat (@Raw V) (nc - length l))) at 2 3 by (rewrite repeat_length; lia).
    apply shows_mk. rewrite skipn_app, map_length, Nat.sub_diag. cbn [skipn]. rewrite skipn_all2 by (rewrite map_length; lia). cbn [app].
    assert (R : forall m, remains (repeat Raw m) = []) by (induction m; [reflexivity|assumption]). rewrite R, app_nil_r. exact P.
  - eexists. split; [reflexivity|]. subst k. apply shows_mk; exact P.
Qed.

Definition sim (x : lst V) (l : list (option V)) (o : op V) (v : verdict V) : Prop :=
  match v with
  | Fine l' room' gone' a => exists y, step V adds x o = Ok (y, a) /\ shows y l' room' gone'
  | Undefined => step V adds x o = UB
  | Broken => exists y, step V adds x o = Ok (y, Nothing) /\ length l - 1 < count y /\ get V y (length l - 1) = UB
  end.

Lemma sim_add x l room gone o : shows x l room gone -> sim x l (Add o) (sadd V l room gone o).
Proof.
  intros H. destruct (shows_form _ _ _ _ H) as (g & rest & ls & -> & -> & P). unfold sadd. cbn [sim].
  unfold step. cbn [step_raw]. destruct rest as [|c rest].
  - cbn [length] in *. rewrite Nat.add_0_r. replace (length l <? length l) with false by lia.
    unfold add. cbn [count cap]. replace (length l <? length l + 1) with true by lia. unfold to_buffer. cbn [cells gen lost]. rewrite contents_fulls. cbn [bind].
    set (nc := (length l + 1) * 5 / 4 + 1). assert (G : length l + 1 <= nc) by apply grown. cbn [cells].
    replace (nc - length l) with (S (nc - length l - 1)) by lia. cbn [repeat]. rewrite nth_mid by (now rewrite map_length).
    unfold put. cbn [gen cells count cap lost]. rewrite upd_mid by (now rewrite map_length). cbn [bind count]. eexists. split; [reflexivity|].
    pose proof (shows_mk (S g) (l ++ [o]) (repeat (@Raw V) (nc - length l - 1)) (ls ++ remains (skipn (length l) (fulls l ++ []))) gone) as Q.
    rewrite map_app, <- !app_assoc, !app_length, repeat_length in Q. cbn [map app length] in Q.
    replace (length l + 1 + (nc - length l - 1)) with nc in Q by lia. apply Q.
    rewrite (app_nil_r (fulls l)), skipn_all2 by (rewrite map_length; lia).
    assert (R : forall m, remains (repeat Raw m) = []) by (induction m; [reflexivity|assumption]). rewrite R. cbn [ReaModel.remains flat_map] in *. rewrite !app_nil_r in *. exact P.
  - cbn [length] in *. replace (length l <? length l + S (length rest)) with true by lia.
    rewrite add_room by (rewrite ?map_length; reflexivity). cbn [bind count]. eexists. split; [reflexivity|].
    pose proof (shows_mk g (l ++ [o]) rest (ls ++ remains [c]) gone) as Q. rewrite map_app, <- !app_assoc, app_length in Q. cbn [map app length] in Q.
    replace (length l + 1 + length rest) with (length l + S (length rest)) in Q by lia. rewrite Nat.add_1_r in Q. apply Q.
    rewrite <- remains_app. exact P.
Qed.

Lemma pick (l : list (option V)) i old : nth_error l i = Some old -> exists l1 l2, l = l1 ++ old :: l2 /\ i = length l1 /\ firstn i l = l1 /\ skipn (i + 1) l = l2.
Proof.
  intros H. apply nth_error_split in H. destruct H as (l1 & l2 & -> & <-). exists l1, l2. split; [reflexivity|]. split; [reflexivity|]. split.
  - rewrite firstn_app, Nat.sub_diag, firstn_all. cbn [firstn]. apply app_nil_r.
  - change (l1 ++ old :: l2) with (l1 ++ [old] ++ l2). rewrite app_assoc. replace (length l1 + 1) with (length (l1 ++ [old])) by (rewrite app_length; reflexivity).
    rewrite skipn_app, skipn_all, Nat.sub_diag. reflexivity.
Qed.
Lemma out_of l i : nth_error l i = None -> (i <? @length (option V) l) = false.
Proof. intros H. apply nth_error_None in H. lia. Qed.
Lemma inside l i (o : option V) : nth_error l i = Some o -> (i <? length l) = true.
Proof. intros H. apply nth_error_lt in H. lia. Qed.

Lemma sim_set x l room gone i o : shows x l room gone -> sim x l (SetAt i o) (sset V adds l room gone i o).
Proof.
  intros H. pose proof H as H0. destruct (shows_form _ _ _ _ H) as (g & rest & ls & -> & -> & P). unfold sset.
  destruct (nth_error l i) as [old|] eqn:N.
  2:{ cbn [sim]. unfold step. cbn [step_raw]. unfold set, check. cbn [count]. rewrite (out_of _ _ N). cbn [bind]. eauto. }
  pose proof (inside _ _ _ N) as IN. destruct (pick _ _ _ N) as (l1 & l2 & E & I & F & S). rewrite F, S.
  assert (Q : set V adds (mkL g (fulls l ++ rest) (length l) (length l + length rest) ls) i o =
              if length (brings old) <=? length rest
              then Ok (mkL g (fulls (l1 ++ o :: l2 ++ brings old) ++ skipn (length (brings old)) rest) (length l + length (brings old)) (length l + length rest)
                           (ls ++ remains (firstn (length (brings old)) rest)))
              else UB).
  { unfold set, check. cbn [count gen]. rewrite IN. subst l i. rewrite map_app. cbn [map]. rewrite <- app_assoc. cbn [app].
    pose proof (dec_one V adds g (fulls l1) old (fulls l2) (length (l1 ++ old :: l2)) (length (l1 ++ old :: l2) + length rest) ls rest) as D.
    rewrite !map_length in D. rewrite D by (rewrite ?app_length; cbn [length]; reflexivity).
    destruct (length (brings old) <=? length rest); [|reflexivity]. cbn [bind]. unfold put. cbn [gen cells count cap lost].
    rewrite upd_mid by (now rewrite map_length). rewrite !map_app. cbn [map]. rewrite map_app, <- !app_assoc. cbn [app]. rewrite <- app_assoc. reflexivity. }
  unfold sim. destruct (length l + length (brings old) <=? length l + length rest) eqn:B; unfold step; cbn [step_raw]; rewrite Q.
  - replace (length (brings old) <=? length rest) with true by lia. cbn [bind]. eexists. split; [reflexivity|].
    pose proof (shows_mk g (l1 ++ o :: l2 ++ brings old) (skipn (length (brings old)) rest) (ls ++ remains (firstn (length (brings old)) rest)) gone) as M.
    assert (L : length (l1 ++ o :: l2 ++ brings old) = length l + length (brings old)) by (subst l; rewrite !app_length; cbn [length]; rewrite app_length; lia).
    rewrite L, skipn_length in M. replace (length l + length (brings old) + (length rest - length (brings old))) with (length l + length rest) in M by lia.
    apply M. now apply take_give.
  - replace (length (brings old) <=? length rest) with false by lia. reflexivity.
Qed.

Notation dtors := (dtors V adds).
Notation state g cs n k ls := (mkL g cs n k ls).
(* ---- RemoveAt --------------------------------------------------------------------------- *)
Lemma release_none g c cs n k ls old new : old <= new ->
  release_buffer V adds (state g (c :: cs) n k ls) old new =
  if (new <=? k / 2) && (new <=? 8) && (new <? k * 5 / 8) then to_buffer V (state g (c :: cs) n k ls) new (k * 5 / 8) n else Ok (state g (c :: cs) n k ls).
Proof. intros H. unfold release_buffer. cbn [cells]. replace (new <? old) with false by lia. reflexivity. Qed.
Lemma release_one g a o b n k ls : 
  release_buffer V adds (state g (a ++ Full o :: b) n k ls) (length a + 1) (length a) =
  do y <- destroy V adds (state g (a ++ Full o :: b) n k ls) g (length a);
  if (length a <=? cap y / 2) && (length a <=? 8) && (length a <? cap y * 5 / 8) then to_buffer V y (length a) (cap y * 5 / 8) (count y) else Ok y.
Proof.
  unfold release_buffer. cbn [cells gen]. destruct (a ++ Full o :: b) as [|c cs] eqn:E; [destruct a; discriminate|].
  replace (length a <? length a + 1) with true by lia. replace (length a + 1 - length a) with 1 by lia. cbn [ReaModel.dtors].
  destruct (destroy V adds _ g (length a)) as [y| | |]; reflexivity.
Qed.
Lemma remove_inner g l1 old u l2 rest ls k : k = length (l1 ++ old :: u :: l2) + length rest ->
  let os := brings old in
  remove_at V adds (state g (fulls (l1 ++ old :: u :: l2) ++ rest) (length (l1 ++ old :: u :: l2)) k ls) (length l1) =
  if length os <=? length rest then
    release_buffer V adds (state g (fulls (l1 ++ u :: l2) ++ Full None :: fulls os ++ skipn (length os) rest)
                             (length (l1 ++ u :: l2) + length os) k (ls ++ remains (firstn (length os) rest)))
      (length (l1 ++ u :: l2) + 1) (length (l1 ++ u :: l2) + length os)
  else UB.
Proof.
  intros K. cbv zeta. unfold remove_at, check. cbn [count gen].
  replace (length l1 <? length (l1 ++ old :: u :: l2)) with true by (rewrite app_length; cbn [length]; lia).
  replace (length (l1 ++ old :: u :: l2) - length l1 - 1) with (length (u :: l2)) by (rewrite app_length; cbn [length]; lia).
  pose proof (dec_one V adds g (fulls l1) old (fulls (u :: l2)) (length (l1 ++ old :: u :: l2)) k ls rest) as D.
  rewrite !map_length in D. specialize (D ltac:(now rewrite app_length) K).
  pose proof (down V adds g (fulls l1) old (u :: l2) rest (length (l1 ++ old :: u :: l2)) k ls _ eq_refl) as M. rewrite !map_length, D in M.
  assert (C : fulls (l1 ++ old :: u :: l2) ++ rest = fulls l1 ++ Full old :: fulls (u :: l2) ++ rest) by (rewrite map_app, <- app_assoc; reflexivity).
  rewrite C. rewrite M; [| |discriminate].
  - destruct (length (brings old) <=? length rest); [|reflexivity]. cbn [bind].
    pose proof (nulls_down V adds (u :: l2) g (fulls l1) (fulls (brings old) ++ skipn (length (brings old)) rest)
                  (length (l1 ++ old :: u :: l2) + length (brings old)) k (ls ++ remains (firstn (length (brings old)) rest))) as Q.
    rewrite map_length in Q. rewrite Q. cbn [bind gen cells count cap lost].
    rewrite (map_app Full l1), <- (app_assoc (fulls l1)).
    replace (length (l1 ++ old :: u :: l2) + length (brings old) - 1) with (length (l1 ++ u :: l2) + length (brings old)) by (rewrite !app_length; cbn [length]; lia).
    replace (length (l1 ++ u :: l2) + 1) with (length (l1 ++ old :: u :: l2)) by (rewrite !app_length; cbn [length]; lia). reflexivity.
  - intros z. destruct (length (brings old) <=? length rest); [|discriminate]. intros E. injection E as <-. cbn [gen cells].
    split; [reflexivity|]. apply nth_mid. now rewrite map_length.
Qed.
Lemma lose_last (ls : list (option V)) k rest b gone : Permutation (ls ++ remains rest) gone ->
  Permutation ((ls ++ remains (firstn k rest)) ++ remains (Full b :: skipn k rest)) (b :: gone).
Proof.
  intros P. change (remains (Full b :: skipn k rest)) with (b :: remains (skipn k rest)). apply Permutation_sym, Permutation_cons_app, Permutation_sym.
  now apply take_give.
Qed.
Lemma sim_remove x l room gone i : shows x l room gone -> sim x l (RemoveAt i) (sremove V adds l room gone i).
Proof.
  intros H. pose proof H as H0. destruct (shows_form _ _ _ _ H) as (g & rest & ls & -> & -> & P). unfold sremove.
  destruct (nth_error l i) as [old|] eqn:N.
  2:{ cbn [sim]. unfold step. cbn [step_raw]. unfold remove_at, check. cbn [count]. rewrite (out_of _ _ N). cbn [bind]. eauto. }
  destruct (pick _ _ _ N) as (l1 & l2 & E & I & F & S). rewrite F, S. clear F S N H H0. subst l i.
  unfold sim, step. cbn [step_raw]. destruct l2 as [|u l2].
  - (* the last element *)
    rewrite !app_length. cbn [length].
    assert (R0 : remove_at V adds (state g (fulls (l1 ++ [old]) ++ rest) (length l1 + 1) (length l1 + 1 + length rest) ls) (length l1) =
                 release_buffer V adds (state g (fulls l1 ++ Full old :: rest) (length l1) (length l1 + 1 + length rest) ls) (length (fulls l1) + 1) (length (fulls l1))).
    { unfold remove_at, check. cbn [count gen]. replace (length l1 <? length l1 + 1) with true by lia.
      replace (length l1 + 1 - length l1 - 1) with 0 by lia. cbn [ReaModel.move_down bind gen cells count cap lost].
      rewrite map_length, map_app, <- app_assoc. cbn [map app]. replace (length l1 + 1 - 1) with (length l1) by lia. reflexivity. }
    rewrite R0. clear R0. rewrite release_one. rewrite destroy_one. rewrite !map_length.
    destruct (brings old) as [|b r] eqn:B.
    + cbn [bind cap count]. rewrite app_nil_r. replace (length l1 + 1 - 1) with (length l1) by lia.
      destruct (settle g l1 (Raw :: rest) ls gone (length l1 + 1 + length rest)) as (y & Q & Y); [cbn [length]; lia|exact P|].
      rewrite Q. cbn [bind]. eauto.
    + destruct (length l1 + 1 + length r <=? length l1 + 1 + length rest) eqn:RM.
      * rewrite (add_all_room V (b :: r) g (fulls l1) (Dying :: rest) (length l1) (length l1 + 1 + length rest) ls) by (rewrite ?map_length; cbn [length]; lia).
        cbn [gen cells count cap lost length map app skipn firstn]. rewrite Nat.eqb_refl, nth_mid by (now rewrite map_length).
        rewrite upd_mid by (now rewrite map_length). cbn [bind cap count].
        replace (length l1 + 1 - 1) with (length l1) by lia. fold (too_roomy (length l1 + 1 + length rest) (length l1)).
        destruct (too_roomy (length l1 + 1 + length rest) (length l1)) eqn:T.
        -- unfold to_buffer. cbn [cells gen lost]. rewrite contents_fulls. cbn [bind]. eexists. split; [reflexivity|]. cbn [count]. split; [lia|].
           unfold get, check. cbn [count cells]. replace (length l1 <? length l1 + S (length r)) with true by lia.
           unfold too_roomy in T. set (nc := _ * 5 / 8) in *. replace (nc - length l1) with (Datatypes.S (nc - length l1 - 1)) by lia.
           cbn [repeat]. rewrite nth_mid by (now rewrite map_length). reflexivity.
        -- eexists. split; [reflexivity|].
           pose proof (shows_mk g (l1 ++ None :: r) (skipn (length r) rest) ((ls ++ remains (Dying :: firstn (length r) rest)) ++ [b]) (b :: gone)) as M.
           rewrite map_app, <- !(app_assoc (fulls l1)), app_length, skipn_length in M. cbn [map app length] in M.
           replace (length l1 + Datatypes.S (length r) + (length rest - length r)) with (length l1 + 1 + length rest) in M by lia. apply M.
           change (remains (Dying :: firstn (length r) rest)) with (remains (firstn (length r) rest)).
           rewrite <- app_assoc. exact (lose_last ls (length r) rest b gone P).
      * cbn [bind]. rewrite <- (map_length Full l1) in RM.
        destruct (add_all_full V (b :: r) g (fulls l1) (Dying :: rest) (length l1) (length l1 + 1 + length rest) ls) as [(y & Q & G)|Q]; rewrite ?map_length in *; cbn [length]; try lia.
        -- rewrite Q. replace (gen y =? g) with false by lia. reflexivity.
        -- rewrite Q. reflexivity.
  - (* another one *)
    rewrite remove_inner by reflexivity. set (l' := l1 ++ u :: l2).
    assert (Ll : length (l1 ++ old :: u :: l2) = length l' + 1) by (unfold l'; rewrite !app_length; cbn [length]; lia). rewrite Ll.
    destruct (brings old) as [|b r] eqn:B.
    + cbn [length map app skipn firstn]. replace (0 <=? length rest) with true by lia. rewrite Nat.add_0_r.
      change (remains []) with (@nil (option V)). rewrite app_nil_r.
      pose proof (release_one g (fulls l') None rest (length l') (length l' + 1 + length rest) ls) as RO.
      rewrite destroy_one in RO. rewrite !map_length in RO. rewrite RO. cbn [ReaSpec.brings bind cap count].
      replace (length l' + 1 - 1) with (length l') by lia.
      destruct (settle g l' (Raw :: rest) ls gone (length l' + 1 + length rest)) as (y & Q & Y); [cbn [length]; lia|exact P|].
      rewrite Q. cbn [bind]. eauto.
    + cbn [length]. replace (length l' + 1 + Datatypes.S (length r) <=? length l' + 1 + length rest) with (Datatypes.S (length r) <=? length rest) by lia.
      destruct (Datatypes.S (length r) <=? length rest) eqn:RM; [|reflexivity].
      assert (SP : b :: r = removelast (b :: r) ++ [last (b :: r) None]) by (apply app_removelast_last; discriminate).
      assert (LR : length (removelast (b :: r)) = length r).
      { apply (f_equal (@length _)) in SP. rewrite app_length in SP. cbn [length] in SP. lia. }
      set (w := l1 ++ u :: l2 ++ None :: removelast (b :: r)).
      assert (W : w = l' ++ None :: removelast (b :: r)) by (unfold w, l'; now rewrite <- app_assoc).
      assert (C : fulls l' ++ Full None :: fulls (b :: r) ++ skipn (Datatypes.S (length r)) rest =
                  fulls w ++ Full (last (b :: r) None) :: skipn (Datatypes.S (length r)) rest).
      { rewrite W. rewrite SP at 1. rewrite !map_app, <- !app_assoc. cbn [map app]. reflexivity. }
      assert (Lw : length w = length l' + Datatypes.S (length r)) by (rewrite W, app_length; cbn [length]; lia).
      rewrite C. clearbody w. rewrite <- Lw.
      destruct (fulls w ++ Full (last (b :: r) None) :: skipn (Datatypes.S (length r)) rest) as [|c0 cs0] eqn:EC; [destruct w; discriminate|].
      rewrite release_none by lia. rewrite <- EC.
      destruct (settle g w (Full (last (b :: r) None) :: skipn (Datatypes.S (length r)) rest) (ls ++ remains (firstn (Datatypes.S (length r)) rest)) (last (b :: r) None :: gone)
                  (length l' + 1 + length rest)) as (y & Q & Y); [cbn [length]; rewrite skipn_length; lia|now apply lose_last|].
      rewrite Q. cbn [bind]. exists y. split; [reflexivity|].
      replace (length l' + 1 + length r) with (length w) by lia. 
      assert (W2 : l1 ++ (u :: l2) ++ None :: removelast (b :: r) = w) by (rewrite W; unfold l'; rewrite <- app_assoc; reflexivity). rewrite W2. exact Y.
Qed.

(* ---- Clear and the destructor ----------------------------------------------------------- *)
Lemma bind_ub {A B} (r : res A) (f : A -> res B) : r = UB -> bind r f = UB.
Proof. now intros ->. Qed.
Lemma dtors_quiet l : forall g a b n k ls, flat_map brings l = [] ->
  dtors (state g (a ++ fulls l ++ b) n k ls) g (length a) (length l) = Ok (state g (a ++ repeat Raw (length l) ++ b) n k ls).
Proof.
  induction l as [|o l IH]; intros g a b n k ls H; cbn [length ReaModel.dtors map app repeat]; [reflexivity|].
  cbn [flat_map] in H. apply app_eq_nil in H. destruct H as [H1 H2].
  assert (D : destroy V adds (state g (a ++ Full o :: fulls l ++ b) n k ls) g (length a) = Ok (state g (a ++ Raw :: fulls l ++ b) n k ls)).
  { rewrite destroy_one. now rewrite H1. }
  rewrite D. cbn [bind]. specialize (IH g (a ++ [Raw]) b n k ls H2). rewrite app_length, <- !app_assoc in IH. cbn [length app] in IH.
  rewrite Nat.add_1_r in IH. rewrite IH. reflexivity.
Qed.
Lemma dtors_emptied l : forall g a b ls, flat_map brings l <> [] ->
  dtors (state g (a ++ fulls l ++ b) 0 0 ls) g (length a) (length l) = UB.
Proof.
  induction l as [|o l IH]; intros g a b ls H; [exfalso; now apply H|]. cbn [length ReaModel.dtors map app]. rewrite destroy_one.
  cbn [flat_map] in H. destruct (brings o) as [|c r].
  - cbn [bind]. specialize (IH g (a ++ [Raw]) b ls H). rewrite app_length, <- !app_assoc in IH. cbn [length app] in IH.
    rewrite Nat.add_1_r in IH. exact IH.
  - cbn [ReaModel.add_all]. destruct (add_full V (state g (a ++ Dying :: fulls l ++ b) 0 0 ls) c) as [(y & -> & G)| ->]; [reflexivity| |reflexivity].
    cbn [bind]. cbn [gen] in G. destruct (add_all_good V r y) as [(z & -> & G')| ->]; [|reflexivity]. replace (gen z =? g) with false by lia. reflexivity.
Qed.
Lemma sim_clear x l room gone : shows x l room gone -> sim x l Clear (sclear V adds l gone).
Proof.
  intros H. destruct (shows_form _ _ _ _ H) as (g & rest & ls & -> & -> & P). unfold sclear.
  destruct (flat_map brings l) as [|c r] eqn:B; unfold sim, step; cbn [step_raw]; unfold clear; cbn [gen cells lost count].
  - pose proof (dtors_quiet l g [] rest 0 0 ls B) as Q. cbn [app length] in Q. rewrite Q. cbn [bind gen cells count cap lost]. eexists. split; [reflexivity|].
    apply (shows_mk (Datatypes.S g) [] []). rewrite remains_app.
    assert (R : forall m, remains (repeat Raw m) = []) by (induction m; [reflexivity|assumption]). rewrite R. cbn [app ReaModel.remains flat_map]. rewrite app_nil_r. exact P.
  - pose proof (dtors_emptied l g [] rest ls) as Q. cbn [app length] in Q. rewrite Q by (rewrite B; discriminate). reflexivity.
Qed.
Lemma destroy_in g a o b rest n k ls : n = length a + Datatypes.S (length b) -> k = n + length rest ->
  destroy V adds (state g (a ++ Full o :: b ++ rest) n k ls) g (length a) =
  if length (brings o) <=? length rest
  then Ok (state g (a ++ Raw :: b ++ fulls (brings o) ++ skipn (length (brings o)) rest) (n + length (brings o)) k
               (ls ++ remains (firstn (length (brings o)) rest)))
  else UB.
Proof.
  intros N K. rewrite destroy_one. destruct (brings o) as [|c r].
  - cbn [length map app skipn firstn]. replace (0 <=? length rest) with true by lia. rewrite Nat.add_0_r. cbn [ReaModel.remains flat_map]. now rewrite app_nil_r.
  - change (a ++ Dying :: b ++ rest) with (a ++ (Dying :: b) ++ rest). rewrite app_assoc.
    destruct (length (c :: r) <=? length rest) eqn:Q.
    + rewrite add_all_room by (rewrite ?app_length; cbn [length] in *; lia). cbn [gen cells count cap lost]. rewrite Nat.eqb_refl.
      rewrite <- app_assoc. cbn [app]. rewrite nth_mid by reflexivity. unfold put. cbn [gen cells count cap lost]. rewrite upd_mid by reflexivity. reflexivity.
    + destruct (add_all_full V (c :: r) g (a ++ Dying :: b) rest n k ls) as [(y & -> & G)| ->]; [rewrite app_length; cbn [length]; lia|lia|lia| |reflexivity].
      replace (gen y =? g) with false by lia. reflexivity.
Qed.
Lemma firstn_add {A} (l : list A) a b : firstn (a + b) l = firstn a l ++ firstn b (skipn a l).
Proof. revert l. induction a as [|a IH]; intros l; [reflexivity|]. destruct l; cbn [Nat.add firstn skipn app]; [now rewrite firstn_nil|]. now rewrite IH. Qed.
Lemma dtors_room l : forall g a m rest n k ls, n = length a + length l + length m -> k = n + length rest ->
  let os := flat_map brings l in
  dtors (state g (a ++ fulls l ++ m ++ rest) n k ls) g (length a) (length l) =
  if length os <=? length rest
  then Ok (state g (a ++ repeat Raw (length l) ++ m ++ fulls os ++ skipn (length os) rest) (n + length os) k (ls ++ remains (firstn (length os) rest)))
  else UB.
Proof.
  induction l as [|o l IH]; intros g a m rest n k ls N K; cbv zeta in *.
  - cbn [flat_map length ReaModel.dtors map app repeat skipn firstn]. replace (0 <=? length rest) with true by lia. rewrite Nat.add_0_r.
    cbn [ReaModel.remains flat_map]. now rewrite app_nil_r.
  - cbn [length ReaModel.dtors map app]. rewrite (app_assoc (fulls l)).
    rewrite (destroy_in g a o (fulls l ++ m) rest n k ls) by (rewrite ?app_length, ?map_length; cbn [length] in *; lia).
    cbn [flat_map]. rewrite app_length. destruct (length (brings o) <=? length rest) eqn:Q.
    + cbn [bind]. rewrite <- (app_assoc (fulls l)), (app_assoc m).
      specialize (IH g (a ++ [Raw]) (m ++ fulls (brings o)) (skipn (length (brings o)) rest) (n + length (brings o)) k (ls ++ remains (firstn (length (brings o)) rest))).
      rewrite !app_length, map_length, skipn_length, <- !app_assoc in IH. cbn [length app] in *. rewrite Nat.add_1_r in IH. rewrite <- app_assoc.
      rewrite IH by lia. replace (length (flat_map brings l) <=? length rest - length (brings o)) with (length (brings o) + length (flat_map brings l) <=? length rest) by lia.
      destruct (length (brings o) + length (flat_map brings l) <=? length rest); [|reflexivity].
      cbn [repeat app]. rewrite map_app, <- !app_assoc, skipn_skipn, <- remains_app, <- firstn_add, Nat.add_assoc. reflexivity.
    + replace (length (brings o) + length (flat_map brings l) <=? length rest) with false by lia. reflexivity.
Qed.
Theorem finish_loses x l room gone : shows x l room gone ->
  if length l + length (flat_map brings l) <=? room
  then exists out, finish V adds x = Ok out /\ Permutation out (gone ++ flat_map brings l)
  else finish V adds x = UB.
Proof.
  intros H. destruct (shows_form _ _ _ _ H) as (g & rest & ls & -> & -> & P). unfold finish. cbn [cells gen count lost].
  pose proof (dtors_room l g [] [] rest (length l) (length l + length rest) ls) as D. cbv zeta in D. cbn [app length] in D.
  rewrite D by lia. clear D.
  replace (length (flat_map brings l) <=? length rest) with (length l + length (flat_map brings l) <=? length l + length rest) by lia.
  destruct (length l + length (flat_map brings l) <=? length l + length rest) eqn:Q.
  - set (os := flat_map brings l) in *.
    assert (X : Permutation ((ls ++ remains (firstn (length os) rest)) ++ remains (repeat Raw (length l) ++ fulls os ++ skipn (length os) rest)) (gone ++ os)).
    { rewrite !remains_app, remains_fulls.
      assert (R : forall m, remains (repeat Raw m) = []) by (induction m; [reflexivity|assumption]). rewrite R. cbn [app].
      rewrite (Permutation_app_comm os), app_assoc. apply Permutation_app_tail. now apply take_give. }
    destruct (fulls l ++ rest) as [|c cs] eqn:E.
    + exists ls. split; [reflexivity|]. destruct l; [|discriminate]. destruct rest; [|discriminate]. unfold os. cbn [flat_map app]. rewrite app_nil_r.
      cbn [ReaModel.remains flat_map] in P. now rewrite app_nil_r in P.
    + cbn [bind lost cells]. eexists. split; [reflexivity|exact X].
  - destruct (fulls l ++ rest) as [|c cs] eqn:E; [|reflexivity].
    destruct l; [|discriminate]. destruct rest; [|discriminate]. cbn [flat_map length] in Q. discriminate Q.
Qed.

(* ---- programs --------------------------------------------------------------------------- *)
Theorem step_sim x l room gone o : shows x l room gone -> sim x l o (sstep V adds l room gone o).
Proof.
  intros H. destruct o as [a|i a|i| |i|]; cbn [sstep].
  - now apply sim_add.
  - now apply sim_set.
  - now apply sim_remove.
  - eapply sim_clear; eauto.
  - unfold sim, step. cbn [step_raw]. destruct (shows_form _ _ _ _ H) as (g & rest & ls & -> & -> & P). unfold get, check. cbn [count cells].
    destruct (nth_error l i) as [a|] eqn:N.
    + rewrite (inside _ _ _ N). rewrite nth_error_app1 by (rewrite map_length; eapply nth_error_lt; eauto).
      rewrite nth_error_map, N. cbn [option_map bind]. eauto.
    + rewrite (out_of _ _ N). cbn [bind]. eauto.
  - unfold sim, step. cbn [step_raw]. exists x. split; [|exact H]. destruct H as (-> & _). reflexivity.
Qed.
Lemma run_sim os : forall x l room gone, shows x l room gone ->
  match srun V adds l room gone os with
  | Done l' room' gone' rs => exists y, run V adds x os = Ok (y, rs) /\ shows y l' room' gone'
  | Undef => run V adds x os = UB
  | Break => exists p i r y rs z, os = p ++ RemoveAt i :: r /\ run V adds x p = Ok (y, rs) /\ i = count y - 1 /\
               step V adds y (RemoveAt i) = Ok (z, Nothing) /\ i < count z /\ get V z i = UB
  end.
Proof.
  induction os as [|o os IH]; intros x l room gone H; cbn [srun run]; [eauto|].
  pose proof (step_sim x l room gone o H) as S. unfold sim in S. destruct (sstep V adds l room gone o) as [l' room' gone' a| |] eqn:E.
  - destruct S as (y & Q & Y). rewrite Q. cbn [bind]. specialize (IH y l' room' gone' Y).
    destruct (srun V adds l' room' gone' os) as [l2 room2 gone2 rs| |].
    + destruct IH as (z & -> & Z). cbn [bind]. eauto.
    + rewrite IH. reflexivity.
    + destruct IH as (p & i & r & z & rs & w & -> & R & I & W). exists (o :: p), i, r, z, (a :: rs), w. split; [reflexivity|].
      split; [|now split]. cbn [run]. rewrite Q. cbn [bind]. rewrite R. reflexivity.
  - rewrite S. reflexivity.
  - destruct S as (y & Q & C & G). destruct o as [u|i u|i| |i|]; cbn [sstep] in E; try discriminate E.
    + unfold sset in E. destruct (nth_error l i); [|discriminate]. destruct (length l + length (brings o) <=? room); discriminate.
    + exists [], i, os, x, [], y. split; [reflexivity|]. split; [reflexivity|].
      assert (I : i = length l - 1).
      { unfold sremove in E. destruct (nth_error l i) as [old|] eqn:N; [|discriminate]. destruct (pick _ _ _ N) as (l1 & l2 & L & Hi & F & K). rewrite F, K in E.
        destruct (brings old) as [|b r]; [discriminate|]. destruct l2 as [|u l2].
        - subst l. rewrite app_length. cbn [length]. lia.
        - destruct (length l + length (b :: r) <=? room); discriminate. }
      destruct H as (HC & _). rewrite HC. rewrite <- I in *. auto.
    + unfold sclear in E. destruct (flat_map brings l); discriminate.
Qed.
Theorem programs os :
  match srun V adds [] 0 [] os with
  | Done l room gone rs => exists x, run V adds (start V) os = Ok (x, rs) /\ shows x l room gone
  | Undef => run V adds (start V) os = UB
  | Break => exists p i r x rs y, os = p ++ RemoveAt i :: r /\ run V adds (start V) p = Ok (x, rs) /\ i = count x - 1 /\
               step V adds x (RemoveAt i) = Ok (y, Nothing) /\ i < count y /\ get V y i = UB
  end.
Proof. apply run_sim. apply (shows_mk 0 [] []). constructor. Qed.
End Proofs.
