(* Proofs about TmModel. *)
From Verif Require Import Base BaseFacts LstModel LstSpec LmSpec TmModel TmSpec.
From Coq Require Import ZifyBool ZifyNat.
Open Scope Z_scope.

Section P.
  Variable E : Type.
  Variable husk : E -> E.
  Variable torn : E -> E -> E.
  Notation somes l := (map Some l).
  Notation across := (across E husk). Notation within := (within E husk). Notation shift_fwd := (shift_fwd E husk torn).
  Notation shift_bwd := (shift_bwd E husk torn). Notation shift := (shift E husk torn).
  Notation hollowed := (hollowed E husk).

  Lemma elem_app a (e : E) b i : i = zlen a -> elem E (a ++ Some e :: b) i = Ok e.
  Proof. intros ->. unfold elem. rewrite aget_app by reflexivity. reflexivity. Qed.
  Lemma put_app a x b i (e : E) : i = zlen a -> put E (a ++ x :: b) i e = Ok (a ++ Some e :: b).
  Proof. intros ->. unfold put. now rewrite aset_app by reflexivity. Qed.
  Lemma assign_app a (x : E) b i e : i = zlen a -> assign E (a ++ Some x :: b) i e = Ok (a ++ Some e :: b).
  Proof. intros ->. unfold assign. rewrite elem_app by reflexivity. cbn [bind]. now rewrite aset_app by reflexivity. Qed.
  Lemma destroy_app a (x : E) b i : i = zlen a -> destroy E (a ++ Some x :: b) i = Ok (a ++ None :: b).
  Proof. intros ->. unfold destroy. rewrite elem_app by reflexivity. cbn [bind]. now rewrite aset_app by reflexivity. Qed.

  Lemma more_more g a b : more (more g a) b = more g (a + b).
  Proof. unfold more. cbn [alive blocks]. f_equal. lia. Qed.
  Lemma more_eq g a b : a = b -> more g a = more g b.
  Proof. now intros ->. Qed.
  Lemma hits_S f n : throws f = false -> hits f (S n) = option_map S (hits (later f) n).
  Proof.
    destruct f as [[|k]|]; cbn [throws later hits option_map]; try discriminate; auto. intros _.
    destruct (k <? n)%nat eqn:H; destruct (S k <? S n)%nat eqn:H'; try reflexivity; lia.
  Qed.
  Lemma past_S f n : throws f = false -> past f (S n) = past (later f) n.
  Proof. destruct f as [[|k]|]; cbn [throws later past]; try discriminate; auto. Qed.
  Lemma hits_0 f : hits f 0 = None.
  Proof. destruct f as [k|]; reflexivity. Qed.
  Lemma hits_throws f n : throws f = true -> hits f (S n) = Some 0%nat.
  Proof. destruct f as [[|k]|]; cbn; try discriminate; auto. Qed.
  Lemma hits_lt f n k : hits f n = Some k -> (k < n)%nat.
  Proof. destruct f as [j|]; cbn [hits]; [|discriminate]. destruct (j <? n)%nat eqn:H; [|discriminate]. injection 1 as <-. lia. Qed.
  Lemma past_0 f : past f 0 = f.
  Proof. destruct f as [k|]; cbn [past]; [|reflexivity]. now rewrite Nat.sub_0_r. Qed.

  Lemma across_seg l : forall g f d1 d2 d3 s1 s3, length d2 = length l ->
    across g f (d1 ++ d2 ++ d3) (zlen d1) (s1 ++ somes l ++ s3) (zlen s1) (length l) =
    match hits f (length l) with
    | Some k => Ok (more g (Z.of_nat k), d1 ++ (somes (firstn k l) ++ skipn k d2) ++ d3, s1 ++ somes (hollowed k l) ++ s3, Thrown)
    | None => Ok (more g (zlen l), d1 ++ somes l ++ d3, s1 ++ somes (map husk l) ++ s3, Through (past f (length l)))
    end.
  Proof.
    induction l as [|e l IH]; intros g f d1 d2 d3 s1 s3 Hd; cbn [length TmModel.across].
    - destruct d2; [|discriminate]. rewrite hits_0, past_0. unfold zlen, more. cbn. rewrite Z.add_0_r. destruct g. reflexivity.
    - destruct d2 as [|d d2]; [discriminate|]. injection Hd as Hd.
      destruct (throws f) eqn:T.
      + rewrite hits_throws by exact T. unfold TmSpec.hollowed, more. cbn [firstn skipn map app Z.of_nat]. rewrite Z.add_0_r. destruct g. reflexivity.
      + rewrite hits_S, past_S by exact T. cbn [map app]. rewrite elem_app by reflexivity. cbn [bind].
        rewrite assign_app by reflexivity. cbn [bind]. rewrite put_app by reflexivity. cbn [bind].
        specialize (IH (more g 1) (later f) (d1 ++ [Some e]) d2 d3 (s1 ++ [Some (husk e)]) s3 Hd).
        rewrite !zlen_app in IH. change (zlen [Some e]) with 1 in IH. change (zlen [Some (husk e)]) with 1 in IH.
        rewrite <- !app_assoc in IH. cbn [app] in IH. rewrite IH. destruct (hits (later f) (length l)) as [k|]; cbn [option_map].
        * unfold TmSpec.hollowed. cbn [firstn skipn map app]. rewrite more_more, <- !app_assoc. cbn [app]. rewrite (more_eq g (1 + Z.of_nat k) (Z.of_nat (S k))) by lia. reflexivity.
        * rewrite more_more. cbn [app map]. rewrite zlen_cons. reflexivity.
  Qed.

  Lemma dtors_seg (l : list E) : forall g a b,
    dtors E g (a ++ somes l ++ b) (zlen a) (length l) = Ok (more g (- zlen l), a ++ repeat None (length l) ++ b).
  Proof.
    induction l as [|e l IH]; intros g a b; cbn [length TmModel.dtors map app repeat].
    - unfold more, zlen. cbn. rewrite Z.add_0_r. destruct g. reflexivity.
    - rewrite destroy_app by reflexivity. cbn [bind].
      specialize (IH (more g (-1)) (a ++ [None]) b). rewrite zlen_app in IH. change (zlen [None]) with 1 in IH.
      rewrite <- !app_assoc in IH. cbn [app] in IH. rewrite IH. rewrite more_more, zlen_cons. rewrite (more_eq g (-1 + - zlen l) (- (1 + zlen l))) by lia. reflexivity.
  Qed.

  (* one place down *)
  Fixpoint pulls (x : E) (l : list E) (k : nat) : list E :=
    match k, l with
    | O, y :: r => torn x y :: y :: r
    | S k, y :: r => y :: pulls (husk y) r k
    | _, [] => [x]
    end.
  Lemma fwd_seg l : forall f a x b,
    match hits f (length l) with
    | Some k => shift_fwd f (a ++ Some x :: somes l ++ b) (zlen a) (zlen a + 1) (length l) = Ok (a ++ somes (pulls x l k) ++ b, Thrown)
    | None => exists z, shift_fwd f (a ++ Some x :: somes l ++ b) (zlen a) (zlen a + 1) (length l) =
                        Ok (a ++ somes l ++ Some z :: b, Through (past f (length l)))
    end.
  Proof.
    induction l as [|y l IH]; intros f a x b; cbn [length TmModel.shift_fwd].
    - rewrite hits_0, past_0. exists x. reflexivity.
    - cbn [map app].
      assert (E1 : forall u, elem E (a ++ Some u :: Some y :: somes l ++ b) (zlen a + 1) = Ok y).
      { intros u. change (a ++ Some u :: Some y :: somes l ++ b) with (a ++ [Some u] ++ Some y :: somes l ++ b). rewrite app_assoc.
        apply elem_app. rewrite zlen_app. reflexivity. }
      unfold TmModel.shift. rewrite E1. cbn [bind]. rewrite elem_app by reflexivity. cbn [bind].
      destruct (throws f) eqn:T.
      + rewrite hits_throws by exact T. rewrite assign_app by reflexivity. cbn [bind pulls map app]. reflexivity.
      + rewrite hits_S, past_S by exact T.
        assert (A1 : assign E (a ++ Some x :: Some y :: somes l ++ b) (zlen a + 1) (husk y) = Ok (a ++ Some x :: Some (husk y) :: somes l ++ b)).
        { change (a ++ Some x :: Some y :: somes l ++ b) with (a ++ [Some x] ++ Some y :: somes l ++ b). rewrite app_assoc.
          rewrite assign_app by (rewrite zlen_app; reflexivity). rewrite <- app_assoc. reflexivity. }
        rewrite A1. cbn [bind]. rewrite assign_app by reflexivity. cbn [bind].
        specialize (IH (later f) (a ++ [Some y]) (husk y) b). rewrite zlen_app in IH. change (zlen [Some y]) with 1 in IH.
        rewrite <- !app_assoc in IH. cbn [app] in IH.
        destruct (hits (later f) (length l)) as [k|]; cbn [option_map].
        * rewrite IH, <- app_assoc. cbn [pulls map app]. reflexivity.
        * destruct IH as (z & IH). exists z. rewrite IH, <- ?app_assoc. reflexivity.
  Qed.

  (* one place up *)
  Lemma bwd_seg l : forall f a x b,
    match hits f (length l) with
    | Some k => forall l1 y l2, l = l1 ++ y :: l2 -> length l2 = k ->
        shift_bwd f (a ++ somes l ++ Some x :: b) (zlen a + 1) (zlen a) (length l) =
        Ok (a ++ somes (l1 ++ y :: torn (hd x (map husk l2)) y :: l2) ++ b, Thrown)
    | None => exists z, shift_bwd f (a ++ somes l ++ Some x :: b) (zlen a + 1) (zlen a) (length l) =
                        Ok (a ++ Some z :: somes l ++ b, Through (past f (length l)))
    end.
  Proof.
    induction l as [|y l IH] using rev_ind; intros f a x b.
    - cbn [length TmModel.shift_bwd]. rewrite hits_0, past_0. exists x. reflexivity.
    - rewrite app_length. cbn [length]. rewrite Nat.add_1_r. cbn [TmModel.shift_bwd].
      rewrite map_app, <- !app_assoc. cbn [map app].
      assert (Z1 : zlen a + Z.of_nat (length l) = zlen (a ++ somes l)) by (rewrite zlen_app, zlen_map; reflexivity).
      assert (Z2 : zlen a + 1 + Z.of_nat (length l) = zlen (a ++ somes l) + 1) by (rewrite <- Z1; lia).
      assert (Z3 : forall u v, a ++ somes l ++ Some u :: Some v :: b = (a ++ somes l) ++ Some u :: Some v :: b) by (intros; now rewrite app_assoc).
      assert (Z4 : forall (u : E) (v : option E), (a ++ somes l) ++ Some u :: v :: b = ((a ++ somes l) ++ [Some u]) ++ v :: b) by (intros u v; exact (app_assoc (a ++ somes l) [Some u] (v :: b))).
      assert (Z5 : forall u : E, zlen (a ++ somes l) + 1 = zlen ((a ++ somes l) ++ [Some u])) by (intros; rewrite (zlen_app (a ++ somes l)); reflexivity).
      unfold TmModel.shift. rewrite Z1, Z2, Z3. rewrite elem_app by reflexivity. cbn [bind].
      rewrite Z4. rewrite elem_app by apply Z5. cbn [bind].
      destruct (throws f) eqn:T.
      + rewrite hits_throws by exact T. intros l1 y' l2 El L2. destruct l2; [|discriminate].
        apply app_inj_tail in El. destruct El as [<- <-].
        rewrite assign_app by apply Z5. cbn [bind hd map]. rewrite map_app, <- !app_assoc. reflexivity.
      + rewrite hits_S, past_S by exact T. rewrite <- Z4. rewrite assign_app by reflexivity. cbn [bind].
        rewrite Z4. rewrite assign_app by apply Z5. cbn [bind]. rewrite <- Z4, <- Z3.
        specialize (IH (later f) a (husk y) (Some y :: b)).
        destruct (hits (later f) (length l)) as [k|] eqn:Eh; cbn [option_map].
        * intros l1 y' l2 El L2. destruct l2 as [|u l2 _] using rev_ind; [discriminate|].
          rewrite app_length in L2. cbn [length] in L2.
          rewrite app_comm_cons, app_assoc in El. apply app_inj_tail in El. destruct El as [El <-].
          rewrite (IH l1 y' l2 El) by lia.
          match goal with |- context [hd x ?m] => replace (hd x m) with (hd (husk y) (map husk l2)) by (destruct l2; reflexivity) end.
          rewrite !map_app. cbn [map]. rewrite ?map_app. cbn [map]. rewrite <- ?app_assoc. cbn [app]. rewrite <- ?app_assoc. reflexivity.
        * destruct IH as (z & IH). exists z. rewrite IH, <- ?app_assoc. cbn [map app]. rewrite <- ?app_assoc. reflexivity.
  Qed.

  Definition own (c : Z) : Z := if 0 <? c then 1 else 0.
  Lemma release_own g (m : tmem E) : release E g m = mkG (alive g) (blocks g - own (zlen m)).
  Proof.
    unfold release, own. destruct m as [|x m].
    - change (zlen []) with 0. cbn [Z.ltb Z.compare]. rewrite Z.sub_0_r. destruct g. reflexivity.
    - rewrite zlen_cons. pose proof (zlen_nonneg m). replace (0 <? 1 + zlen m) with true by lia. reflexivity.
  Qed.
  Lemma allocate_pos g n : 0 < n -> allocate E g n = (mkG (alive g) (blocks g + 1), repeat None (Z.to_nat n)).
  Proof. intros H. unfold allocate. now replace (n <=? 0) with false by lia. Qed.
  Lemma nth_split_at {X} (l : list X) k : (k < length l)%nat -> exists l1 y l2, l = l1 ++ y :: l2 /\ length l1 = k.
  Proof.
    intros H. destruct (nth_error l k) as [y|] eqn:N; [|apply nth_error_None in N; lia].
    apply nth_error_split in N. destruct N as (l1 & l2 & -> & L). eauto.
  Qed.

  Lemma hits_app f n m : hits f (n + m) =
    match hits f n with Some k => Some k | None => option_map (Nat.add n) (hits (past f n) m) end.
  Proof.
    destruct f as [k|]; cbn [hits past option_map]; [|reflexivity].
    destruct (k <? n)%nat eqn:A; destruct (k <? n + m)%nat eqn:B; destruct (k - n <? m)%nat eqn:C; cbn [option_map]; try lia; try reflexivity.
    f_equal. lia.
  Qed.
  Lemma hollowed_app1 k (a b : list E) : (k <= length a)%nat -> hollowed k (a ++ b) = hollowed k a ++ b.
  Proof.
    intros H. unfold TmSpec.hollowed. rewrite firstn_app, skipn_app. replace (k - length a)%nat with 0%nat by lia.
    cbn [firstn skipn]. rewrite app_nil_r, app_assoc. reflexivity.
  Qed.
  Lemma hollowed_app2 k (a b : list E) : hollowed (length a + k) (a ++ b) = map husk a ++ hollowed k b.
  Proof.
    unfold TmSpec.hollowed. rewrite firstn_app, skipn_app. replace (length a + k - length a)%nat with k by lia.
    rewrite (firstn_all2 a) by lia. rewrite (skipn_all2 a) by lia. cbn [app]. rewrite map_app, app_assoc. reflexivity.
  Qed.
  Lemma hollowed_length k (l : list E) : zlen (hollowed k l) = zlen l.
  Proof.
    unfold TmSpec.hollowed, zlen. f_equal. rewrite app_length, map_length, <- app_length, firstn_skipn. reflexivity.
  Qed.
  Lemma within1 g f a e y b i : i = zlen a ->
    within g f (a ++ Some e :: y :: b) (i + 1) i 1 =
    if throws f then Ok (g, a ++ Some e :: y :: b, Thrown) else Ok (more g 1, a ++ Some (husk e) :: Some e :: b, Through (later f)).
  Proof.
    intros ->. cbn [TmModel.within]. destruct (throws f); [reflexivity|].
    rewrite elem_app by reflexivity. cbn [bind]. rewrite assign_app by reflexivity. cbn [bind].
    assert (Hp : put E (a ++ Some (husk e) :: y :: b) (zlen a + 1) e = Ok (a ++ Some (husk e) :: Some e :: b)).
    { change (a ++ Some (husk e) :: y :: b) with (a ++ [Some (husk e)] ++ y :: b). rewrite app_assoc.
      rewrite put_app by (rewrite zlen_app; reflexivity). now rewrite <- app_assoc. }
    rewrite Hp. reflexivity.
  Qed.

  Definition booked (g : ledger) (h : change E) (l : list E) (c : Z) : ledger :=
    mkG (alive g + (zlen (cl h) - zlen l + Z.of_nat (le h))) (blocks g + (own (cc h) - own c + Z.of_nat (lb h))).
  Notation inserted := (inserted E husk torn). Notation removed := (removed E husk torn).

  Lemma grow_spec g f x l1 l2 c a : tshows x (l1 ++ l2) c -> zlen (l1 ++ l2) = c ->
    let l := l1 ++ l2 in let h := inserted f l c (zlen l1) a in
    exists x', insert E husk torn g f x (zlen l1) a = Ok (booked g h l c, x', thrown h) /\ tshows x' (cl h) (cc h).
  Proof.
    intros (C & K & L & r & B) N. cbv zeta. unfold TmSpec.inserted.
    assert (Z0 := zlen_nonneg l1). assert (Z1 := zlen_nonneg l2). pose proof (zlen_app l1 l2) as Z2.
    assert (r = []) as ->.
    { rewrite B, zlen_app, zlen_map in L. destruct r; [reflexivity|]. rewrite zlen_cons in L. pose proof (zlen_nonneg r). lia. }
    rewrite app_nil_r in B. replace (c <? zlen (l1 ++ l2) + 1) with true by lia.
    unfold TmModel.insert. replace ((zlen l1 >=? 0) && (zlen l1 <=? tcount x)) with true by lia.
    unfold make_room. rewrite C, K. replace (zlen (l1 ++ l2) + 1 >? c) with true by lia.
    replace (zlen (l1 ++ l2) + 1 <? c) with false by lia. set (nc := (zlen (l1 ++ l2) + 1) * 5 / 4 + 1).
    assert (NC : zlen (l1 ++ l2) + 2 <= nc) by (unfold nc; Z.to_euclidean_division_equations; lia).
    rewrite allocate_pos by lia.
    set (q := (Z.to_nat nc - length l1 - 1 - length l2)%nat).
    assert (Q : Z.to_nat nc = (length l1 + (1 + (length l2 + q)))%nat) by (unfold q; unfold zlen in *; lia).
    rewrite Q, repeat_app, B, map_app, zlen_to_nat.
    set (g1 := mkG (alive g) (blocks g + 1)).
    pose proof (across_seg l1 g1 f [] (repeat None (length l1)) (repeat None (1 + (length l2 + q))) [] (somes l2)) as A1.
    cbn [app] in A1. change (zlen []) with 0 in A1. rewrite A1 by (now rewrite repeat_length). clear A1.
    rewrite app_length, hits_app. destruct (hits f (length l1)) as [k|] eqn:H1; cbn [bind].
    - eexists. split.
      + unfold booked. cbn [cl cc le lb thrown]. rewrite hollowed_length. unfold more, g1. cbn [alive blocks].
        f_equal. f_equal. f_equal. f_equal; lia.
      + cbn [cl cc]. pose proof (hits_lt _ _ _ H1). rewrite hollowed_app1 by lia.
        assert (zlen (hollowed k l1 ++ l2) = zlen (l1 ++ l2)) as Lh by (rewrite !zlen_app, hollowed_length; reflexivity).
        split; [cbn [tcount]; lia|]. split; [reflexivity|]. cbn [tbuf]. rewrite ?app_nil_r, <- map_app. split; [rewrite zlen_map; lia|].
        exists []. now rewrite app_nil_r.
    - replace (zlen (l1 ++ l2) - zlen l1) with (zlen l2) by lia. rewrite zlen_to_nat.
      rewrite (repeat_app _ 1), (repeat_app _ (length l2) q). change (repeat (@None E) 1) with [@None E]. cbn [app].
      pose proof (across_seg l2 (more g1 (zlen l1)) (past f (length l1)) (somes l1 ++ [None]) (repeat None (length l2)) (repeat None q) (somes (map husk l1)) []) as A2.
      rewrite zlen_app, !zlen_map, !app_nil_r, <- !app_assoc in A2. cbn [app] in A2. change (zlen [None]) with 1 in A2.
      rewrite A2 by (now rewrite repeat_length). clear A2.
      destruct (hits (past f (length l1)) (length l2)) as [k|] eqn:H2; cbn [bind option_map].
      + eexists. split.
        * unfold booked. cbn [cl cc le lb thrown]. rewrite hollowed_length. unfold more, g1. cbn [alive blocks].
          f_equal. f_equal. f_equal. unfold zlen. f_equal; lia.
        * cbn [cl cc]. rewrite hollowed_app2.
          assert (zlen (map husk l1 ++ hollowed k l2) = zlen (l1 ++ l2)) as Lh by (rewrite !zlen_app, hollowed_length, zlen_map; reflexivity).
          split; [cbn [tcount]; lia|]. split; [reflexivity|]. cbn [tbuf]. rewrite ?app_nil_r, <- map_app. split; [rewrite zlen_map; lia|].
          exists []. now rewrite app_nil_r.
      + rewrite <- map_app.
        pose proof (dtors_seg (map husk l1 ++ map husk l2) (more (more g1 (zlen l1)) (zlen l2)) [] []) as D.
        rewrite !app_nil_r in D. cbn [app] in D. change (zlen []) with 0 in D.
        rewrite app_length, !map_length in D. replace (Z.to_nat (zlen (l1 ++ l2))) with (length l1 + length l2)%nat by (unfold zlen; rewrite app_length; lia).
        rewrite D. clear D. cbn [bind tbuf tcount tcap].
        rewrite put_app by (now rewrite zlen_map). cbn [bind]. eexists. split.
        * unfold booked. cbn [cl cc le lb thrown]. rewrite release_own. unfold more, g1. cbn [alive blocks].
          rewrite !zlen_app, !zlen_map, zlen_repeat. f_equal. f_equal. f_equal.
          assert (T1 : ztake E (zlen l1) (l1 ++ l2) = l1) by (unfold ztake; rewrite zlen_to_nat, firstn_app, Nat.sub_diag, firstn_all; cbn; now rewrite app_nil_r).
          assert (T2 : zdrop E (zlen l1) (l1 ++ l2) = l2) by (unfold zdrop; rewrite zlen_to_nat, skipn_app, Nat.sub_diag, skipn_all; reflexivity).
          assert (O1 : own nc = 1) by (unfold own; replace (0 <? nc) with true by lia; reflexivity).
          rewrite T1, T2, zlen_cons, O1.
          replace (Z.of_nat (length l1 + length l2)) with c by (unfold zlen in *; lia). f_equal; lia.
        * cbn [cl cc].
          assert (T1 : ztake E (zlen l1) (l1 ++ l2) = l1) by (unfold ztake; rewrite zlen_to_nat, firstn_app, Nat.sub_diag, firstn_all; cbn; now rewrite app_nil_r).
          assert (T2 : zdrop E (zlen l1) (l1 ++ l2) = l2) by (unfold zdrop; rewrite zlen_to_nat, skipn_app, Nat.sub_diag, skipn_all; reflexivity).
          rewrite T1, T2. split; [cbn [tcount]; rewrite !zlen_app, zlen_cons; lia|]. split; [reflexivity|]. cbn [tbuf].
          split.
          -- rewrite !zlen_app, zlen_cons, zlen_app, !zlen_map, zlen_repeat. unfold zlen in *. fold nc. lia.
          -- exists (repeat None q). rewrite map_app, <- app_assoc. reflexivity.
  Qed.

  Lemma ztake_app (l1 l2 : list E) : ztake E (zlen l1) (l1 ++ l2) = l1.
  Proof. unfold ztake. rewrite zlen_to_nat, firstn_app, Nat.sub_diag, firstn_all. cbn. now rewrite app_nil_r. Qed.
  Lemma zdrop_app (l1 l2 : list E) : zdrop E (zlen l1) (l1 ++ l2) = l2.
  Proof. unfold zdrop. rewrite zlen_to_nat, skipn_app, Nat.sub_diag, skipn_all. reflexivity. Qed.
  Lemma zdrop_app1 (l1 l2 : list E) x : zdrop E (zlen l1 + 1) (l1 ++ x :: l2) = l2.
  Proof.
    change (l1 ++ x :: l2) with (l1 ++ [x] ++ l2). rewrite app_assoc. replace (zlen l1 + 1) with (zlen (l1 ++ [x])) by (rewrite zlen_app; reflexivity).
    apply zdrop_app.
  Qed.
  Lemma pushed_split l1 m1 y m2 (e : E) :
    pushed E husk torn (S (length m2)) (l1 ++ m1 ++ y :: m2 ++ [e]) = l1 ++ m1 ++ y :: torn (hd (husk e) (map husk m2)) y :: m2.
  Proof.
    unfold pushed. set (n := length (l1 ++ m1 ++ y :: m2 ++ [e])).
    assert (N : n = (length l1 + length m1 + 2 + length m2)%nat) by (unfold n; rewrite !app_length; cbn [length]; rewrite app_length; cbn [length]; lia).
    replace (n - S (length m2) - 1)%nat with (length (l1 ++ m1)) by (rewrite app_length; lia).
    replace (n - S (length m2))%nat with (length (l1 ++ m1 ++ [y])) by (rewrite !app_length; cbn [length]; lia).
    replace (skipn (length (l1 ++ m1)) (l1 ++ m1 ++ y :: m2 ++ [e])) with (y :: m2 ++ [e]).
    2:{ rewrite (app_assoc l1 m1), skipn_app, Nat.sub_diag, skipn_all. reflexivity. }
    replace (firstn (length (l1 ++ m1 ++ [y])) (l1 ++ m1 ++ y :: m2 ++ [e])) with (l1 ++ m1 ++ [y]).
    2:{ change (y :: m2 ++ [e]) with ([y] ++ m2 ++ [e]). rewrite (app_assoc m1), (app_assoc l1 (m1 ++ [y])).
        rewrite firstn_app, Nat.sub_diag, firstn_all. cbn [firstn]. now rewrite app_nil_r. }
    destruct (m2 ++ [e]) as [|x r] eqn:M; [destruct m2; discriminate|]. rewrite <- M, removelast_last.
    replace (hd (husk e) (map husk m2)) with (husk x) by (destruct m2; cbn in M |- *; congruence).
    rewrite <- !app_assoc. reflexivity.
  Qed.

  Lemma place_spec g f x l1 l2 c a : tshows x (l1 ++ l2) c -> zlen (l1 ++ l2) < c ->
    let l := l1 ++ l2 in let h := inserted f l c (zlen l1) a in
    exists x', insert E husk torn g f x (zlen l1) a = Ok (booked g h l c, x', thrown h) /\ tshows x' (cl h) (cc h).
  Proof.
    intros (C & K & L & r & B) N. cbv zeta. unfold TmSpec.inserted.
    assert (Z0 := zlen_nonneg l1). assert (Z1 := zlen_nonneg l2). pose proof (zlen_app l1 l2) as Z2.
    destruct r as [|r0 r].
    { rewrite B, zlen_app, zlen_map, (zlen_nil (A := option E)) in L. lia. }
    replace (c <? zlen (l1 ++ l2) + 1) with false by lia.
    unfold TmModel.insert. replace ((zlen l1 >=? 0) && (zlen l1 <=? tcount x)) with true by lia.
    unfold make_room. rewrite C, K. replace (zlen (l1 ++ l2) + 1 >? c) with false by lia.
    rewrite ztake_app, zdrop_app, zlen_to_nat.
    replace (length (l1 ++ l2) - length l1)%nat with (length l2) by (rewrite app_length; lia).
    assert (LB : zlen l1 + zlen l2 + 1 + zlen r = c) by (rewrite <- L, B, !zlen_app, zlen_cons, zlen_map; lia).
    destruct l2 as [|e l2 _] using rev_ind.
    - (* at the end *)
      rewrite app_nil_r in *. replace (zlen l1 <? zlen l1) with false by lia. cbn [length bind]. rewrite hits_0. cbn [tbuf tcount tcap].
      rewrite B. rewrite put_app by (now rewrite zlen_map). cbn [bind]. eexists. split.
      + unfold booked. cbn [cl cc le lb thrown]. rewrite zlen_app. change (zlen [a]) with 1. unfold more. f_equal. f_equal. f_equal. f_equal; lia.
      + cbn [cl cc]. split; [cbn [tcount]; rewrite zlen_app; reflexivity|]. split; [reflexivity|]. cbn [tbuf]. split; [rewrite zlen_app, zlen_cons, zlen_map; lia|].
        exists r. rewrite map_app, <- app_assoc. reflexivity.
    - clear Z2. rewrite !zlen_app in *. change (zlen [e]) with 1 in *. pose proof (zlen_nonneg l2).
      replace (zlen l1 <? zlen l1 + (zlen l2 + 1)) with true by lia.
      replace (zlen l1 + (zlen l2 + 1) - zlen l1) with (zlen l2 + 1) by lia.
      rewrite app_length. cbn [length]. rewrite Nat.add_1_r.
      rewrite B, !map_app, <- !app_assoc. cbn [map app].
      destruct l2 as [|e1 l2].
      + (* before the last *)
        change (zlen []) with 0. change (1 >=? 0 + 1) with true. cbn [app length map]. change (Z.to_nat (0 + 1)) with 1%nat.
        rewrite within1 by (now rewrite zlen_map). destruct (throws f) eqn:T.
        * rewrite (hits_throws f 0 T). cbn [bind]. eexists. split.
          -- unfold booked. cbn [cl cc le lb thrown]. destruct g as [ga gb]. cbn [alive blocks]. f_equal. f_equal. f_equal. f_equal; lia.
          -- cbn [cl cc]. split; [cbn [tcount]; rewrite zlen_app; reflexivity|]. split; [reflexivity|]. cbn [tbuf]. split.
             ++ rewrite zlen_app, !zlen_cons, zlen_map. change (zlen []) with 0 in LB. lia.
             ++ exists (r0 :: r). rewrite map_app, <- app_assoc. reflexivity.
        * rewrite hits_S by exact T. rewrite hits_0. cbn [option_map bind].
          pose proof (dtors_seg [husk e] (more g 1) (somes l1) (Some e :: r)) as D. cbn [map app length repeat] in D.
          rewrite zlen_map in D. rewrite D. clear D. cbn [bind tbuf tcount tcap].
          rewrite put_app by (now rewrite zlen_map). cbn [bind]. eexists. split.
          -- unfold booked. cbn [cl cc le lb thrown]. rewrite !zlen_app, !zlen_cons. unfold more. cbn [alive blocks]. change (zlen [husk e]) with 1.
             change (zlen []) with 0. f_equal. f_equal. f_equal. f_equal; lia.
          -- cbn [cl cc]. split; [cbn [tcount]; rewrite zlen_app, !zlen_cons; change (zlen []) with 0; lia|]. split; [reflexivity|]. cbn [tbuf]. split.
             ++ rewrite zlen_app, !zlen_cons, zlen_map. change (zlen []) with 0 in LB. lia.
             ++ exists r. rewrite map_app, <- app_assoc. reflexivity.
      + set (l2' := e1 :: l2) in *. assert (1 <= zlen l2') as P by (unfold l2'; rewrite zlen_cons; pose proof (zlen_nonneg l2); lia).
        replace (1 >=? zlen l2' + 1) with false by lia.
        pose proof (within1 g f (somes l1 ++ somes l2') e r0 r (zlen l1 + (zlen l2' + 1) - 1)) as W.
        rewrite zlen_app, !zlen_map, <- !app_assoc in W. replace (zlen l1 + (zlen l2' + 1) - 1 + 1) with (zlen l1 + (zlen l2' + 1)) in W by lia.
        rewrite W by lia. clear W. destruct (throws f) eqn:T.
        * rewrite (hits_throws f _ T). cbn [bind]. eexists. split.
          -- unfold booked. cbn [cl cc le lb thrown]. destruct g as [ga gb]. cbn [alive blocks]. f_equal. f_equal. f_equal. f_equal; lia.
          -- cbn [cl cc]. split; [cbn [tcount]; rewrite !zlen_app; reflexivity|]. split; [reflexivity|]. cbn [tbuf]. split.
             ++ rewrite !zlen_app, !zlen_cons, !zlen_map. lia.
             ++ exists (r0 :: r). rewrite !map_app, <- !app_assoc. reflexivity.
        * rewrite hits_S by exact T. cbn [bind].
          unfold shifts. replace (zlen l1 + 1 <? zlen l1) with false by lia. replace (zlen l1 + 1 >? zlen l1) with true by lia.
          replace (zlen l2' + 1 - 1) with (zlen l2') by lia. rewrite zlen_to_nat.
          pose proof (bwd_seg l2' (later f) (somes l1) (husk e) (Some e :: r)) as S. rewrite zlen_map in S.
          destruct (hits (later f) (length l2')) as [k|] eqn:H1; cbn [option_map].
          -- pose proof (hits_lt _ _ _ H1) as H2. destruct (nth_split_at l2' (length l2' - k - 1)) as (m1 & y & m2 & El & Lm); [lia|].
             assert (length m2 = k) as Lk by (rewrite El in *; rewrite app_length in *; cbn [length] in *; lia).
             rewrite (S m1 y m2 El Lk). clear S. cbn [bind].
             assert (PP : pushed E husk torn (Datatypes.S k) (l1 ++ l2' ++ [e]) = l1 ++ m1 ++ y :: torn (hd (husk e) (map husk m2)) y :: m2).
             { rewrite <- Lk, El. rewrite <- (app_assoc m1). cbn [app]. apply pushed_split. }
             rewrite PP. assert (LL : zlen (l1 ++ m1 ++ y :: torn (hd (husk e) (map husk m2)) y :: m2) = zlen l1 + (zlen l2' + 1)).
             { rewrite El, !zlen_app, !zlen_cons. lia. }
             eexists. split.
             ++ unfold booked. cbn [cl cc le lb thrown]. rewrite LL, !zlen_app. change (zlen [e]) with 1. unfold more. cbn [alive blocks]. f_equal. f_equal. f_equal. f_equal; lia.
             ++ cbn [cl cc]. split; [cbn [tcount]; rewrite LL; reflexivity|]. split; [reflexivity|]. cbn [tbuf].
                rewrite app_assoc, <- map_app. split; [rewrite zlen_app, zlen_map, zlen_cons, LL; lia|]. exists (Some e :: r). reflexivity.
          -- destruct S as (z & S). rewrite S. clear S. cbn [bind].
             pose proof (dtors_seg [z] (more g 1) (somes l1) (somes l2' ++ Some e :: r)) as D. cbn [map app length repeat] in D.
             rewrite zlen_map in D. rewrite D. clear D. cbn [bind tbuf tcount tcap].
             rewrite put_app by (now rewrite zlen_map). cbn [bind]. eexists. split.
             ++ unfold booked. cbn [cl cc le lb thrown]. rewrite !zlen_app, !zlen_cons, zlen_app. unfold more. cbn [alive blocks]. change (zlen [z]) with 1. change (zlen [e]) with 1.
                f_equal. f_equal. f_equal. f_equal; lia.
             ++ cbn [cl cc]. split; [cbn [tcount]; rewrite zlen_app, zlen_cons, zlen_app; change (zlen [e]) with 1; lia|]. split; [reflexivity|]. cbn [tbuf]. split.
                ** rewrite zlen_app, zlen_cons, zlen_app, zlen_cons, !zlen_map. lia.
                ** exists r. rewrite !map_app. cbn [map]. rewrite map_app, <- !app_assoc. cbn [map app]. rewrite <- app_assoc. reflexivity.
  Qed.

  Lemma insert_spec g f x l c i a : tshows x l c -> 0 <= i <= zlen l ->
    let h := inserted f l c i a in
    exists x', insert E husk torn g f x i a = Ok (booked g h l c, x', thrown h) /\ tshows x' (cl h) (cc h).
  Proof.
    intros H Hi. destruct (zsplit l i Hi) as (l1 & l2 & -> & <- & _).
    assert (zlen (l1 ++ l2) <= c) as Hc.
    { destruct H as (_ & _ & L & r & B). rewrite B, zlen_app, zlen_map in L. pose proof (zlen_nonneg r). lia. }
    destruct (Z.eq_dec (zlen (l1 ++ l2)) c) as [Q|Q]; [now apply grow_spec|]. apply place_spec; [exact H|lia].
  Qed.
  Lemma insert_err g f x l c i a : tshows x l c -> ~ 0 <= i <= zlen l -> insert E husk torn g f x i a = Err.
  Proof. intros (C & _) N. unfold TmModel.insert. rewrite C. now replace ((i >=? 0) && (i <=? zlen l)) with false by lia. Qed.

  Lemma pulls_S k : forall (l : list E) x, (S k < length l)%nat ->
    pulls x l (S k) = firstn (S k) l ++ match skipn k l with u :: y :: r => torn (husk u) y :: y :: r | r => r end.
  Proof.
    induction k as [|k IH]; intros [|y l] x H; cbn [length] in H; try lia.
    - destruct l as [|z l]; [cbn in H; lia|]. reflexivity.
    - change (pulls x (y :: l) (S (S k))) with (y :: pulls (husk y) l (S k)). rewrite IH by lia. reflexivity.
  Qed.
  Lemma pulled_split l1 x l2 k : (k < length l2)%nat -> pulled E husk torn (length l1) k (l1 ++ x :: l2) = l1 ++ pulls x l2 k.
  Proof.
    intros H. unfold pulled. rewrite firstn_app, Nat.sub_diag, firstn_all. cbn [firstn]. rewrite app_nil_r. f_equal.
    rewrite !skipn_app. rewrite (skipn_all2 l1) by lia. rewrite (skipn_all2 l1) by lia. cbn [app].
    replace (S (length l1) - length l1)%nat with 1%nat by lia. replace (length l1 + k - length l1)%nat with k by lia. cbn [skipn].
    destruct k as [|k].
    - destruct l2 as [|y l2]; [cbn in H; lia|]. reflexivity.
    - rewrite pulls_S by lia. reflexivity.
  Qed.
  Lemma pulls_length k : forall (l : list E) x, (k < length l)%nat -> zlen (pulls x l k) = zlen l + 1.
  Proof.
    induction k as [|k IH]; intros [|y l] x H; cbn [length] in H; try lia; cbn [pulls]; rewrite !zlen_cons; [lia|].
    rewrite IH by lia. lia.
  Qed.

  Lemma remove_spec g f x l c i : tshows x l c -> 0 <= i < zlen l ->
    let h := removed f l c i in
    exists x', remove_at E husk torn g f x i = Ok (booked g h l c, x', thrown h) /\ tshows x' (cl h) (cc h).
  Proof.
    intros (C & K & L & r & B) Hi. destruct (zsplit1 l i Hi) as (l1 & e & l2 & -> & <- & _). cbv zeta. unfold TmSpec.removed, TmModel.remove_at.
    rewrite C. replace ((zlen l1 >=? 0) && (zlen l1 <? zlen (l1 ++ e :: l2))) with true by lia.
    rewrite ztake_app, zdrop_app1, zlen_to_nat. rewrite !zlen_app, zlen_cons, app_length in *. cbn [length].
    replace (length l1 + S (length l2) - length l1 - 1)%nat with (length l2) by lia.
    replace (zlen l1 + (1 + zlen l2) - zlen l1 - 1) with (zlen l2) by lia.
    replace (zlen l1 + (1 + zlen l2) - 1) with (zlen l1 + zlen l2) by lia.
    unfold shifts. replace (zlen l1 <? zlen l1 + 1) with true by lia. rewrite zlen_to_nat, B, map_app, <- app_assoc. cbn [map app].
    pose proof (fwd_seg l2 f (somes l1) e r) as S. rewrite zlen_map in S.
    assert (LB : zlen l1 + (1 + zlen l2) + zlen r = c) by (rewrite <- L, B, zlen_app, zlen_map, zlen_app, zlen_cons; lia).
    pose proof (zlen_nonneg l1) as P1. pose proof (zlen_nonneg l2) as P2. pose proof (zlen_nonneg r) as P3.
    destruct (hits f (length l2)) as [k|] eqn:H1.
    - rewrite S. clear S. cbn [bind]. pose proof (hits_lt _ _ _ H1). rewrite K. rewrite pulled_split by lia.
      assert (LL : zlen (l1 ++ pulls e l2 k) = zlen l1 + (1 + zlen l2)) by (rewrite zlen_app, pulls_length by lia; lia).
      eexists. split.
      + unfold booked. cbn [cl cc le lb thrown]. rewrite LL, zlen_app, zlen_cons. destruct g as [ga gb]. cbn [alive blocks]. f_equal. f_equal. f_equal. f_equal; lia.
      + cbn [cl cc]. split; [cbn [tcount]; now rewrite LL|]. split; [reflexivity|]. cbn [tbuf]. rewrite app_assoc, <- map_app.
        split; [rewrite zlen_app, zlen_map, LL; lia|]. now exists r.
    - destruct S as (z & S). rewrite S. clear S. cbn [bind]. unfold shrink. cbn [tbuf tcount tcap].
      destruct (somes l1 ++ somes l2 ++ Some z :: r) as [|b0 bs] eqn:EB; [destruct l1, l2; discriminate|]. rewrite <- EB. clear EB b0 bs.
      replace (zlen l1 + zlen l2 <? zlen l1 + (1 + zlen l2)) with true by lia.
      replace (zlen l1 + (1 + zlen l2) - (zlen l1 + zlen l2)) with 1 by lia. change (Z.to_nat 1) with 1%nat.
      rewrite app_assoc, <- map_app.
      pose proof (dtors_seg [z] g (somes (l1 ++ l2)) r) as D. cbn [map app length repeat] in D. rewrite zlen_map, zlen_app in D.
      rewrite D. clear D. cbn [bind]. change (zlen [z]) with 1. rewrite K. unfold shrinks.
      destruct ((zlen l1 + zlen l2 <=? c / 2) && (zlen l1 + zlen l2 <=? 8)) eqn:S1; cbn [andb].
      2:{ cbn [bind]. eexists. split.
          - unfold booked. cbn [cl cc le lb thrown]. rewrite !zlen_app, zlen_cons. unfold more. f_equal. f_equal. f_equal. f_equal; lia.
          - cbn [cl cc]. split; [cbn [tcount]; now rewrite zlen_app|]. split; [reflexivity|]. cbn [tbuf].
            split; [rewrite zlen_app, zlen_map, zlen_app, zlen_cons; lia|]. now exists (None :: r). }
      destruct (zlen l1 + zlen l2 <? c * 5 / 8) eqn:S2.
      2:{ cbn [bind]. eexists. split.
          - unfold booked. cbn [cl cc le lb thrown]. rewrite !zlen_app, zlen_cons. unfold more. f_equal. f_equal. f_equal. f_equal; lia.
          - cbn [cl cc]. split; [cbn [tcount]; now rewrite zlen_app|]. split; [reflexivity|]. cbn [tbuf].
            split; [rewrite zlen_app, zlen_map, zlen_app, zlen_cons; lia|]. now exists (None :: r). }
      rewrite allocate_pos by lia. set (nc := c * 5 / 8) in *. set (l' := l1 ++ l2) in *.
      assert (Ll : zlen l' = zlen l1 + zlen l2) by apply zlen_app. rewrite <- Ll in S1, S2 |- *. rewrite zlen_to_nat.
      replace (Z.to_nat nc) with (length l' + (Z.to_nat nc - length l'))%nat by (unfold zlen in *; lia). rewrite repeat_app.
      set (g1 := mkG _ _).
      pose proof (across_seg l' g1 (past f (length l2)) [] (repeat None (length l')) (repeat None (Z.to_nat nc - length l')) [] (None :: r)) as A1.
      cbn [app] in A1. change (zlen []) with 0 in A1. rewrite A1 by (now rewrite repeat_length). clear A1.
      destruct (hits (past f (length l2)) (length l')) as [k|] eqn:H2; cbn [bind].
      + eexists. split.
        * unfold booked. cbn [cl cc le lb thrown]. rewrite hollowed_length, zlen_app, zlen_cons. unfold g1, more. cbn [alive blocks].
          f_equal. f_equal. f_equal. f_equal; lia.
        * cbn [cl cc]. split; [cbn [tcount]; now rewrite hollowed_length|]. split; [reflexivity|]. cbn [tbuf].
          split; [rewrite zlen_app, zlen_map, hollowed_length, zlen_cons; lia|]. now exists (None :: r).
      + pose proof (dtors_seg (map husk l') (more g1 (zlen l')) [] (None :: r)) as D. cbn [app] in D. change (zlen []) with 0 in D.
        rewrite map_length in D. rewrite D. clear D. cbn [bind]. eexists. split.
        * unfold booked. cbn [cl cc le lb thrown]. rewrite release_own. unfold g1, more. cbn [alive blocks].
          assert (O1 : own nc = 1) by (unfold own; replace (0 <? nc) with true by lia; reflexivity).
          rewrite O1, zlen_app, zlen_map, zlen_app, !zlen_cons, zlen_repeat.
          replace (Z.of_nat (length l') + (1 + zlen r)) with c by (unfold zlen in *; lia). f_equal. f_equal. f_equal. f_equal; lia.
        * cbn [cl cc]. split; [reflexivity|]. split; [reflexivity|]. cbn [tbuf].
          split; [rewrite zlen_app, zlen_map, zlen_repeat; unfold zlen in *; lia|]. now eexists.
  Qed.
  Lemma remove_err g f x l c i : tshows x l c -> ~ 0 <= i < zlen l -> remove_at E husk torn g f x i = Err.
  Proof. intros (C & _) N. unfold TmModel.remove_at. rewrite C. now replace ((i >=? 0) && (i <? zlen l)) with false by lia. Qed.

  (* several places down *)
  Fixpoint drags (win l : list E) (k : nat) : list E :=
    match k, win, l with
    | O, x :: w, y :: r => torn x y :: w ++ y :: r
    | S k, x :: w, y :: r => y :: drags (w ++ [husk y]) r k
    | _, _, _ => []
    end.
  Lemma range_seg l : forall f a win b, win <> [] ->
    match hits f (length l) with
    | Some k => shift_fwd f (a ++ somes win ++ somes l ++ b) (zlen a) (zlen a + zlen win) (length l) = Ok (a ++ somes (drags win l k) ++ b, Thrown)
    | None => exists win', length win' = length win /\
                shift_fwd f (a ++ somes win ++ somes l ++ b) (zlen a) (zlen a + zlen win) (length l) =
                Ok (a ++ somes l ++ somes win' ++ b, Through (past f (length l)))
    end.
  Proof.
    induction l as [|y l IH]; intros f a win b W; cbn [length TmModel.shift_fwd].
    - rewrite hits_0, past_0. exists win. split; reflexivity.
    - destruct win as [|x w]; [congruence|]. cbn [map app].
      assert (E1 : elem E (a ++ Some x :: somes w ++ Some y :: somes l ++ b) (zlen a + zlen (x :: w)) = Ok y).
      { change (a ++ Some x :: somes w ++ Some y :: somes l ++ b) with (a ++ (somes (x :: w)) ++ Some y :: somes l ++ b). rewrite app_assoc.
        apply elem_app. rewrite zlen_app, zlen_map. reflexivity. }
      unfold TmModel.shift. rewrite E1. cbn [bind]. rewrite elem_app by reflexivity. cbn [bind].
      destruct (throws f) eqn:T.
      + rewrite hits_throws by exact T. rewrite assign_app by reflexivity. cbn [bind drags map app]. rewrite map_app, <- app_assoc. reflexivity.
      + rewrite hits_S, past_S by exact T.
        assert (A1 : assign E (a ++ Some x :: somes w ++ Some y :: somes l ++ b) (zlen a + zlen (x :: w)) (husk y) = Ok (a ++ Some x :: somes w ++ Some (husk y) :: somes l ++ b)).
        { change (a ++ Some x :: somes w ++ Some y :: somes l ++ b) with (a ++ (somes (x :: w)) ++ Some y :: somes l ++ b). rewrite app_assoc.
          rewrite assign_app by (rewrite zlen_app, zlen_map; reflexivity). rewrite <- app_assoc. reflexivity. }
        rewrite A1. cbn [bind]. rewrite assign_app by reflexivity. cbn [bind].
        specialize (IH (later f) (a ++ [Some y]) (w ++ [husk y]) b). rewrite !zlen_app in IH. change (zlen [Some y]) with 1 in IH. change (zlen [husk y]) with 1 in IH.
        rewrite map_app in IH. rewrite <- !app_assoc in IH. cbn [app map] in IH.
        replace (zlen a + zlen (x :: w) + 1) with (zlen a + 1 + (zlen w + 1)) by (rewrite zlen_cons; lia).
        assert (NE : w ++ [husk y] <> []) by (destruct w; discriminate). specialize (IH NE).
        destruct (hits (later f) (length l)) as [k|]; cbn [option_map].
        * rewrite IH. cbn [drags map app]. rewrite <- app_assoc. reflexivity.
        * destruct IH as (win' & L & IH). exists win'. split; [rewrite L, app_length; cbn [length]; lia|]. rewrite IH. rewrite <- ?app_assoc. reflexivity.
  Qed.
  Lemma drags_form k : forall (l d : list E), (k < length l)%nat -> d <> [] ->
    drags d l k = firstn k l ++ match firstn (length d) (skipn k (d ++ map husk l)), skipn k l with
                                | x :: w, y :: r => torn x y :: w ++ y :: r | _, _ => [] end.
  Proof.
    induction k as [|k IH]; intros [|y l] [|x w] H D; cbn [length] in H; try lia; try congruence.
    - cbn [drags firstn skipn app length]. rewrite firstn_app, Nat.sub_diag, firstn_all. cbn [firstn]. rewrite app_nil_r. reflexivity.
    - cbn [drags firstn skipn app map]. rewrite IH; [|lia|destruct w; discriminate]. rewrite app_length. cbn [length].
      rewrite Nat.add_1_r, <- app_assoc. cbn [app]. reflexivity.
  Qed.
  Lemma drags_length k : forall (l d : list E), (k < length l)%nat -> d <> [] -> zlen (drags d l k) = zlen d + zlen l.
  Proof.
    induction k as [|k IH]; intros [|y l] [|x w] H D; cbn [length] in H; try lia; try congruence; cbn [drags].
    - rewrite zlen_cons, zlen_app, !zlen_cons. lia.
    - rewrite zlen_cons, IH by (try lia; destruct w; discriminate). rewrite zlen_app, !zlen_cons. change (zlen []) with 0. lia.
  Qed.
  Lemma dragged_split l1 d l2 k : (k < length l2)%nat -> d <> [] ->
    dragged E husk torn (length l1) (length d) k (l1 ++ d ++ l2) = l1 ++ drags d l2 k.
  Proof.
    intros H D. unfold dragged. rewrite firstn_app, Nat.sub_diag, firstn_all. cbn [firstn]. rewrite app_nil_r. f_equal.
    rewrite drags_form by assumption.
    assert (S1 : skipn (length l1) (l1 ++ d ++ l2) = d ++ l2) by (rewrite skipn_app, skipn_all, Nat.sub_diag; reflexivity).
    assert (S2 : skipn (length l1 + length d) (l1 ++ d ++ l2) = l2).
    { rewrite app_assoc, <- app_length. rewrite skipn_app, skipn_all, Nat.sub_diag. reflexivity. }
    assert (S3 : skipn (length l1 + length d + k) (l1 ++ d ++ l2) = skipn k l2).
    { rewrite <- S2 at 2. clear. rewrite Nat.add_comm. generalize (length l1 + length d)%nat (l1 ++ d ++ l2). intros m l.
      revert l. induction m as [|m IH]; intros l; [rewrite Nat.add_0_r; reflexivity|].
      rewrite Nat.add_succ_r. destruct l; cbn [skipn]; [now rewrite skipn_nil|]. apply IH. }
    rewrite S1, S2, S3. rewrite firstn_app, Nat.sub_diag, firstn_all. cbn [firstn]. rewrite app_nil_r. reflexivity.
  Qed.
  Lemma zdrop_range (l1 d l2 : list E) : zdrop E (zlen l1 + zlen d) (l1 ++ d ++ l2) = l2.
  Proof. rewrite <- zlen_app, app_assoc. apply zdrop_app. Qed.

  (* giving room away after the elements behind the count have been destroyed *)
  Lemma shrink_spec g f (l' win : list E) r c : zlen l' + zlen win + zlen r = c -> 
    let h := if shrinks c (zlen l') then
               match hits f (length l') with
               | Some k => mkC (hollowed k l') c k 1 true
               | None => mkC l' (c * 5 / 8) 0 0 false
               end
             else mkC l' c 0 0 false in
    exists x' e, shrink E husk g f (mkT (somes l' ++ somes win ++ r) (zlen l') c) (zlen l' + zlen win) =
        Ok (mkG (alive g + (zlen (cl h) - zlen l' - zlen win + Z.of_nat (le h))) (blocks g + (own (cc h) - own c + Z.of_nat (lb h))), x', e) /\
      match e with Thrown => true | Through _ => false end = thrown h /\ tshows x' (cl h) (cc h).
  Proof.
    intros LB. cbv zeta. pose proof (zlen_nonneg l') as P1. pose proof (zlen_nonneg win) as P2. pose proof (zlen_nonneg r) as P3.
    unfold shrink. cbn [tbuf tcount tcap].
    destruct (somes l' ++ somes win ++ r) as [|b0 bs] eqn:EB.
    { destruct l'; [|discriminate]. destruct win; [|discriminate]. destruct r; [|discriminate]. change (zlen []) with 0 in *. subst c.
      cbn [shrinks]. change (shrinks (0 + 0 + 0) 0) with false. eexists. exists (Through f). split; [|split; [reflexivity|]].
      - cbn [cl cc le lb]. change (zlen []) with 0. destruct g as [ga gb]. cbn [alive blocks]. f_equal. f_equal. f_equal. f_equal; lia.
      - split; [reflexivity|]. split; [reflexivity|]. split; [reflexivity|]. now exists []. }
    rewrite <- EB. clear EB b0 bs.
    assert (D0 : (if zlen l' <? zlen l' + zlen win then dtors E g (somes l' ++ somes win ++ r) (zlen l') (Z.to_nat (zlen l' + zlen win - zlen l'))
                  else Ok (g, somes l' ++ somes win ++ r)) = Ok (more g (- zlen win), somes l' ++ repeat None (length win) ++ r)).
    { destruct win as [|u win].
      - change (zlen []) with 0. replace (zlen l' <? zlen l' + 0) with false by lia. cbn [map app length repeat].
        unfold more. destruct g as [ga gb]. cbn [alive blocks]. now rewrite Z.add_0_r.
      - replace (zlen l' <? zlen l' + zlen (u :: win)) with true by (rewrite zlen_cons in *; pose proof (zlen_nonneg win); lia).
        replace (zlen l' + zlen (u :: win) - zlen l') with (zlen (u :: win)) by lia. rewrite zlen_to_nat.
        pose proof (dtors_seg (u :: win) g (somes l') r) as D. rewrite zlen_map in D. exact D. }
    match type of D0 with _ = ?rhs => match goal with |- context [bind (if zlen l' <? zlen l' + zlen win then ?a else ?b) _] =>
      change (if zlen l' <? zlen l' + zlen win then a else b) with (if zlen l' <? zlen l' + zlen win then dtors E g (somes l' ++ somes win ++ r) (zlen l') (Z.to_nat (zlen l' + zlen win - zlen l')) else Ok (g, somes l' ++ somes win ++ r)) end end.
    rewrite D0. clear D0. cbn [bind]. unfold shrinks. set (r' := repeat None (length win) ++ r).
    assert (Lr : zlen l' + zlen r' = c) by (unfold r'; rewrite zlen_app, zlen_repeat; unfold zlen in *; lia).
    destruct ((zlen l' <=? c / 2) && (zlen l' <=? 8)) eqn:S1; cbn [andb].
    2:{ cbn [bind]. eexists. exists (Through f). split; [|split; [reflexivity|]].
        - cbn [cl cc le lb thrown]. unfold more. f_equal. f_equal. f_equal. f_equal; lia.
        - cbn [cl cc]. split; [reflexivity|]. split; [reflexivity|]. cbn [tbuf].
          split; [rewrite zlen_app, zlen_map; lia|]. now exists r'. }
    destruct (zlen l' <? c * 5 / 8) eqn:S2.
    2:{ cbn [bind]. eexists. exists (Through f). split; [|split; [reflexivity|]].
        - cbn [cl cc le lb thrown]. unfold more. f_equal. f_equal. f_equal. f_equal; lia.
        - cbn [cl cc]. split; [reflexivity|]. split; [reflexivity|]. cbn [tbuf].
          split; [rewrite zlen_app, zlen_map; lia|]. now exists r'. }
    rewrite allocate_pos by lia. set (nc := c * 5 / 8) in *. rewrite zlen_to_nat.
    replace (Z.to_nat nc) with (length l' + (Z.to_nat nc - length l'))%nat by (unfold zlen in *; lia). rewrite repeat_app.
    set (g1 := mkG _ _).
    pose proof (across_seg l' g1 f [] (repeat None (length l')) (repeat None (Z.to_nat nc - length l')) [] r') as A1.
    cbn [app] in A1. change (zlen []) with 0 in A1. rewrite A1 by (now rewrite repeat_length). clear A1.
    destruct (hits f (length l')) as [k|] eqn:H2; cbn [bind].
    - eexists. exists Thrown. split; [|split; [reflexivity|]].
      + cbn [cl cc le lb thrown]. rewrite hollowed_length. unfold g1, more. cbn [alive blocks].
        f_equal. f_equal. f_equal. f_equal; lia.
      + cbn [cl cc]. split; [cbn [tcount]; now rewrite hollowed_length|]. split; [reflexivity|]. cbn [tbuf].
        split; [rewrite zlen_app, zlen_map, hollowed_length; lia|]. now exists r'.
    - pose proof (dtors_seg (map husk l') (more g1 (zlen l')) [] r') as D. cbn [app] in D. change (zlen []) with 0 in D.
      rewrite map_length in D. rewrite D. clear D. cbn [bind]. eexists. exists (Through (past f (length l'))). split; [|split; [reflexivity|]].
      + cbn [cl cc le lb thrown]. rewrite release_own. unfold g1, more. cbn [alive blocks].
        assert (O1 : own nc = 1) by (unfold own; replace (0 <? nc) with true by lia; reflexivity).
        rewrite O1, zlen_app, zlen_map, zlen_repeat.
        replace (Z.of_nat (length l') + zlen r') with c by (unfold zlen in *; lia). f_equal. f_equal. f_equal. f_equal; lia.
      + cbn [cl cc]. split; [reflexivity|]. split; [reflexivity|]. cbn [tbuf].
        split; [rewrite zlen_app, zlen_map, zlen_repeat; unfold zlen in *; lia|]. now eexists.
  Qed.

  Lemma remove_range_spec g f x l c i n : tshows x l c -> 0 <= i -> 0 <= n -> i + n <= zlen l -> i + n < 2 ^ 63 ->
    let h := removed_range E husk torn f l c i n in
    exists x', remove_range E husk torn g f x i n = Ok (booked g h l c, x', thrown h) /\ tshows x' (cl h) (cc h).
  Proof.
    intros (C & K & L & r & B) Hi Hn Hl Ho.
    assert (exists l1 d l2, l = l1 ++ d ++ l2 /\ zlen l1 = i /\ zlen d = n) as (l1 & d & l2 & -> & <- & <-).
    { destruct (zsplit l i) as (a & b & E1 & L1 & _); [lia|]. subst l. rewrite zlen_app in Hl.
      destruct (zsplit b n) as (a' & b' & E2 & L2 & _); [lia|]. subst b. exists a, a', b'. auto. }
    cbv zeta. unfold TmSpec.removed_range, TmModel.remove_range.
    pose proof (zlen_nonneg l1) as P1. pose proof (zlen_nonneg l2) as P2. pose proof (zlen_nonneg r) as P3. pose proof (zlen_nonneg d) as P4.
    rewrite !zlen_app in *.
    rewrite C. replace ((zlen l1 >=? 0) && (zlen l1 <=? zlen l1 + (zlen d + zlen l2))) with true by lia.
    replace (negb ((- 2 ^ 63 <=? zlen l1 + zlen d) && (zlen l1 + zlen d <? 2 ^ 63))) with false by lia.
    replace ((zlen l1 + zlen d >=? 0) && (zlen l1 + zlen d <=? zlen l1 + (zlen d + zlen l2))) with true by lia.
    rewrite ztake_app, zdrop_range, !zlen_to_nat.
    replace (zlen l1 + (zlen d + zlen l2) - zlen l1 - zlen d) with (zlen l2) by lia.
    replace (zlen l1 + (zlen d + zlen l2) - zlen d) with (zlen (l1 ++ l2)) by (rewrite zlen_app; lia).
    replace (length (l1 ++ d ++ l2) - length l1 - length d)%nat with (length l2) by (rewrite !app_length; lia).
    assert (LB : zlen (l1 ++ l2) + zlen d + zlen r = c) by (rewrite <- L, B, !zlen_app, zlen_map, !zlen_app; lia).
    assert (FIN : forall f' win, length win = length d ->
      let h := if shrinks c (zlen (l1 ++ l2)) then
               match hits f' (length (l1 ++ l2)) with
               | Some k => mkC (hollowed k (l1 ++ l2)) c k 1 true
               | None => mkC (l1 ++ l2) (c * 5 / 8) 0 0 false
               end
             else mkC (l1 ++ l2) c 0 0 false in
      exists x', (do (g0, x0, e) <- shrink E husk g f' (mkT (somes (l1 ++ l2) ++ somes win ++ r) (zlen (l1 ++ l2)) c) (zlen l1 + (zlen d + zlen l2));
                  Ok (g0, x0, match e with Thrown => true | Through _ => false end)) = Ok (booked g h (l1 ++ d ++ l2) c, x', thrown h) /\ tshows x' (cl h) (cc h)).
    { intros f' win Lw. cbv zeta. assert (Zw : zlen win = zlen d) by (unfold zlen; lia).
      destruct (shrink_spec g f' (l1 ++ l2) win r c) as (x' & e & Q & T & S); [rewrite Zw; exact LB|].
      replace (zlen l1 + (zlen d + zlen l2)) with (zlen (l1 ++ l2) + zlen win) by (rewrite zlen_app; lia).
      rewrite Q. cbn [bind]. exists x'. split; [|exact S]. rewrite T. unfold booked. f_equal. f_equal. f_equal. f_equal.
      rewrite !zlen_app. lia. }
    destruct (zlen d =? 0) eqn:Z0.
    - destruct d as [|d0 d]; [|rewrite zlen_cons in Z0; pose proof (zlen_nonneg d); lia].
      rewrite hits_0, past_0. change (zlen []) with 0 in *. unfold shifts. rewrite Z.add_0_r.
      replace (zlen l1 <? zlen l1) with false by lia. replace (zlen l1 >? zlen l1) with false by lia. cbn [bind]. rewrite K, B.
      cbn [app]. exact (FIN f [] eq_refl).
    - assert (D : d <> []) by (intros ->; discriminate Z0).
      unfold shifts. replace (zlen l1 <? zlen l1 + zlen d) with true by lia. rewrite zlen_to_nat, B, !map_app, <- !app_assoc.
      pose proof (range_seg l2 f (somes l1) d r D) as S. rewrite zlen_map in S.
      destruct (hits f (length l2)) as [k|] eqn:H1.
      + rewrite S. clear S. cbn [bind]. pose proof (hits_lt _ _ _ H1). rewrite K. rewrite dragged_split by (try lia; exact D).
        assert (LL : zlen (l1 ++ drags d l2 k) = zlen (l1 ++ d ++ l2)) by (rewrite zlen_app, drags_length by (try lia; exact D); rewrite !zlen_app; lia).
        eexists. split.
        * unfold booked. cbn [cl cc le lb thrown]. rewrite LL. destruct g as [ga gb]. cbn [alive blocks]. f_equal. f_equal. f_equal. f_equal; lia.
        * cbn [cl cc]. split; [cbn [tcount]; rewrite LL, !zlen_app; lia|]. split; [reflexivity|]. cbn [tbuf]. rewrite app_assoc, <- map_app.
          split; [rewrite zlen_app, zlen_map, LL, !zlen_app in *; lia|]. now exists r.
      + destruct S as (win & Lw & S). rewrite S. clear S. cbn [bind]. rewrite K.
        rewrite app_assoc, <- map_app. exact (FIN (past f (length l2)) win Lw).
  Qed.
  Lemma remove_range_err g f x l c i n : tshows x l c -> 0 <= i <= zlen l -> - 2 ^ 63 <= i + n < 2 ^ 63 -> (i + n < 0 \/ zlen l < i + n) ->
    remove_range E husk torn g f x i n = Err.
  Proof.
    intros (C & _) H1 H2 H3. unfold TmModel.remove_range. rewrite C.
    replace ((i >=? 0) && (i <=? zlen l)) with true by lia.
    replace (negb ((- 2 ^ 63 <=? i + n) && (i + n <? 2 ^ 63))) with false by lia.
    now replace ((i + n >=? 0) && (i + n <=? zlen l)) with false by lia.
  Qed.
  Lemma remove_range_err1 g f x l c i n : tshows x l c -> ~ 0 <= i <= zlen l -> remove_range E husk torn g f x i n = Err.
  Proof. intros (C & _) N. unfold TmModel.remove_range. rewrite C. now replace ((i >=? 0) && (i <=? zlen l)) with false by lia. Qed.
  Lemma clear_spec g x l c : tshows x l c ->
    clear E g x = Ok (mkG (alive g - zlen l) (blocks g - own c), tempty).
  Proof.
    intros (C & K & L & r & B). unfold clear. rewrite C, zlen_to_nat, B.
    pose proof (dtors_seg l g [] r) as D. cbn [app] in D. change (zlen []) with 0 in D. rewrite D. cbn [bind].
    rewrite release_own. unfold more. cbn [alive blocks]. rewrite zlen_app, zlen_repeat.
    replace (Z.of_nat (length l) + zlen r) with c; [reflexivity|]. rewrite <- L, B, zlen_app, zlen_map. reflexivity.
  Qed.
  Lemma destruct_spec g x l c : tshows x l c -> destruct E g x = Ok (mkG (alive g - zlen l) (blocks g - own c)).
  Proof.
    intros H. pose proof (clear_spec g x l c H) as Q. unfold clear, destruct in *. destruct (tbuf x) as [|b0 bs] eqn:EB.
    - destruct H as (C & K & L & r & B). rewrite EB in B, L. destruct l; [|discriminate]. change (zlen []) with 0 in *. rewrite <- L.
      unfold own. cbn. destruct g. cbn. now rewrite !Z.sub_0_r.
    - rewrite <- EB in *. destruct (dtors E g (tbuf x) 0 (Z.to_nat (tcount x))) as [[g' m]| | |]; cbn [bind] in *; congruence.
  Qed.
  Lemma get_spec x l c i : tshows x l c -> get E x i = match znth l i with Some e => Ok e | None => Err end.
  Proof.
    intros (C & _ & _ & r & B). unfold get. rewrite C. destruct ((i >=? 0) && (i <? zlen l)) eqn:Q.
    - destruct (zsplit1 l i) as (a & e & b & -> & <- & N & _); [lia|]. rewrite N, B, map_app, <- app_assoc. cbn [map app].
      rewrite elem_app by (now rewrite zlen_map). reflexivity.
    - unfold znth. destruct (i <? 0) eqn:Z; [reflexivity|]. replace (nth_error l (Z.to_nat i)) with (@None E); [reflexivity|].
      symmetry. apply nth_error_None. unfold zlen in Q. lia.
  Qed.
  Lemma set_spec x l c i a : tshows x l c ->
    match sset E l i a with
    | Ok m => exists y, set E x i a = Ok y /\ tshows y m c /\ zlen m = zlen l
    | _ => set E x i a = Err end.
  Proof.
    intros (C & K & L & r & B). unfold sset, set. rewrite C. destruct ((0 <=? i) && (i <? zlen l)) eqn:Q.
    - replace ((i >=? 0) && (i <? zlen l)) with true by lia. destruct (zsplit1 l i) as (l1 & e & l2 & -> & <- & _); [lia|].
      rewrite ztake_app, zdrop_app1, B, map_app, <- app_assoc. cbn [map app]. rewrite assign_app by (now rewrite zlen_map). cbn [bind].
      eexists. split; [reflexivity|]. rewrite B in L. rewrite !zlen_app, zlen_map, zlen_app, !zlen_cons in *.
      split; [|reflexivity]. split; [cbn [tcount]; rewrite zlen_app, zlen_cons; lia|]. split; [exact K|]. cbn [tbuf].
      split; [rewrite zlen_app, zlen_cons, zlen_app, !zlen_map; lia|]. exists r. rewrite map_app, <- app_assoc. reflexivity.
    - now replace ((i >=? 0) && (i <? zlen l)) with false by lia.
  Qed.
End P.
