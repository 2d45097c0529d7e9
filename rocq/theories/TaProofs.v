From Coq Require Import Lia ZifyBool ZifyNat.
From Verif Require Import Base BaseFacts TaModel TaSpec.
Open Scope nat_scope.

Section proofs.
  Context {A : Type} (husk : A -> A) (dflt : A).
  Notation filled := (map (@Some A)).
  Notation raw := (repeat (@None A)).
  Lemma construct_next p r a i : length p = i -> construct (filled p ++ raw (S r)) i a = Ok (filled (p ++ [a]) ++ raw r).
  Proof.
    intros <-. unfold construct. rewrite nth_error_app2 by (rewrite map_length; lia). rewrite map_length, Nat.sub_diag. cbn [repeat nth_error].
    f_equal. rewrite map_app, <- app_assoc. cbn [map app]. clear. induction p as [|b p IH]; cbn; [reflexivity|]. f_equal. exact IH.
  Qed.
  Lemma upd_mid (q l : list A) b a i : length q = i -> upd (filled (q ++ b :: l)) i (Some a) = filled (q ++ a :: l).
  Proof. intros <-. induction q as [|c q IH]; cbn; [reflexivity|]. f_equal. exact IH. Qed.
  Lemma stops_S k n : throws_now k = false -> stops k (S n) = option_map S (stops (next k) n).
  Proof. destruct k as [[|k]|]; cbn [throws_now next option_map stops pred]; [discriminate| |reflexivity]. intros _. change (S k <? S n) with (k <? n). destruct (k <? n); reflexivity. Qed.
  Lemma throws_stops k n : throws_now k = true -> stops k (S n) = Some 0.
  Proof. destruct k as [[|k]|]; cbn; try discriminate. reflexivity. Qed.

  Lemma move_ok n : forall l p q r i k al, length p = i -> length q = i -> n <= length l -> n <= r ->
    move_ctors husk n i (filled p ++ raw r) (filled (q ++ l)) k al =
    match stops k n with
    | Some j => Ok (filled (p ++ firstn j l) ++ raw (r - j), filled (q ++ map husk (firstn j l) ++ skipn j l), Some 0, al + j, true)
    | None => Ok (filled (p ++ firstn n l) ++ raw (r - n), filled (q ++ map husk (firstn n l) ++ skipn n l), option_map (fun k => k - n) k, al + n, false)
    end.
  Proof.
    induction n as [|n IH]; intros l p q r i k al P Q L R; cbn [move_ctors].
    - assert (stops k 0 = None) as -> by (destruct k; reflexivity). cbn [firstn map app skipn]. rewrite app_nil_r, Nat.add_0_r, Nat.sub_0_r.
      replace (option_map (fun k => k - 0) k) with k by (destruct k; cbn; [f_equal; lia|reflexivity]). reflexivity.
    - destruct l as [|a l]; [cbn in L; lia|]. rewrite nth_error_map, nth_error_app2 by lia. replace (i - length q) with 0 by lia. cbn [nth_error option_map].
      destruct (throws_now k) eqn:T.
      + rewrite (throws_stops k n T). cbn [firstn map app skipn]. rewrite app_nil_r, Nat.add_0_r, Nat.sub_0_r. destruct k as [[|k]|]; cbn in T; try discriminate. reflexivity.
      + destruct r as [|r]; [lia|]. rewrite (construct_next p r a i P). cbn [bind]. rewrite (upd_mid q l a (husk a) i Q). rewrite (stops_S k n T).
        replace (q ++ husk a :: l) with ((q ++ [husk a]) ++ l) by (now rewrite <- app_assoc). rewrite IH by (rewrite ?app_length; cbn in *; lia).
        destruct (stops (next k) n) as [j|]; cbn [option_map firstn map skipn]; rewrite <- !app_assoc; cbn [app]; [replace (S al + j) with (al + S j) by lia; reflexivity|replace (S al + n) with (al + S n) by lia].
        destruct k as [[|k]|]; cbn in T |- *; [discriminate|reflexivity|reflexivity].
  Qed.
  Lemma default_ok n : forall p r i k al, length p = i -> n <= r ->
    default_ctors dflt n i (filled p ++ raw r) k al =
    match stops k n with
    | Some j => Ok (filled (p ++ repeat dflt j) ++ raw (r - j), Some 0, al + j, true)
    | None => Ok (filled (p ++ repeat dflt n) ++ raw (r - n), option_map (fun k => k - n) k, al + n, false)
    end.
  Proof.
    induction n as [|n IH]; intros p r i k al P R; cbn [default_ctors].
    - assert (stops k 0 = None) as -> by (destruct k; reflexivity). cbn [repeat]. rewrite app_nil_r, Nat.add_0_r, Nat.sub_0_r.
      replace (option_map (fun k => k - 0) k) with k by (destruct k; cbn; [f_equal; lia|reflexivity]). reflexivity.
    - destruct (throws_now k) eqn:T.
      + rewrite (throws_stops k n T). cbn [repeat]. rewrite app_nil_r, Nat.add_0_r, Nat.sub_0_r. destruct k as [[|k]|]; cbn in T; try discriminate. reflexivity.
      + destruct r as [|r]; [lia|]. rewrite (construct_next p r dflt i P). cbn [bind]. rewrite (stops_S k n T). rewrite IH by (rewrite ?app_length; cbn in *; lia).
        destruct (stops (next k) n) as [j|]; cbn [option_map repeat]; rewrite <- !app_assoc; cbn [app]; [replace (S al + j) with (al + S j) by lia; reflexivity|replace (S al + n) with (al + S n) by lia].
        destruct k as [[|k]|]; cbn in T |- *; [discriminate|reflexivity|reflexivity].
  Qed.
  Lemma copy_ok src : forall p r i k al, length p = i -> length src <= r ->
    copy_ctors src i (filled p ++ raw r) k al =
    match stops k (length src) with
    | Some j => Ok (filled (p ++ firstn j src) ++ raw (r - j), Some 0, al + j, true)
    | None => Ok (filled (p ++ src) ++ raw (r - length src), option_map (fun k => k - length src) k, al + length src, false)
    end.
  Proof.
    induction src as [|a src IH]; intros p r i k al P R; cbn [copy_ctors length].
    - assert (stops k 0 = None) as -> by (destruct k; reflexivity). rewrite app_nil_r, Nat.add_0_r, Nat.sub_0_r.
      replace (option_map (fun k => k - 0) k) with k by (destruct k; cbn; [f_equal; lia|reflexivity]). reflexivity.
    - destruct (throws_now k) eqn:T.
      + rewrite (throws_stops k (length src) T). cbn [firstn]. rewrite app_nil_r, Nat.add_0_r, Nat.sub_0_r. destruct k as [[|k]|]; cbn in T; try discriminate. reflexivity.
      + destruct r as [|r]; [cbn in R; lia|]. rewrite (construct_next p r a i P). cbn [bind]. rewrite (stops_S k _ T). rewrite IH by (rewrite ?app_length; cbn in *; lia).
        destruct (stops (next k) (length src)) as [j|]; cbn [option_map firstn]; rewrite <- !app_assoc; cbn [app]; [replace (S al + j) with (al + S j) by lia; reflexivity|replace (S al + (length src)) with (al + S (length src)) by lia].
        destruct k as [[|k]|]; cbn in T |- *; [discriminate|reflexivity|reflexivity].
  Qed.
  Lemma dtors_ok l : forall i al, length l <= al -> dtors (length l) i (raw i ++ filled l) al = Ok (raw (i + length l), al - length l).
  Proof.
    induction l as [|a l IH]; intros i al L; cbn [length dtors map].
    - rewrite app_nil_r, Nat.add_0_r, Nat.sub_0_r. reflexivity.
    - rewrite nth_error_app2 by (rewrite repeat_length; lia). rewrite repeat_length, Nat.sub_diag. cbn [nth_error].
      assert (upd (raw i ++ Some a :: filled l) i None = raw (S i) ++ filled l) as ->.
      { clear. induction i as [|i IH]; cbn; [reflexivity|]. f_equal. exact IH. }
      cbn in L. rewrite IH by lia. f_equal. f_equal; [f_equal; lia|lia].
  Qed.

  (* ---- the relation ---- *)
  Definition shows (x : arr A) (l : list A) : Prop :=
    cnt x = length l /\ buf x = match l with [] => None | _ => Some (filled l) end.
  Definition R (w : aw A) (s : @ss A) : Prop :=
    match var w, seq s with Some x, Some l => shows x l | None, None => True | _, _ => False end /\
    alive w = objects s /\ blocks w = held_blocks s.
  Lemma shows_cells x l : shows x l -> cells_of (buf x) = filled l.
  Proof. intros [_ ->]. destruct l; reflexivity. Qed.
  Lemma shows_size x l : shows x l -> size_of (buf x) = match l with [] => 0 | _ => 1 end.
  Proof. intros [_ ->]. destruct l; reflexivity. Qed.
  Lemma alloc_cells n : cells_of (@alloc A n) = raw n.
  Proof. unfold alloc. destruct n; reflexivity. Qed.
  Lemma alloc_size n : size_of (@alloc A n) = match n with 0 => 0 | _ => 1 end.
  Proof. unfold alloc. destruct n; reflexivity. Qed.
  Lemma alloc_shows l : shows (mkArr (option_map (fun _ => filled l) (@alloc A (length l))) (length l)) l.
  Proof. split; [reflexivity|]. cbn [buf]. unfold alloc. destruct l; reflexivity. Qed.
  Lemma keep_shows x l l' : shows x l -> length l' = length l -> shows (mkArr (option_map (fun _ => filled l') (buf x)) (length l)) l'.
  Proof. intros [C B] L. split; [cbn; congruence|]. cbn [buf]. rewrite B. destruct l, l'; try discriminate; reflexivity. Qed.
  Lemma stops_lt k n j : stops k n = Some j -> j < n.
  Proof. destruct k as [k|]; [|discriminate]. cbn [stops]. destruct (Nat.ltb_spec k n); [|discriminate]. intros E. injection E as <-. lia. Qed.
  Lemma stops_none k n m : stops k n = None -> m <= n -> stops k m = None.
  Proof. destruct k as [k|]; [|reflexivity]. cbn [stops]. destruct (Nat.ltb_spec k n); [discriminate|]. intros _ L. destruct (Nat.ltb_spec k m); [lia|reflexivity]. Qed.

  Lemma step_ok w s o : R w s -> alegal s o ->
    exists w', astep husk dflt w o = Ok (w', snd (sstep husk dflt s o)) /\ R w' (fst (sstep husk dflt s o)).
  Proof.
    intros [V [Al Bl]] Lg. unfold R, objects, held_blocks in *. destruct s as [[l|] lo lb], w as [[x|] al bl]; cbn [TaSpec.seq var lost lost_blocks alive blocks] in *; try contradiction;
      destruct o as [n k|src k|n k|i a t|i| |]; cbn [alegal TaSpec.seq] in Lg; try contradiction; cbn [astep sstep var TaSpec.seq alive blocks].
    - (* Resize *)
      rewrite alloc_cells, (shows_cells _ _ V), alloc_size, (shows_size _ _ V). pose proof V as [C _]. rewrite C.
      assert ((if n <? length l then n else length l) = min n (length l)) as -> by (destruct (Nat.ltb_spec n (length l)); lia).
      change (raw n) with (filled [] ++ raw n). change (filled l) with (filled ([] ++ l)).
      rewrite (move_ok (min n (length l)) l [] [] n 0 k al eq_refl eq_refl) by lia. cbn [app].
      destruct (stops k n) as [j|] eqn:K.
      + pose proof (stops_lt _ _ _ K) as J. destruct k as [k|]; [|discriminate]. cbn [stops] in K. destruct (Nat.ltb_spec k n); [|discriminate]. injection K as ->.
        cbn [stops]. destruct (Nat.ltb_spec j (min n (length l))) as [Jm|Jm].
        * cbn [bind fst snd]. eexists. split; [reflexivity|]. cbn [var alive blocks TaSpec.seq lost lost_blocks]. split.
          -- apply keep_shows with (l := l); [exact V|]. rewrite app_length, map_length, firstn_length, skipn_length. lia.
          -- rewrite app_length, map_length, firstn_length, skipn_length. split; [lia|]. rewrite Bl. destruct l as [|a l]; [cbn in Jm; lia|]. destruct n; [lia|]. destruct j; cbn; lia.
        * assert (min n (length l) = length l) as Em by lia. rewrite Em in *. cbn [bind option_map]. assert ((n <? length l) = false) as -> by lia.
          rewrite firstn_all, skipn_all, !app_nil_r. rewrite (default_ok (n - length l) l (n - length l) (length l) (Some (j - length l)) (al + length l) eq_refl) by lia.
          cbn [stops]. assert ((j - length l <? n - length l) = true) as -> by lia. cbn [bind fst snd]. eexists. split; [reflexivity|]. cbn [var alive blocks TaSpec.seq lost lost_blocks].
          rewrite (firstn_all2 (n := j) l) by lia. rewrite (skipn_all2 (n := j) l) by lia. rewrite app_nil_r. split.
          -- apply keep_shows with (l := l); [exact V|]. now rewrite map_length.
          -- rewrite map_length. split; [lia|]. rewrite Bl. destruct n; [lia|]. destruct l; cbn; lia.
      + rewrite (stops_none _ _ (min n (length l)) K) by lia. cbn [bind].
        assert (exists al', (if n <? length l then Ok (filled (firstn (min n (length l)) l) ++ raw (n - min n (length l)), option_map (fun k => k - min n (length l)) k, al + min n (length l), false)
                 else default_ctors dflt (n - length l) (length l) (filled (firstn (min n (length l)) l) ++ raw (n - min n (length l))) (option_map (fun k => k - min n (length l)) k) (al + min n (length l)))
               = Ok (filled (firstn n l ++ repeat dflt (n - length l)), al', al + n, false)) as [k' ->].
        { destruct (Nat.ltb_spec n (length l)).
          - replace (min n (length l)) with n by lia. replace (n - length l) with 0 by lia. rewrite Nat.sub_diag. cbn [repeat]. rewrite !app_nil_r. eauto.
          - replace (min n (length l)) with (length l) by lia. rewrite firstn_all, (firstn_all2 (n := n) l) by lia.
            rewrite (default_ok (n - length l) l (n - length l) (length l) _ (al + length l) eq_refl) by lia.
            assert (stops (option_map (fun k => k - length l) k) (n - length l) = None) as ->.
            { destruct k as [k|]; [|reflexivity]. cbn [stops option_map] in *. destruct (Nat.ltb_spec k n); [discriminate|]. destruct (Nat.ltb_spec (k - length l) (n - length l)); [lia|reflexivity]. }
            rewrite Nat.sub_diag. cbn [repeat]. rewrite app_nil_r. eexists. do 2 f_equal. f_equal. lia. }
        cbn [bind]. set (hl := map husk (firstn (min n (length l)) l) ++ skipn (min n (length l)) l).
        assert (length hl = length l) as Hl by (unfold hl; rewrite app_length, map_length, firstn_length, skipn_length; lia).
        rewrite <- Hl. change (filled hl) with (raw 0 ++ filled hl). rewrite (dtors_ok hl) by lia. rewrite Hl. cbn [bind fst snd]. eexists. split; [reflexivity|].
        cbn [var alive blocks TaSpec.seq lost lost_blocks].
        assert (length (firstn n l ++ repeat dflt (n - length l)) = n) as Ln by (rewrite app_length, firstn_length, repeat_length; lia). split.
        * pose proof (alloc_shows (firstn n l ++ repeat dflt (n - length l))) as Q. rewrite Ln in Q. exact Q.
        * rewrite Ln. split; [lia|]. rewrite Bl. destruct n as [|n].
          -- destruct l; cbn; lia.
          -- destruct (firstn (S n) l ++ repeat dflt (S n - length l)) as [|b r]; [cbn in Ln; lia|]. destruct l; cbn; lia.
    - (* Set *)
      pose proof V as [C B]. rewrite C, (shows_cells _ _ V). assert ((i <? length l) = true) as -> by lia.
      rewrite nth_error_map. destruct (nth_error l i) as [b|] eqn:N; [|apply nth_error_None in N; lia]. cbn [option_map].
      eexists. split; [reflexivity|]. cbn [fst var alive blocks TaSpec.seq lost lost_blocks].
      apply nth_error_split in N. destruct N as (l1 & l2 & -> & <-). rewrite firstn_app, firstn_all, Nat.sub_diag. cbn [firstn]. rewrite app_nil_r.
      replace (skipn (S (length l1)) (l1 ++ b :: l2)) with l2 by (clear; induction l1; cbn; auto).
      split; [|split].
      + split; [cbn; rewrite !app_length; reflexivity|]. cbn [buf]. rewrite B. destruct l1 as [|c l1]; cbn [app option_map].
        * reflexivity.
        * f_equal. exact (upd_mid (c :: l1) l2 b a _ eq_refl).
      + rewrite Al, !app_length. reflexivity.
      + rewrite Bl. destruct l1; reflexivity.
    - (* Get *)
      pose proof V as [C B]. rewrite C, (shows_cells _ _ V). assert ((i <? length l) = true) as -> by lia.
      rewrite nth_error_map. destruct (nth_error l i) as [b|] eqn:N; [|apply nth_error_None in N; lia]. cbn [option_map]. eexists. split; [reflexivity|]. cbn. auto.
    - pose proof V as [C B]. rewrite C. eexists. split; [reflexivity|]. cbn. auto.
    - (* ~Array *)
      rewrite (shows_cells _ _ V), (shows_size _ _ V). pose proof V as [C B]. rewrite B, C.
      replace (match (match l with [] => None | _ => Some (filled l) end) with Some _ => length l | None => 0 end) with (length l) by (destruct l; reflexivity).
      change (filled l) with (raw 0 ++ filled l). rewrite (dtors_ok l) by lia. cbn [bind]. eexists. split; [reflexivity|]. cbn [fst var alive blocks TaSpec.seq lost lost_blocks].
      split; [exact I|]. split; [lia|]. rewrite Bl. destruct l; cbn; lia.
    - (* Array(n) *)
      rewrite alloc_cells, alloc_size. change (raw n) with (filled [] ++ raw n). rewrite (default_ok n [] n 0 k al eq_refl) by lia. destruct (stops k n) as [j|] eqn:K.
      + pose proof (stops_lt _ _ _ K). cbn [bind fst snd]. eexists. split; [reflexivity|]. cbn [var alive blocks TaSpec.seq lost lost_blocks]. split; [exact I|]. split; [lia|]. rewrite Bl. destruct n; [lia|]. lia.
      + cbn [bind fst snd app]. eexists. split; [reflexivity|]. cbn [var alive blocks TaSpec.seq lost lost_blocks]. rewrite Nat.sub_diag. cbn [repeat]. rewrite app_nil_r, repeat_length. split; [|split; [lia|rewrite Bl; destruct n; cbn; lia]].
        pose proof (alloc_shows (repeat dflt n)) as Q. rewrite repeat_length in Q. exact Q.
    - rewrite alloc_cells, alloc_size. change (raw (length src)) with (filled [] ++ raw (length src)). rewrite (copy_ok src [] (length src) 0 k al eq_refl) by lia. destruct (stops k (length src)) as [j|] eqn:K.
      + pose proof (stops_lt _ _ _ K). cbn [bind fst snd]. eexists. split; [reflexivity|]. cbn [var alive blocks TaSpec.seq lost lost_blocks]. split; [exact I|]. split; [lia|]. rewrite Bl. destruct src; [cbn in *; lia|]. cbn. lia.
      + cbn [bind fst snd app]. eexists. split; [reflexivity|]. cbn [var alive blocks TaSpec.seq lost lost_blocks]. rewrite Nat.sub_diag. cbn [repeat]. rewrite app_nil_r. split; [|split; [lia|rewrite Bl; destruct src; cbn; lia]].
        exact (alloc_shows src).
  Qed.
  Lemma run_ok os : forall w s, R w s -> alegal_run husk dflt s os ->
    exists w', arun husk dflt w os = Ok (w', snd (srun husk dflt s os)) /\ R w' (fst (srun husk dflt s os)).
  Proof.
    induction os as [|o os IH]; intros w s H L; cbn [arun srun]; [eexists; split; [reflexivity|exact H]|].
    destruct L as [L1 L2]. destruct (step_ok w s o H L1) as (w1 & E & H1). rewrite E. cbn [bind]. destruct (sstep husk dflt s o) as [s1 r]. cbn [fst snd] in *.
    destruct (IH w1 s1 H1 L2) as (w2 & E2 & H2). rewrite E2. cbn [bind]. destruct (srun husk dflt s1 os) as [s2 rs]. cbn [fst snd] in *. eexists. split; [reflexivity|exact H2].
  Qed.
  Lemma R0 : R astart sstart. Proof. cbv. auto. Qed.
  Lemma history os : alegal_run husk dflt sstart os -> let (s, rs) := srun husk dflt sstart os in
    exists w, arun husk dflt astart os = Ok (w, rs) /\ alive w = objects s /\ blocks w = held_blocks s.
  Proof.
    intros L. destruct (run_ok os _ _ R0 L) as (w & E & _ & H). destruct (srun husk dflt sstart os) as [s rs]. eauto.
  Qed.
  Lemma srun_app os1 : forall os2 s, srun husk dflt s (os1 ++ os2) =
    let (s1, rs1) := srun husk dflt s os1 in let (s2, rs2) := srun husk dflt s1 os2 in (s2, rs1 ++ rs2).
  Proof.
    induction os1 as [|o os1 IH]; intros os2 s; cbn [app srun]; [destruct (srun husk dflt s os2); reflexivity|]. destruct (sstep husk dflt s o) as [s1 r]. rewrite IH.
    destruct (srun husk dflt s1 os1) as [s2 rs2]. destruct (srun husk dflt s2 os2). reflexivity.
  Qed.
  Lemma alegal_app os1 : forall os2 s, alegal_run husk dflt s (os1 ++ os2) <-> alegal_run husk dflt s os1 /\ alegal_run husk dflt (fst (srun husk dflt s os1)) os2.
  Proof.
    induction os1 as [|o os1 IH]; intros os2 s; cbn [app srun alegal_run]; [cbn; tauto|]. rewrite IH. destruct (sstep husk dflt s o) as [s1 r]. cbn [fst].
    destruct (srun husk dflt s1 os1) as [s2 rs2]. cbn [fst]. tauto.
  Qed.
  Lemma calm_none os : forall s, Forall calm_op os -> lost (fst (srun husk dflt s os)) = lost s /\ lost_blocks (fst (srun husk dflt s os)) = lost_blocks s.
  Proof.
    induction os as [|o os IH]; intros s F; cbn [srun]; [auto|]. inversion F; subst. destruct (sstep husk dflt s o) as [s1 r] eqn:E. specialize (IH s1 H2).
    destruct (srun husk dflt s1 os) as [s2 rs]. cbn [fst] in *. destruct IH as [-> ->].
    destruct s as [sq lo lb]. destruct o as [n k|src k|n k|i a t|i| |]; cbn [sstep calm_op TaSpec.seq] in *; rewrite ?H1 in E; destruct sq; injection E as <- <-; auto.
  Qed.
  Lemma calm os : Forall calm_op os -> alegal_run husk dflt sstart (os ++ [ADelete]) ->
    exists w rs, arun husk dflt astart (os ++ [ADelete]) = Ok (w, rs) /\ alive w = 0 /\ blocks w = 0.
  Proof.
    intros F L. pose proof (history _ L) as H. pose proof (calm_none (os ++ [ADelete]) sstart) as N. rewrite srun_app in *. destruct (srun husk dflt sstart os) as [s1 rs1]. cbn [srun sstep fst] in *.
    destruct H as (w & E & Ha & Hb). destruct N as [N1 N2]; [apply Forall_app; split; [exact F|repeat constructor]|]. cbn in N1, N2, Ha, Hb. exists w. eexists. split; [exact E|]. lia.
  Qed.
  Lemma resize_fails os n k l : alegal_run husk dflt sstart os -> seq (fst (srun husk dflt sstart os)) = Some l -> k < n ->
    exists w rs w', arun husk dflt astart os = Ok (w, rs) /\
      arun husk dflt astart (os ++ [AResize n (Some k); ACount] ++ map AGet (List.seq 0 (length l)) ++ [ADelete]) =
        Ok (w', rs ++ [AThrown; ANum (length l)] ++ map AVal (map husk (firstn k l) ++ skipn k l) ++ [AUnit]) /\
      alive w' + length l = alive w + k /\ blocks w' + (if length l =? 0 then 0 else 1) = blocks w + 1.
  Proof.
    intros L Sq K. pose proof (history os L) as H0. destruct (srun husk dflt sstart os) as [s rs] eqn:Es. destruct H0 as (w & E & Ha & Hb). exists w, rs. cbn [fst] in Sq.
    assert (forall (m : list A) pre suf s, m = pre ++ suf -> TaSpec.seq s = Some m ->
      alegal_run husk dflt s (map AGet (List.seq (length pre) (length suf)) ++ [ADelete]) /\
      srun husk dflt s (map AGet (List.seq (length pre) (length suf)) ++ [ADelete]) = (mkSS None (lost s) (lost_blocks s), map AVal suf ++ [AUnit])) as Gets.
    { clear. intros m pre suf. revert pre. induction suf as [|a suf IH]; intros pre s -> E; cbn [length List.seq map app].
      - cbn [alegal_run alegal srun sstep]. rewrite E. auto.
      - cbn [alegal_run alegal srun sstep]. rewrite E. rewrite nth_error_app2, Nat.sub_diag by lia. cbn [nth_error fst].
        destruct (IH (pre ++ [a]) s) as [I1 I2]; [now rewrite <- app_assoc|exact E|]. rewrite app_length in I1, I2. cbn [length] in I1, I2. rewrite Nat.add_1_r in I1, I2.
        rewrite I2. split; [split; [rewrite app_length; cbn; lia|exact I1]|reflexivity]. }
    set (l' := map husk (firstn k l) ++ skipn k l). assert (length l' = length l) as Ll by (unfold l'; rewrite app_length, map_length, firstn_length, skipn_length; lia).
    set (s1 := mkSS (Some l') (lost s + k) (lost_blocks s + 1)).
    destruct (Gets l' [] l' s1 eq_refl eq_refl) as [G1 G2]. cbn [length] in G1, G2. rewrite Ll in G1, G2.
    assert (sstep husk dflt s (AResize n (Some k)) = (s1, AThrown)) as St.
    { cbn [sstep]. rewrite Sq. cbn [stops]. assert ((k <? n) = true) as -> by lia. reflexivity. }
    assert (alegal_run husk dflt sstart (os ++ [AResize n (Some k); ACount] ++ map AGet (List.seq 0 (length l)) ++ [ADelete])) as L2.
    { apply alegal_app. split; [exact L|]. rewrite Es. cbn [fst app alegal_run]. rewrite St. cbn [fst]. split; [cbn [alegal]; now rewrite Sq|]. split; [exact I|]. exact G1. }
    pose proof (history _ L2) as H2. rewrite srun_app, Es in H2. cbn [app] in H2. change (srun husk dflt s (AResize n (Some k) :: ACount :: map AGet (List.seq 0 (length l)) ++ [ADelete])) with
      (let (s, r) := sstep husk dflt s (AResize n (Some k)) in let (s, rs) := (let (s, r) := sstep husk dflt s ACount in let (s, rs) := srun husk dflt s (map AGet (List.seq 0 (length l)) ++ [ADelete]) in (s, r :: rs)) in (s, r :: rs)) in H2.
    rewrite St in H2. cbn [sstep s1 TaSpec.seq] in H2. fold s1 in H2. rewrite G2, Ll in H2. destruct H2 as (w' & E' & Ha' & Hb'). exists w'. split; [exact E|]. split; [exact E'|].
    unfold objects, held_blocks in *. cbn [TaSpec.seq lost lost_blocks s1] in *. rewrite Sq in *. split; [lia|]. destruct l; cbn in *; lia.
  Qed.
  Lemma copies_keep os n k l : (forall a, husk a = a) -> alegal_run husk dflt sstart os -> seq (fst (srun husk dflt sstart os)) = Some l -> k < n ->
    seq (fst (srun husk dflt sstart (os ++ [AResize n (Some k)]))) = Some l.
  Proof.
    intros Hh L Sq K. rewrite srun_app. destruct (srun husk dflt sstart os) as [s rs]. cbn [fst] in Sq. cbn [srun sstep]. rewrite Sq. cbn [stops]. assert ((k <? n) = true) as -> by lia. cbn [fst TaSpec.seq].
    f_equal. rewrite <- (firstn_skipn k l) at 3. f_equal. erewrite map_ext; [apply map_id|]. exact Hh.
  Qed.
End proofs.
