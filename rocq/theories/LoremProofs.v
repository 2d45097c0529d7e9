From Coq Require Import ZifyBool ZifyNat.
From Verif Require Import Base BaseFacts LoremModel LoremSpec.
Open Scope Z_scope.

Section proofs.
  Context (words : list (list Z)) (G : good_words words).
  Notation W := (zlen words).
  Lemma W_pos : 0 < W.
  Proof. destruct G as [N _]. destruct words; [contradiction|]. unfold zlen. cbn [length]. lia. Qed.
  Lemma word_get i : 0 <= i < W -> aget words i = Ok (word words i) /\ (1 <= length (word words i) <= 12)%nat /\ Forall (fun c => 32 < c) (word words i).
  Proof.
    intros H. unfold word. rewrite Z.mod_small by auto. unfold aget. destruct (znth words i) as [w|] eqn:E.
    - split; [reflexivity|]. destruct G as [_ F]. rewrite Forall_forall in F. apply F. rewrite znth_z in E by lia. eapply nth_error_In; eauto.
    - exfalso. rewrite znth_z in E by lia. apply nth_error_None in E. unfold zlen in H. lia.
  Qed.
  Lemma word_ok i : (1 <= length (word words i) <= 12)%nat /\ Forall (fun c => 32 < c) (word words i).
  Proof.
    pose proof (Z.mod_pos_bound i W W_pos) as B. destruct (word_get _ B) as (_ & H). unfold word in H |- *. rewrite Z.mod_mod in H by lia. exact H.
  Qed.
  Lemma word_mod i : word words (i mod W) = word words i.
  Proof. pose proof W_pos. unfold word. now rewrite Z.mod_mod by lia. Qed.
  Lemma line_mod c b i k : line words c b (i mod W) k = line words c b i k.
  Proof.
    revert b i. induction k as [|k IH]; intros b i; cbn [line]; [reflexivity|]. rewrite word_mod. rewrite <- (IH false (i mod W + 1)), <- (IH false (i + 1)).
    rewrite Zplus_mod_idemp_l. reflexivity.
  Qed.
  Lemma line_app c k1 : forall b i k2, line words c b i (k1 + k2) = line words c b i k1 ++ line words c (match k1 with O => b | _ => false end) (i + Z.of_nat k1) k2.
  Proof.
    induction k1 as [|k1 IH]; intros b i k2; cbn [line Nat.add app].
    - f_equal. lia.
    - rewrite IH, <- !app_assoc. do 3 f_equal. replace (i + 1 + Z.of_nat k1) with (i + Z.of_nat (S k1)) by lia. now destruct k1.
  Qed.
  Lemma capital_length w : length (capital w) = length w.
  Proof. now destruct w. Qed.
  Definition shape (c : casing) (first : bool) (w : list Z) := if match c with AllUpper => true | FirstUpper => first | AllLower => false end then capital w else w.
  Lemma shape_length c b w : length (shape c b w) = length w.
  Proof. unfold shape. destruct (match c with AllUpper => true | FirstUpper => b | AllLower => false end); [apply capital_length|reflexivity]. Qed.
  Lemma text_S c i k : text words c i (S k) = text words c i k ++ (match k with O => [] | _ => [blank] end) ++ shape c (match k with O => true | _ => false end) (word words (i + Z.of_nat k)).
  Proof.
    unfold text. rewrite <- Nat.add_1_r, line_app. f_equal. cbn [line]. rewrite app_nil_r. unfold shape. destruct k; reflexivity.
  Qed.
  Lemma text_length_S c i k : length (text words c i (S k)) = (length (text words c i k) + (match k with O => 0 | _ => 1 end) + length (word words (i + Z.of_nat k)))%nat.
  Proof. rewrite text_S, !app_length, shape_length. destruct k; cbn [length]; lia. Qed.
  Lemma text_grows c i k : (length (text words c i k) < length (text words c i (S k)))%nat.
  Proof. rewrite text_length_S. pose proof (proj1 (word_ok (i + Z.of_nat k))). lia. Qed.
  Lemma text_mono c i : forall k j, (k <= j)%nat -> (length (text words c i k) <= length (text words c i j))%nat.
  Proof. intros k j H. induction H; [lia|]. pose proof (text_grows c i m). lia. Qed.
  Lemma text_nonzero c i k : Forall (fun x => 0 < x) (text words c i k).
  Proof.
    induction k as [|k IH]; [constructor|]. rewrite text_S. apply Forall_app. split; [exact IH|]. apply Forall_app. split.
    - destruct k; repeat constructor.
    - destruct (word_ok (i + Z.of_nat k)) as [_ F]. unfold shape. destruct (match c with AllUpper => true | _ => _ end).
      + destruct (word words (i + Z.of_nat k)) as [|x r]; [constructor|]. apply Forall_cons_iff in F as [F1 F2]. cbn [capital]. constructor; [lia|]. eapply Forall_impl; [|eassumption]. cbv beta. intros; lia.
      + eapply Forall_impl; [|eassumption]. cbv beta. intros; lia.
  Qed.
  (* ---- memory ---- *)
  Lemma put_ok (cs : list Z) : forall (a b : list (option Z)), (length cs <= length b)%nat -> put (a ++ b) (zlen a) cs = Ok (a ++ map Some cs ++ skipn (length cs) b).
  Proof.
    induction cs as [|c cs IH]; intros a b H; cbn [put map app length]; [now rewrite skipn_O|].
    destruct b as [|x b]; [cbn in H; lia|]. rewrite aset_app by reflexivity. cbn [bind skipn].
    replace (a ++ Some c :: b) with ((a ++ [Some c]) ++ b) by now rewrite <- app_assoc. replace (zlen a + 1) with (zlen (a ++ [Some c])) by (unfold zlen; rewrite app_length; cbn; lia).
    rewrite IH by (cbn in H; lia). now rewrite <- app_assoc.
  Qed.
  Lemma cstr_ok t : forall r, Forall (fun x => 0 < x) t -> cstr (map Some t ++ Some 0 :: r) = Ok t.
  Proof.
    induction t as [|c t IH]; intros r F; cbn [map app cstr]; [reflexivity|]. inversion F; subst. replace (c =? 0) with false by lia. now rewrite IH.
  Qed.
  Lemma zlen_map_some (t : list Z) : zlen (map Some t) = zlen t.
  Proof. unfold zlen. now rewrite map_length. Qed.
  Lemma zl (t : list Z) : zlen t = Z.of_nat (length t). Proof. reflexivity. Qed.
  (* the loop, when k words are written *)
  Definition len c i k := zlen (text words c i k).
  Lemma len_S c i k : len c i (S k) = len c i k + (if (k =? 0)%nat then 0 else 1) + zlen (word words (i + Z.of_nat k)).
  Proof. unfold len, zlen. rewrite text_length_S. destruct k; cbn [Nat.eqb]; lia. Qed.
  Lemma len_0 c i : len c i 0 = 0. Proof. reflexivity. Qed.
  Lemma len_pos c i k : (0 < k)%nat -> 0 < len c i k.
  Proof. intros H. destruct k as [|k]; [lia|]. pose proof (text_grows c i k). unfold len, zlen. lia. Qed.
  Lemma len_mono c i k j : (k <= j)%nat -> len c i k <= len c i j.
  Proof. intros H. pose proof (text_mono c i k j H). unfold len, zlen. lia. Qed.
  Lemma len_lt c i k j : (k < j)%nat -> len c i k < len c i j.
  Proof. intros H. pose proof (text_mono c i (S k) j H). pose proof (text_grows c i k). unfold len, zlen. lia. Qed.
  (* what holds whenever k words are in the buffer *)
  Definition near c i best k := k = O \/ len c i (k - 1) < best /\ (k = 1%nat \/ len c i k <= best \/ len c i k - best <= best - len c i (k - 1)).
  Definition stop c i best k := best <= len c i k \/ (0 < k)%nat /\ best - len c i k < len c i (S k) - best.
  Lemma loop_ok c best i0 : 0 <= best -> forall fuel k rest,
    zlen (text words c i0 k) + zlen rest = best + 20 -> near c i0 best k -> best - len c i0 k < Z.of_nat fuel -> (0 < fuel)%nat ->
    exists k' rest', loop words fuel best c (map Some (text words c i0 k) ++ Some 0 :: rest) (len c i0 k) ((i0 + Z.of_nat k) mod W) =
      Ok (map Some (text words c i0 k') ++ Some 0 :: rest', (i0 + Z.of_nat k') mod W) /\ (k <= k')%nat /\ near c i0 best k' /\ stop c i0 best k'.
  Proof.
    intros B. induction fuel as [|fuel IH]; intros k rest L N F F0; [lia|]. cbn [loop].
    destruct (len c i0 k <? best) eqn:E.
    2:{ exists k, rest. split; [reflexivity|]. split; [lia|]. split; [exact N|left; lia]. }
    set (sep := if (k =? 0)%nat then [] else [blank]).
    assert (K : (len c i0 k =? 0) = (k =? 0)%nat).
    { destruct k; [reflexivity|]. pose proof (len_pos c i0 (S k) ltac:(lia)). cbn [Nat.eqb]. lia. }
    assert (EX : exists b1, (if negb (len c i0 k =? 0) then aset (map Some (text words c i0 k) ++ Some 0 :: rest) (len c i0 k) (Some blank) else Ok (map Some (text words c i0 k) ++ Some 0 :: rest))
                 = Ok (map Some (text words c i0 k ++ sep) ++ b1) /\ zlen (text words c i0 k ++ sep) + zlen b1 = best + 21).
    { rewrite K. unfold sep. destruct (k =? 0)%nat; cbn [negb].
      - exists (Some 0 :: rest). rewrite app_nil_r. split; [reflexivity|]. unfold zlen in *. cbn [length]. lia.
      - exists rest. rewrite aset_app by (symmetry; apply zlen_map_some). split; [rewrite map_app, <- app_assoc; reflexivity|]. unfold zlen in *. rewrite app_length. cbn [length]. lia. }
    destruct EX as (b1 & E1 & L1). rewrite E1. cbn [bind]. clear E1.
    assert (U : (if negb (len c i0 k =? 0) then len c i0 k + 1 else len c i0 k) = zlen (text words c i0 k ++ sep)).
    { rewrite K. unfold len, sep, zlen. rewrite app_length. destruct (k =? 0)%nat; cbn [negb length]; lia. }
    rewrite U.
    assert (Us : zlen (text words c i0 k ++ sep) = len c i0 k + if (k =? 0)%nat then 0 else 1).
    { rewrite <- U, K. destruct (k =? 0)%nat; cbn [negb]; lia. }
    set (t1 := text words c i0 k ++ sep) in *.
    assert (T0 : (zlen t1 =? 0) = (k =? 0)%nat).
    { rewrite Us. destruct k as [|k]; [reflexivity|]. pose proof (len_pos c i0 (S k) ltac:(lia)). cbn [Nat.eqb]. lia. }
    pose proof (Z.mod_pos_bound (i0 + Z.of_nat k) W W_pos) as MB. destruct (word_get _ MB) as (GW & WL & WF). rewrite GW. cbn [bind]. rewrite word_mod in *.
    pose proof (len_S c i0 k) as LS. set (w := word words (i0 + Z.of_nat k)) in *.
    assert (ZW : 1 <= zlen w <= 12) by (unfold zlen; lia).
    unfold wcscpy. replace (zlen w <? best + 20 - zlen t1) with true by (destruct (k =? 0)%nat; lia).
    assert (PB : (length (w ++ [0%Z]) <= length b1)%nat) by (rewrite app_length; cbn [length]; unfold zlen in *; destruct (k =? 0)%nat; lia).
    assert (PU : put (map Some t1 ++ b1) (zlen t1) (w ++ [0]) = Ok (map Some t1 ++ map Some (w ++ [0]) ++ skipn (length (w ++ [0])) b1)) by (rewrite <- (zlen_map_some t1); apply put_ok, PB). rewrite PU. clear PU. cbn [bind].
    set (r2 := skipn (length (w ++ [0])) b1). assert (LR : zlen r2 = zlen b1 - zlen w - 1) by (unfold r2, zlen in *; rewrite skipn_length, app_length in *; cbn [length] in *; lia).
    assert (UP : (if upper c (zlen t1) then do x <- aget (map Some t1 ++ map Some (w ++ [0]) ++ r2) (zlen t1); match x with Some x => aset (map Some t1 ++ map Some (w ++ [0]) ++ r2) (zlen t1) (Some (x - 32)) | None => UB end
                  else Ok (map Some t1 ++ map Some (w ++ [0]) ++ r2)) = Ok (map Some t1 ++ map Some (shape c (k =? 0)%nat w) ++ Some 0 :: r2)).
    { unfold shape, upper. rewrite T0. rewrite map_app, <- app_assoc. cbn [map app].
      destruct (match c with AllUpper => true | FirstUpper => (k =? 0)%nat | AllLower => false end); [|destruct c; reflexivity || (rewrite T0; reflexivity) || idtac].
      all: destruct w as [|x w']; [cbn in ZW; lia|]. all: cbn [map capital app].
      - assert (AG : aget (map Some t1 ++ Some x :: map Some w' ++ Some 0 :: r2) (zlen t1) = Ok (Some x)).
        { rewrite <- (zlen_map_some t1). now apply aget_app. }
        rewrite AG. cbn [bind]. rewrite aset_app by (symmetry; apply zlen_map_some). reflexivity. }
    rewrite UP. cbn [bind]. clear UP.
    assert (TS : text words c i0 (S k) = t1 ++ shape c (k =? 0)%nat w).
    { rewrite text_S. unfold t1, sep. rewrite <- app_assoc. destruct k; reflexivity. }
    rewrite T0. destruct (negb (k =? 0)%nat && _ && _) eqn:ST.
    - apply andb_prop in ST as [ST S3]. apply andb_prop in ST as [S1 S2]. unfold t1, sep in *. destruct (k =? 0)%nat eqn:K0; [discriminate|].
      rewrite map_app, <- app_assoc. cbn [map app]. rewrite aset_app by (rewrite zlen_map_some; rewrite Us; unfold len; lia). cbn [bind].
      eexists k, _. split; [reflexivity|]. split; [lia|]. split; [exact N|]. right. split; [apply Nat.eqb_neq in K0; lia|]. lia.
    - replace (zlen t1 + zlen w) with (len c i0 (S k)) by lia. rewrite app_assoc, <- map_app, <- TS.
      unfold word_count. rewrite Zplus_mod_idemp_l. replace (i0 + Z.of_nat k + 1) with (i0 + Z.of_nat (S k)) by lia.
      destruct (IH (S k) r2) as (k' & rest' & R & KK & NN & SS).
      + rewrite TS. unfold zlen in *. rewrite app_length, shape_length. lia.
      + right. replace (S k - 1)%nat with k by lia. split; [lia|]. destruct k; [now left|]. right. cbn [Nat.eqb negb andb] in *. apply andb_false_iff in ST. lia.
      + destruct (k =? 0)%nat; lia.
      + lia.
      + exists k', rest'. split; [exact R|]. split; [lia|]. split; assumption.
  Qed.
  (* at most six characters too long, unless it is a single word *)
  Lemma near_upper c i n k : near c i n k -> 0 <= n -> len c i k <= Z.max 12 (n + 6).
  Proof.
    intros [->|(A & B)] N; [rewrite len_0; lia|]. destruct k as [|k]; [rewrite len_0; lia|]. replace (S k - 1)%nat with k in * by lia.
    pose proof (len_S c i k) as LS. pose proof (proj1 (word_ok (i + Z.of_nat k))) as WL. unfold zlen in LS. destruct k as [|k]; cbn [Nat.eqb] in LS; [rewrite len_0 in *; lia|].
    destruct B as [B|[B|B]]; lia.
  Qed.
  Lemma stop_lower c i n k : stop c i n k -> 0 <= n -> n - 6 <= len c i k.
  Proof.
    intros [A|(A & B)] N; [lia|]. pose proof (len_S c i k) as LS. pose proof (proj1 (word_ok (i + Z.of_nat k))) as WL. unfold zlen in LS. destruct (k =? 0)%nat; lia.
  Qed.
  Lemma lorem_ok n c i : 0 <= i < W -> exists k, lorem words n c i = Ok (text words c i k, (i + Z.of_nat k) mod W) /\ near c i (Z.max 0 n) k /\ stop c i (Z.max 0 n) k.
  Proof.
    intros I. unfold lorem. set (b := if n <? 0 then 0 else n). assert (b = Z.max 0 n) as Eb by (unfold b; destruct (n <? 0) eqn:?; lia). rewrite <- Eb.
    replace (Z.to_nat (b + 21)) with (S (Z.to_nat (b + 20))) by lia. cbn [repeat]. pose proof (aset_app [] (@None Z) (repeat None (Z.to_nat (b + 20))) 0 (Some 0) eq_refl) as A. cbn [app] in A. rewrite A. cbn [bind].
    destruct (loop_ok c b i ltac:(lia) (Z.to_nat (b + 1)) 0 (repeat None (Z.to_nat (b + 20)))) as (k & rest & R & _ & NN & SS).
    - change (text words c i 0) with (@nil Z). unfold zlen. rewrite repeat_length. cbn [length]. lia.
    - now left.
    - rewrite len_0. lia.
    - lia.
    - cbn [text line map app] in R. rewrite len_0 in R. replace ((i + Z.of_nat 0) mod W) with i in R by (rewrite Z.add_0_r, Z.mod_small; lia). 
      change (text words c i 0) with (@nil Z) in R. cbn [map app] in R.
      exists k. split; [|split; assumption]. rewrite R. cbn [bind]. rewrite cstr_ok by apply text_nonzero. reflexivity.
  Qed.
  Lemma near_best c i n k : 0 < n -> near c i n k -> stop c i n k -> (0 < k)%nat /\ forall j, (0 < j)%nat -> distance words c i n k <= distance words c i n j /\ ((k < j)%nat -> distance words c i n k < distance words c i n j).
  Proof.
    intros N A B. assert (K : (0 < k)%nat). { destruct k; [|lia]. exfalso. destruct B as [B|[B _]]; [rewrite len_0 in B; lia|lia]. }
    split; [exact K|]. intros j J. unfold distance. fold (len c i k) (len c i j).
    assert (UPW : (k < j)%nat -> Z.abs (len c i k - n) < Z.abs (len c i j - n)).
    { intros KJ. pose proof (len_lt c i k j KJ). pose proof (len_mono c i (S k) j KJ). destruct B as [B|[_ B]]; lia. }
    split; [|exact UPW]. destruct (Nat.lt_trichotomy k j) as [H|[->|H]]; [specialize (UPW H); lia|lia|].
    destruct A as [A|(A1 & A2)]; [lia|]. pose proof (len_mono c i j (k - 1) ltac:(lia)). pose proof (len_lt c i j k H). destruct A2 as [A2|[A2|A2]]; lia.
  Qed.
  (* ---- paragraphs ---- *)
  Lemma clauses_mod c i t j : clauses words c (i mod W) t j -> exists j', clauses words c i t j' /\ j' mod W = j mod W.
  Proof.
    pose proof W_pos as WP.
    assert (TM : forall c i k, text words c (i mod W) k = text words c i k) by (intros; apply line_mod).
    intros H. remember (i mod W) as i0 eqn:E. assert (E0 : i0 mod W = i mod W) by (subst; now rewrite Z.mod_mod by lia). clear E. revert i E0.
    induction H as [c i0|c i0 k|c i0 k t j K H IH|c i0 k t j K H IH]; intros i E0.
    - exists i. split; [constructor|auto].
    - exists (i + Z.of_nat k). rewrite <- (TM c i0 k), E0, TM. split; [constructor|]. rewrite <- (Zplus_mod_idemp_l i), <- E0, Zplus_mod_idemp_l. reflexivity.
    - destruct (IH (i + Z.of_nat k)) as (j' & A & B). { rewrite <- (Zplus_mod_idemp_l i), <- E0, Zplus_mod_idemp_l. reflexivity. }
      exists j'. rewrite <- (TM c i0 k), E0, TM. split; [|exact B]. constructor; assumption.
    - destruct (IH (i + Z.of_nat k)) as (j' & A & B). { rewrite <- (Zplus_mod_idemp_l i), <- E0, Zplus_mod_idemp_l. reflexivity. }
      exists j'. rewrite <- (TM c i0 k), E0, TM. split; [|exact B]. constructor; assumption.
  Qed.
  Lemma lorem_len n c i : 0 <= i < W -> exists k, lorem words n c i = Ok (text words c i k, (i + Z.of_nat k) mod W) /\
    Z.max 0 n - 6 <= len c i k <= Z.max 12 (n + 6) /\ (n <= 0 -> k = O) /\ (0 < n -> (0 < k)%nat).
  Proof.
    intros I. destruct (lorem_ok n c i I) as (k & E & NN & SS). exists k. split; [exact E|]. pose proof (near_upper _ _ _ _ NN ltac:(lia)). pose proof (stop_lower _ _ _ _ SS ltac:(lia)).
    split; [lia|]. split.
    - intros HN. destruct NN as [->|(A & B)]; [reflexivity|]. pose proof (len_mono c i 0 (k - 1) ltac:(lia)). rewrite len_0 in *. lia.
    - intros HN. destruct k; [|lia]. exfalso. destruct SS as [A|[A _]]; [rewrite len_0 in A|]; lia.
  Qed.
  Lemma para_ok rand : (forall r, 0 <= rand r) -> forall fuel best c comma t i r, 0 <= i < W -> best - zlen t < Z.of_nat fuel -> (0 < fuel)%nat -> zlen t <= best + 8 -> 0 <= comma ->
    exists u j, para words rand fuel best c comma t i r = Ok (t ++ u, j mod W) /\ clauses words c i u j /\ best - 10 <= zlen (t ++ u) <= Z.max (best + 12) (zlen t).
  Proof.
    intros RP. induction fuel as [|fuel IH]; intros best c comma t i r I F F0 T C; [lia|]. cbn [para].
    destruct (zlen t <? best) eqn:E.
    2:{ exists [], i. rewrite app_nil_r, Z.mod_small by auto. split; [reflexivity|]. split; [constructor|lia]. }
    set (cr := if comma =? 0 then (rand r mod 4 + 1, S r) else (comma, r)).
    assert (C1 : 1 <= fst cr). { unfold cr. destruct (comma =? 0) eqn:?; cbn [fst]; [|lia]. pose proof (Z.mod_pos_bound (rand r) 4 ltac:(lia)). lia. }
    destruct cr as [comma1 r1]. cbn [fst] in C1. pose proof (Z.mod_pos_bound (rand r1) 45 ltac:(lia)) as R1. set (l1 := rand r1 mod 45 + 15) in *.
    assert (FIN : forall n r', (n <= 0 -> best - zlen t = 1) -> Z.max 0 n - 6 + zlen t + 1 >= best - 10 -> Z.max 12 (n + 6) + zlen t + 1 <= best + 12 \/ n <= 0 ->
      exists u j, (do (p, index) <- lorem words n c i; let t0 := t ++ p in if 0 =? 0 then Ok (t0 ++ [46], index) else if 0 =? 1 then para words rand fuel best FirstUpper 0 (t0 ++ [46; 32]) index r' else para words rand fuel best AllLower (0 - 1) (t0 ++ [44; 32]) index r')
        = Ok (t ++ u, j mod W) /\ clauses words c i u j /\ best - 10 <= zlen (t ++ u) <= Z.max (best + 12) (zlen t)).
    { intros n r' N0 N1 N2. destruct (lorem_len n c i I) as (k & EL & LB & K0 & K1). rewrite EL. cbn [bind Z.eqb]. exists (text words c i k ++ [46]), (i + Z.of_nat k).
      rewrite <- app_assoc. split; [reflexivity|]. split; [constructor|]. unfold len, zlen in *. rewrite !app_length. cbn [length]. destruct (Z_le_gt_dec n 0) as [Hn|Hn].
      - rewrite (K0 Hn) in *. cbn [text line length] in *. specialize (N0 Hn). lia.
      - lia. }
    destruct (best - zlen t <? 20) eqn:O1; [apply FIN; lia|]. destruct (l1 >? best - zlen t) eqn:O2.
    { pose proof (Z.mod_pos_bound (rand (S r1)) 11 ltac:(lia)) as R2. apply FIN; lia. }
    destruct (lorem_len l1 c i I) as (k & EL & LB & K0 & K1). rewrite EL. cbn [bind]. replace (comma1 =? 0) with false by lia.
    pose proof (Z.mod_pos_bound (i + Z.of_nat k) W W_pos) as MB. specialize (K1 ltac:(lia)).
    assert (STEP : forall c' comma' a b r', 0 <= comma' -> exists u j, para words rand fuel best c' comma' ((t ++ text words c i k) ++ [a; b]) ((i + Z.of_nat k) mod W) r' = Ok (t ++ (text words c i k ++ [a; b] ++ u), j mod W) /\
       clauses words c' (i + Z.of_nat k) u j /\ best - 10 <= zlen (t ++ (text words c i k ++ [a; b] ++ u)) <= Z.max (best + 12) (zlen t)).
    { intros c' comma' a b r' C'. assert (TL : zlen ((t ++ text words c i k) ++ [a; b]) = zlen t + len c i k + 2) by (unfold len, zlen; rewrite !app_length; cbn [length]; lia).
      destruct (IH best c' comma' ((t ++ text words c i k) ++ [a; b]) _ r' MB) as (u & j & E1 & E2 & E3); try lia.
      destruct (clauses_mod _ _ _ _ E2) as (j' & E4 & E5). exists u, j'. rewrite E5. replace (t ++ text words c i k ++ [a; b] ++ u) with (((t ++ text words c i k) ++ [a; b]) ++ u) by now rewrite <- !app_assoc.
      split; [exact E1|]. split; [exact E4|]. lia. }
    destruct (comma1 =? 1) eqn:?.
    - destruct (STEP FirstUpper 0 46 32 (S r1) ltac:(lia)) as (u & j & E1 & E2 & E3). exists (text words c i k ++ [46; 32] ++ u), j. split; [exact E1|]. split; [|exact E3]. constructor; assumption.
    - destruct (STEP AllLower (comma1 - 1) 44 32 (S r1) ltac:(lia)) as (u & j & E1 & E2 & E3). exists (text words c i k ++ [44; 32] ++ u), j. split; [exact E1|]. split; [|exact E3]. constructor; assumption.
  Qed.
End proofs.

Definition good_wordsb (words : list (list Z)) := negb (zlen words =? 0) && forallb (fun w => (1 <=? length w)%nat && (length w <=? 12)%nat && forallb (Z.ltb 32) w) words.
Lemma good_wordsb_ok words : good_wordsb words = true -> good_words words.
Proof.
  unfold good_wordsb, good_words. intros H. apply andb_prop in H as [H1 H2]. split; [intros ->; discriminate H1|]. rewrite forallb_forall in H2. apply Forall_forall. intros w Hw. specialize (H2 w Hw).
  apply andb_prop in H2 as [H2 H3]. split; [lia|]. rewrite forallb_forall in H3. apply Forall_forall. intros c Hc. specialize (H3 c Hc). lia.
Qed.
Lemma the_words_good : good_words words.
Proof. apply good_wordsb_ok. vm_compute. reflexivity. Qed.
Lemma the_words_count : zlen words = 379.
Proof. vm_compute. reflexivity. Qed.

Lemma lorem_main n c i : 0 <= i < 379 -> exists k, lorem words n c i = Ok (text words c i k, (i + Z.of_nat k) mod 379) /\
  (n <= 0 -> k = O) /\ (0 < n -> (0 < k)%nat /\ forall j, (0 < j)%nat -> distance words c i n k <= distance words c i n j /\ ((k < j)%nat -> distance words c i n k < distance words c i n j)) /\
  zlen (text words c i k) <= Z.max 12 (n + 6).
Proof.
  rewrite <- the_words_count. intros I. pose proof the_words_good as G. destruct (lorem_ok words G n c i I) as (k & E & NN & SS). destruct (lorem_len words G n c i I) as (k2 & E' & A & B & C).
  exists k. split; [exact E|]. 
  assert (KZ : n <= 0 -> k = O).
  { intros HN. destruct NN as [->|(A1 & B1)]; [reflexivity|]. pose proof (len_mono words G c i 0 (k - 1) ltac:(lia)). rewrite len_0 in *. lia. }
  split; [exact KZ|]. split.
  - intros N. rewrite Z.max_r in NN, SS by lia. apply near_best; assumption.
  - pose proof (near_upper words G _ _ _ _ NN ltac:(lia)) as U. unfold len in U. lia.
Qed.
Lemma paragraph_main rand best i : 0 <= i < 379 -> (forall r, 0 <= rand r) -> exists t j, paragraph words rand best i = Ok (t, j mod 379) /\ clauses words FirstUpper i t j /\
  (best <= 0 -> t = []) /\ (0 < best -> best - 10 <= zlen t <= best + 12).
Proof.
  rewrite <- the_words_count. intros I R. pose proof the_words_good as G. destruct (Z_le_gt_dec best 0) as [B|B].
  - exists [], i. unfold paragraph. cbn [para]. replace (zlen [] <? best) with false by (change (zlen (@nil Z)) with 0; lia). rewrite Z.mod_small by auto. split; [reflexivity|]. split; [constructor|]. split; [auto|lia].
  - destruct (para_ok words G rand R (S (Z.to_nat best)) best FirstUpper 0 [] i 0 I) as (u & j & E1 & E2 & E3); try lia; try (change (zlen (@nil Z)) with 0; lia).
    exists u, j. split; [exact E1|]. split; [exact E2|]. split; [lia|]. cbn [app] in E3. change (zlen (@nil Z)) with 0 in E3. lia.
Qed.
Lemma paragraph_breaks_off : exists t, paragraph words (fun r => match r with O => 1 | _ => 6 end) 22 0 = Ok (t ++ [44; 32], 4).
Proof. exists (text words FirstUpper 0 4). vm_compute. reflexivity. Qed.
Lemma lorem_empty_closer : exists t, lorem words 1 AllLower 0 = Ok (t, 1) /\ zlen t = 5.
Proof. exists (text words AllLower 0 1). vm_compute. split; reflexivity. Qed.

Lemma title_main n i : 0 <= i < 379 -> exists k,
  title words n i = Ok (text words AllUpper i k, (i + Z.of_nat k) mod 379) /\ lorem words n AllUpper i = title words n i.
Proof. intros H. destruct (lorem_main n AllUpper i H) as (k & E & _). exists k. split; [exact E|reflexivity]. Qed.
Lemma sentence_main n i : 0 <= i < 379 -> exists k,
  sentence words n i = Ok (text words FirstUpper i k ++ [46], (i + Z.of_nat k) mod 379) /\
  lorem words n FirstUpper i = Ok (text words FirstUpper i k, (i + Z.of_nat k) mod 379).
Proof. intros H. destruct (lorem_main n FirstUpper i H) as (k & E & _). exists k. unfold sentence. rewrite E. split; reflexivity. Qed.
