(* Safety of the readers on any input, any number of reads *)
From Coq Require Import ZifyBool ZifyNat.
From Verif Require Import Base BaseFacts UtfModel UtfSpec UtfProofs1 UtfProofs2 UtfProofs3 UtfProofs4.
Open Scope Z_scope.

(* A consumer over u-units with the units [tail] before its end.  A range may contain
   zeros, the part of a string before its terminator does not. *)
Definition ConsOk (u : utf) (k : consumer) (tail : list Z) : Prop :=
  Feeds k tail /\ Forall (in_range u) tail /\
  match k with CStr _ _ => Forall (fun x => x <> 0) tail | CRange _ _ _ => True end.

Lemma consume_ok u k tail : ConsOk u k tail ->
  match tail with
  | [] => consume k = Ok (0, k)
  | x :: t => exists k', consume k = Ok (x, k') /\ ConsOk u k' t
  end.
Proof.
  intros (Hf & Hr & Hz). destruct tail as [|x t]; [apply consume_nil, Hf|].
  inversion_clear Hr as [|? ? Hx Hr'].
  destruct k as [mem pos|mem ending pos].
  - inversion_clear Hz as [|? ? Hx0 Hz'].
    destruct Hf as (p & junk & -> & H). cbn [app] in H.
    apply skipn_cons in H as [Hn Hs]. unfold consume.
    rewrite (aget_nat _ _ _ Hn). cbn [bind]. replace (x =? 0) with false by lia.
    eexists. split; [reflexivity|]. split; [|split; assumption].
    exists (S p), junk. split; [lia|exact Hs].
  - destruct Hf as (p & junk & -> & -> & H). cbn [app] in H.
    apply skipn_cons in H as [Hn Hs]. unfold consume. cbn [length].
    replace (Z.of_nat p =? Z.of_nat (p + S (length t))) with false by lia.
    rewrite (aget_nat _ _ _ Hn). cbn [bind].
    eexists. split; [reflexivity|]. split; [|split; [assumption|exact I]].
    exists (S p), junk. split; [lia|]. split; [lia|exact Hs].
Qed.

Definition SafeTo (u : utf) (st : to32_reader) (win tail : list Z) : Prop :=
  exists cr, t_available st = zlen win /\ t_buffer st = window win cr /\
    zlen (t_buffer st) = buflen u /\ Forall (in_range u) win /\ ConsOk u (t_cons st) tail.

Lemma t_fill_safe u fuel : forall st win tail,
  SafeTo u st win tail -> buflen u - zlen win < Z.of_nat fuel ->
  (exists st', t_fill u fuel st = Ok (inr st') /\ t_available st' = -1) \/
  (exists st' win' tail', t_fill u fuel st = Ok (inl st') /\ SafeTo u st' win' tail' /\ win' <> [] /\
     (length win' + length tail' <= length win + length tail)%nat).
Proof.
  induction fuel as [|fuel IH]; intros st win tail (cr & Ha & Hb & Hl & Hw & Hc) Hf.
  { unfold zlen in *. rewrite Hb, window_length in Hl. lia. }
  cbn [t_fill]. destruct (t_available st <? buflen u) eqn:Hlt.
  - assert (Hstop : forall k' t', ConsOk u k' t' -> (length t' <= length tail)%nat ->
       consume (t_cons st) = Ok (0, k') ->
       (exists st', (do (c, k) <- consume (t_cons st);
        if negb (c =? 0) then
          do b <- aset (t_buffer st) (t_available st) (Some c);
          t_fill u fuel (mkTo (t_available st + 1) b (t_index st) (t_size st) (t_counter st) k)
        else if t_available st =? 0 then
          Ok (inr (mkTo (-1) (t_buffer st) (t_index st + t_size st) 0 (t_counter st + 1) k))
        else Ok (inl (mkTo (t_available st) (t_buffer st) (t_index st) (t_size st) (t_counter st) k)))
           = Ok (inr st') /\ t_available st' = -1) \/
       (exists st' win' tail', (do (c, k) <- consume (t_cons st);
        if negb (c =? 0) then
          do b <- aset (t_buffer st) (t_available st) (Some c);
          t_fill u fuel (mkTo (t_available st + 1) b (t_index st) (t_size st) (t_counter st) k)
        else if t_available st =? 0 then
          Ok (inr (mkTo (-1) (t_buffer st) (t_index st + t_size st) 0 (t_counter st + 1) k))
        else Ok (inl (mkTo (t_available st) (t_buffer st) (t_index st) (t_size st) (t_counter st) k)))
           = Ok (inl st') /\ SafeTo u st' win' tail' /\ win' <> [] /\
           (length win' + length tail' <= length win + length tail)%nat)).
    { intros k' t' Hk Hlen E. rewrite E. cbn [bind Z.eqb negb].
      destruct (t_available st =? 0) eqn:H0.
      - left. eexists. split; reflexivity.
      - right. do 3 eexists. split; [reflexivity|]. split.
        + exists cr. cbn. split; [exact Ha|]. split; [exact Hb|]. split; [exact Hl|]. split; [exact Hw|exact Hk].
        + split; [|lia]. intros ->. unfold zlen in Ha. cbn in Ha. lia. }
    pose proof (consume_ok _ _ _ Hc) as Hcons.
    destruct tail as [|x t].
    + apply (Hstop (t_cons st) []); auto.
    + destruct Hcons as (k' & E & Hk).
      destruct (Z.eqb_spec x 0) as [->|Hx].
      { apply (Hstop k' t); auto. cbn; lia. }
      clear Hstop. rewrite E. cbn [bind]. replace (x =? 0) with false by lia. cbn [negb].
      assert (Hcr : (length cr > 0)%nat).
      { unfold zlen in *. rewrite Hb, window_length in Hl. lia. }
      destruct cr as [|cr0 cr]; [cbn in Hcr; lia|].
      rewrite Ha, Hb.
      assert (Has : aset (window win (cr0 :: cr)) (zlen win) (Some x)
                    = Ok (upd (window win (cr0 :: cr)) (length win) (Some x))).
      { unfold zlen. apply aset_nat. rewrite window_length. cbn; lia. }
      rewrite Has. cbn [bind].
      assert (Hup : upd (window win (cr0 :: cr)) (length win) (Some x) = window (win ++ [x]) cr).
      { unfold window. rewrite map_app. cbn [map]. rewrite <- app_assoc. cbn [app].
        rewrite <- (map_length Some win). apply upd_app2. }
      rewrite Hup.
      assert (Hx' : in_range u x). { destruct Hc as (_ & Hr & _). now inversion Hr. }
      edestruct (IH (mkTo (zlen win + 1) (window (win ++ [x]) cr) (t_index st) (t_size st) (t_counter st) k')
                 (win ++ [x]) t) as [Hr|(st' & win' & tail' & E' & Hs' & Hne & Hlen)].
      * exists cr. cbn [t_available t_buffer t_cons].
        split; [unfold zlen; rewrite app_length; cbn; lia|]. split; [reflexivity|].
        split; [rewrite <- Hl, Hb; unfold zlen; rewrite !window_length, app_length; cbn; lia|].
        split; [|exact Hk]. apply Forall_app. split; [exact Hw|]. constructor; [exact Hx'|constructor].
      * rewrite zlen_app. change (zlen [x]) with 1. lia.
      * left. exact Hr.
      * right. exists st', win', tail'. split; [exact E'|]. split; [exact Hs'|]. split; [exact Hne|].
        rewrite app_length in Hlen. cbn in Hlen |- *. lia.
  - right. exists st, win, tail. split; [reflexivity|]. split; [exists cr; auto|].
    split; [|lia]. intros ->. assert (0 < buflen u) by (destruct u; cbn; lia).
    unfold zlen in *. cbn in Ha. lia.
Qed.

(* The reader is either stopped, or safe with n units to go *)
Definition ToOk (u : utf) (st : to32_reader) (n : nat) : Prop :=
  t_available st = -1 \/ exists win tail, SafeTo u st win tail /\ n = (length win + length tail)%nat.

Lemma to32_read_safe u st n : ToOk u st n ->
  exists c st' n', to32_read u st = Ok (c, st') /\ ToOk u st' n' /\ 0 <= c < 0x100000000 /\
    (c <> 0 -> (n' < n)%nat) /\ (n' <= n)%nat.
Proof.
  intros [H|(win & tail & HS & ->)].
  - exists 0, st, n. unfold to32_read. rewrite H. cbn. split; [reflexivity|]. split; [left; exact H|]. lia.
  - unfold to32_read.
    assert (Hav : t_available st = zlen win) by (destruct HS as (cr & Ha & _); exact Ha).
    replace (t_available st =? -1) with false by (unfold zlen in Hav; lia).
    assert (Hbp : 0 < buflen u) by (destruct u; cbn; lia).
    destruct (t_fill_safe u (S (Z.to_nat (buflen u))) st win tail HS) as [(st' & E & Hs)|(st' & win' & tail' & E & HS' & Hne & Hlen)].
    { unfold zlen. lia. }
    + rewrite E. cbn [bind]. exists 0, st', (length win + length tail)%nat.
      split; [reflexivity|]. split; [left; exact Hs|]. lia.
    + rewrite E. cbn [bind]. destruct HS' as (cr & Ha & Hb & Hl & Hw & Hc).
      assert (Hwl : zlen win' <= buflen u).
      { unfold zlen in *. rewrite Hb, window_length in Hl. lia. }
      destruct (to32_total u win' cr Hne Hwl Hw) as (r & H1 & H2 & H3).
      rewrite Hb, Ha, H1. cbn [bind]. destruct r as [[c m]|].
      * assert (Hrange : 0 <= c < 0x100000000).
        { eapply (pstep_range u win' c m); [exact Hne|exact Hw|].
          rewrite firstn_all2 by (unfold zlen, blen in *; lia). unfold pstep. now rewrite H2. }
        set (a := firstn (Z.to_nat m) win'). set (b := skipn (Z.to_nat m) win').
        assert (Hab : win' = a ++ b) by (symmetry; apply firstn_skipn).
        assert (Hla : zlen a = m) by (unfold a, zlen in *; rewrite firstn_length; lia).
        assert (Hlb : length b = Z.to_nat (zlen win' - m)) by (unfold b, zlen in *; rewrite skipn_length; lia).
        destruct (t_shift_window a b cr) as (r' & Hsh & Hr').
        rewrite Hlb, Hla, <- Hab in Hsh. rewrite Hsh. cbn [bind].
        exists c, (mkTo (zlen win' - m) (window b r') (t_index st' + t_size st') m (t_counter st' + 1) (t_cons st')),
               (length b + length tail')%nat.
        split; [reflexivity|]. split.
        -- right. exists b, tail'. split; [|reflexivity]. exists r'. cbn [t_available t_buffer t_cons].
           split; [unfold zlen at 2; lia|]. split; [reflexivity|].
           split; [unfold zlen in *; rewrite window_length; rewrite Hb, window_length in Hl;
                   rewrite Hab, app_length in Hl; lia|].
           split; [now apply Forall_skipn|exact Hc].
        -- unfold zlen in *. lia.
      * eexists 0, _, (length win + length tail)%nat. split; [reflexivity|]. split; [left; reflexivity|]. lia.
Qed.

Definition SrcOk (s : source32) (n : nat) : Prop :=
  match s with
  | SRaw k => exists tail, ConsOk U32 k tail /\ n = length tail
  | SRead u t => ToOk u t n
  end.

Lemma consume32_safe s n : SrcOk s n ->
  exists c s' n', consume32 s = Ok (c, s') /\ SrcOk s' n' /\ 0 <= c < 0x100000000 /\
    (c <> 0 -> (n' < n)%nat) /\ (n' <= n)%nat.
Proof.
  destruct s as [k|u t]; cbn [SrcOk consume32].
  - intros (tail & Hk & ->). pose proof (consume_ok _ _ _ Hk) as H. destruct tail as [|x l].
    + rewrite H. cbn [bind]. exists 0, (SRaw k), 0%nat. split; [reflexivity|]. split; [exists []; auto|]. cbn; lia.
    + destruct H as (k' & E & Hk'). rewrite E. cbn [bind]. exists x, (SRaw k'), (length l).
      split; [reflexivity|]. split; [exists l; auto|].
      destruct Hk as (_ & Hr & _). inversion_clear Hr as [|? ? Hx _]. unfold in_range in Hx. cbn [unit_bound] in Hx.
      cbn [length]. lia.
  - intros H. destruct (to32_read_safe _ _ _ H) as (c & t' & n' & E & H1 & H2 & H3 & H4).
    rewrite E. cbn [bind]. exists c, (SRead u t'), n'. auto.
Qed.

(* Potential: an upper bound of the number of units still to come *)
Definition FromOk (u : utf) (st : from32_reader) (n : nat) : Prop :=
  f_available st = -1 \/
  exists pend k m, Rfrom u st pend k /\ SrcOk (f_src st) m /\ n = (length pend + blen u * m)%nat.

Lemma from32_read_safe u st n : u <> U32 -> FromOk u st n ->
  exists c st' n', from32_read u st = Ok (c, st') /\ FromOk u st' n' /\ (c <> 0 -> (n' < n)%nat) /\ (n' <= n)%nat.
Proof.
  intros Hu [H|(pend & k & m & HR & HS & ->)].
  - exists 0, st, n. unfold from32_read. rewrite H. cbn. split; [reflexivity|]. split; [left; exact H|]. lia.
  - unfold from32_read.
    assert (Hav : f_available st = f_read st + zlen pend).
    { destruct HR as (done & cr & H1 & H2 & _). rewrite zlen_app in H2. lia. }
    assert (Hrd : 0 <= f_read st).
    { destruct HR as (done & cr & H1 & _). unfold zlen in H1. lia. }
    replace (f_available st =? -1) with false by (unfold zlen in Hav; lia).
    destruct pend as [|x pend].
    + replace (f_read st =? f_available st) with true by (unfold zlen in Hav; cbn in Hav; lia).
      destruct (consume32_safe _ _ HS) as (c & s' & m' & E & HS' & Hr & Hd & Hle).
      rewrite E. cbn [bind]. destruct (Z.eqb_spec c 0) as [->|Hc]; cbn [negb].
      * eexists 0, _, _. split; [reflexivity|]. split; [left; reflexivity|]. split; [lia|]. apply Nat.le_refl.
      * rewrite (from32_spec u c Hu Hr). destruct (representable u c) eqn:Hrep.
        2:{ eexists 0, _, _. split; [reflexivity|]. split; [left; reflexivity|]. split; [lia|]. apply Nat.le_refl. }
        destruct (units_len u c Hrep) as [Hul Hune].
        destruct HR as (done & cr & H1 & H2 & H3 & H4 & H5).
        assert (Hst : store (f_buffer st) 0 (units u c)
                 = Ok (window (units u c) (skipn (length (units u c)) (f_buffer st)))).
        { change (f_buffer st) with (window [] (f_buffer st)) at 1.
          change 0 with (zlen (@nil Z)). rewrite store_window; [reflexivity|]. unfold zlen in *. lia. }
        rewrite Hst. cbn [bind].
        set (st0 := mkFrom _ _ _ _ _ _ _).
        assert (HR0 : Rfrom u st0 (units u c) (k + 1)).
        { exists [], (skipn (length (units u c)) (f_buffer st)). cbn. repeat split; [|lia].
          rewrite <- H4. unfold zlen in *. rewrite window_length, skipn_length. lia. }
        destruct (units u c) as [|x us] eqn:Hus; [congruence|].
        destruct (f_emit_spec _ _ _ _ _ HR0) as (st' & Ee & HR' & Hs' & _).
        rewrite Ee. exists x, st', (length us + blen u * m')%nat. split; [reflexivity|]. split.
        -- right. exists us, (k + 1), m'. split; [exact HR'|]. split; [|reflexivity]. rewrite Hs'. exact HS'.
        -- specialize (Hd Hc).
           assert ((length us < blen u)%nat) by (unfold zlen, blen in *; cbn [length] in Hul; lia).
           cbn [length]. assert ((blen u * m' + blen u <= blen u * m)%nat) by nia. lia.
    + replace (f_read st =? f_available st) with false by (unfold zlen in Hav; cbn [length] in Hav; lia).
      destruct (f_emit_spec _ _ _ _ _ HR) as (st' & Ee & HR' & Hs' & _).
      rewrite Ee. exists x, st', (length pend + blen u * m)%nat. split; [reflexivity|]. split.
      * right. exists pend, k, m. split; [exact HR'|]. split; [|reflexivity]. rewrite Hs'. exact HS.
      * cbn [length]. lia.
Qed.

Definition ROk (r : reader) (n : nat) : Prop :=
  match r with
  | RFrom u st => u <> U32 /\ FromOk u st n
  | RTo u st => ToOk u st n
  | RDirect st => exists tail, ConsOk U32 (d_cons st) tail /\ n = length tail
  end.

Lemma read_safe r n : ROk r n ->
  exists c r' n', read r = Ok (c, r') /\ ROk r' n' /\ (c <> 0 -> (n' < n)%nat) /\ (n' <= n)%nat.
Proof.
  destruct r as [u st|u st|st]; cbn [ROk read].
  - intros [Hu H]. destruct (from32_read_safe _ _ _ Hu H) as (c & st' & n' & E & H1 & H2 & H3).
    rewrite E. cbn [bind]. exists c, (RFrom u st'), n'. cbn. auto.
  - intros H. destruct (to32_read_safe _ _ _ H) as (c & st' & n' & E & H1 & _ & H2 & H3).
    rewrite E. cbn [bind]. exists c, (RTo u st'), n'. cbn. auto.
  - intros (tail & Hk & ->). unfold direct_read. pose proof (consume_ok _ _ _ Hk) as H.
    destruct tail as [|x l].
    + rewrite H. cbn [bind]. eexists 0, _, 0%nat. split; [reflexivity|]. split; [exists []; auto|]. cbn; lia.
    + destruct H as (k' & E & Hk'). rewrite E. cbn [bind]. eexists x, _, (length l).
      split; [reflexivity|]. split; [exists l; auto|]. cbn [length]. lia.
Qed.

Lemma mk_reader_ok from to k tail : ConsOk from k tail ->
  exists n, ROk (mk_reader from to k) n /\ (n <= blen to * length tail)%nat.
Proof.
  intros H.
  assert (HSt : ToOk from (to32_init from k) (length tail)).
  { right. exists [], tail. split; [|reflexivity]. exists (repeat None (Z.to_nat (buflen from))).
    cbn. split; [reflexivity|]. split; [reflexivity|]. split; [|split; [constructor|exact H]].
    unfold zlen. rewrite repeat_length. destruct from; cbn; lia. }
  assert (HF : forall s, to <> U32 -> SrcOk s (length tail) ->
            ROk (RFrom to (from32_init to s)) (blen to * length tail)).
  { intros s Hto Hs. cbn. split; [exact Hto|]. right. exists [], 0, (length tail).
    split; [apply Rfrom_init|]. split; [exact Hs|reflexivity]. }
  assert (HD : from = U32 \/ from = W -> ROk (RDirect (mkDirect (-1) false k)) (length tail)).
  { intros Hf. cbn. exists tail. split; [|reflexivity]. destruct Hf as [-> | ->]; exact H. }
  pose proof (blen_pos to) as Hb.
  assert (Hle : (length tail <= blen to * length tail)%nat) by nia.
  destruct from, to; cbn [mk_reader];
    first [ exists (length tail); split; [apply HD; tauto|exact Hle]
          | exists (length tail); split; [exact HSt|exact Hle]
          | eexists; split; [apply HF; [discriminate|exact HSt]|apply Nat.le_refl]
          | eexists; split; [apply HF; [discriminate|exists tail; split; [exact H|reflexivity]]|apply Nat.le_refl] ].
Qed.

Lemma reads_safe m : forall r n, ROk r n ->
  exists l r', reads m r = Ok (l, r') /\ length l = m /\
    ((n < m)%nat -> exists i, (i <= n)%nat /\ nth_error l i = Some 0).
Proof.
  induction m as [|m IH]; intros r n H.
  - exists [], r. cbn. split; [reflexivity|]. split; [reflexivity|]. lia.
  - destruct (read_safe _ _ H) as (c & r1 & n1 & E & H1 & Hd & Hle).
    destruct (IH _ _ H1) as (l & r2 & E2 & Hl & Hz).
    cbn [reads]. rewrite E. cbn [bind]. rewrite E2. cbn [bind].
    exists (c :: l), r2. split; [reflexivity|]. split; [cbn; lia|].
    intros Hn. destruct (Z.eq_dec c 0) as [->|Hc].
    + exists 0%nat. split; [lia|reflexivity].
    + specialize (Hd Hc). destruct (Hz ltac:(lia)) as (i & Hi & Hi'). exists (S i). split; [lia|exact Hi'].
Qed.

Lemma reads_any from to k tail m : ConsOk from k tail ->
  exists l r', reads m (mk_reader from to k) = Ok (l, r') /\ length l = m /\
    ((blen to * length tail < m)%nat ->
     exists i, (i <= blen to * length tail)%nat /\ nth_error l i = Some 0).
Proof.
  intros H. destruct (mk_reader_ok from to k tail H) as (n & Hok & Hn).
  destruct (reads_safe m _ _ Hok) as (l & r' & E & Hl & Hz).
  exists l, r'. split; [exact E|]. split; [exact Hl|]. intros Hm.
  destruct (Hz ltac:(lia)) as (i & Hi & Hi'). exists i. split; [lia|exact Hi'].
Qed.

Lemma reads_str from to l junk m :
  Forall (good_unit from) l ->
  exists out r', reads m (mk_reader from to (CStr (l ++ 0 :: junk) 0)) = Ok (out, r') /\ length out = m /\
    (buflen to * zlen l < Z.of_nat m ->
     exists i, Z.of_nat i <= buflen to * zlen l /\ nth_error out i = Some 0).
Proof.
  intros Hg. destruct (reads_any from to (CStr (l ++ 0 :: junk) 0) l m) as (out & r' & E & Hl & Hz).
  - split; [apply Feeds_str|]. split.
    + eapply Forall_impl; [|exact Hg]. apply good_in_range.
    + eapply Forall_impl; [|exact Hg]. unfold good_unit. intros; lia.
  - exists out, r'. split; [exact E|]. split; [exact Hl|]. intros Hm.
    assert (0 < buflen to) by (destruct to; cbn; lia). unfold blen, zlen in *.
    destruct (Hz ltac:(nia)) as (i & Hi & Hi'). exists i. split; [nia|exact Hi'].
Qed.

Lemma reads_range from to l junk m :
  Forall (in_range from) l ->
  exists out r', reads m (mk_reader from to (CRange (l ++ junk) (zlen l) 0)) = Ok (out, r') /\ length out = m /\
    (buflen to * zlen l < Z.of_nat m ->
     exists i, Z.of_nat i <= buflen to * zlen l /\ nth_error out i = Some 0).
Proof.
  intros Hg. destruct (reads_any from to (CRange (l ++ junk) (zlen l) 0) l m) as (out & r' & E & Hl & Hz).
  - split; [apply Feeds_range|]. split; [exact Hg|exact I].
  - exists out, r'. split; [exact E|]. split; [exact Hl|]. intros Hm.
    assert (0 < buflen to) by (destruct to; cbn; lia). unfold blen, zlen in *.
    destruct (Hz ltac:(nia)) as (i & Hi & Hi'). exists i. split; [nia|exact Hi'].
Qed.

(* ------------------------------------------------------------------ *)
(* UTF-8 decoder: what is rejected                                      *)

Lemma utf8_reject_iff x l rest : Forall (in_range U8) (x :: l) ->
  (to32 U8 (window (x :: l) rest) (zlen (x :: l)) = Ok None <-> zlen (x :: l) < announced x).
Proof.
  intros Hr. cbn [to32]. unfold to32_u8, announced.
  assert (Hx : 0 <= x < 0x100) by (inversion Hr; assumption).
  replace (zlen (x :: l) <=? 0) with false by (unfold zlen; cbn [length]; lia).
  rewrite rd0. cbn [bind].
  assert (Hz : zlen (x :: l) = 1 + zlen l) by (unfold zlen; cbn [length]; lia).
  assert (Hp : 0 <= zlen l) by (unfold zlen; lia).
  destruct (x <? 0x80); [split; [discriminate|lia]|].
  destruct (x <? 0xE0).
  { destruct (zlen (x :: l) <? 2) eqn:E; [split; [lia|reflexivity]|].
    destruct l as [|b l]; [cbn in E; discriminate|]. rewrite rd1. cbn [bind]. split; [discriminate|lia]. }
  destruct (x <? 0xF0).
  { destruct (zlen (x :: l) <? 3) eqn:E; [split; [lia|reflexivity]|].
    destruct l as [|b [|c l]]; try (cbn in E; discriminate). rewrite rd1, rd2. cbn [bind]. split; [discriminate|lia]. }
  destruct (x <? 0xF8).
  { destruct (zlen (x :: l) <? 4) eqn:E; [split; [lia|reflexivity]|].
    destruct l as [|b [|c [|d l]]]; try (cbn in E; discriminate). rewrite rd1, rd2, rd3. cbn [bind].
    split; [discriminate|lia]. }
  destruct (x <? 0xFC).
  { destruct (zlen (x :: l) <? 5) eqn:E; [split; [lia|reflexivity]|].
    destruct l as [|b [|c [|d [|e l]]]]; try (cbn in E; discriminate). rewrite rd1, rd2, rd3, rd4. cbn [bind].
    split; [discriminate|lia]. }
  destruct (zlen (x :: l) <? 6) eqn:E; [split; [lia|reflexivity]|].
  destruct l as [|b [|c [|d [|e [|f l]]]]]; try (cbn in E; discriminate). rewrite rd1, rd2, rd3, rd4, rd5. cbn [bind].
  split; [discriminate|lia].
Qed.

Ltac Zify.zify_post_hook ::= Z.div_mod_to_equations.
Lemma utf8_announced c : representable U8 c = true ->
  match utf8_units c with x :: l => announced x = zlen (x :: l) | [] => False end.
Proof.
  unfold representable, utf8_units, announced. intros H.
  change (64^2) with 4096. change (64^3) with 262144. change (64^4) with 16777216.
  change (64^5) with 1073741824.
  destruct (c <? 0x80) eqn:H1; [rewrite H1; reflexivity|].
  destruct (c <? 0x800) eqn:H2.
  { replace (_ <? 0x80) with false by lia. replace (_ <? 0xE0) with true by lia. reflexivity. }
  destruct (c <? 0x10000) eqn:H3.
  { replace (_ <? 0x80) with false by lia. replace (_ <? 0xE0) with false by lia.
    replace (_ <? 0xF0) with true by lia. reflexivity. }
  destruct (c <? 0x200000) eqn:H4.
  { replace (_ <? 0x80) with false by lia. replace (_ <? 0xE0) with false by lia.
    replace (_ <? 0xF0) with false by lia. replace (_ <? 0xF8) with true by lia. reflexivity. }
  destruct (c <? 0x4000000) eqn:H5.
  { replace (_ <? 0x80) with false by lia. replace (_ <? 0xE0) with false by lia.
    replace (_ <? 0xF0) with false by lia. replace (_ <? 0xF8) with false by lia.
    replace (_ <? 0xFC) with true by lia. reflexivity. }
  replace (_ <? 0x80) with false by lia. replace (_ <? 0xE0) with false by lia.
  replace (_ <? 0xF0) with false by lia. replace (_ <? 0xF8) with false by lia.
  replace (_ <? 0xFC) with false by lia. reflexivity.
Qed.
Ltac Zify.zify_post_hook ::= idtac.

Lemma utf8_truncated c n rest :
  c <> 0 -> representable U8 c = true -> (0 < n < length (utf8_units c))%nat ->
  to32 U8 (window (firstn n (utf8_units c)) rest) (Z.of_nat n) = Ok None.
Proof.
  intros Hc Hrep Hn. pose proof (utf8_announced c Hrep) as Ha.
  pose proof (units_good U8 c Hc Hrep) as Hg. cbn [units] in Hg.
  destruct (utf8_units c) as [|x l]; [contradiction|].
  destruct n as [|n]; [lia|]. cbn [firstn].
  assert (Hl : zlen (x :: firstn n l) = Z.of_nat (S n)).
  { unfold zlen. cbn [length]. rewrite firstn_length. cbn in Hn. lia. }
  rewrite <- Hl. apply utf8_reject_iff.
  - change (x :: firstn n l) with (firstn (S n) (x :: l)). apply Forall_firstn.
    eapply Forall_impl; [|exact Hg]. apply good_in_range.
  - rewrite Hl, Ha. unfold zlen. lia.
Qed.

Lemma utf8_scalar_len c : scalar c -> (1 <= length (utf8_units c) <= 4)%nat.
Proof.
  unfold scalar, utf8_units. intros H.
  destruct (c <? 0x80) eqn:?; [cbn; lia|]. destruct (c <? 0x800) eqn:?; [cbn; lia|].
  destruct (c <? 0x10000) eqn:?; [cbn; lia|]. destruct (c <? 0x200000) eqn:?; [cbn; lia|lia].
Qed.

Lemma from_units u c : u <> U32 -> 0 <= c < 0x100000000 ->
  from32 u c = if representable u c then Some (units u c) else None.
Proof. apply from32_spec. Qed.

Lemma to_units u c more rest :
  representable u c = true -> Forall (in_range u) more -> zlen (units u c ++ more) <= buflen u ->
  to32 u (window (units u c ++ more) rest) (zlen (units u c ++ more)) = Ok (Some (c, zlen (units u c))).
Proof.
  intros Hrep Hm Hl.
  destruct u; cbn [to32 units].
  - unfold to32_w. cbn [app]. rewrite rd0.
    replace (zlen (c :: more) <=? 0) with false by (unfold zlen; cbn [length]; lia). reflexivity.
  - apply to32_u8_enc; [exact Hrep|lia].
  - apply to32_u16_enc; [exact Hrep|lia].
  - assert (Hr : Forall (fun a => 0 <= a < 0x10000) (utf16_units c)) by (apply utf16_units_range, Hrep).
    rewrite to32_u16be_swap.
    + rewrite map_app, map_map.
      assert (Hinv : map (fun x => byteswap (byteswap x)) (utf16_units c) = utf16_units c).
      { rewrite <- (map_id (utf16_units c)) at 2. apply map_ext_in. intros a Ha.
        apply byteswap_invol. rewrite Forall_forall in Hr. apply Hr, Ha. }
      rewrite Hinv, to32_u16_enc.
      * unfold zlen. now rewrite map_length.
      * exact Hrep.
      * unfold zlen. rewrite !app_length, !map_length. lia.
    + unfold utf16_units. destruct (c <? 0x10000); discriminate.
    + exact Hl.
    + apply Forall_app. split; [|exact Hm]. apply Forall_map. eapply Forall_impl; [|exact Hr].
      intros a Ha. now apply byteswap_range.
  - unfold to32_w. cbn [app]. rewrite rd0.
    replace (zlen (c :: more) <=? 0) with false by (unfold zlen; cbn [length]; lia). reflexivity.
Qed.

(* The uninitialised locals of the big-endian converter never show *)
Lemma be_garbage g0 g1 h0 h1 c : 0 <= c -> from32_u16be g0 g1 c = from32_u16be h0 h1 c.
Proof. intros Hc. now rewrite !from32_u16be_spec. Qed.

Lemma be_garbage_to g0 g1 h0 h1 l rest : l <> [] -> zlen l <= 2 -> Forall (in_range U16BE) l ->
  to32_u16be g0 g1 (window l rest) (zlen l) = to32_u16be h0 h1 (window l rest) (zlen l).
Proof. intros H1 H2 H3. now rewrite !to32_u16be_swap. Qed.
