(* A stopped reader stays stopped, whatever the source *)
From Coq Require Import ZifyBool ZifyNat.
From Verif Require Import Base BaseFacts UtfModel UtfSpec UtfProofs1 UtfProofs2 UtfProofs3 UtfProofs4 UtfProofs5.
Open Scope Z_scope.

(* A cell that holds no zero *)
Definition nz (o : option Z) : Prop := match o with Some x => x <> 0 | None => True end.

Lemma Forall_upd {B} (P : B -> Prop) l x : forall n, Forall P l -> P x -> Forall P (upd l n x).
Proof.
  induction l as [|y l IH]; intros n H Hx; [exact H|]. inversion_clear H as [|? ? Hy Hl].
  destruct n; cbn [upd]; constructor; auto.
Qed.

Lemma nz_set b i o b' : Forall nz b -> nz o -> aset b i o = Ok b' -> Forall nz b'.
Proof.
  intros Hb Hx H. unfold aset in H. destruct ((0 <=? i) && (i <? zlen b)); [|discriminate].
  injection H as <-. apply Forall_upd; assumption.
Qed.

Lemma nz_get b i o : Forall nz b -> aget b i = Ok o -> nz o.
Proof.
  intros Hb H. unfold aget in H. destruct (znth b i) as [o'|] eqn:E; [|discriminate]. injection H as <-.
  unfold znth in E. destruct (i <? 0); [discriminate|]. apply nth_error_In in E. rewrite Forall_forall in Hb. now apply Hb.
Qed.

Lemma nz_rd b i x : Forall nz b -> rd b i = Ok x -> x <> 0.
Proof.
  intros Hb H. unfold rd in H. destruct (znth b i) as [[y|]|] eqn:E; try discriminate. injection H as <-.
  unfold znth in E. destruct (i <? 0); [discriminate|]. apply nth_error_In in E. rewrite Forall_forall in Hb. exact (Hb _ E).
Qed.

Lemma nz_store l : forall b i b', Forall nz b -> Forall (fun x => x <> 0) l -> store b i l = Ok b' -> Forall nz b'.
Proof.
  induction l as [|x l IH]; intros b i b' Hb Hl H; cbn [store] in H.
  - injection H as <-. exact Hb.
  - inversion_clear Hl as [|? ? Hx Hl']. destruct (aset b i (Some x)) as [b1| | |] eqn:E; try discriminate.
    cbn [bind] in H. eapply IH; [|exact Hl'|exact H]. exact (nz_set b i (Some x) b1 Hb Hx E).
Qed.

Lemma nz_shift n : forall b k i b', Forall nz b -> t_shift b k i n = Ok b' -> Forall nz b'.
Proof.
  induction n as [|n IH]; intros b k i b' Hb H; cbn [t_shift] in H.
  - injection H as <-. exact Hb.
  - destruct (aget b (i + k)) as [o| | |] eqn:E; try discriminate. cbn [bind] in H.
    destruct (aset b i o) as [b1| | |] eqn:E1; try discriminate. cbn [bind] in H.
    eapply IH; [|exact H]. eapply nz_set; [exact Hb| |exact E1]. eapply nz_get; eassumption.
Qed.

Lemma nz_fill u fuel : forall st r, Forall nz (t_buffer st) -> t_fill u fuel st = Ok r ->
  match r with inl st' => Forall nz (t_buffer st') | inr st' => Forall nz (t_buffer st') end.
Proof.
  induction fuel as [|fuel IH]; intros st r Hb H; cbn [t_fill] in H; [discriminate|].
  destruct (t_available st <? buflen u).
  - destruct (consume (t_cons st)) as [[c k]| | |]; try discriminate. cbn [bind] in H.
    destruct (Z.eqb_spec c 0) as [->|Hc]; cbn [negb] in H.
    + destruct (t_available st =? 0); injection H as <-; exact Hb.
    + destruct (aset (t_buffer st) (t_available st) (Some c)) as [b| | |] eqn:E; try discriminate. cbn [bind] in H.
      apply (IH _ _) in H; [exact H|]. cbn [t_buffer]. exact (nz_set _ _ (Some c) _ Hb Hc E).
  - injection H as <-. exact Hb.
Qed.

Lemma to32_nonzero u b rest c n : u <> U8 -> b <> [] -> zlen b <= buflen u -> Forall (in_range u) b -> Forall (fun x => x <> 0) b ->
  to32 u (window b rest) (zlen b) = Ok (Some (c, n)) -> c <> 0.
Proof.
  intros Hu Hne Hl Hr Hz.
  assert (H16 : forall l rest, l <> [] -> Forall (fun x => x <> 0) l -> to32_u16 (window l rest) (zlen l) = Ok (Some (c, n)) -> c <> 0).
  { clear. intros l rest Hne Hz. unfold to32_u16. destruct l as [|a l]; [congruence|]. inversion_clear Hz as [|? ? Ha Hz'].
    destruct (zlen _ <=? 0); [discriminate|]. rewrite rd0. cbn [bind].
    destruct (_ =? 0xD800).
    - destruct (zlen (a :: l) <? 2) eqn:E2; [discriminate|].
      destruct l as [|b l]; [cbn in E2; discriminate|]. rewrite rd1. cbn [bind].
      destruct (_ =? 0xDC00); [|discriminate]. destruct (is_invalid _); [discriminate|].
      intros H. rewrite dec16 in H. assert (Hc : 0x10000 + (a mod 1024 * 1024 + b mod 1024) = c) by congruence.
      pose proof (Z.mod_pos_bound a 1024 ltac:(lia)). pose proof (Z.mod_pos_bound b 1024 ltac:(lia)). lia.
    - destruct (is_invalid _); [discriminate|]. intros H. injection H as <- <-. exact Ha. }
  assert (HW : to32_w (window b rest) (zlen b) = Ok (Some (c, n)) -> Forall (fun x => 0 < x < 0x100000000) b -> c <> 0).
  { clear - Hne. intros H Hz. unfold to32_w in H. destruct b as [|a l]; [congruence|]. inversion_clear Hz as [|? ? Ha Hz'].
    destruct (zlen _ <=? 0); [discriminate|]. rewrite rd0 in H. cbn [bind] in H. injection H as <- <-. 
    lia. }
  assert (Hg : Forall (fun x => 0 < x < unit_bound u) b).
  { rewrite Forall_forall in *. intros x Hx. specialize (Hr x Hx). specialize (Hz x Hx). unfold in_range in Hr. cbv beta in Hz. lia. }
  destruct u; cbn [to32 unit_bound] in *; try congruence.
  - intros H. exact (HW H Hg).
  - apply H16; assumption.
  - rewrite to32_u16be_swap by assumption. intros H.
    apply (H16 (map byteswap b) []).
    + destruct b; [congruence|discriminate].
    + rewrite Forall_map, Forall_forall in *. intros x Hx. specialize (Hg x Hx). unfold byteswap.
      Z.to_euclidean_division_equations; lia.
    + unfold zlen in *. rewrite map_length. exact H.
  - intros H. exact (HW H Hg).
Qed.

Lemma nz_window a : forall r, Forall nz (window a r) -> Forall (fun x => x <> 0) a.
Proof.
  induction a as [|x a IH]; intros r H; [constructor|]. cbn in H. inversion_clear H as [|? ? Hx Ha].
  constructor; [exact Hx|]. now apply (IH r).
Qed.

Lemma to32_read_stop u st n c st' : u <> U8 -> ToOk u st n -> Forall nz (t_buffer st) -> to32_read u st = Ok (c, st') ->
  Forall nz (t_buffer st') /\ (c = 0 -> t_available st' = -1).
Proof.
  intros Hu Hok Hb H. unfold to32_read in H. destruct (Z.eqb_spec (t_available st) (-1)) as [Ha|Ha].
  { injection H as <- <-. auto. }
  destruct Hok as [Hok|(win & tail & HS & ->)]; [congruence|].
  destruct (t_fill_safe u (S (Z.to_nat (buflen u))) st win tail HS) as [(st1 & E & Hs)|(st1 & win' & tail' & E & HS' & Hne & _)].
  { unfold zlen. lia. }
  - rewrite E in H. cbn [bind] in H. injection H as <- <-. split; [|auto]. exact (nz_fill _ _ _ _ Hb E).
  - pose proof (nz_fill _ _ _ _ Hb E) as Hb1. cbv beta iota in Hb1.
    rewrite E in H. cbn [bind] in H. destruct HS' as (cr & Hav & Hbf & Hl & Hw & Hc).
    assert (Hwl : zlen win' <= buflen u).
    { unfold zlen in *. rewrite Hbf, window_length in Hl. lia. }
    destruct (to32 u (t_buffer st1) (t_available st1)) as [[[d m]|]| | |] eqn:Ed; try discriminate; cbn [bind] in H.
    + destruct (t_shift _ _ _ _) as [b| | |] eqn:Es; try discriminate. cbn [bind] in H. injection H as <- <-. cbn [t_buffer t_available].
      split; [exact (nz_shift _ _ _ _ _ Hb1 Es)|]. intros ->. exfalso.
      rewrite Hbf, Hav in Ed. rewrite Hbf in Hb1.
      exact (to32_nonzero u win' cr 0 m Hu Hne Hwl Hw (nz_window _ _ Hb1) Ed eq_refl).
    + injection H as <- <-. cbn [t_buffer t_available]. auto.
Qed.

Lemma from32_read_stop u st n c st' : u <> U32 -> FromOk u st n -> Forall nz (f_buffer st) -> from32_read u st = Ok (c, st') ->
  Forall nz (f_buffer st') /\ (c = 0 -> f_available st' = -1).
Proof.
  intros Hu Hok Hb H. unfold from32_read in H. destruct (Z.eqb_spec (f_available st) (-1)) as [Ha|Ha].
  { injection H as <- <-. auto. }
  destruct Hok as [Hok|(pend & k & m & _ & HS & _)]; [congruence|].
  assert (Hem : forall s, Forall nz (f_buffer s) -> f_emit s = Ok (c, st') -> Forall nz (f_buffer st') /\ (c = 0 -> f_available st' = -1)).
  { intros s Hs He. unfold f_emit in He. destruct (rd (f_buffer s) (f_read s)) as [x| | |] eqn:Er; try discriminate.
    cbn [bind] in He. injection He as <- <-. cbn [f_buffer f_available]. split; [exact Hs|].
    intros ->. exfalso. exact (nz_rd _ _ _ Hs Er eq_refl). }
  destruct (f_read st =? f_available st); [|exact (Hem _ Hb H)].
  destruct (consume32_safe _ _ HS) as (d & s' & m' & E & _ & Hr & _).
  rewrite E in H. cbn [bind] in H. destruct (Z.eqb_spec d 0) as [->|Hd]; cbn [negb] in H.
  - injection H as <- <-. auto.
  - rewrite (from32_spec u d Hu Hr) in H. destruct (representable u d) eqn:Hrep.
    + destruct (store _ _ _) as [b| | |] eqn:Es; try discriminate. cbn [bind] in H. refine (Hem _ _ H). cbn [f_buffer].
      eapply nz_store; [exact Hb| |exact Es].
      pose proof (units_good u d Hd Hrep) as Hg. eapply Forall_impl; [|exact Hg]. unfold good_unit. intros; lia.
    + injection H as <- <-. auto.
Qed.

(* no zero is pending *)
Definition steady (r : reader) : Prop :=
  match r with
  | RFrom _ st => Forall nz (f_buffer st)
  | RTo u st => u <> U8 /\ Forall nz (t_buffer st)
  | RDirect st => exists tail, ConsOk U32 (d_cons st) tail /\ Forall (fun x => x <> 0) tail
  end.

Lemma read_stop r n c r' : ROk r n -> steady r -> read r = Ok (c, r') ->
  steady r' /\ (c = 0 -> read r' = Ok (0, r')).
Proof.
  destruct r as [u st|u st|st]; cbn [ROk steady read].
  - intros [Hu Hok] Hb H. destruct (from32_read u st) as [[d st1]| | |] eqn:E; try discriminate. cbn [bind] in H.
    injection H as <- <-. destruct (from32_read_stop _ _ _ _ _ Hu Hok Hb E) as [H1 H2]. split; [exact H1|].
    intros Hd. cbn [read]. unfold from32_read. rewrite (H2 Hd). reflexivity.
  - intros Hok [Hu Hb] H. destruct (to32_read u st) as [[d st1]| | |] eqn:E; try discriminate. cbn [bind] in H.
    injection H as <- <-. destruct (to32_read_stop _ _ _ _ _ Hu Hok Hb E) as [H1 H2]. split; [cbn; auto|].
    intros Hd. cbn [read]. unfold to32_read. rewrite (H2 Hd). reflexivity.
  - intros _ (tail & Hk & Hz) H. unfold direct_read in H. pose proof (consume_ok _ _ _ Hk) as Hc. destruct tail as [|x l].
    + rewrite Hc in H. cbn [bind] in H. injection H as <- <-. cbn [steady d_cons]. split; [exists []; auto|].
      intros _. cbn [read]. unfold direct_read. cbn [d_cons]. rewrite Hc. cbn [bind d_ended d_counter]. reflexivity.
    + destruct Hc as (k' & E & Hk'). rewrite E in H. cbn [bind] in H. injection H as <- <-.
      inversion_clear Hz as [|? ? Hx Hz']. split; [exists l; auto|]. congruence.
Qed.

Lemma read_ok_again r n c r' : ROk r n -> read r = Ok (c, r') -> exists n', ROk r' n'.
Proof. intros H E. destruct (read_safe _ _ H) as (c1 & r1 & n1 & E1 & H1 & _). rewrite E1 in E. injection E as <- <-. eauto. Qed.

Lemma reads_stop m : forall r n l r', ROk r n -> steady r -> reads m r = Ok (l, r') ->
  last l 1 = 0 -> read r' = Ok (0, r').
Proof.
  induction m as [|m IH]; intros r n l r' Hok Hs H Hl; cbn [reads] in H.
  - injection H as <- <-. cbn in Hl. lia.
  - destruct (read r) as [[c r1]| | |] eqn:E; try discriminate. cbn [bind] in H.
    destruct (reads m r1) as [[l1 r2]| | |] eqn:E1; try discriminate. cbn [bind] in H. injection H as <- <-.
    destruct (read_stop _ _ _ _ Hok Hs E) as [Hs1 Hz]. destruct (read_ok_again _ _ _ _ Hok E) as (n1 & Hok1).
    destruct m as [|m].
    + cbn [reads] in E1. injection E1 as <- <-. apply Hz. exact Hl.
    + apply (IH r1 n1 l1 r2 Hok1 Hs1 E1). cbn [reads] in E1. destruct (read r1) as [[c1 r3]| | |]; try discriminate.
      cbn [bind] in E1. destruct (reads m r3) as [[l3 r4]| | |]; try discriminate. cbn [bind] in E1. injection E1 as <- <-. exact Hl.
Qed.

Lemma still m r : read r = Ok (0, r) -> reads m r = Ok (repeat 0 m, r).
Proof.
  intros H. induction m as [|m IH]; [reflexivity|]. cbn [reads]. rewrite H. cbn [bind]. rewrite IH. reflexivity.
Qed.

Lemma nz_blank n : Forall nz (repeat None n).
Proof. induction n; cbn; constructor; [exact I|assumption]. Qed.

Lemma stop_final from to k l n out r m : (from, to) <> (U8, U32) -> ConsOk from k l -> Forall (fun x => x <> 0) l ->
  reads n (mk_reader from to k) = Ok (out ++ [0], r) -> reads m r = Ok (repeat 0 m, r).
Proof.
  intros Hft Hk Hl H. apply still. destruct (mk_reader_ok from to k l Hk) as (n0 & Hok & _).
  eapply reads_stop; [exact Hok| |exact H|].
  - destruct from, to; try congruence; cbn [mk_reader steady];
      first [ cbn [from32_init f_buffer]; apply nz_blank
            | split; [discriminate|cbn [to32_init t_buffer]; apply nz_blank]
            | cbn [d_cons]; exists l; split; [exact Hk|exact Hl] ].
  - apply last_last.
Qed.

Lemma stop_final_string from to l junk n out r m : (from, to) <> (U8, U32) -> Forall (good_unit from) l ->
  reads n (mk_reader from to (CStr (l ++ 0 :: junk) 0)) = Ok (out ++ [0], r) -> reads m r = Ok (repeat 0 m, r).
Proof.
  intros Hft Hg. assert (Hz : Forall (fun x => x <> 0) l) by (eapply Forall_impl; [|exact Hg]; unfold good_unit; intros; lia).
  apply (stop_final from to _ l); [exact Hft| |exact Hz]. split; [apply Feeds_str|]. split; [|exact Hz].
  eapply Forall_impl; [|exact Hg]. apply good_in_range.
Qed.
Lemma stop_final_range from to l junk n out r m : (from, to) <> (U8, U32) -> Forall (good_unit from) l ->
  reads n (mk_reader from to (CRange (l ++ junk) (zlen l) 0)) = Ok (out ++ [0], r) -> reads m r = Ok (repeat 0 m, r).
Proof.
  intros Hft Hg. assert (Hz : Forall (fun x => x <> 0) l) by (eapply Forall_impl; [|exact Hg]; unfold good_unit; intros; lia).
  apply (stop_final from to _ l); [exact Hft| |exact Hz]. split; [apply Feeds_range|]. split; [|exact I].
  eapply Forall_impl; [|exact Hg]. apply good_in_range.
Qed.
