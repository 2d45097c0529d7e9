From Coq Require Import ZifyBool ZifyNat.
From Verif Require Import Base BaseFacts TupModel DateModel DateSpec.
Open Scope Z_scope.

(* ---- the calendar ------------------------------------------------------------------------ *)
Definition yo (doe : Z) : Z := (doe - doe / 1460 + doe / 36524 - doe / 146096) / 365.
Definition year_start (y : Z) : Z := 365 * y + y / 4 - y / 100.
Section euclid.
  Local Ltac div := Z.to_euclidean_division_equations; lia.
  Lemma start_mono a b : 0 <= a -> a < b -> year_start a + 365 <= year_start b.
  Proof. unfold year_start. intros. div. Qed.
  Lemma yo_low doe : 0 <= doe < 146097 -> 0 <= yo doe < 400 /\ year_start (yo doe) <= doe.
  Proof. unfold yo, year_start. intros. div. Qed.
  Lemma yo_high doe : 0 <= doe < 146096 -> doe < year_start (yo doe + 1).
  Proof. unfold yo, year_start. intros. div. Qed.
  Lemma start_next y : 0 <= y -> year_start (y + 1) <= year_start y + 366.
  Proof. unfold year_start. intros. div. Qed.
  Lemma start_400 y : 0 <= y < 400 -> year_start y <= 145731.
  Proof. unfold year_start. intros. div. Qed.
  Lemma doy_range doe : 0 <= doe < 146097 -> 0 <= doe - year_start (yo doe) <= 365.
  Proof.
    intros H. destruct (yo_low doe H) as [Y L]. split; [lia|]. destruct (Z.eq_dec doe 146096) as [->|N]; [vm_compute; discriminate|].
    pose proof (yo_high doe ltac:(lia)). pose proof (start_next (yo doe) ltac:(lia)). lia.
  Qed.
  Lemma month_range doy : 0 <= doy <= 365 -> 0 <= (5 * doy + 2) / 153 <= 11.
  Proof. intros. div. Qed.
  Lemma month_of mp d : 0 <= mp <= 11 -> 1 <= d -> (153 * mp + 2) / 5 + d - 1 < (153 * (mp + 1) + 2) / 5 ->
    (5 * ((153 * mp + 2) / 5 + d - 1) + 2) / 153 = mp.
  Proof. intros. div. Qed.
End euclid.
Lemma civil_inverse z : let '(y, m, d) := civil_of_days z in days_of_civil y m d = z /\ 1 <= m <= 12.
Proof.
  unfold civil_of_days. set (z' := z + 719468). pose proof (Z.mod_pos_bound z' 146097 ltac:(lia)) as B.
  pose proof (Z.div_mod z' 146097 ltac:(lia)) as DM. set (doe := z' mod 146097) in *. set (era := z' / 146097) in *. cbv zeta.
  fold (yo doe). fold (year_start (yo doe)). destruct (yo_low doe B) as [Y _]. pose proof (doy_range doe B) as D. set (yoe := yo doe) in *.
  replace (doe - (365 * yoe + yoe / 4 - yoe / 100)) with (doe - year_start yoe) by reflexivity. set (doy := doe - year_start yoe) in *.
  pose proof (month_range doy D) as M. set (mp := (5 * doy + 2) / 153) in *. set (m := if mp <? 10 then mp + 3 else mp - 9).
  assert (1 <= m <= 12) as M12 by (unfold m; destruct (mp <? 10) eqn:?; lia).
  assert (mp = m + (if m <=? 2 then 9 else -3)) as Mp by (unfold m; destruct (mp <? 10) eqn:?; [replace (mp + 3 <=? 2) with false by lia|replace (mp - 9 <=? 2) with true by lia]; lia).
  split; [|exact M12]. unfold days_of_civil. cbv zeta.
  replace (if m <=? 2 then yoe + era * 400 + (if m <=? 2 then 1 else 0) - 1 else yoe + era * 400 + (if m <=? 2 then 1 else 0)) with (yoe + era * 400) by (destruct (m <=? 2); lia).
  rewrite (Z.div_add yoe era 400), (Z.mod_add yoe era 400) by lia. rewrite (Z.div_small yoe 400), (Z.mod_small yoe 400) by lia.
  rewrite <- Mp. unfold doy, year_start in *. lia.
Qed.
Lemma doc_day y m d : days_of_civil y m d = days_of_civil y m 1 + (d - 1).
Proof. unfold days_of_civil. cbv zeta. lia. Qed.
Lemma seconds_bd t : seconds (broken_down t) = t.
Proof.
  unfold broken_down, seconds. pose proof (civil_inverse (t / 86400)) as C. destruct (civil_of_days (t / 86400)) as [[y m] d]. destruct C as [C B].
  cbn [tm_year tm_mon tm_mday tm_hour tm_min tm_sec]. rewrite doc_day in C.
  replace (y - 1900 + 1900 + (m - 1) / 12) with y by (rewrite Z.div_small; lia). rewrite Z.mod_small by lia.
  replace (m - 1 + 1) with m by lia.
  pose proof (Z.div_mod t 86400 ltac:(lia)). pose proof (Z.mod_pos_bound t 86400 ltac:(lia)). set (s := t mod 86400) in *.
  pose proof (Z.div_mod s 3600 ltac:(lia)). pose proof (Z.div_mod s 60 ltac:(lia)). pose proof (Z.div_mod (s / 60) 60 ltac:(lia)).
  assert (s / 60 / 60 = s / 3600) by (rewrite Z.div_div by lia; reflexivity). lia.
Qed.
Lemma zone_ok off : libc_ok (zone off).
Proof.
  constructor; cbn [zone localtime mktime fst snd].
  - intros t _ _. rewrite seconds_bd. f_equal. lia.
  - intros x _. f_equal. lia.
Qed.

(* ---- Linux -------------------------------------------------------------------------------- *)
Lemma m64_pos : 0 < M64. Proof. unfold M64. lia. Qed.
Lemma time_os_inv o : 0 <= o < M64 -> time_to_os (o / 1000) (o mod 1000) = o.
Proof.
  intros H. unfold time_to_os, u64. pose proof m64_pos. pose proof (Z.div_mod o 1000 ltac:(lia)).
  assert (0 <= o / 1000 < M64) by (split; [apply Z.div_pos; lia|apply Z.div_lt_upper_bound; lia]).
  rewrite (Z.mod_small (o / 1000)) by auto. rewrite Z.mod_small by lia. lia.
Qed.
Section linux.
  Context (L : libc) (K : libc_ok L).
  Lemma from_os_internal o : 0 <= o < M64 -> osInternal (from_os L o) = o /\ osMilliseconds (from_os L o) = o.
  Proof.
    intros H. unfold from_os, os_to_time, tm_to_datetime. pose proof m64_pos.
    assert (0 <= o / 1000 < M64) by (split; [apply Z.div_pos; lia|apply Z.div_lt_upper_bound; lia]).
    rewrite (lo_inverse _ K) by lia. cbn [osInternal osMilliseconds]. rewrite time_os_inv by auto. auto.
  Qed.
  Lemma from_os_again o : 0 <= o < M64 -> from_os L (osInternal (from_os L o)) = from_os L o.
  Proof. intros H. now rewrite (proj1 (from_os_internal o H)). Qed.
  Lemma from_date_internal y mo d h mi s ms : 0 <= ms < 1000 -> 0 <= instant L y mo d h mi s ms < M64 ->
    osInternal (from_date L y mo d h mi s ms) = instant L y mo d h mi s ms.
  Proof.
    intros B H. unfold instant, from_date, tm_to_datetime in *. destruct (mktime L _) as [t x]. cbn [fst osInternal] in *.
    unfold time_to_os, u64. rewrite (Z.mod_small t) by lia. apply Z.mod_small. lia.
  Qed.
  Lemma from_date_again y mo d h mi s ms : 0 <= ms < 1000 -> 0 <= instant L y mo d h mi s ms < M64 ->
    from_os L (osInternal (from_date L y mo d h mi s ms)) = from_date L y mo d h mi s ms.
  Proof.
    intros B H. rewrite from_date_internal by auto. pose proof (lo_normal _ K (mkTm (y - 1900) (mo - 1) d h mi s 0 (-1))) as N.
    unfold instant, from_date, from_os, os_to_time in *. unfold tm_to_datetime at 2. destruct (mktime L (mkTm _ _ _ _ _ _ _ _)) as [t x]. cbn [fst snd] in *.
    assert (0 <= t) by lia. specialize (N H0).
    replace ((t * 1000 + ms) / 1000) with t by (rewrite Z.add_comm, Z.div_add, Z.div_small by lia; lia).
    replace ((t * 1000 + ms) mod 1000) with ms by (rewrite Z.add_comm, Z.mod_add, Z.mod_small by lia; lia).
    unfold tm_to_datetime. rewrite (lo_inverse _ K) by lia. rewrite N. reflexivity.
  Qed.
  Lemma u64_range z : 0 <= u64 z < M64.
  Proof. apply Z.mod_pos_bound. apply m64_pos. Qed.
  Lemma undo_forward d ms : proper L d -> backward L (forward L d ms) ms = d.
  Proof.
    intros [B P]. unfold backward, forward. rewrite (proj1 (from_os_internal _ (u64_range _))).
    unfold u64. rewrite Zminus_mod_idemp_l. replace (osInternal d + ms - ms) with (osInternal d) by lia. rewrite Z.mod_small by auto. exact P.
  Qed.
  Lemma undo_backward d ms : proper L d -> forward L (backward L d ms) ms = d.
  Proof.
    intros [B P]. unfold backward, forward. rewrite (proj1 (from_os_internal _ (u64_range _))).
    unfold u64. rewrite Zplus_mod_idemp_l. replace (osInternal d - ms + ms) with (osInternal d) by lia. rewrite Z.mod_small by auto. exact P.
  Qed.
  Lemma forward_later d ms : proper L d -> 0 < ms -> osInternal d + ms < M64 -> dcompare d (forward L d ms) = Less.
  Proof.
    intros [B P] H1 H2. unfold dcompare, forward. rewrite (proj1 (from_os_internal _ (u64_range _))). unfold u64. rewrite Z.mod_small by lia.
    replace (osInternal d ?= osInternal d + ms) with Lt; [reflexivity|]. symmetry. apply Z.compare_lt_iff. lia.
  Qed.
  Lemma forward_wraps d ms : proper L d -> 0 < ms -> ms < M64 -> M64 <= osInternal d + ms -> dcompare d (forward L d ms) = Greater.
  Proof.
    intros [B P] H1 H2 H3. unfold dcompare, forward. rewrite (proj1 (from_os_internal _ (u64_range _))). unfold u64.
    replace ((osInternal d + ms) mod M64) with (osInternal d + ms - M64).
    - replace (osInternal d ?= osInternal d + ms - M64) with Gt; [reflexivity|]. symmetry. apply Z.compare_gt_iff. lia.
    - symmetry. rewrite <- (Z.mod_small (osInternal d + ms - M64) M64) by lia.
      rewrite <- (Z.mod_add (osInternal d + ms - M64) 1 M64) by (pose proof m64_pos; lia). f_equal. lia.
  Qed.
  Lemma forward_adds d a b : proper L d -> forward L (forward L d a) b = forward L d (a + b).
  Proof.
    intros [B P]. unfold forward. rewrite (proj1 (from_os_internal _ (u64_range _))). unfold u64. rewrite Zplus_mod_idemp_l. f_equal. f_equal. lia.
  Qed.
  Lemma proper_from_os o : 0 <= o < M64 -> proper L (from_os L o).
  Proof. intros H. split; [now rewrite (proj1 (from_os_internal o H))|now apply from_os_again]. Qed.
  Lemma proper_from_date y mo d h mi s ms : 0 <= ms < 1000 -> 0 <= instant L y mo d h mi s ms < M64 -> proper L (from_date L y mo d h mi s ms).
  Proof. intros B H. split; [now rewrite from_date_internal|now apply from_date_again]. Qed.
  Lemma compare_dates y mo d h mi s ms y' mo' d' h' mi' s' ms' : 0 <= ms < 1000 -> 0 <= ms' < 1000 ->
    0 <= instant L y mo d h mi s ms < M64 -> 0 <= instant L y' mo' d' h' mi' s' ms' < M64 ->
    dcompare (from_date L y mo d h mi s ms) (from_date L y' mo' d' h' mi' s' ms') =
    match instant L y mo d h mi s ms ?= instant L y' mo' d' h' mi' s' ms' with Lt => Less | Eq => Equal | Gt => Greater end.
  Proof. intros. unfold dcompare. rewrite !from_date_internal by auto. reflexivity. Qed.
End linux.
(* time zones with a constant offset *)
Lemma zone_local off o : 0 <= o < M64 -> 0 <= o + 1000 * off < M64 -> utc_to_local (zone off) o = o + 1000 * off.
Proof.
  intros H1 H2. unfold utc_to_local, os_to_time. cbn [zone mktime localtime gmtime]. rewrite !seconds_bd.
  pose proof (Z.div_mod o 1000 ltac:(lia)). pose proof (Z.mod_pos_bound o 1000 ltac:(lia)). pose proof m64_pos. unfold time_to_os, u64.
  replace (o / 1000 + (o / 1000 + off - off - (o / 1000 - off))) with (o / 1000 + off) by lia.
  rewrite (Z.mod_small (o / 1000 + off)) by lia. rewrite Z.mod_small by lia. lia.
Qed.
Lemma zone_utc off o : 0 <= o < M64 -> 0 <= o - 1000 * off < M64 -> local_to_utc (zone off) o = o - 1000 * off.
Proof.
  intros H1 H2. unfold local_to_utc, os_to_time, tm_to_os. cbn [zone mktime gmtime]. rewrite !seconds_bd.
  pose proof (Z.div_mod o 1000 ltac:(lia)). pose proof (Z.mod_pos_bound o 1000 ltac:(lia)). pose proof m64_pos. unfold time_to_os, u64.
  rewrite (Z.mod_small (o / 1000 - off)) by lia. rewrite Z.mod_small by lia. lia.
Qed.
Lemma zone_back off d : proper (zone off) d ->
  (0 <= osInternal d + 1000 * off < M64 -> to_utc (zone off) (to_local (zone off) d) = d) /\
  (0 <= osInternal d - 1000 * off < M64 -> to_local (zone off) (to_utc (zone off) d) = d).
Proof.
  intros [B P]. unfold to_utc, to_local. split; intros H.
  - rewrite (zone_local off) by lia. rewrite (proj1 (from_os_internal _ (zone_ok off) _ H)). rewrite zone_utc by lia.
    replace (osInternal d + 1000 * off - 1000 * off) with (osInternal d) by lia. exact P.
  - rewrite (zone_utc off) by lia. rewrite (proj1 (from_os_internal _ (zone_ok off) _ H)). rewrite zone_local by lia.
    replace (osInternal d - 1000 * off + 1000 * off) with (osInternal d) by lia. exact P.
Qed.
Lemma before_1970 : let a := from_date (zone 0) 1960 1 1 0 0 0 0 in let b := from_date (zone 0) 2020 1 1 0 0 0 0 in
  dcompare a b = Greater /\ from_os (zone 0) (osInternal a) <> a /\ year (from_os (zone 0) (osInternal a)) = 584556009.
Proof. cbv zeta. split; [reflexivity|]. split; [intros H; vm_compute in H; discriminate|vm_compute; reflexivity]. Qed.

(* ---- Windows ------------------------------------------------------------------------------ *)
Section windows.
  Context (W : winapi) (K : winapi_ok W).
  Lemma wfrom_os_spec o : 0 <= o -> match wfrom_os W o with
    | Ok d => o < 2 ^ 63 /\ osInternal d = o - o mod 10000 /\ osMilliseconds d = o / 10000 /\ wproper W d
    | UB => 2 ^ 63 <= o
    | _ => False
    end.
  Proof.
    intros H. unfold wfrom_os. specialize (K o H). destruct (to_system W o) as [s|]; [|exact K]. destruct K as (K1 & K2 & K3).
    split; [exact K1|]. unfold st_to_datetime. cbn [osInternal osMilliseconds]. rewrite K2. split; [reflexivity|].
    pose proof (Z.div_mod o 10000 ltac:(lia)). pose proof (Z.mod_pos_bound o 10000 ltac:(lia)). pose proof (Z.div_pos o 10000 H ltac:(lia)).
    split; [replace (o - o mod 10000) with (o / 10000 * 10000) by lia; apply Z.div_mul; lia|].
    split; cbn [osInternal]; [lia|]. unfold wfrom_os. rewrite K3. unfold st_to_datetime. rewrite K2. reflexivity.
  Qed.
  Lemma wproper_mod d : wproper W d -> osInternal d mod 10000 = 0.
  Proof.
    intros [B P]. pose proof (wfrom_os_spec (osInternal d) ltac:(lia)) as S. rewrite P in S. destruct S as (_ & S & _). lia.
  Qed.
  Lemma wforward_undo d ms : wproper W d -> 0 <= ms -> osInternal d + ms * 10000 < 2 ^ 63 ->
    exists d', wforward W d ms = Ok d' /\ wbackward W d' ms = Ok d /\ (0 < ms -> dcompare d d' = Less).
  Proof.
    intros P H1 H2. pose proof (wproper_mod d P) as Md. destruct P as [B P]. unfold wforward.
    assert (u64 (ms * 10000) = ms * 10000) as U1 by (apply Z.mod_small; unfold M64; lia). rewrite U1.
    assert (u64 (osInternal d + ms * 10000) = osInternal d + ms * 10000) as U2 by (apply Z.mod_small; unfold M64; lia). rewrite U2.
    pose proof (wfrom_os_spec (osInternal d + ms * 10000) ltac:(lia)) as S. destruct (wfrom_os W (osInternal d + ms * 10000)) as [d'| | |]; [|tauto|lia|tauto].
    destruct S as (S1 & S2 & _). rewrite Z.mod_add, Md in S2 by lia. exists d'. split; [reflexivity|]. split.
    - unfold wbackward. rewrite U1, S2. replace (osInternal d + ms * 10000 - 0 - ms * 10000) with (osInternal d) by lia.
      unfold u64. rewrite Z.mod_small by (unfold M64; lia). exact P.
    - intros Q. unfold dcompare. replace (osInternal d ?= osInternal d') with Lt; [reflexivity|]. symmetry. apply Z.compare_lt_iff. lia.
  Qed.
  Lemma wbackward_wraps d ms : wproper W d -> osInternal d < ms * 10000 -> ms * 10000 - osInternal d <= 2 ^ 63 -> wbackward W d ms = UB.
  Proof.
    intros [B P] H1 H2. unfold wbackward.
    assert (u64 (osInternal d - u64 (ms * 10000)) = osInternal d - ms * 10000 + M64) as ->.
    { unfold u64. rewrite Zminus_mod_idemp_r. symmetry. rewrite <- (Z.mod_small (osInternal d - ms * 10000 + M64) M64) by (unfold M64; lia).
      rewrite <- (Z.mod_add (osInternal d - ms * 10000) 1 M64) by (unfold M64; lia). f_equal; lia. }
    pose proof (wfrom_os_spec (osInternal d - ms * 10000 + M64) ltac:(unfold M64; lia)) as S.
    destruct (wfrom_os W (osInternal d - ms * 10000 + M64)); try reflexivity; try tauto. destruct S as [S _]. unfold M64 in S. lia.
  Qed.
End windows.
(* a Windows that keeps the milliseconds in one field *)
Definition win0 : winapi := mkWin (fun s => wMilliseconds s * 10000)
  (fun o => if o <? 2 ^ 63 then Some (mkST 0 0 0 0 0 0 (o / 10000) 0) else None).
Lemma win0_ok : winapi_ok win0.
Proof.
  intros o H. cbn [win0 to_system to_file]. destruct (Z.ltb_spec o (2 ^ 63)); [|auto]. cbn [wMilliseconds].
  pose proof (Z.div_mod o 10000 ltac:(lia)). pose proof (Z.mod_pos_bound o 10000 ltac:(lia)). pose proof (Z.div_pos o 10000 H ltac:(lia)).
  split; [auto|]. split; [lia|]. replace (o - o mod 10000 <? 2 ^ 63) with true by lia.
  replace (o - o mod 10000) with (o / 10000 * 10000) by lia. rewrite Z.div_mul by lia. reflexivity.
Qed.

(* ---- dates of the calendar ---------------------------------------------------------------- *)
Lemma leap_era y era : leap (y + era * 400) = leap y.
Proof.
  unfold leap. replace (y + era * 400) with (y + (era * 100) * 4) at 1 by lia. rewrite Z.mod_add by lia.
  replace (y + era * 400) with (y + (era * 4) * 100) at 1 by lia. rewrite Z.mod_add by lia. now rewrite Z.mod_add by lia.
Qed.
Lemma days_in_era y era m : days_in (y + era * 400) m = days_in y m.
Proof. unfold days_in. now rewrite leap_era. Qed.
Lemma days_in_31 y m : days_in y m <= 31.
Proof. unfold days_in. destruct (m =? 2); [destruct (leap y); lia|]. destruct (_ || _); lia. Qed.
Lemma days_in_28 y : 28 <= days_in y 2.
Proof. unfold days_in. cbn [Z.eqb Pos.eqb]. destruct (leap y); lia. Qed.
Lemma days_in_29 y : days_in y 2 <= 29.
Proof. unfold days_in. cbn [Z.eqb Pos.eqb]. destruct (leap y); lia. Qed.
Section length.
  Local Ltac div := Z.to_euclidean_division_equations; lia.
  (* the months of a year that starts in March *)
  Lemma month_len y m : 1 <= m <= 12 -> let mp := m + (if m <=? 2 then 9 else -3) in
    (m <> 2 -> (153 * mp + 2) / 5 + days_in y m = (153 * (mp + 1) + 2) / 5) /\ (m = 2 -> (153 * mp + 2) / 5 = 337).
  Proof.
    intros M. assert (m = 1 \/ m = 2 \/ m = 3 \/ m = 4 \/ m = 5 \/ m = 6 \/ m = 7 \/ m = 8 \/ m = 9 \/ m = 10 \/ m = 11 \/ m = 12) as C by lia.
    repeat (destruct C as [->|C]; [cbn; split; intros; try lia; reflexivity|]). subst m. cbn. split; intros; try lia; reflexivity.
  Qed.
  Lemma year_len y : 0 <= y < 400 -> y <> 399 -> year_start (y + 1) = year_start y + 337 + days_in (y + 1) 2.
  Proof.
    intros Y N. unfold days_in. cbn [Z.eqb Pos.eqb]. unfold leap, year_start.
    destruct ((y + 1) mod 4 =? 0) eqn:E4; cbn [andb].
    - destruct ((y + 1) mod 100 =? 0) eqn:E100; cbn [negb orb].
      + replace ((y + 1) mod 400 =? 0) with false by (symmetry; apply Z.eqb_neq; rewrite Z.mod_small; lia). apply Z.eqb_eq in E4, E100. div.
      + apply Z.eqb_eq in E4. apply Z.eqb_neq in E100. div.
    - apply Z.eqb_neq in E4. div.
  Qed.
End length.
Lemma civil_date y m d : valid_date y m d -> civil_of_days (days_of_civil y m d) = (y, m, d).
Proof.
  intros [M D]. set (b := if m <=? 2 then 1 else 0). set (y' := if m <=? 2 then y - 1 else y).
  assert (y = y' + b) as Ey by (unfold y', b; destruct (m <=? 2); lia). assert (b = if m <=? 2 then 1 else 0) as Eb by reflexivity. clearbody b.
  pose proof (Z.div_mod y' 400 ltac:(lia)) as DM. pose proof (Z.mod_pos_bound y' 400 ltac:(lia)) as B.
  unfold days_of_civil. fold y'. cbv zeta. set (yoe := y' mod 400) in *. set (era := y' / 400) in *. clearbody y'.
  assert (days_in y m = days_in (yoe + b) m) as Ed by (replace y with (yoe + b + era * 400) by lia; apply days_in_era).
  set (mp := m + (if m <=? 2 then 9 else -3)). set (doy := (153 * mp + 2) / 5 + d - 1).
  assert (0 <= mp <= 11) as Mp by (unfold mp; destruct (m <=? 2) eqn:?; lia).
  destruct (month_len (yoe + b) m M) as [L1 L2]. fold mp in L1, L2.
  assert (doy < (153 * (mp + 1) + 2) / 5) as Hd.
  { unfold doy. destruct (Z.eq_dec m 2) as [->|N]; [|specialize (L1 N); lia]. rewrite (L2 eq_refl). pose proof (days_in_29 (yoe + b)). unfold mp. cbn [Z.leb Z.compare Pos.compare Pos.compare_cont]. change ((153 * (2 + 9 + 1) + 2) / 5) with 367. lia. }
  assert (0 <= doy) as D0 by (unfold doy; pose proof (Z.div_pos (153 * mp + 2) 5 ltac:(lia) ltac:(lia)); lia).
  (* the day lies in the year *)
  assert (yoe <> 399 -> doy < year_start (yoe + 1) - year_start yoe) as Hy.
  { intros N. rewrite year_len by lia. unfold doy. destruct (Z.eq_dec m 2) as [->|N2].
    - rewrite (L2 eq_refl). cbn in Eb. subst b. lia.
    - pose proof (days_in_28 (yoe + 1)). specialize (L1 N2). assert ((153 * (mp + 1) + 2) / 5 <= 337); [|lia].
      assert (mp <= 10) by (unfold mp; destruct (m <=? 2) eqn:?; lia). change 337 with ((153 * 11 + 2) / 5). apply Z.div_le_mono; lia. }
  assert (doy <= 365) as H365.
  { unfold doy. destruct (Z.eq_dec m 2) as [->|N2].
    - rewrite (L2 eq_refl). pose proof (days_in_29 (yoe + b)). lia.
    - specialize (L1 N2). assert ((153 * (mp + 1) + 2) / 5 <= 337); [|lia].
      assert (mp <= 10) by (unfold mp; destruct (m <=? 2) eqn:?; lia). change 337 with ((153 * 11 + 2) / 5). apply Z.div_le_mono; lia. }
  set (doe := yoe * 365 + yoe / 4 - yoe / 100 + doy). assert (doe = year_start yoe + doy) as Edoe by (unfold doe, year_start; lia). clearbody doe.
  pose proof (start_400 yoe B) as S4. assert (0 <= year_start yoe) as S0 by (destruct (Z.eq_dec yoe 0) as [->|N0]; [vm_compute; discriminate|pose proof (start_mono 0 yoe ltac:(lia) ltac:(lia)) as K; change (year_start 0) with 0 in K; lia]).
  assert (0 <= doe < 146097) as Rd by lia.
  assert (yo doe = yoe) as Y.
  { destruct (yo_low doe Rd) as [Y1 Y2]. destruct (Z.lt_trichotomy (yo doe) yoe) as [C|[C|C]]; [|exact C|].
    - exfalso. destruct (Z.eq_dec doe 146096) as [E|N].
      + rewrite E in C. change (yo 146096) with 399 in C. lia.
      + pose proof (yo_high doe ltac:(lia)). destruct (Z.eq_dec (yo doe + 1) yoe) as [E|N']; [rewrite E in *; lia|]. pose proof (start_mono (yo doe + 1) yoe ltac:(lia) ltac:(lia)). lia.
    - exfalso. specialize (Hy ltac:(lia)). destruct (Z.eq_dec (yoe + 1) (yo doe)) as [E|N']; [rewrite E in *; lia|]. pose proof (start_mono (yoe + 1) (yo doe) ltac:(lia) ltac:(lia)). lia. }
  unfold civil_of_days. cbv zeta. replace (era * 146097 + doe - 719468 + 719468) with (doe + era * 146097) by lia.
  rewrite (Z.div_add doe era 146097), (Z.mod_add doe era 146097) by lia. rewrite (Z.div_small doe 146097), (Z.mod_small doe 146097) by lia.
  fold (yo doe). rewrite Y. replace (doe - (365 * yoe + yoe / 4 - yoe / 100)) with doy by (unfold year_start in Edoe; lia).
  rewrite (month_of mp d Mp ltac:(lia) Hd : (5 * doy + 2) / 153 = mp).
  replace (doy - (153 * mp + 2) / 5 + 1) with d by (unfold doy; lia).
  replace (if mp <? 10 then mp + 3 else mp - 9) with m by (unfold mp; destruct (m <=? 2) eqn:?; [replace (m + 9 <? 10) with false by lia|replace (m + -3 <? 10) with true by lia]; lia).
  rewrite <- Eb. f_equal. f_equal. lia.
Qed.
Lemma zone_date off y mo d h mi s ms : valid_date y mo d -> 0 <= h < 24 -> 0 <= mi < 60 -> 0 <= s < 60 ->
  let v := from_date (zone off) y mo d h mi s ms in
  year v = y /\ month v = mo /\ day v = d /\ hour v = h /\ minute v = mi /\ second v = s /\ milliseconds v = ms.
Proof.
  intros V H M S. cbv zeta. unfold from_date, tm_to_datetime. cbn [zone mktime].
  assert (seconds (mkTm (y - 1900) (mo - 1) d h mi s 0 (-1)) = 86400 * days_of_civil y mo d + (3600 * h + 60 * mi + s)) as ->.
  { unfold seconds. cbn [tm_year tm_mon tm_mday tm_hour tm_min tm_sec]. destruct V as [V _]. rewrite (doc_day y mo d). rewrite Z.div_small, Z.mod_small by lia.
    replace (y - 1900 + 1900 + 0) with y by lia. replace (mo - 1 + 1) with mo by lia. lia. }
  set (t := 3600 * h + 60 * mi + s). assert (0 <= t < 86400) by (unfold t; lia). unfold broken_down. cbv zeta.
  replace (86400 * days_of_civil y mo d + t) with (t + days_of_civil y mo d * 86400) by lia. rewrite Z.div_add, Z.mod_add by lia. rewrite Z.div_small, Z.mod_small by lia.
  rewrite Z.add_0_l, civil_date by exact V. cbn [year month day hour minute second milliseconds tm_year tm_mon tm_mday tm_hour tm_min tm_sec].
  split; [lia|]. split; [lia|]. split; [reflexivity|].
  assert (t / 60 = 60 * h + mi) as T60 by (unfold t; replace (3600 * h + 60 * mi + s) with (s + (60 * h + mi) * 60) by lia; rewrite Z.div_add, Z.div_small by lia; lia).
  split. { unfold t. replace (3600 * h + 60 * mi + s) with (60 * mi + s + h * 3600) by lia. rewrite Z.div_add, Z.div_small by lia. lia. }
  split. { rewrite T60. replace (60 * h + mi) with (mi + h * 60) by lia. rewrite Z.mod_add, Z.mod_small by lia. lia. }
  split; [|reflexivity]. unfold t. replace (3600 * h + 60 * mi + s) with (s + (60 * h + mi) * 60) by lia. rewrite Z.mod_add, Z.mod_small by lia. lia.
Qed.
Lemma from_os_fields L (K : libc_ok L) o : 0 <= o < M64 -> let t := localtime L (o / 1000) in
  from_os L o = mkDT (1900 + tm_year t) (1 + tm_mon t) (tm_mday t) (tm_hour t) (tm_min t) (tm_sec t) (o mod 1000) (tm_wday t) o o.
Proof.
  intros H t. unfold from_os, os_to_time, tm_to_datetime. pose proof m64_pos.
  assert (0 <= o / 1000 < M64) by (split; [apply Z.div_pos; lia|apply Z.div_lt_upper_bound; lia]).
  rewrite (lo_inverse _ K) by lia. fold t. rewrite time_os_inv by auto. f_equal; lia.
Qed.
Lemma wfrom_os_fields W (K : winapi_ok W) o s : 0 <= o -> to_system W o = Some s ->
  wfrom_os W o = Ok (mkDT (wYear s) (wMonth s) (wDay s) (wHour s) (wMinute s) (wSecond s) (wMilliseconds s) (wDayOfWeek s) (o / 10000) (o - o mod 10000)).
Proof.
  intros H E. unfold wfrom_os. rewrite E. specialize (K o H). rewrite E in K. destruct K as (_ & K & _). unfold st_to_datetime. rewrite K. do 2 f_equal.
  pose proof (Z.div_mod o 10000 ltac:(lia)). replace (o - o mod 10000) with (o / 10000 * 10000) by lia. apply Z.div_mul. lia.
Qed.
