(* C48: DateTime. L is the C library, W is Windows; what is assumed of them is in DateSpec. *)
From Verif Require Import Base TupModel DateModel DateSpec DateProofs.
Open Scope Z_scope.

(* a value made from an internal representation, or from a date of 1970 or later, is proper: it holds that
   representation, and making a value again from the representation it holds reproduces it *)
Theorem C48_from_internal : forall L, libc_ok L -> forall o, 0 <= o < 2 ^ 64 ->
  osInternal (from_os L o) = o /\ osMilliseconds (from_os L o) = o /\ proper L (from_os L o).
Proof. exact (fun L K o H => conj (proj1 (from_os_internal L K o H)) (conj (proj2 (from_os_internal L K o H)) (proper_from_os L K o H))). Qed.
Print Assumptions C48_from_internal.
Theorem C48_from_date : forall L, libc_ok L -> forall y mo d h mi s ms,
  0 <= ms < 1000 -> 0 <= instant L y mo d h mi s ms < 2 ^ 64 ->
  osInternal (from_date L y mo d h mi s ms) = instant L y mo d h mi s ms /\ proper L (from_date L y mo d h mi s ms).
Proof. exact (fun L K y mo d h mi s ms B H => conj (from_date_internal L y mo d h mi s ms B H) (proper_from_date L K y mo d h mi s ms B H)). Qed.
Print Assumptions C48_from_date.
(* a value made from an internal representation shows the local time of that instant, in years from 0 and months from 1 *)
Theorem C48_fields : forall L, libc_ok L -> forall o, 0 <= o < 2 ^ 64 -> let t := localtime L (o / 1000) in
  from_os L o = mkDT (1900 + tm_year t) (1 + tm_mon t) (tm_mday t) (tm_hour t) (tm_min t) (tm_sec t) (o mod 1000) (tm_wday t) o o.
Proof. exact from_os_fields. Qed.
Print Assumptions C48_fields.
(* a value made from a date of the Gregorian calendar shows that date, in every zone with a constant offset *)
Theorem C48_calendar : forall off y mo d h mi s ms, valid_date y mo d -> 0 <= h < 24 -> 0 <= mi < 60 -> 0 <= s < 60 ->
  let v := from_date (zone off) y mo d h mi s ms in
  year v = y /\ month v = mo /\ day v = d /\ hour v = h /\ minute v = mi /\ second v = s /\ milliseconds v = ms.
Proof. exact zone_date. Qed.
Print Assumptions C48_calendar.
Example C48_calendar_case : valid_date 2000 2 29 /\ ~ valid_date 1900 2 29 /\ day (from_date (zone 3600) 1900 2 29 0 0 0 0) = 1.
Proof. split; [split; vm_compute; split; discriminate|]. split; [intros [_ [_ H]]; vm_compute in H; congruence|vm_compute; reflexivity]. Qed.
(* Backward and Forward undo each other, also when the count of milliseconds wraps around *)
Theorem C48_undo : forall L, libc_ok L -> forall d ms, proper L d ->
  backward L (forward L d ms) ms = d /\ forward L (backward L d ms) ms = d.
Proof. exact (fun L K d ms P => conj (undo_forward L K d ms P) (undo_backward L K d ms P)). Qed.
Print Assumptions C48_undo.
Theorem C48_forward_adds : forall L, libc_ok L -> forall d a b, proper L d ->
  forward L (forward L d a) b = forward L d (a + b).
Proof. exact forward_adds. Qed.
Print Assumptions C48_forward_adds.
Theorem C48_later : forall L, libc_ok L -> forall d ms, proper L d -> 0 < ms -> osInternal d + ms < 2 ^ 64 ->
  dcompare d (forward L d ms) = Less.
Proof. exact forward_later. Qed.
Print Assumptions C48_later.
(* ... and past the end of the 64 bit count the result is earlier *)
Theorem C48_later_refuted : forall L, libc_ok L -> forall d ms, proper L d -> 0 < ms < 2 ^ 64 -> 2 ^ 64 <= osInternal d + ms ->
  dcompare d (forward L d ms) = Greater.
Proof. exact (fun L K d ms P B H => forward_wraps L K d ms P (proj1 B) (proj2 B) H). Qed.
Print Assumptions C48_later_refuted.
(* comparing two dates of 1970 or later compares the instants *)
Theorem C48_compare : forall L y mo d h mi s ms y' mo' d' h' mi' s' ms',
  0 <= ms < 1000 -> 0 <= ms' < 1000 ->
  0 <= instant L y mo d h mi s ms < 2 ^ 64 -> 0 <= instant L y' mo' d' h' mi' s' ms' < 2 ^ 64 ->
  dcompare (from_date L y mo d h mi s ms) (from_date L y' mo' d' h' mi' s' ms') =
  match instant L y mo d h mi s ms ?= instant L y' mo' d' h' mi' s' ms' with Lt => Less | Eq => Equal | Gt => Greater end.
Proof. exact compare_dates. Qed.
Print Assumptions C48_compare.
(* before 1970 it does not: 1960 compares after 2020, and its internal representation is that of the year 584556009 *)
Theorem C48_before_1970_refuted : exists L, libc_ok L /\
  let a := from_date L 1960 1 1 0 0 0 0 in let b := from_date L 2020 1 1 0 0 0 0 in
  dcompare a b = Greater /\ from_os L (osInternal a) <> a /\ year (from_os L (osInternal a)) = 584556009.
Proof. exact (ex_intro _ (zone 0) (conj (zone_ok 0) before_1970)). Qed.
Print Assumptions C48_before_1970_refuted.
(* conversions between local and UTC undo each other in a time zone with a constant offset (seconds) *)
Theorem C48_zone : forall off d, proper (zone off) d ->
  (0 <= osInternal d + 1000 * off < 2 ^ 64 -> to_utc (zone off) (to_local (zone off) d) = d) /\
  (0 <= osInternal d - 1000 * off < 2 ^ 64 -> to_local (zone off) (to_utc (zone off) d) = d).
Proof. exact zone_back. Qed.
Print Assumptions C48_zone.
(* every zone with a constant offset satisfies what is assumed of the C library *)
Theorem C48_assumption_met : forall off, libc_ok (zone off).
Proof. exact zone_ok. Qed.
Print Assumptions C48_assumption_met.
(* Windows: an internal representation below 2^63 is kept up to its fraction of a millisecond *)
Theorem C48_windows_from_internal : forall W, winapi_ok W -> forall o, 0 <= o ->
  match wfrom_os W o with
  | Ok d => o < 2 ^ 63 /\ osInternal d = o - o mod 10000 /\ osMilliseconds d = o / 10000 /\ wproper W d
  | UB => 2 ^ 63 <= o
  | _ => False
  end.
Proof. exact wfrom_os_spec. Qed.
Print Assumptions C48_windows_from_internal.
Theorem C48_windows_fields : forall W, winapi_ok W -> forall o s, 0 <= o -> to_system W o = Some s ->
  wfrom_os W o = Ok (mkDT (wYear s) (wMonth s) (wDay s) (wHour s) (wMinute s) (wSecond s) (wMilliseconds s) (wDayOfWeek s) (o / 10000) (o - o mod 10000)).
Proof. exact wfrom_os_fields. Qed.
Print Assumptions C48_windows_fields.
Theorem C48_windows_undo : forall W, winapi_ok W -> forall d ms, wproper W d -> 0 <= ms -> osInternal d + ms * 10000 < 2 ^ 63 ->
  exists d', wforward W d ms = Ok d' /\ wbackward W d' ms = Ok d /\ (0 < ms -> dcompare d d' = Less).
Proof. exact wforward_undo. Qed.
Print Assumptions C48_windows_undo.
(* Windows: going back to before 1601 reads an uninitialised SYSTEMTIME *)
Theorem C48_windows_backward_refuted : forall W, winapi_ok W -> forall d ms, wproper W d ->
  osInternal d < ms * 10000 -> ms * 10000 - osInternal d <= 2 ^ 63 -> wbackward W d ms = UB.
Proof. exact wbackward_wraps. Qed.
Print Assumptions C48_windows_backward_refuted.

Example C48_case : let L := zone 28800 in let a := from_date L 2000 2 29 23 59 59 999 in
  instant L 2000 2 29 23 59 59 999 = 951839999999 /\
  forward L a 1 = mkDT 2000 3 1 0 0 0 0 3 951840000000 951840000000 /\ day (backward L (forward L a 1) 1) = 29 /\
  hour (to_utc L a) = 15.
Proof. vm_compute. auto. Qed.
Example C48_windows_case : winapi_ok win0 /\ wproper win0 (mkDT 0 0 0 0 0 0 123 0 123 1230000).
Proof. split; [exact win0_ok|]. split; [cbn; lia|reflexivity]. Qed.
