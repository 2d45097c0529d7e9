(* What is assumed of the C library and of Windows, and a calendar that satisfies it. *)
From Verif Require Import Base TupModel DateModel.
Open Scope Z_scope.

(* mktime is the inverse of localtime for the times a vuint64_t number of milliseconds reaches *)
Record libc_ok (L : libc) : Prop := mkLibcOk {
  lo_inverse : forall t, 0 <= t -> t < M64 -> mktime L (localtime L t) = (t, localtime L t);
  lo_normal : forall x, 0 <= fst (mktime L x) -> localtime L (fst (mktime L x)) = snd (mktime L x) }.
(* SYSTEMTIME has milliseconds, FILETIME has 100 nanoseconds; file times from 2^63 on are refused *)
Definition winapi_ok (W : winapi) : Prop := forall o, 0 <= o ->
  match to_system W o with
  | Some s => o < 2 ^ 63 /\ to_file W s = o - o mod 10000 /\ to_system W (o - o mod 10000) = Some s
  | None => 2 ^ 63 <= o
  end.
(* a time zone with a constant offset in seconds, over the proleptic Gregorian calendar *)
Definition civil_of_days (z : Z) : Z * Z * Z :=
  let z := z + 719468 in
  let era := z / 146097 in
  let doe := z mod 146097 in
  let yoe := (doe - doe / 1460 + doe / 36524 - doe / 146096) / 365 in
  let doy := doe - (365 * yoe + yoe / 4 - yoe / 100) in
  let mp := (5 * doy + 2) / 153 in
  let d := doy - (153 * mp + 2) / 5 + 1 in
  let m := if mp <? 10 then mp + 3 else mp - 9 in
  (yoe + era * 400 + (if m <=? 2 then 1 else 0), m, d).
Definition days_of_civil (y m d : Z) : Z :=
  let y := if m <=? 2 then y - 1 else y in
  let era := y / 400 in
  let yoe := y mod 400 in
  let doy := (153 * (m + (if m <=? 2 then 9 else -3)) + 2) / 5 + d - 1 in
  let doe := yoe * 365 + yoe / 4 - yoe / 100 + doy in
  era * 146097 + doe - 719468.
Definition broken_down (t : Z) : tm :=
  let days := t / 86400 in
  let s := t mod 86400 in
  let '(y, m, d) := civil_of_days days in
  mkTm (y - 1900) (m - 1) d (s / 3600) (s / 60 mod 60) (s mod 60) ((days + 4) mod 7) 0.
Definition seconds (x : tm) : Z :=
  86400 * days_of_civil (tm_year x + 1900 + tm_mon x / 12) (tm_mon x mod 12 + 1) 1 + 86400 * (tm_mday x - 1)
  + 3600 * tm_hour x + 60 * tm_min x + tm_sec x.
Definition zone (off : Z) : libc := mkLibc
  (fun t => broken_down (t + off)) broken_down
  (fun x => (seconds x - off, broken_down (seconds x))).

(* the milliseconds since 1970 the C library gives to a broken-down local time *)
Definition instant (L : libc) (y mo d h mi s ms : Z) : Z :=
  fst (mktime L (mkTm (y - 1900) (mo - 1) d h mi s 0 (-1))) * 1000 + ms.
(* a value whose fields are those of the instant it holds *)
Definition proper (L : libc) (d : datetime) : Prop := 0 <= osInternal d < M64 /\ from_os L (osInternal d) = d.
Definition wproper (W : winapi) (d : datetime) : Prop := 0 <= osInternal d < 2 ^ 63 /\ wfrom_os W (osInternal d) = Ok d.

(* the dates of the Gregorian calendar *)
Definition leap (y : Z) : bool := (y mod 4 =? 0) && (negb (y mod 100 =? 0) || (y mod 400 =? 0)).
Definition days_in (y m : Z) : Z :=
  if m =? 2 then (if leap y then 29 else 28) else if (m =? 4) || (m =? 6) || (m =? 9) || (m =? 11) then 30 else 31.
Definition valid_date (y m d : Z) : Prop := 1 <= m <= 12 /\ 1 <= d <= days_in y m.
