(* DateTime: Source/Primitives/DateTime.h:17-102, DateTime.cpp, DateTime.Linux.cpp, DateTime.Windows.cpp.
   The functions of the C library and of Windows are parameters. *)
From Verif Require Import Base TupModel.
Open Scope Z_scope.

Definition M64 : Z := 2 ^ 64.
Definition u64 (z : Z) : Z := z mod M64.      (* conversion to vuint64_t *)

(* DateTime.h:18-52 *)
Record datetime := mkDT {
  year : Z; month : Z; day : Z; hour : Z; minute : Z; second : Z; milliseconds : Z; dayOfWeek : Z;
  osMilliseconds : Z; osInternal : Z }.
(* DateTime.h:93-101 *)
Definition dcompare (a b : datetime) : ord :=
  match osInternal a ?= osInternal b with Lt => Less | Eq => Equal | Gt => Greater end.
Definition dequal (a b : datetime) : bool := osInternal a =? osInternal b.

(* struct tm, with the fields the code uses *)
Record tm := mkTm { tm_year : Z; tm_mon : Z; tm_mday : Z; tm_hour : Z; tm_min : Z; tm_sec : Z; tm_wday : Z; tm_isdst : Z }.
(* localtime, gmtime; mktime returns the time and the normalised struct *)
Record libc := mkLibc { localtime : Z -> tm; gmtime : Z -> tm; mktime : tm -> Z * tm }.

Section linux.
  Context (L : libc).
  (* DateTime.Linux.cpp:26-29; (vuint64_t)timer * 1000 + milliseconds *)
  Definition time_to_os (timer ms : Z) : Z := u64 (u64 timer * 1000 + ms).
  (* 31-35 *)
  Definition os_to_time (o : Z) : Z * Z := (o / 1000, o mod 1000).
  (* 45-62 *)
  Definition tm_to_datetime (t : tm) (ms : Z) : datetime :=
    let (timer, t) := mktime L t in
    let o := time_to_os timer ms in
    mkDT (tm_year t + 1900) (tm_mon t + 1) (tm_mday t) (tm_hour t) (tm_min t) (tm_sec t) ms (tm_wday t) o o.
  (* 37-43 *)
  Definition tm_to_os (t : tm) (ms : Z) : Z := let (timer, _) := mktime L t in time_to_os timer ms.
  (* 64-76 *)
  Definition from_date (y mo d h mi s ms : Z) : datetime :=
    tm_to_datetime (mkTm (y - 1900) (mo - 1) d h mi s 0 (-1)) ms.
  (* 78-86 *)
  Definition from_os (o : Z) : datetime :=
    let (timer, ms) := os_to_time o in tm_to_datetime (localtime L timer) ms.
  (* 104-112 LocalToUtcTime; 114-126 UtcToLocalTime *)
  Definition local_to_utc (o : Z) : Z :=
    let (timer, ms) := os_to_time o in tm_to_os (gmtime L timer) ms.
  Definition utc_to_local (o : Z) : Z :=
    let (timer, ms) := os_to_time o in
    let (localTimer, _) := mktime L (localtime L timer) in
    let (utcTimer, _) := mktime L (gmtime L timer) in
    time_to_os (timer + (localTimer - utcTimer)) ms.
  (* DateTime.Linux.cpp:128-136 and DateTime.cpp *)
  Definition forward (d : datetime) (ms : Z) : datetime := from_os (u64 (osInternal d + ms)).
  Definition backward (d : datetime) (ms : Z) : datetime := from_os (u64 (osInternal d - ms)).
  Definition to_local (d : datetime) : datetime := from_os (utc_to_local (osInternal d)).
  Definition to_utc (d : datetime) : datetime := from_os (local_to_utc (osInternal d)).
End linux.

(* SYSTEMTIME; SystemTimeToFileTime and FileTimeToSystemTime (None: it fails and fills nothing) *)
Record systemtime := mkST { wYear : Z; wMonth : Z; wDay : Z; wHour : Z; wMinute : Z; wSecond : Z; wMilliseconds : Z; wDayOfWeek : Z }.
Record winapi := mkWin { to_file : systemtime -> Z; to_system : Z -> option systemtime }.
Section windows.
  Context (W : winapi).
  (* DateTime.Windows.cpp:44-62 *)
  Definition st_to_datetime (s : systemtime) : datetime :=
    let o := to_file W s in
    mkDT (wYear s) (wMonth s) (wDay s) (wHour s) (wMinute s) (wSecond s) (wMilliseconds s) (wDayOfWeek s) (o / 10000) o.
  (* 82-93; when FileTimeToSystemTime fails, an uninitialised SYSTEMTIME is read *)
  Definition wfrom_os (o : Z) : res datetime :=
    match to_system W o with Some s => Ok (st_to_datetime s) | None => UB end.
  (* 132-140 *)
  Definition wforward (d : datetime) (ms : Z) : res datetime := wfrom_os (u64 (osInternal d + u64 (ms * 10000))).
  Definition wbackward (d : datetime) (ms : Z) : res datetime := wfrom_os (u64 (osInternal d - u64 (ms * 10000))).
End windows.
