(* Model of Source/Strings/Conversion.{h,cpp}: the per-code-point converters,
   the reader classes and the two-pass string conversion, for the platform where
   wchar_t is UTF-32 (VCZH_WCHAR_UTF32: Linux, macOS).

   Code units are values of [Z] (the unsigned value of the C++ unit).  A zero
   unit is the string terminator. *)
From Verif Require Import Base.
Open Scope Z_scope.

(* The unit types a conversion ranges over: wchar_t, char8_t, char16_t,
   char16be_t, char32_t (Conversion.h:60-103 and the selectors 322-376). *)
Inductive utf := W | U8 | U16 | U16BE | U32.

(* Conversion.cpp:17-20 IsInvalid *)
Definition is_invalid (c : Z) : bool := (0xD800 <=? c) && (c <=? 0xDFFF).

(* static_cast<vuint8_t>, static_cast<vuint16_t> *)
Definition u8 (x : Z) : Z := x mod 0x100.
Definition u16 (x : Z) : Z := x mod 0x10000.

(* Conversion.cpp:61-116 UtfConversion<char8_t>::From32.
   [None] is the return value -1; [Some l] are the units written to dest
   (the return value is the length of l). *)
Definition from32_u8 (source : Z) : option (list Z) :=
  if is_invalid source then None else
  let c := source in
  if c <=? 0x7F then
    Some [u8 c]
  else if c <=? 0x7FF then
    Some [u8 (Z.lor (Z.shiftr c 6) 0xC0);
          u8 (Z.lor (Z.land c 0x3F) 0x80)]
  else if c <=? 0xFFFF then
    Some [u8 (Z.lor (Z.shiftr c 12) 0xE0);
          u8 (Z.lor (Z.land (Z.shiftr c 6) 0x3F) 0x80);
          u8 (Z.lor (Z.land c 0x3F) 0x80)]
  else if c <=? 0x1FFFFF then
    Some [u8 (Z.lor (Z.shiftr c 18) 0xF0);
          u8 (Z.lor (Z.land (Z.shiftr c 12) 0x3F) 0x80);
          u8 (Z.lor (Z.land (Z.shiftr c 6) 0x3F) 0x80);
          u8 (Z.lor (Z.land c 0x3F) 0x80)]
  else if c <=? 0x3FFFFFF then
    Some [u8 (Z.lor (Z.shiftr c 24) 0xF8);
          u8 (Z.lor (Z.land (Z.shiftr c 18) 0x3F) 0x80);
          u8 (Z.lor (Z.land (Z.shiftr c 12) 0x3F) 0x80);
          u8 (Z.lor (Z.land (Z.shiftr c 6) 0x3F) 0x80);
          u8 (Z.lor (Z.land c 0x3F) 0x80)]
  else if c <=? 0x7FFFFFFF then
    Some [u8 (Z.lor (Z.shiftr c 30) 0xFC);
          u8 (Z.lor (Z.land (Z.shiftr c 24) 0x3F) 0x80);
          u8 (Z.lor (Z.land (Z.shiftr c 18) 0x3F) 0x80);
          u8 (Z.lor (Z.land (Z.shiftr c 12) 0x3F) 0x80);
          u8 (Z.lor (Z.land (Z.shiftr c 6) 0x3F) 0x80);
          u8 (Z.lor (Z.land c 0x3F) 0x80)]
  else None.

(* A cell of a C++ array: [None] is a cell never written to. *)
Definition cells := list (option Z).

(* Reading cs[i]: outside the array, or uninitialised, is UB. *)
Definition rd (cs : cells) (i : Z) : res Z :=
  match znth cs i with Some (Some x) => Ok x | _ => UB end.

(* Conversion.cpp:118-176 UtfConversion<char8_t>::To32.  [Ok None] is the return
   value -1; [Ok (Some (d, n))] is dest = d with return value n.  Lines 174-175
   are unreachable: every branch above them returns. *)
Definition to32_u8 (cs : cells) (sourceLength : Z) : res (option (Z * Z)) :=
  if sourceLength <=? 0 then Ok None else
  do c0 <- rd cs 0;
  if c0 <? 0x80 then
    Ok (Some (c0, 1))
  else if c0 <? 0xE0 then
    if sourceLength <? 2 then Ok None else
    do c1 <- rd cs 1;
    Ok (Some (Z.lor (Z.shiftl (Z.land c0 0x1F) 6) (Z.land c1 0x3F), 2))
  else if c0 <? 0xF0 then
    if sourceLength <? 3 then Ok None else
    do c1 <- rd cs 1;
    do c2 <- rd cs 2;
    Ok (Some (Z.lor (Z.lor (Z.shiftl (Z.land c0 0x0F) 12)
                           (Z.shiftl (Z.land c1 0x3F) 6))
                    (Z.land c2 0x3F), 3))
  else if c0 <? 0xF8 then
    if sourceLength <? 4 then Ok None else
    do c1 <- rd cs 1;
    do c2 <- rd cs 2;
    do c3 <- rd cs 3;
    Ok (Some (Z.lor (Z.lor (Z.lor (Z.shiftl (Z.land c0 0x07) 18)
                                  (Z.shiftl (Z.land c1 0x3F) 12))
                           (Z.shiftl (Z.land c2 0x3F) 6))
                    (Z.land c3 0x3F), 4))
  else if c0 <? 0xFC then
    if sourceLength <? 5 then Ok None else
    do c1 <- rd cs 1;
    do c2 <- rd cs 2;
    do c3 <- rd cs 3;
    do c4 <- rd cs 4;
    Ok (Some (Z.lor (Z.lor (Z.lor (Z.lor (Z.shiftl (Z.land c0 0x03) 24)
                                         (Z.shiftl (Z.land c1 0x3F) 18))
                                  (Z.shiftl (Z.land c2 0x3F) 12))
                           (Z.shiftl (Z.land c3 0x3F) 6))
                    (Z.land c4 0x3F), 5))
  else
    if sourceLength <? 6 then Ok None else
    do c1 <- rd cs 1;
    do c2 <- rd cs 2;
    do c3 <- rd cs 3;
    do c4 <- rd cs 4;
    do c5 <- rd cs 5;
    Ok (Some (Z.lor (Z.lor (Z.lor (Z.lor (Z.lor (Z.shiftl (Z.land c0 0x01) 30)
                                                (Z.shiftl (Z.land c1 0x3F) 24))
                                         (Z.shiftl (Z.land c2 0x3F) 18))
                                  (Z.shiftl (Z.land c3 0x3F) 12))
                           (Z.shiftl (Z.land c4 0x3F) 6))
                    (Z.land c5 0x3F), 6)).

(* Conversion.cpp:189-216 UtfConversion<char16_t>::From32 *)
Definition from32_u16 (source : Z) : option (list Z) :=
  if is_invalid source then None else
  let c := source in
  if (0 <=? c) && (c <=? 0xD7FF) then Some [u16 c]
  else if (0xE000 <=? c) && (c <=? 0xFFFF) then Some [u16 c]
  else if (0x10000 <=? c) && (c <=? 0x10FFFF) then
    let c := c - 0x10000 in
    Some [u16 (Z.lor (Z.shiftr c 10) 0xD800);
          u16 (Z.lor (Z.land c 0x3FF) 0xDC00)]
  else None.

(* Conversion.cpp:218-247 UtfConversion<char16_t>::To32 *)
Definition to32_u16 (cs : cells) (sourceLength : Z) : res (option (Z * Z)) :=
  if sourceLength <=? 0 then Ok None else
  do c0 <- rd cs 0;
  if Z.land c0 0xFC00 =? 0xD800 then
    if sourceLength <? 2 then Ok None else
    do c1 <- rd cs 1;
    if Z.land c1 0xFC00 =? 0xDC00 then
      let d := 0x10000 + Z.lor (Z.shiftl (Z.land c0 0x3FF) 10) (Z.land c1 0x3FF) in
      if is_invalid d then Ok None else Ok (Some (d, 2))
    else Ok None
  else
    let d := c0 in
    if is_invalid d then Ok None else Ok (Some (d, 1)).

(* Conversion.h:48-56 SwapByteForUtf16BE: exchanges the two bytes of the unit. *)
Definition swap16 (x : Z) : Z := Z.lor (Z.shiftl (Z.land x 0xFF) 8) (Z.shiftr x 8).

(* Conversion.cpp:253-262 UtfConversion<char16be_t>::From32.  destle[0] and
   destle[1] are uninitialised locals: [g0], [g1] are the indeterminate values
   they hold when From32 does not write them; both are swapped and copied to dest
   regardless.  Result: the return value (-1 for failure) and the two cells of
   dest. *)
Definition from32_u16be_raw (g0 g1 source : Z) : Z * (Z * Z) :=
  match from32_u16 source with
  | None => (-1, (swap16 g0, swap16 g1))
  | Some [a] => (1, (swap16 a, swap16 g1))
  | Some [a; b] => (2, (swap16 a, swap16 b))
  | Some _ => (-1, (swap16 g0, swap16 g1))
  end.

(* The units a reader can observe: the first [result] cells of dest. *)
Definition from32_u16be (g0 g1 source : Z) : option (list Z) :=
  let '(n, (a, b)) := from32_u16be_raw g0 g1 source in
  if n =? -1 then None else Some (firstn (Z.to_nat n) [a; b]).

(* Conversion.cpp:264-272 UtfConversion<char16be_t>::To32: the same local array,
   filled only as far as sourceLength says. *)
Definition to32_u16be (g0 g1 : Z) (cs : cells) (sourceLength : Z) : res (option (Z * Z)) :=
  do d0 <- (if sourceLength >=? 1 then rd cs 0 else Ok g0);
  do d1 <- (if sourceLength >=? 2 then rd cs 1 else Ok g1);
  to32_u16 [Some (swap16 d0); Some (swap16 d1)] sourceLength.

(* Conversion.cpp:26-45 UtfConversion<wchar_t> on UTF-32 platforms: no check at all.
   wchar_t has 32 bits, the cast keeps the value modulo 2^32. *)
Definition from32_w (source : Z) : option (list Z) := Some [source mod 0x100000000].
Definition to32_w (cs : cells) (sourceLength : Z) : res (option (Z * Z)) :=
  if sourceLength <=? 0 then Ok None else
  do c0 <- rd cs 0; Ok (Some (c0, 1)).

(* UtfConversion<T>::BufferLength, Conversion.h:65-103 *)
Definition buflen (u : utf) : Z :=
  match u with W => 1 | U8 => 6 | U16 => 2 | U16BE => 2 | U32 => 1 end.

(* UtfConversion<T>::From32 / To32 by unit type.  There is no UtfConversion<char32_t>;
   for U32 the identity stands in so that the functions are total, the readers
   below never call it.  The indeterminate values of the big-endian converter are
   fixed to 0 here; UtfProps.v proves that no observable result depends on them. *)
Definition from32 (u : utf) (c : Z) : option (list Z) :=
  match u with
  | W => from32_w c
  | U8 => from32_u8 c
  | U16 => from32_u16 c
  | U16BE => from32_u16be 0 0 c
  | U32 => Some [c]
  end.
Definition to32 (u : utf) (cs : cells) (n : Z) : res (option (Z * Z)) :=
  match u with
  | W => to32_w cs n
  | U8 => to32_u8 cs n
  | U16 => to32_u16 cs n
  | U16BE => to32_u16be 0 0 cs n
  | U32 => to32_w cs n
  end.

(* ------------------------------------------------------------------ *)
(* Consumers                                                           *)

(* Conversion.h:382-401 UtfStringConsumer and 418-445 UtfStringRangeConsumer.
   [mem] is the memory the pointer ranges over, [pos] the consuming pointer,
   [ending] the ending pointer, all as offsets from the starting pointer. *)
Inductive consumer :=
| CStr (mem : list Z) (pos : Z)
| CRange (mem : list Z) (ending pos : Z).

Definition consume (k : consumer) : res (Z * consumer) :=
  match k with
  | CStr mem pos =>
      do c <- aget mem pos;
      Ok (c, CStr mem (if c =? 0 then pos else pos + 1))
  | CRange mem ending pos =>
      if pos =? ending then Ok (0, k)
      else do c <- aget mem pos; Ok (c, CRange mem ending (pos + 1))
  end.

(* ------------------------------------------------------------------ *)
(* UtfTo32ReaderBase<T, TConsumer> : Conversion.h:202-272               *)

Record to32_reader := mkTo {
  t_available : Z;           (* :206 *)
  t_buffer : cells;          (* :207 *)
  t_index : Z;               (* :209 sourceCluster.index *)
  t_size : Z;                (* :209 sourceCluster.size *)
  t_counter : Z;             (* :210 readCounter *)
  t_cons : consumer }.

Definition to32_init (u : utf) (k : consumer) : to32_reader :=
  mkTo 0 (repeat None (Z.to_nat (buflen u))) 0 0 (-1) k.

(* The while loop :224-243.  [inl st] = loop left with the window filled or the
   source exhausted, [inr st] = the early return of :233-240 (value 0). *)
Fixpoint t_fill (u : utf) (fuel : nat) (st : to32_reader)
  : res (to32_reader + to32_reader) :=
  match fuel with
  | O => NoFuel
  | S fuel' =>
      if t_available st <? buflen u then
        do (c, k) <- consume (t_cons st);
        if negb (c =? 0) then
          do b <- aset (t_buffer st) (t_available st) (Some c);
          t_fill u fuel' (mkTo (t_available st + 1) b (t_index st) (t_size st)
                               (t_counter st) k)
        else if t_available st =? 0 then
          Ok (inr (mkTo (-1) (t_buffer st) (t_index st + t_size st) 0
                        (t_counter st + 1) k))
        else
          Ok (inl (mkTo (t_available st) (t_buffer st) (t_index st) (t_size st)
                        (t_counter st) k))
      else Ok (inl st)
  end.

(* The shift loop :253-256: buffer[i] = buffer[i + result] for i = 0 .. n-1 *)
Fixpoint t_shift (b : cells) (result : Z) (i : Z) (n : nat) : res cells :=
  match n with
  | O => Ok b
  | S n' =>
      do x <- aget b (i + result);
      do b' <- aset b i x;
      t_shift b' result (i + 1) n'
  end.

(* Read :221-261 *)
Definition to32_read (u : utf) (st : to32_reader) : res (Z * to32_reader) :=
  if t_available st =? -1 then Ok (0, st) else
  do r <- t_fill u (S (Z.to_nat (buflen u))) st;
  match r with
  | inr st => Ok (0, st)
  | inl st =>
      do d <- to32 u (t_buffer st) (t_available st);
      match d with
      | None =>
          Ok (0, mkTo (-1) (t_buffer st) (t_index st) (t_size st) (t_counter st)
                      (t_cons st))
      | Some (dest, result) =>
          let available := t_available st - result in
          do b <- t_shift (t_buffer st) result 0 (Z.to_nat available);
          Ok (dest, mkTo available b (t_index st + t_size st) result
                         (t_counter st + 1) (t_cons st))
      end
  end.

(* ------------------------------------------------------------------ *)
(* UtfFrom32ReaderBase<T, TConsumer> : Conversion.h:140-196             *)

(* What a From32 reader consumes: a raw char32_t string (selector 343-348), or a
   To32 reader wrapped in UtfReaderConsumer (117-134, selector 322-341). *)
Inductive source32 :=
| SRaw (k : consumer)
| SRead (u : utf) (r : to32_reader).

Definition consume32 (s : source32) : res (Z * source32) :=
  match s with
  | SRaw k => do (c, k') <- consume k; Ok (c, SRaw k')
  | SRead u r => do (c, r') <- to32_read u r; Ok (c, SRead u r')
  end.

Record from32_reader := mkFrom {
  f_read : Z;
  f_available : Z;
  f_buffer : cells;
  f_index : Z;
  f_size : Z;
  f_counter : Z;
  f_src : source32 }.

Definition from32_init (u : utf) (s : source32) : from32_reader :=
  mkFrom 0 0 (repeat None (Z.to_nat (buflen u))) 0 0 (-1) s.

(* From32(c, buffer) writing its units into the reader's buffer; writing more
   than BufferLength units is UB. *)
Fixpoint store (b : cells) (i : Z) (l : list Z) : res cells :=
  match l with
  | [] => Ok b
  | x :: l' => do b' <- aset b i (Some x); store b' (i + 1) l'
  end.

(* The tail :183-184 of Read *)
Definition f_emit (st : from32_reader) : res (Z * from32_reader) :=
  do x <- rd (f_buffer st) (f_read st);
  Ok (x, mkFrom (f_read st + 1) (f_available st) (f_buffer st) (f_index st)
                (f_size st) (f_counter st + 1) (f_src st)).

(* Read :160-185 *)
Definition from32_read (u : utf) (st : from32_reader) : res (Z * from32_reader) :=
  if f_available st =? -1 then Ok (0, st) else
  if f_read st =? f_available st then
    do (c, s) <- consume32 (f_src st);
    if negb (c =? 0) then
      match from32 u c with
      | None =>
          Ok (0, mkFrom (f_read st) (-1) (f_buffer st) (f_index st) (f_size st)
                        (f_counter st) s)
      | Some l =>
          do b <- store (f_buffer st) 0 l;
          f_emit (mkFrom 0 (zlen l) b (f_index st + f_size st) 1 (f_counter st) s)
      end
    else
      Ok (0, mkFrom (f_read st) (-1) (f_buffer st) (f_index st + f_size st) 0
                    (f_counter st + 1) s)
  else f_emit st.

(* ------------------------------------------------------------------ *)
(* Utf32DirectReaderBase<TConsumer> : Conversion.h:278-316              *)

Record direct_reader := mkDirect { d_counter : Z; d_ended : bool; d_cons : consumer }.

Definition direct_read (st : direct_reader) : res (Z * direct_reader) :=
  do (c, k) <- consume (d_cons st);
  Ok (c, mkDirect (if negb (c =? 0) || negb (d_ended st)
                   then d_counter st + 1 else d_counter st)
                  (c =? 0) k).

(* ------------------------------------------------------------------ *)
(* UtfToUtfReaderSelector : Conversion.h:322-376                         *)

Inductive reader :=
| RFrom (u : utf) (st : from32_reader)
| RTo (u : utf) (st : to32_reader)
| RDirect (st : direct_reader).

Definition mk_reader (from to : utf) (k : consumer) : reader :=
  match from, to with
  | U32, U32 => RDirect (mkDirect (-1) false k)
  | W, U32 => RDirect (mkDirect (-1) false k)
  | U32, W => RDirect (mkDirect (-1) false k)
  | U32, _ => RFrom to (from32_init to (SRaw k))
  | _, U32 => RTo from (to32_init from k)
  | _, _ => RFrom to (from32_init to (SRead from (to32_init from k)))
  end.

Definition read (r : reader) : res (Z * reader) :=
  match r with
  | RFrom u st => do (c, st') <- from32_read u st; Ok (c, RFrom u st')
  | RTo u st => do (c, st') <- to32_read u st; Ok (c, RTo u st')
  | RDirect st => do (c, st') <- direct_read st; Ok (c, RDirect st')
  end.

(* ReadingIndex() : :187-190, :263-266, :304-307 *)
Definition reading_index (r : reader) : Z :=
  match r with
  | RFrom _ st => f_counter st
  | RTo _ st => t_counter st
  | RDirect st => d_counter st
  end.

(* SourceCluster() : :192-195, :268-271, :309-315; the composed reader reports the
   cluster of the reader it wraps, :336-339 *)
Definition source_cluster (r : reader) : Z * Z :=
  match r with
  | RFrom _ st =>
      match f_src st with
      | SRaw _ => (f_index st, f_size st)
      | SRead _ t => (t_index t, t_size t)
      end
  | RTo _ st => (t_index st, t_size st)
  | RDirect st =>
      if d_counter st =? -1 then (0, 0)
      else if d_ended st then (d_counter st, 0)
      else (d_counter st, 1)
  end.

(* ------------------------------------------------------------------ *)
(* _utftoutf_reader : Conversion.cpp:279-302                             *)

(* d == nullptr: while (reader.Read()) size++; return size + 1; *)
Fixpoint size_loop (fuel : nat) (r : reader) (size : Z) : res Z :=
  match fuel with
  | O => NoFuel
  | S fuel' =>
      do (c, r') <- read r;
      if c =? 0 then Ok (size + 1) else size_loop fuel' r' (size + 1)
  end.

(* d != nullptr: [d] is the destination buffer, [i] the offset of the writing
   pointer; writing outside the destination is UB. *)
Fixpoint write_loop (fuel : nat) (r : reader) (d : list Z) (i chars size : Z)
  : res (list Z * Z) :=
  match fuel with
  | O => NoFuel
  | S fuel' =>
      if chars =? 0 then Ok (d, size) else
      do (c, r') <- read r;
      do d' <- aset d i c;
      if c =? 0 then Ok (d', size + 1)
      else write_loop fuel' r' d' (i + 1) (chars - 1) (size + 1)
  end.

(* ConvertStringDirect : Conversion.cpp:328-337.  The result is the memory block
   handed to TakeOver and the length passed to it. *)
Definition convert (fuel : nat) (from to : utf) (mem : list Z) : res (list Z * Z) :=
  do len <- size_loop fuel (mk_reader from to (CStr mem 0)) 0;
  if len <? 1 then Ok ([0], 0) else
  let buffer := repeat 0 (Z.to_nat len) in
  do (d, _) <- write_loop fuel (mk_reader from to (CStr mem 0)) buffer 0 len 0;
  Ok (d, len - 1).
