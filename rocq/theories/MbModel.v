(* Conversion between wide and multi-byte strings: Source/Strings/Conversion.Linux.cpp, Conversion.Windows.cpp and
   ConvertStringDirect (Conversion.cpp:328-337).
   The C library (or Windows) is an oracle: [tr s] is the text s, cut into characters and translated one by one, and
   whether all of it could be translated.  Memory blocks are lists; outside a block is UB. *)
From Verif Require Import Base.
Open Scope Z_scope.

(* the text at a pointer: the units before the first zero *)
Fixpoint c_text (mem : list Z) : res (list Z) :=
  match mem with
  | [] => UB
  | c :: mem => if c =? 0 then Ok [] else do r <- c_text mem; Ok (c :: r)
  end.
Fixpoint put (d : list Z) (i : Z) (l : list Z) : res (list Z) :=
  match l with [] => Ok d | x :: l => do d <- aset d i x; put d (i + 1) l end.
Definition size_t (z : Z) : Z := z mod 2 ^ 64.
Definition to_int (z : Z) : Z := (z + 2 ^ 31) mod 2 ^ 32 - 2 ^ 31.

Section conversion.
  Context (tr : list Z -> list (list Z) * bool).

  (* wcstombs and mbstowcs.  A null destination: the number of units needed, without the terminator.  Otherwise whole
     characters are written as long as they fit in n units, then a terminator if there is room.  (size_t)-1 means that
     a character that cannot be translated was reached. *)
  Fixpoint c_write (d : list Z) (i n : Z) (ls : list (list Z)) (ok : bool) : res (list Z * Z) :=
    match ls with
    | [] =>
        if ok then if i <? n then do d <- aset d i 0; Ok (d, i) else Ok (d, i)
        else Ok (d, size_t (-1))
    | l :: ls => if i + zlen l <=? n then do d <- put d i l; c_write d (i + zlen l) n ls ok else Ok (d, i)
    end.
  Definition c_convert (mem : list Z) (dst : option (list Z)) (n : Z) : res (option (list Z) * Z) :=
    do s <- c_text mem;
    let (ls, ok) := tr s in
    match dst with
    | None => Ok (None, if ok then zlen (concat ls) else size_t (-1))
    | Some d => do (d, k) <- c_write d 0 n ls ok; Ok (Some d, k)
    end.
  (* Conversion.Linux.cpp:17-25; size_t arithmetic *)
  Definition linux (mem : list Z) (dst : option (list Z)) (chars : Z) : res (option (list Z) * Z) :=
    do (d, k) <- c_convert mem dst (size_t (chars - 1)); Ok (d, size_t (k + 1)).

  (* WideCharToMultiByte and MultiByteToWideChar for a zero terminated source (length -1): with n = 0 the number of
     units needed, terminator included; otherwise everything is written, or 0 returned.  If not everything can be
     translated the call fails with 0 (with the flags used, that means an unusable code page). *)
  Definition w_convert (mem : list Z) (dst : option (list Z)) (n : Z) : res (option (list Z) * Z) :=
    do s <- c_text mem;
    let (ls, ok) := tr s in
    let all := concat ls ++ [0] in
    if negb ok then Ok (dst, 0)
    else if n =? 0 then Ok (dst, zlen all)
    else if n <? zlen all then Ok (dst, 0)
    else match dst with None => UB | Some d => do d <- put d 0 all; Ok (Some d, zlen all) end.
  (* Conversion.Windows.cpp:19-27; the capacity is cut to an int *)
  Definition windows (mem : list Z) (dst : option (list Z)) (chars : Z) : res (option (list Z) * Z) :=
    w_convert mem dst (match dst with Some _ => to_int chars | None => 0 end).
End conversion.

(* ConvertStringDirect: Conversion.cpp:328-337.  The result is the block given to TakeOver and the length *)
Definition convert_direct (conv : list Z -> option (list Z) -> Z -> res (option (list Z) * Z)) (mem : list Z) : res (list Z * Z) :=
  do (_, len) <- conv mem None 0;
  if len <? 1 then Ok ([0], 0) else
  let buffer := repeat 0 (Z.to_nat len) in                                     (* new, memset *)
  do (d, _) <- conv mem (Some buffer) len;
  match d with Some d => Ok (d, len - 1) | None => UB end.

(* a multi-byte encoding without shift states: the bytes of a character; the first character of a text and its length *)
Section encoding.
  Context (enc : Z -> option (list Z)) (dec : list Z -> option (Z * nat)).
  Fixpoint to_bytes (s : list Z) : list (list Z) * bool :=
    match s with
    | [] => ([], true)
    | c :: s => match enc c with Some b => let (ls, ok) := to_bytes s in (b :: ls, ok) | None => ([], false) end
    end.
  Fixpoint to_wide (fuel : nat) (s : list Z) : list (list Z) * bool :=
    match fuel, s with
    | _, [] => ([], true)
    | O, _ => ([], false)
    | S fuel, _ => match dec s with Some (c, k) => let (ls, ok) := to_wide fuel (skipn k s) in ([c] :: ls, ok) | None => ([], false) end
    end.
  (* wtoa and atow, Conversion.cpp:354-355, on what Buffer() points to (C13) *)
  Definition wtoa (s : list Z) : res (list Z * Z) := convert_direct (linux to_bytes) (s ++ [0]).
  Definition atow (s : list Z) : res (list Z * Z) := convert_direct (linux (fun s => to_wide (length s) s)) (s ++ [0]).
End encoding.
