(* alower, aupper, wlower, wupper: Source/Strings/String.cpp:83-117, 352-378 (Linux and
   macOS).  The C library's tolower/toupper/towlower/towupper are parameters. *)
From Verif Require Import Base StrModel.
Open Scope Z_scope.

(* (char)x : keeps the low 8 bits, as a signed value *)
Definition to_char (x : Z) : Z := (x + 128) mod 256 - 128.

(* _strlwr_s, _strupr_s, _wcslwr_s, _wcsupr_s : String.cpp:83-117.
   for each character up to the first zero: c = (char)conv(c) *)
Fixpoint conv_loop (conv : Z -> Z) (b : list Z) (i : Z) (fuel : nat) : res (list Z) :=
  match fuel with
  | O => NoFuel
  | S fuel' =>
      do c <- aget b i;
      if c =? 0 then Ok b else
      do b <- aset b i (to_char (conv c));
      conv_loop conv b (i + 1) fuel'
  end.

(* alower and the others : String.cpp:352-378.  The argument is the content of the source
   string, whose Buffer() is zero terminated (C12).  ObjectString(const T* ) copies up to
   and including the first zero into a buffer of its own (String.h:183-192), the loop then
   rewrites that copy.  Result: the content of the returned string. *)
Definition convert (conv : Z -> Z) (content : list Z) : res (list Z) :=
  let mem := content ++ [0] in
  do n <- calc_length mem;
  let copy := firstn (Z.to_nat (n + 1)) mem in
  do copy <- conv_loop conv copy 0 (length copy);
  Ok (firstn (Z.to_nat n) copy).
