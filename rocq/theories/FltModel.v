(* Floating point numbers to text and back: Source/Strings/String.cpp, Linux build.
   A finite double is a sign and a magnitude in units of 2^-1074.  sprintf("%f") is modelled exactly (correctly rounded, ties
   to even); strtod is an oracle.  [pt] is the decimal point of the current locale: '.' unless the program calls setlocale. *)
From Verif Require Import Base NumModel MbModel.
Open Scope Z_scope.

Inductive double := Fin (neg : bool) (v : Z) | Inf (neg : bool) | Nan (neg : bool).
Definition unit : Z := 2 ^ 1074.
(* the nearest integer to a / b, ties to even *)
Definition round_even (a b : Z) : Z :=
  let q := a / b in let r := a mod b in
  if 2 * r <? b then q else if b <? 2 * r then q + 1 else if Z.even q then q else q + 1.
(* k decimal digits *)
Fixpoint fixed (k : nat) (r : Z) : list Z := match k with O => [] | S k => fixed k (r / 10) ++ [48 + r mod 10] end.
(* sprintf("%f"): the characters.  A double has at most 309 digits before the point. *)
Definition percent_f (pt : Z) (x : double) : list Z :=
  let sign (neg : bool) := if neg then [45] else [] in
  match x with
  | Fin neg v => let n := round_even (v * 10 ^ 6) unit in sign neg ++ udigits 309 (n / 10 ^ 6) ++ [pt] ++ fixed 6 (n mod 10 ^ 6)
  | Inf neg => sign neg ++ [105; 110; 102]
  | Nan neg => sign neg ++ [110; 97; 110]
  end.

Fixpoint has (c : Z) (s : list Z) : bool := match s with [] => false | d :: s => (d =? c) || has c s end.
(* while (zero[-1] == '0') *--zero = '\0';  String.cpp:76-79 *)
Fixpoint strip (fuel : nat) (b : list Z) (z : Z) : res (list Z * Z) :=
  match fuel with
  | O => NoFuel
  | S fuel => do c <- aget b (z - 1); if c =? 48 then do b <- aset b (z - 1) 0; strip fuel b (z - 1) else Ok (b, z)
  end.
(* _gcvt_s: String.cpp:70-82.  The buffer b may hold anything before. *)
Definition gcvt (pt : Z) (b : list Z) (x : double) : res (list Z) :=
  do b <- put b 0 (percent_f pt x ++ [0]);
  do s <- c_text b;
  if negb (has 46 s) then Ok b else                                            (* strchr(buffer, '.') *)
  do (b, z) <- strip (S (length b)) b (zlen s);
  do c <- aget b (z - 1);
  if c =? 46 then aset b (z - 1) 0 else Ok b.
(* ftoa: String.cpp:335-345; b is the uninitialised array of 320 *)
Definition ftoa (pt : Z) (b : list Z) (x : double) : res (list Z) :=
  do b <- gcvt pt b x;
  do s <- c_text b;
  do c <- aget b (zlen s - 1);
  do b <- (if c =? 46 then aset b (zlen s - 1) 0 else Ok b);
  c_text b.
(* ftow: String.cpp:347-350; the characters of the result of atow *)
Definition ftow (dec : list Z -> option (Z * nat)) (pt : Z) (b : list Z) (x : double) : res (list Z) :=
  do s <- ftoa pt b x; do (mem, len) <- atow dec s; Ok (firstn (Z.to_nat len) mem).

Section parse.
  (* strtod, wcstod on the text before the first zero: the number and where it ends *)
  Context (strtod : list Z -> double * Z).
  (* atof_test, wtof_test: String.cpp:193-207 *)
  Definition atof_test (s : list Z) : double * bool := let '(r, e) := strtod (c_str s) in (r, e =? zlen s).
  (* atof, wtof: String.cpp:265-277 *)
  Definition atof (s : list Z) : double := let '(r, ok) := atof_test s in if ok then r else Fin false 0.
End parse.
