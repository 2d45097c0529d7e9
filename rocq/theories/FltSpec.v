(* Doubles and decimal texts. *)
From Verif Require Import Base NumSpec FltModel.
Open Scope Z_scope.

(* the magnitudes, in units of 2^-1074, that a double can hold *)
Definition magnitude (v : Z) : Prop := exists m e, 0 <= m < 2 ^ 53 /\ 0 <= e <= 2045 /\ v = m * 2 ^ e.
Definition largest : Z := (2 ^ 53 - 1) * 2 ^ 2045.
Definition is_double (x : double) : Prop := match x with Fin _ v => magnitude v | _ => True end.

(* t is the shortest decimal form of n millionths, n >= 0, with a sign: no superfluous zeros on either end, no point
   without digits after it *)
Definition decimal (t : list Z) (neg : bool) (n : Z) : Prop :=
  exists ip f, plain ip /\ Forall digit f /\ (length f <= 6)%nat /\ (forall g, f <> g ++ [48]) /\
    t = (if neg then [45] else []) ++ ip ++ match f with [] => [] | _ => 46 :: f end /\
    n = value ip * 10 ^ 6 + value f * 10 ^ (6 - zlen f).
(* n millionths is as close to v units as any multiple of a millionth: the distance is at most half a millionth *)
Definition closest (n v : Z) : Prop := 2 * Z.abs (n * unit - v * 10 ^ 6) <= unit.
(* what the C standard says about reading these forms: everything is consumed, the sign is kept and the result is as close
   as doubles allow *)
Definition reads_decimals (strtod : list Z -> double * Z) : Prop :=
  forall t neg n, decimal t neg n -> n * unit <= largest * 10 ^ 6 ->
    exists v, strtod t = (Fin neg v, zlen t) /\ magnitude v /\
      forall w, magnitude w -> Z.abs (n * unit - v * 10 ^ 6) <= Z.abs (n * unit - w * 10 ^ 6).
Definition reads_infinity (strtod : list Z -> double * Z) : Prop :=
  strtod [105; 110; 102] = (Inf false, 3) /\ strtod [45; 105; 110; 102] = (Inf true, 4).
(* v is the only double closest to n millionths *)
Definition only_closest (n v : Z) : Prop :=
  0 <= n /\ forall w, magnitude w -> w <> v -> Z.abs (n * unit - v * 10 ^ 6) < Z.abs (n * unit - w * 10 ^ 6).
(* x is what one gets by writing a number with at most six digits after the point *)
Definition writable (x : double) : Prop :=
  match x with Fin _ v => exists n, only_closest n v | Inf _ => True | Nan _ => False end.
