(* Canonical decimal numerals *)
From Verif Require Import Base.
Open Scope Z_scope.

Definition digit (c : Z) : Prop := 48 <= c <= 57.
(* value of a digit string, most significant first *)
Definition value (ds : list Z) : Z := fold_left (fun a c => 10 * a + (c - 48)) ds 0.
(* digits without superfluous leading zeros *)
Definition plain (ds : list Z) : Prop :=
  ds <> [] /\ Forall digit ds /\ (forall r, ds = 48 :: r -> r = []).
(* s is the canonical numeral of z: no plus, no blanks, no leading zeros, no "-0" *)
Definition numeral (s : list Z) (z : Z) : Prop :=
  (plain s /\ z = value s) \/ (exists ds, s = 45 :: ds /\ plain ds /\ 0 < value ds /\ z = - value ds).
(* no digit and no minus sign counts as a blank *)
Definition sane (space : Z -> bool) : Prop := space 45 = false /\ forall c, digit c -> space c = false.

(* A parser (value and success flag; value or zero) accepts exactly the canonical numerals
   of the numbers in [lo, hi), with the right value, and returns 0 for everything else. *)
Definition parser_ok (test : list Z -> Z * bool) (plain_result : list Z -> Z) (lo hi : Z) : Prop :=
  forall s,
    (forall z, test s = (z, true) <-> numeral s z /\ lo <= z < hi) /\
    (forall z, numeral s z /\ lo <= z < hi -> plain_result s = z) /\
    ((forall z, ~ (numeral s z /\ lo <= z < hi)) -> plain_result s = 0).
(* what the C functions read: blanks, a sign, digits, and something that is no digit *)
Inductive sign := NoSign | Minus | Plus.
Definition sign_chars (g : sign) : list Z := match g with NoSign => [] | Minus => [45] | Plus => [43] end.
Definition stops (rest : list Z) : Prop := forall c r, rest = c :: r -> ~ digit c.
Definition saturated (g : sign) (v lo hi : Z) : Z := Z.max lo (Z.min hi (match g with Minus => - v | _ => v end)).
