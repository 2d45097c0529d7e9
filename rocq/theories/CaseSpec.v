From Verif Require Import Base.
Open Scope Z_scope.

Definition lower_letter (c : Z) : Z := if (65 <=? c) && (c <=? 90) then c + 32 else c.
Definition upper_letter (c : Z) : Z := if (97 <=? c) && (c <=? 122) then c - 32 else c.

(* the C library in the "C" locale, on every value of a signed char *)
Definition narrow_conv (letter conv : Z -> Z) : Prop := forall c, -128 <= c < 128 -> conv c = letter c.
(* on ASCII only: nothing is assumed about other characters or other locales *)
Definition ascii_conv (letter conv : Z -> Z) : Prop := forall c, 0 <= c < 128 -> conv c = letter c.
