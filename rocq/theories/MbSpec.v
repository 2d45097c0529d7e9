(* What conversion through the C library should give. *)
From Verif Require Import Base.
Open Scope Z_scope.

(* the text before the first zero *)
Fixpoint before_zero (s : list Z) : list Z :=
  match s with [] => [] | c :: s => if c =? 0 then [] else c :: before_zero s end.
(* the translated text, or nothing if a character cannot be translated *)
Definition translated (tr : list Z -> list (list Z) * bool) (s : list Z) : list Z :=
  let (ls, ok) := tr (before_zero s) in if ok then concat ls else [].
(* every character has bytes that stand for it wherever they are found, and none of them is zero *)
Definition faithful (enc : Z -> option (list Z)) (dec : list Z -> option (Z * nat)) : Prop :=
  forall c bs, enc c = Some bs -> bs <> [] /\ ~ In 0 bs /\ forall rest, dec (bs ++ rest) = Some (c, length bs).
(* the characters of ls that fit in n units *)
Fixpoint fitting (n : Z) (ls : list (list Z)) : list Z :=
  match ls with [] => [] | l :: ls => if zlen l <=? n then l ++ fitting (n - zlen l) ls else [] end.
(* the bytes s are the characters cs *)
Inductive reads (dec : list Z -> option (Z * nat)) : list Z -> list Z -> Prop :=
| reads_end : reads dec [] []
| reads_char s c k cs : s <> [] -> dec s = Some (c, k) -> reads dec (skipn k s) cs -> reads dec s (c :: cs).
(* a character takes at least one byte *)
Definition progressing (dec : list Z -> option (Z * nat)) : Prop := forall s c k, dec s = Some (c, k) -> (0 < k)%nat.
