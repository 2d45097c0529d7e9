From Coq Require Export Permutation Sorted.
From Verif Require Import Base SrtSpec.
(* ascending and total_order are those of SrtSpec: le a b is "a does not compare greater
   than b"; total_order allows different elements to compare equal (a total preorder). *)
