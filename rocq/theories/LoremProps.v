From Verif Require Import Base LoremModel LoremSpec LoremProofs.
Open Scope Z_scope.

(* C51: LoremIpsum stays inside its buffer for every requested length and position in the word list; it returns consecutive
   words joined by single blanks; among all texts of at least one word the result is the closest in length to n (the longer
   one of two equally close ones); the next call continues after the words used. *)
Theorem C51_lorem n c i : 0 <= i < 379 -> exists k,
  lorem words n c i = Ok (text words c i k, (i + Z.of_nat k) mod 379) /\
  (n <= 0 -> k = O) /\
  (0 < n -> (0 < k)%nat /\ forall j, (0 < j)%nat ->
     distance words c i n k <= distance words c i n j /\ ((k < j)%nat -> distance words c i n k < distance words c i n j)) /\
  zlen (text words c i k) <= Z.max 12 (n + 6).
Proof. exact (lorem_main n c i). Qed.
Print Assumptions C51_lorem.

Example C51_lorem_demo : lorem words 8 FirstUpper 378 = Ok (text words FirstUpper 378 1, 0) /\
  lorem words 9 AllUpper 378 = Ok (text words AllUpper 378 2, 1) /\ text words AllUpper 378 2 = [84; 111; 114; 116; 111; 114; 32; 76; 111; 114; 101; 109].
Proof. vm_compute. repeat split; reflexivity. Qed.

(* C51: a title has every word capitalised, a sentence the first, and a full stop at the end *)
Theorem C51_title n i : 0 <= i < 379 -> exists k,
  title words n i = Ok (text words AllUpper i k, (i + Z.of_nat k) mod 379) /\ lorem words n AllUpper i = title words n i.
Proof. exact (title_main n i). Qed.
Print Assumptions C51_title.
Theorem C51_sentence n i : 0 <= i < 379 -> exists k,
  sentence words n i = Ok (text words FirstUpper i k ++ [46], (i + Z.of_nat k) mod 379) /\
  lorem words n FirstUpper i = Ok (text words FirstUpper i k, (i + Z.of_nat k) mod 379).
Proof. exact (sentence_main n i). Qed.
Print Assumptions C51_sentence.

(* C51: for every sequence of random numbers a paragraph ends, consists of clauses of consecutive words, and is at most 10
   characters shorter and 12 characters longer than asked for. *)
Theorem C51_paragraph rand best i : 0 <= i < 379 -> (forall r, 0 <= rand r) -> exists t j,
  paragraph words rand best i = Ok (t, j mod 379) /\ clauses words FirstUpper i t j /\
  (best <= 0 -> t = []) /\ (0 < best -> best - 10 <= zlen t <= best + 12).
Proof. exact (paragraph_main rand best i). Qed.
Print Assumptions C51_paragraph.

(* C51: a paragraph may break off after a comma and a blank. *)
Theorem C51_paragraph_ends_refuted : exists t,
  paragraph words (fun r => match r with O => 1 | _ => 6 end) 22 0 = Ok (t ++ [44; 32], 4).
Proof. exact paragraph_breaks_off. Qed.
Print Assumptions C51_paragraph_ends_refuted.

(* C51: without "at least one word" the closeness fails: asked for one character the function returns five, not none. *)
Theorem C51_closest_refuted : exists t, lorem words 1 AllLower 0 = Ok (t, 1) /\ zlen t = 5.
Proof. exact lorem_empty_closer. Qed.
Print Assumptions C51_closest_refuted.
