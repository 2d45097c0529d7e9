(* What a program wrote to the console, and the lines of an input *)
From Verif Require Import Base ConModel.
Open Scope Z_scope.

(* The text before the first zero *)
Fixpoint upto_zero (s : list Z) : list Z :=
  match s with [] => [] | c :: s => if c =? 0 then [] else c :: upto_zero s end.

(* The text a call asks to write *)
Definition text (o : con_op) : list Z :=
  match o with
  | WriteN mem n => firstn (Z.to_nat n) mem
  | WriteZ mem => upto_zero mem
  | WriteS s => s
  | WriteLine s => s ++ [13; 10]
  | _ => []
  end.
(* The pointers of a call point to what the call needs *)
Definition valid (o : con_op) : Prop :=
  match o with
  | WriteN mem n => 0 <= n <= zlen mem /\ n < 2 ^ 32
  | WriteZ mem => In 0 mem /\ zlen mem < 2 ^ 32
  | WriteS s => zlen s < 2 ^ 32
  | WriteLine s => zlen s < 2 ^ 32
  | _ => True
  end.
Definition writes (o : con_op) : Prop := match o with Read => False | _ => True end.
(* What SetColor writes on Linux *)
Definition escape (o : con_op) : list Z :=
  match o with
  | SetColor red green blue light =>
      [27; 91; 48; if light then 48 else 49; 59; 51; 48 + (Z.b2z red + 2 * Z.b2z green + 4 * Z.b2z blue); 109]
  | _ => []
  end.
(* What arrives on Linux: every piece is followed by a zero *)
Definition linux_text (o : con_op) : list Z :=
  match o with
  | WriteN _ _ | WriteZ _ | WriteS _ => text o ++ [0]
  | WriteLine s => s ++ [0; 13; 10; 0]
  | _ => escape o
  end.

(* An input: lines, each with its terminator *)
Definition lf (s : list Z) : list Z := s ++ [10].
Definition ended (p : list Z * bool) : list Z := fst p ++ (if snd p then [13; 10] else [10]).

(* The texts a call hands to the operating system one by one *)
Definition pieces (o : con_op) : list (list Z) :=
  match o with
  | WriteLine s => [s; [13; 10]]
  | WriteN _ _ | WriteZ _ | WriteS _ => [text o]
  | _ => []
  end.
(* Zero terminated text: what the Windows version needs for files and pipes *)
Definition terminated (o : con_op) : Prop :=
  Forall (fun x => x <> 0) (text o) /\ match o with WriteN mem n => znth mem n = Some 0 | _ => True end.
