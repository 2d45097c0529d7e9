(* C75: lists and arrays when malloc fails or the requested size overflows. *)
From Verif Require Import Base LstModel LstSpec LstProps LmModel LmSpec LmProofs.
Open Scope Z_scope.

(* In any program, with any choice of the statements during which malloc fails: either the
   program runs into undefined behaviour, or every statement returns what it returns with
   unlimited memory and the lists hold the same elements.  No wrong answer, no lost element,
   no exception. *)
Theorem C75_never_wrong_partial :
  forall (A : Type) (eqb : A -> A -> bool) (n : nat) (p : list (op A * bool)) (t : seqs A) (ys : list (out A)),
    srun A eqb (repeat None n) (map fst p) = Ok (t, ys) ->
    m_run A eqb (repeat None n) p = UB \/
    exists s, m_run A eqb (repeat None n) p = Ok (s, ys) /\ all_hold A s t.
Proof. exact never_wrong. Qed.
Print Assumptions C75_never_wrong_partial.

(* While malloc never fails the program behaves as in C15 *)
Theorem C75_enough_memory :
  forall (A : Type) (eqb : A -> A -> bool) (n : nat) (os : list (op A)) (t : seqs A) (ys : list (out A)),
    srun A eqb (repeat None n) os = Ok (t, ys) ->
    exists s, m_run A eqb (repeat None n) (map (fun o => (o, false)) os) = Ok (s, ys) /\ shows A s t.
Proof. exact enough. Qed.
Print Assumptions C75_enough_memory.

(* Insertion without memory: undefined exactly when the buffer is full *)
Theorem C75_insertion_refuted :
  forall (A : Type) (x : lst A) (l : list A) (i : Z) (a : A),
    lst_shows A x l -> 0 <= i <= zlen l ->
    (zlen l = cap x -> m_insert A true x i a = UB) /\
    (zlen l < cap x -> m_insert A true x i a = insert A x i a).
Proof. exact (fun A => insert_short A (fun _ _ => true)). Qed.
Print Assumptions C75_insertion_refuted.

(* Removal allocates.  Without memory: the same when the buffer does not shrink; undefined when
   it shrinks and elements stay; when the last element goes and the buffer shrinks, the list is
   empty, claims a capacity it does not have, and the next insertion is undefined, whether
   there is memory again or not *)
Theorem C75_removal_refuted :
  forall (A : Type) (x : lst A) (l : list A) (i : Z),
    lst_shows A x l -> 0 <= i < zlen l ->
    (shrinks (cap x) (zlen l - 1) = false -> m_remove_at A true x i = remove_at A x i) /\
    (shrinks (cap x) (zlen l - 1) = true -> 1 < zlen l -> m_remove_at A true x i = UB) /\
    (shrinks (cap x) (zlen l - 1) = true -> zlen l = 1 ->
       exists y, m_remove_at A true x i = Ok y /\ holds A y [] /\ forall bad a, m_insert A bad y 0 a = UB).
Proof. exact (fun A => remove_short A (fun _ _ => true)). Qed.
Print Assumptions C75_removal_refuted.

(* new Array(size) whose size in bytes does not fit 64 bits: there are fewer places than
   elements, for every element size ... *)
Theorem C75_array_places :
  forall sz size : Z, 0 < sz -> 0 <= size ->
    (sz * size < 2 ^ 64 -> slots sz size = size) /\ (2 ^ 64 <= sz * size -> 0 <= slots sz size < size).
Proof. exact (fun sz size H1 H2 => conj (slots_exact sz size H1 H2) (slots_fewer sz size H1 H2)). Qed.
Print Assumptions C75_array_places.

(* ... the constructor succeeds, Count is size, and Set at an index that passes the range
   check writes outside of the buffer exactly when there is no place for it *)
Theorem C75_array_size_refuted :
  forall (A : Type) (sz size i : Z) (a : A), 0 < sz -> 0 <= i < size ->
    exists x, m_array A sz size = Ok x /\ acount x = size /\
      if i <? slots sz size then exists y, a_set A x i a = Ok y else a_set A x i a = UB.
Proof. exact (fun A => array_set A (fun _ _ => true)). Qed.
Print Assumptions C75_array_size_refuted.

(* ---- concrete cases ---- *)
(* two elements are added, one of the two statements without memory needs none *)
Example C75_lucky :
  m_run nat Nat.eqb [None] [(LNew 0, false); (LAdd 0 7%nat, false); (LAdd 0 8%nat, true); (LGet 0 1, true)]
  = Ok ([Some (mkLst [Live 7%nat; Live 8%nat] 2 2 0)], [RNone; RInt 0; RInt 1; RVal 8%nat]).
Proof. reflexivity. Qed.
Example C75_unlucky :
  m_run nat Nat.eqb [None] [(LNew 0, false); (LAdd 0 7%nat, true)] = UB.
Proof. reflexivity. Qed.
(* one element in a buffer for two is removed while malloc fails; Add then crashes *)
Example C75_broken :
  m_run nat Nat.eqb [None] [(LNew 0, false); (LAdd 0 7%nat, false); (LRemoveAt 0 0, true); (LCount 0, false)]
  = Ok ([Some (mkLst [] 0 1 0)], [RNone; RInt 0; RBool true; RInt 0]) /\
  m_run nat Nat.eqb [None] [(LNew 0, false); (LAdd 0 7%nat, false); (LRemoveAt 0 0, true); (LAdd 0 8%nat, false)] = UB.
Proof. split; reflexivity. Qed.
(* an array of 2^61 numbers of eight bytes asks malloc for no byte at all *)
Example C75_wrap : slots 8 (2 ^ 61) = 0 /\ slots 8 1000 = 1000.
Proof. split; reflexivity. Qed.
