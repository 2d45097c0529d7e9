(* Facts about bounds-checked access, shared by all proof files *)
From Coq Require Import ZifyBool ZifyNat.
From Verif Require Import Base.

Lemma znth_nat {A} (l : list A) (i : nat) : znth l (Z.of_nat i) = nth_error l i.
Proof.
  unfold znth. replace (Z.of_nat i <? 0)%Z with false by lia. now rewrite Nat2Z.id.
Qed.

Lemma znth_z {A} (l : list A) (i : Z) : (0 <= i)%Z -> znth l i = nth_error l (Z.to_nat i).
Proof. intros H. unfold znth. replace (i <? 0)%Z with false by lia. reflexivity. Qed.

Lemma upd_length {A} (l : list A) n x : length (upd l n x) = length l.
Proof. revert n; induction l as [|y l IH]; intros [|n]; cbn; auto. Qed.

Lemma upd_same {A} (l : list A) n x : n < length l -> nth_error (upd l n x) n = Some x.
Proof. revert n; induction l as [|y l IH]; intros [|n]; cbn; intros H; try lia; auto. apply IH. lia. Qed.

Lemma upd_other {A} (l : list A) n m x : n <> m -> nth_error (upd l n x) m = nth_error l m.
Proof.
  revert n m; induction l as [|y l IH]; intros [|n] [|m] H; cbn; auto; try lia.
Qed.

Lemma upd_app2 {A} (l : list A) y r x : upd (l ++ y :: r) (length l) x = l ++ x :: r.
Proof. induction l as [|z l IH]; cbn; congruence. Qed.

Lemma nth_error_ext {A} (l1 l2 : list A) :
  (forall i, nth_error l1 i = nth_error l2 i) -> l1 = l2.
Proof.
  revert l2; induction l1 as [|x l1 IH]; intros [|y l2] H; auto.
  - specialize (H 0); discriminate.
  - specialize (H 0); discriminate.
  - f_equal; [specialize (H 0); cbn in H; congruence|]. apply IH. intros i. apply (H (S i)).
Qed.

Lemma aget_nat {A} (l : list A) (i : nat) x :
  nth_error l i = Some x -> aget l (Z.of_nat i) = Ok x.
Proof. intros H. unfold aget. now rewrite znth_nat, H. Qed.

Lemma aset_nat {A} (l : list A) (i : nat) x :
  i < length l -> aset l (Z.of_nat i) x = Ok (upd l i x).
Proof.
  intros H. unfold aset, zlen.
  replace ((0 <=? Z.of_nat i) && (Z.of_nat i <? Z.of_nat (length l)))%Z with true by lia.
  now rewrite Nat2Z.id.
Qed.

Lemma bind_ok {A B} (m : res A) (f : A -> res B) b :
  bind m f = Ok b -> exists a, m = Ok a /\ f a = Ok b.
Proof. destruct m; cbn; intros H; try discriminate. eauto. Qed.

Lemma nth_error_firstn {A} (l : list A) n i :
  nth_error (firstn n l) i = if Nat.ltb i n then nth_error l i else None.
Proof.
  revert n i; induction l as [|x l IH]; intros [|n] [|i]; cbn [firstn nth_error]; auto.
  - destruct (Nat.ltb _ _); reflexivity.
  - rewrite IH. reflexivity.
Qed.

Lemma nth_error_skipn {A} (l : list A) n i : nth_error (skipn n l) i = nth_error l (n + i).
Proof. revert n i; induction l as [|x l IH]; intros [|n] i; cbn; auto. now destruct i. Qed.

Lemma zlen_nonneg {A} (l : list A) : (0 <= zlen l)%Z.
Proof. unfold zlen. lia. Qed.
Lemma zlen_app {A} (a b : list A) : zlen (a ++ b) = (zlen a + zlen b)%Z.
Proof. unfold zlen. rewrite app_length. lia. Qed.
Lemma zlen_cons {A} (x : A) l : zlen (x :: l) = (1 + zlen l)%Z.
Proof. unfold zlen. cbn [length]. lia. Qed.
Lemma zlen_nil {A} : zlen (@nil A) = 0%Z.
Proof. reflexivity. Qed.
Lemma zlen_map {A B} (f : A -> B) l : zlen (map f l) = zlen l.
Proof. unfold zlen. now rewrite map_length. Qed.
Lemma zlen_repeat {A} (x : A) n : zlen (repeat x n) = Z.of_nat n.
Proof. unfold zlen. now rewrite repeat_length. Qed.
Lemma zlen_to_nat {A} (l : list A) : Z.to_nat (zlen l) = length l.
Proof. unfold zlen. lia. Qed.
Lemma nth_error_lt {A} (l : list A) n x : nth_error l n = Some x -> n < length l.
Proof. intros H. apply nth_error_Some. congruence. Qed.
Lemma aget_app {A} (a : list A) x b i : i = zlen a -> aget (a ++ x :: b) i = Ok x.
Proof.
  intros ->. unfold zlen. apply aget_nat. rewrite nth_error_app2 by lia.
  now rewrite Nat.sub_diag.
Qed.
Lemma aset_app {A} (a : list A) x b i y : i = zlen a -> aset (a ++ x :: b) i y = Ok (a ++ y :: b).
Proof.
  intros ->. unfold zlen. rewrite aset_nat by (rewrite app_length; cbn; lia). now rewrite upd_app2.
Qed.
Lemma zsplit {A} (l : list A) i : (0 <= i <= zlen l)%Z ->
  exists a b, l = a ++ b /\ zlen a = i /\ a = firstn (Z.to_nat i) l /\ b = skipn (Z.to_nat i) l.
Proof.
  intros H. exists (firstn (Z.to_nat i) l), (skipn (Z.to_nat i) l).
  repeat split; try (now rewrite firstn_skipn). unfold zlen in *. rewrite firstn_length. lia.
Qed.
Lemma zsplit1 {A} (l : list A) i : (0 <= i < zlen l)%Z ->
  exists a x b, l = a ++ x :: b /\ zlen a = i /\ znth l i = Some x /\
    a = firstn (Z.to_nat i) l /\ b = skipn (Z.to_nat (i + 1)) l.
Proof.
  intros H. destruct (zsplit l i) as (a & b & E & L & Ha & Hb); [lia|].
  destruct b as [|x b].
  - rewrite app_nil_r in E. rewrite E in H. lia.
  - exists a, x, b. split; [exact E|split; [exact L|split; [|split; [exact Ha|]]]].
    + rewrite E, znth_z by lia. unfold zlen in L. rewrite nth_error_app2 by lia.
      replace (Z.to_nat i - length a)%nat with 0%nat by lia. reflexivity.
    + rewrite E. unfold zlen in L. rewrite skipn_app, skipn_all2 by lia.
      replace (Z.to_nat (i + 1) - length a)%nat with 1%nat by lia. reflexivity.
Qed.
Lemma skipn_skipn {A} (l : list A) n m : skipn n (skipn m l) = skipn (m + n) l.
Proof. apply nth_error_ext. intros i. rewrite !nth_error_skipn. f_equal. lia. Qed.
