(* Lists of Ptr whose objects add to the list when they are destroyed: proofs *)
From Coq Require Import Permutation.
From Coq Require Import ZifyBool ZifyNat.
From Verif Require Import Base BaseFacts ReaModel ReaSpec.
Open Scope nat_scope.

Section Proofs.
Variables (V : Type) (adds : V -> list (option V)).
Notation fulls := (map (@Full V)).
Notation remains := (remains V).
Notation add := (add V). Notation add_all := (add_all V).
Notation dec := (dec V adds). Notation destroy := (destroy V adds). Notation dtors := (dtors V adds).
Notation move_down := (move_down V adds). Notation brings := (brings V adds).

Lemma remains_app a b : remains (a ++ b) = remains a ++ remains b.
Proof. unfold ReaModel.remains. apply flat_map_app. Qed.
Lemma remains_fulls l : remains (fulls l) = l.
Proof. induction l as [|o l IH]; [reflexivity|]. cbn [map]. unfold ReaModel.remains in *. cbn [flat_map app]. now rewrite IH. Qed.
Lemma nth_mid {A} (a : list A) x b n : n = length a -> nth_error (a ++ x :: b) n = Some x.
Proof. intros ->. rewrite nth_error_app2, Nat.sub_diag by lia. reflexivity. Qed.
Lemma upd_mid {A} (a : list A) x b n y : n = length a -> upd (a ++ x :: b) n y = a ++ y :: b.
Proof. intros ->. apply upd_app2. Qed.
Lemma contents_fulls l r : contents V (fulls l ++ r) (length l) = Ok l.
Proof. induction l as [|o l IH]; [destruct r; reflexivity|]. cbn [map app length contents]. now rewrite IH. Qed.
Lemma grown n : n + 1 <= (n + 1) * 5 / 4 + 1.
Proof. assert (n + 1 <= (n + 1) * 5 / 4) by (apply Nat.div_le_lower_bound; lia). lia. Qed.

(* ---- additions while there is room ------------------------------------------------------ *)
Lemma add_room g p c rest n k ls o : length p = n -> k = n + S (length rest) ->
  add (mkL g (p ++ c :: rest) n k ls) o = Ok (mkL g (p ++ Full o :: rest) (S n) k (ls ++ remains [c])).
Proof.
  intros P K. unfold ReaModel.add. cbn [count cap cells gen lost].
  replace (k <? n + 1) with false by lia. cbn [bind cells gen count cap lost]. rewrite nth_mid by auto.
  destruct c as [|u|]; unfold put; cbn [cells gen count cap lost]; rewrite upd_mid by auto; rewrite Nat.add_1_r; unfold ReaModel.remains; cbn [flat_map app]; rewrite ?app_nil_r; reflexivity.
Qed.
Lemma add_all_room os : forall g p rest n k ls, length p = n -> k = n + length rest -> length os <= length rest ->
  add_all (mkL g (p ++ rest) n k ls) os =
  Ok (mkL g (p ++ fulls os ++ skipn (length os) rest) (n + length os) k (ls ++ remains (firstn (length os) rest))).
Proof.
  induction os as [|o os IH]; intros g p rest n k ls P K H.
  - cbn [ReaModel.add_all length map app skipn firstn]. rewrite Nat.add_0_r. cbn [ReaModel.remains flat_map]. rewrite app_nil_r. reflexivity.
  - destruct rest as [|c rest]; cbn [length] in H; [lia|]. cbn [ReaModel.add_all]. rewrite add_room by (cbn [length] in K; auto). cbn [bind].
    change (p ++ Full o :: rest) with (p ++ [Full o] ++ rest). rewrite app_assoc.
    rewrite IH by (rewrite ?app_length; cbn [length] in *; lia).
    cbn [length skipn firstn map app]. rewrite <- app_assoc. cbn [app]. rewrite <- app_assoc. rewrite <- remains_app. cbn [app].
    rewrite Nat.add_succ_r. reflexivity.
Qed.
(* and without: the buffer is another one *)
Lemma add_good x o : (exists y, add x o = Ok y /\ gen x <= gen y) \/ add x o = UB.
Proof.
  unfold ReaModel.add, to_buffer. destruct (cap x <? count x + 1); cbn [bind].
  - assert (C : (exists l, contents V (cells x) (count x) = Ok l) \/ contents V (cells x) (count x) = UB).
    { generalize (cells x) (count x). intros cs n. revert cs. induction n as [|n IH]; intros [|[|o'|] cs]; cbn [contents]; eauto.
      destruct (IH cs) as [(l & ->)| ->]; cbn [bind]; eauto. }
    destruct C as [(l & ->)| ->]; cbn [bind]; [|auto]. cbn [cells gen count cap lost].
    destruct (nth_error _ _) as [[|u|]|]; [left..|auto]; eexists; (split; [reflexivity|]); unfold put; cbn [gen]; lia.
  - cbn [cells gen count cap lost]. destruct (nth_error _ _) as [[|u|]|]; [left..|auto]; eexists; (split; [reflexivity|]); unfold put; cbn [gen]; lia.
Qed.
Lemma add_all_good os : forall x, (exists y, add_all x os = Ok y /\ gen x <= gen y) \/ add_all x os = UB.
Proof.
  induction os as [|o os IH]; intros x; cbn [ReaModel.add_all]; [left; eauto|].
  destruct (add_good x o) as [(y & -> & G)| ->]; cbn [bind]; [|auto].
  destruct (IH y) as [(z & -> & G')| ->]; [left|auto]. exists z. split; [reflexivity|lia].
Qed.
Lemma add_full x o : cap x <= count x -> (exists y, add x o = Ok y /\ gen x < gen y) \/ add x o = UB.
Proof.
  intros H. unfold ReaModel.add, to_buffer. replace (cap x <? count x + 1) with true by lia.
  assert (C : (exists l, contents V (cells x) (count x) = Ok l) \/ contents V (cells x) (count x) = UB).
  { generalize (cells x) (count x). intros cs n. revert cs. induction n as [|n IH]; intros [|[|o'|] cs]; cbn [contents]; eauto.
    destruct (IH cs) as [(l & ->)| ->]; cbn [bind]; eauto. }
  destruct C as [(l & ->)| ->]; cbn [bind]; [|auto]. cbn [cells gen count cap lost].
  destruct (nth_error _ _) as [[|u|]|]; [left..|auto]; eexists; (split; [reflexivity|]); unfold put; cbn [gen]; lia.
Qed.
Lemma add_all_full os : forall g p rest n k ls, length p = n -> k = n + length rest -> length rest < length os ->
  (exists y, add_all (mkL g (p ++ rest) n k ls) os = Ok y /\ g < gen y) \/ add_all (mkL g (p ++ rest) n k ls) os = UB.
Proof.
  induction os as [|o os IH]; intros g p rest n k ls P K H; cbn [length] in H; [lia|]. cbn [ReaModel.add_all].
  destruct rest as [|c rest].
  - cbn [length] in K. destruct (add_full (mkL g (p ++ []) n k ls) o) as [(y & -> & G)| ->]; [cbn [count cap]; lia| |auto].
    cbn [bind]. cbn [gen] in G. destruct (add_all_good os y) as [(z & -> & G')| ->]; [left|auto]. exists z. split; [reflexivity|lia].
  - rewrite add_room by (cbn [length] in K; auto). cbn [bind].
    change (p ++ Full o :: rest) with (p ++ [Full o] ++ rest). rewrite app_assoc.
    apply IH; rewrite ?app_length; cbn [length] in *; lia.
Qed.
Lemma too_many g p rest n k ls os (f : lst V -> res (lst V)) : length p = n -> k = n + length rest -> length rest < length os ->
  (do y <- add_all (mkL g (p ++ rest) n k ls) os; if gen y =? g then f y else UB) = UB.
Proof.
  intros P K H. destruct (add_all_full os g p rest n k ls P K H) as [(y & -> & G)| ->]; cbn [bind]; [|reflexivity].
  replace (gen y =? g) with false by lia. reflexivity.
Qed.

(* ---- giving up one pointer -------------------------------------------------------------- *)
Lemma dec_one g a o b n k ls rest : n = length a + S (length b) -> k = n + length rest ->
  dec (mkL g (a ++ Full o :: b ++ rest) n k ls) g (length a) =
  if length (brings o) <=? length rest
  then Ok (mkL g (a ++ Full None :: b ++ fulls (brings o) ++ skipn (length (brings o)) rest) (n + length (brings o)) k
               (ls ++ remains (firstn (length (brings o)) rest)))
  else UB.
Proof.
  intros N K. unfold ReaModel.dec. cbn [gen cells]. rewrite Nat.eqb_refl, nth_mid by reflexivity.
  destruct o as [v|].
  - cbn [ReaSpec.brings]. unfold put. cbn [gen cells count cap lost]. rewrite upd_mid by reflexivity.
    change (a ++ Dying :: b ++ rest) with (a ++ (Dying :: b) ++ rest). rewrite app_assoc.
    destruct (length (adds v) <=? length rest) eqn:Q.
    + rewrite add_all_room by (rewrite ?app_length; cbn [length]; lia). cbn [bind gen]. rewrite Nat.eqb_refl. cbn [cells count cap lost].
      rewrite <- app_assoc. cbn [app]. rewrite upd_mid by reflexivity. reflexivity.
    + apply too_many; rewrite ?app_length; cbn [length]; lia.
  - cbn [ReaSpec.brings length map app skipn firstn]. replace (0 <=? length rest) with true by lia. rewrite Nat.add_0_r.
    cbn [ReaModel.remains flat_map]. now rewrite app_nil_r.
Qed.
Lemma nulls_down l : forall g a b n k ls,
  move_down (mkL g (a ++ Full None :: fulls l ++ b) n k ls) g (length a) (length a + 1) (length l) =
  Ok (mkL g (a ++ fulls l ++ Full None :: b) n k ls).
Proof.
  induction l as [|o l IH]; intros g a b n k ls; cbn [length ReaModel.move_down map app]; [reflexivity|].
  unfold move_assign, ReaModel.dec. cbn [gen cells]. rewrite Nat.eqb_refl, nth_mid by reflexivity. cbn [bind cells].
  assert (N : nth_error (a ++ Full None :: Full o :: fulls l ++ b) (length a + 1) = Some (Full o)).
  { change (a ++ Full None :: Full o :: fulls l ++ b) with (a ++ [Full None] ++ Full o :: fulls l ++ b). rewrite app_assoc. apply nth_mid. rewrite app_length. reflexivity. }
  rewrite N. unfold put. cbn [bind gen cells count cap lost]. rewrite upd_mid by reflexivity.
  change (a ++ Full o :: Full o :: fulls l ++ b) with (a ++ [Full o] ++ Full o :: fulls l ++ b). rewrite app_assoc.
  rewrite upd_mid by (rewrite app_length; reflexivity).
  specialize (IH g (a ++ [Full o]) b n k ls). rewrite app_length in IH. cbn [length] in IH.
  replace (S (length a)) with (length a + 1) by lia. replace (S (length a + 1)) with (length a + 1 + 1) by lia. rewrite IH.
  rewrite <- app_assoc. reflexivity.
Qed.
Lemma down g a o l b n k ls y : dec (mkL g (a ++ Full o :: fulls l ++ b) n k ls) g (length a) = y ->
  (forall z, y = Ok z -> gen z = g /\ nth_error (cells z) (length a) = Some (Full None)) -> l <> [] ->
  move_down (mkL g (a ++ Full o :: fulls l ++ b) n k ls) g (length a) (length a + 1) (length l) =
  do z <- y; move_down z g (length a) (length a + 1) (length l).
Proof.
  intros D Z NE. destruct l as [|u l]; [congruence|]. cbn [length ReaModel.move_down]. unfold move_assign at 1. rewrite D.
  destruct y as [z| | |]; cbn [bind]; try reflexivity. destruct (Z z eq_refl) as (G & N).
  unfold move_assign. unfold ReaModel.dec. rewrite G, Nat.eqb_refl, N. cbn [bind]. reflexivity.
Qed.
Lemma destroy_one g a o rest n k ls :
  destroy (mkL g (a ++ Full o :: rest) n k ls) g (length a) =
  match brings o with
  | [] => Ok (mkL g (a ++ Raw :: rest) n k ls)
  | os => match add_all (mkL g (a ++ Dying :: rest) n k ls) os with
          | Ok y => if gen y =? g then
                      match nth_error (cells y) (length a) with
                      | Some (Full u) => Ok (mkL (gen y) (upd (cells y) (length a) (Full None)) (count y) (cap y) (lost y ++ [u]))
                      | _ => Ok (put V y (length a) Raw)
                      end
                    else UB
          | r => r
          end
  end.
Proof.
  unfold ReaModel.destroy. cbn [gen cells]. rewrite Nat.eqb_refl, nth_mid by reflexivity.
  destruct o as [v|]; cbn [ReaSpec.brings]; unfold put at 1; cbn [gen cells count cap lost]; rewrite upd_mid by reflexivity.
  - destruct (adds v) as [|b r]; [|reflexivity]. cbn [ReaModel.add_all bind gen cells]. rewrite Nat.eqb_refl, nth_mid by reflexivity.
    unfold put. cbn [gen cells count cap lost]. rewrite upd_mid by reflexivity. reflexivity.
  - reflexivity.
Qed.
End Proofs.
