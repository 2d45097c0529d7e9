From Verif Require Import Base BaseFacts LstModel LstSpec LstProofs SrtModel SrtSpec SrtProofs DctModel DctSpec DctProofs AnyModel AnySpec AnyProofs AnyProofs2 LeqModel LeqProofs AngModel AngSpec AngProofs.
Open Scope Z_scope.

Section Fixed.
  Context (A V : Type) (c : A -> A -> option comparison) (veq : V -> V -> bool).
  Notation cmp := (fixed_cmp c). Notation less := (fixed_less c).

  Lemma aadd_found x a p st r : index_of_internal A c x a = Ok p -> aadd A unit cmp less x a tt = Ok (st, r) -> r <> None.
  Proof.
    intros I. unfold aadd. rewrite ainternal_fixed, I. destruct p as [i oi]. cbn [lift bind]. destruct (count x =? 0).
    - destruct (s_insert A x 0 a); cbn [bind]; intros Q; try discriminate. injection Q as <- <-. discriminate.
    - destruct ((oi >=? 0) && (oi <? count x)); [|discriminate]. destruct (read A (buf x) oi) as [b| | |]; cbn [bind]; try discriminate.
      unfold fixed_less. cbv zeta. destruct (s_insert A x _ a); cbn [bind]; intros Q; try discriminate. injection Q as <- <-. discriminate.
  Qed.
  Lemma append_fixed g p v st q s r : append A V unit g p v st = Ok (q, s, r) ->
    (do x <- late (deref A V g p); do x <- late (insert V x (count x) v); Ok (setcell A V g p (Some x))) = Ok q /\ r = OBool true.
  Proof.
    unfold append. destruct (late (deref A V g p)) as [x| | |]; cbn [bind]; try discriminate. destruct (late (insert V x (count x) v)); cbn [bind]; intros Q; try discriminate.
    now injection Q as <- <- <-.
  Qed.
  Lemma agstep_fixed g o q st r : agstep A V unit cmp less (fixed_eq veq) g tt o = Ok (q, st, r) -> g_step A V c veq g o = Ok (q, r).
  Proof.
    unfold g_step. destruct o as [k v|k|k v| |k|k v| |i|k|k j]; cbn [agstep g_step_raw];
      unfold g_add, g_remove, g_remove_value, g_get, g_contains_value, s_index_of, at_index; try rewrite ainternal_fixed.
    - destruct (index_of_internal A c (gkeys g) k) as [[r0 oi]| | |] eqn:I; cbn [bind lift]; intros Q; try discriminate; [|now injection Q as <- <- <-].
      cbv zeta in *. cbn [gkeys gvals gheap] in Q. destruct (r0 =? -1).
      + destruct (aadd A unit cmp less (gkeys g) k tt) as [[st' p]| | |] eqn:E; cbn [bind] in Q; try discriminate.
        rewrite (aadd_fixed _ _ _ _ _ _ E). pose proof (aadd_found _ _ _ _ _ I E) as N. destruct p as [[ks jj]|]; [|congruence]. cbn [bind] in *.
        destruct (late (insert nat (gvals g) jj (length (gheap g)))) as [vs| | |]; cbn [bind] in *; try discriminate.
        destruct (append_fixed _ _ _ _ _ _ _ Q) as (E' & ->). rewrite E'. reflexivity.
      + destruct (late (get nat (gvals g) r0)) as [p| | |] eqn:E; cbn [bind] in Q; try discriminate. rewrite (late_inv _ _ E). cbn [bind].
        destruct (append_fixed _ _ _ _ _ _ _ Q) as (E' & ->). rewrite E'. reflexivity.
    - destruct (index_of_internal A c (gkeys g) k) as [[r0 oi]| | |] eqn:I; cbn [bind lift]; intros Q; try discriminate; [|now injection Q as <- <- <-].
      destruct (negb (r0 =? -1)); [|now injection Q as <- <- <-].
      destruct (late (remove_at A (gkeys g) r0)) as [ks| | |] eqn:E1; cbn [bind] in *; try discriminate. rewrite (late_inv _ _ E1). cbn [bind].
      destruct (late (get nat (gvals g) r0)) as [p| | |]; cbn [bind] in *; try discriminate.
      destruct (late (remove_at nat (gvals g) r0)) as [vs| | |]; cbn [bind] in *; try discriminate.
      destruct (late (delete A V (mkGroup ks vs (gheap g)) p)); cbn [bind] in *; try discriminate. now injection Q as <- <- <-.
    - destruct (index_of_internal A c (gkeys g) k) as [[r0 oi]| | |] eqn:I; cbn [bind lift]; intros Q; try discriminate; [|now injection Q as <- <- <-].
      destruct (negb (r0 =? -1)); [|now injection Q as <- <- <-].
      destruct (late (get nat (gvals g) r0)) as [p| | |] eqn:E1; cbn [bind] in *; try discriminate. rewrite (late_inv _ _ E1). cbn [bind].
      destruct (late (deref A V g p)) as [x| | |] eqn:E2; cbn [bind] in *; try discriminate. rewrite (late_inv _ _ E2). cbn [bind].
      rewrite equality_agrees in Q. unfold remove. destruct (index_of V veq x v) as [j| | |]; cbn [bind late] in *; try discriminate.
      assert (R : exists y b, (if (j >=? 0) && (j <? count x) then do x <- remove_at V x j; Ok (x, true) else Ok (x, false)) = Ok (y, b) /\
        late (if (j >=? 0) && (j <? count x) then remove_at V x j else Ok x) = Ok y).
      { destruct ((j >=? 0) && (j <? count x)); [|exists x, false; auto]. destruct (remove_at V x j) as [y| | |]; cbn [bind late] in *; try discriminate. exists y, true. auto. }
      destruct R as (y & b & R1 & R2). rewrite R1. rewrite R2 in Q. cbn [bind] in *. cbv zeta in *.
      destruct (count y =? 0); [|now injection Q as <- <- <-]. cbn [gkeys gvals gheap setcell] in *.
      destruct (late (remove_at A (gkeys g) r0)) as [ks| | |]; cbn [bind] in *; try discriminate.
      destruct (late (remove_at nat (gvals g) r0)) as [vs| | |]; cbn [bind] in *; try discriminate.
      destruct (late (delete A V _ p)); cbn [bind] in *; try discriminate. now injection Q as <- <- <-.
    - destruct (late (g_clear A V g)) eqn:E; cbn [bind]; intros Q; try discriminate. rewrite (late_inv _ _ E). cbn [bind]. now injection Q as <- <- <-.
    - destruct (index_of_internal A c (gkeys g) k) as [[r0 oi]| | |]; cbn [bind lift]; intros Q; try discriminate; now injection Q as <- <- <-.
    - destruct (index_of_internal A c (gkeys g) k) as [[r0 oi]| | |]; cbn [bind lift]; intros Q; try discriminate; [|now injection Q as <- <- <-].
      destruct (negb (r0 =? -1)); [|now injection Q as <- <- <-]. destruct (g_by_index A V g r0) as [x| | |]; cbn [bind] in *; try discriminate; [|now injection Q as <- <- <-].
      rewrite equality_agrees in Q. destruct (index_of V veq x v) as [j| | |]; cbn [bind late] in *; try discriminate. now injection Q as <- <- <-.
    - intros Q. now injection Q as <- <- <-.
    - destruct (get A (gkeys g) i); cbn [bind]; intros Q; try discriminate; now injection Q as <- <- <-.
    - destruct (index_of_internal A c (gkeys g) k) as [[r0 oi]| | |]; cbn [bind lift]; intros Q; try discriminate; [|now injection Q as <- <- <-].
      destruct (g_by_index A V g r0) as [x| | |]; cbn [bind] in *; try discriminate; now injection Q as <- <- <-.
    - destruct (index_of_internal A c (gkeys g) k) as [[r0 oi]| | |]; cbn [bind lift]; intros Q; try discriminate; [|now injection Q as <- <- <-].
      destruct (g_by_index A V g r0) as [x| | |]; cbn [bind] in *; try discriminate; [|now injection Q as <- <- <-].
      destruct (get V x j); cbn [bind] in *; try discriminate; now injection Q as <- <- <-.
  Qed.
  Lemma agrun_fixed os : forall g q st rs, agrun A V unit cmp less (fixed_eq veq) g tt os = Ok (q, st, rs) -> g_run A V c veq g os = Ok (q, rs).
  Proof.
    induction os as [|o os IH]; intros d q st rs; cbn [agrun g_run]; [intros Q; now injection Q as <- <- <-|].
    destruct (agstep A V unit cmp less (fixed_eq veq) d tt o) as [[[x1 []] r]| | |] eqn:E; cbn [bind]; intros Q; try discriminate. rewrite (agstep_fixed _ _ _ _ _ E). cbn [bind].
    destruct (agrun A V unit cmp less (fixed_eq veq) x1 tt os) as [[[x2 st2] rs2]| | |] eqn:E2; cbn [bind] in Q; try discriminate. injection Q as <- <- <-.
    now rewrite (IH _ _ _ _ E2).
  Qed.
End Fixed.
Lemma group_agrees : forall (A V : Type) c veq os,
  exists g rs, agrun A V unit (fixed_cmp c) (fixed_less c) (fixed_eq veq) empty_group tt os = Ok (g, tt, rs) /\ g_run A V c veq empty_group os = Ok (g, rs).
Proof.
  intros A V c veq os. destruct (any_group_ok A V unit (fixed_cmp c) (fixed_less c) (fixed_eq veq) tt os) as (g & [] & rs & m & qs & h & E & _). exists g, rs. split; [exact E|].
  eapply agrun_fixed, E.
Qed.
(* nothing is lost when comparing cannot fail *)
Lemma any_group_whole : forall (A V St : Type) cmp less veq, (forall b k, ~ can_fail A St cmp less b k) -> forall st os,
  exists g st' rs h, agrun A V St cmp less veq empty_group st os = Ok (g, st', rs) /\ agdestroy A V g = Ok h /\ forall p x, nth_error h p <> Some (Some x).
Proof.
  intros A V St cmp less veq N st os. destruct (any_group_ok A V St cmp less veq st os) as (g & st' & rs & m & qs & h & E & _ & R & D & (_ & Al)).
  exists g, st', rs, h. split; [exact E|]. split; [exact D|]. intros p x Ex. apply (no_fail_no_loss A V St cmp less veq N) in R. destruct qs; [|discriminate].
  apply (proj2 (Al p)). eauto.
Qed.
Lemma group_loses : exists os st' rs g h x,
  agrun Z Z nat once_cmp once_less once_eq empty_group 0%nat os = Ok (g, st', rs) /\
  agdestroy Z Z g = Ok h /\ nth_error h 1 = Some (Some x).
Proof. exists [GAdd 1 10; GAdd 2 20]. do 5 eexists. split; [reflexivity|]. split; reflexivity. Qed.
Lemma group_case : exists g,
  agrun Z Z nat once_cmp once_less once_eq empty_group 0%nat [GAdd 1 10; GAdd 2 20; GAdd 2 21; GCount; GAdd 1 11; GValueAt 1 1; GRemoveValue 2 21; GRemoveValue 2 21; GCount]
  = Ok (g, 13%nat, [OBool true; OError; OBool true; OInt 2; OBool true; OVal 11; OError; OBool true; OInt 1]) /\
  holds Z Z g [(1, [10; 11])] [1%nat].
Proof.
  exists (mkGroup (mkLst [Live 1; Raw] 1 2 0) (mkLst [Live 0%nat; Raw] 1 2 0) [Some (mkLst [Live 10; Live 11] 2 2 0); Some empty_lst; None]).
  split; [reflexivity|]. exists [0%nat]. cbn [gkeys gvals gheap map fst app].
  split; [split; [reflexivity|]; split; [reflexivity|]; exists 1%nat; reflexivity|]. split; [split; [reflexivity|]; split; [reflexivity|]; exists 1%nat; reflexivity|].
  split; [constructor; [|constructor]; eexists; split; [reflexivity|]; split; [reflexivity|]; split; [reflexivity|]; exists 0%nat; reflexivity|].
  split; [|split; [repeat constructor|repeat constructor; discriminate]].
  split; [repeat constructor; cbn; intuition discriminate|]. intros [|[|[|p]]]; cbn [In nth_error]; split.
  all: try (intros _; eexists; reflexivity). all: try (intros [E|[E|[]]]; discriminate). all: try (intros (x & E); discriminate E). all: auto.
  intros (x & E). destruct p; discriminate E.
Qed.
