(* What exceptions of the elements leave behind, on plain sequences. *)
From Verif Require Import Base LstModel LstSpec SrtModel DctModel ExcModel.
Open Scope Z_scope.

Section Spec.
  Variable A : Type.
  Variable eqb : A -> A -> bool.
  Variable dflt : option A.

  (* the number of elements that a buffer holds *)
  Fixpoint elements (m : mem A) : Z := match m with [] => 0 | Raw :: m => elements m | _ :: m => elements m + 1 end.
  (* the list counts more elements than there are *)
  Definition torn (x : lst A) : Prop := elements (buf x) < count x.
  Definition has_torn (s : vars A) : Prop := exists v x, nth_error s v = Some (Some x) /\ torn x.

  (* sequences for lists and arrays; the elements that nobody will destroy, latest first *)
  Record sworld := mkSW { sl : seqs A; sa : aseqs A; slost : list (list (option A)) }.
  Definition sxstep_raw (w : sworld) (o : xop A) : res (sworld * xout A) :=
    match o with
    | XList o => do (s, r) <- sstep A eqb (sl w) o; Ok (mkSW s (sa w) (slost w), XRet r)
    | XInsertThrows v i => do l <- sread A (sl w) v; if (0 <=? i) && (i <=? zlen l) then UB else Err   (* no return, see C65_insert *)
    | XAddThrows v => UB
    | XSetThrows v i a =>
        do l <- sread A (sl w) v; do m <- sset A l i a; Ok (mkSW (upd (sl w) v (Some m)) (sa w) (slost w), XThrown)
    | XArr o => do (s, r) <- asstep A eqb dflt (sa w) o; Ok (mkSW (sl w) s (slost w), XRet r)
    | XArrNew v n k =>
        do _ <- asfree A (sa w) v;
        if n <? 0 then Err
        else if Z.of_nat k <? n then Ok (mkSW (sl w) (sa w) (repeat dflt k :: slost w), XThrown)
        else Ok (mkSW (sl w) (upd (sa w) v (Some (repeat dflt (Z.to_nat n)))) (slost w), XRet RNone)
    | XArrFrom v src n k =>
        do _ <- asfree A (sa w) v;
        if n <? 0 then Err else if n <=? zlen src then
          if Z.of_nat k <? n then Ok (mkSW (sl w) (sa w) (map Some (firstn k src) :: slost w), XThrown)
          else Ok (mkSW (sl w) (upd (sa w) v (Some (map Some (ztake A n src)))) (slost w), XRet RNone)
        else UB
    | XArrResize v n k =>
        do l <- asread A (sa w) v;
        if n <? 0 then Err
        else if Z.of_nat k <? n - zlen l then
          (* as many elements, all moved from *)
          Ok (mkSW (sl w) (upd (sa w) v (Some (repeat None (length l)))) ((l ++ repeat dflt k) :: slost w), XThrown)
        else Ok (mkSW (sl w) (upd (sa w) v (Some (firstn (Z.to_nat n) l ++ repeat dflt (Z.to_nat (n - zlen l))))) (slost w), XRet RNone)
    | XArrSetThrows v i a =>
        do l <- asread A (sa w) v;
        if (0 <=? i) && (i <? zlen l) then Ok (mkSW (sl w) (upd (sa w) v (Some (upd l (Z.to_nat i) (Some a)))) (slost w), XThrown)
        else Err
    end.
  Definition sxstep (w : sworld) (o : xop A) : res (sworld * xout A) :=
    match sxstep_raw w o with Err => Ok (w, XRet RError) | r => r end.
  Fixpoint sxrun (w : sworld) (os : list (xop A)) : res (sworld * list (xout A)) :=
    match os with
    | [] => Ok (w, [])
    | o :: os' => do (w', r) <- sxstep w o; do (w'', rs) <- sxrun w' os'; Ok (w'', r :: rs)
    end.
  Definition sxstart (n m : nat) : sworld := mkSW (repeat None n) (repeat None m) [].
  (* a lost buffer starts with the elements l and holds no others *)
  Definition lost_shows (m : mem A) (l : list (option A)) : Prop :=
    exists m1 k, m = m1 ++ repeat Raw k /\ Forall2 (slot_shows A) m1 l.
  Definition xshows (w : xworld A) (t : sworld) : Prop :=
    shows A (xl w) (sl t) /\ ashows A (xa w) (sa t) /\ Forall2 lost_shows (lost w) (slost t).
End Spec.
Arguments mkSW {A}. Arguments sl {A}. Arguments sa {A}. Arguments slost {A}.

(* a dictionary in which the keys or the values are fewer than their count *)
Definition dict_torn {K V : Type} (d : dict K V) : Prop := torn K (keys d) \/ torn V (vals d).
