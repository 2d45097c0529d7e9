(* CopyFrom to and from dictionaries and groups: Source/Collections/OperationCopyFrom.h:24-147 with the RandomAccess of
   Dictionary (Dictionary.h:737-769) and the default one (Interfaces.h:186-224) spelled out.  A group has no RandomAccess for
   reading, so it is read by its enumerator.  Elements are pairs; Pair<const K&, const V&> is converted to Pair<K, V> by copying
   (Pair.h:76-82). *)
From Verif Require Import Base LzyModel LstModel SrtModel DctModel CpyModel EngModel.
Open Scope Z_scope.

Section Pairs.
  Variable K V : Type.
  Variable cmp : K -> K -> option comparison.
  Variable veq : V -> V -> bool.
  Notation A := (K * V)%type.

  (* Sources with CanRead: those of CpyModel, and Dictionary (Dictionary.h:739-757) *)
  Inductive psrc := PSrc (s : src A) | PDict (d : dict K V).
  Definition psrc_count (s : psrc) : Z := match s with PSrc s => src_count A s | PDict d => count (keys d) end.
  Definition psrc_get (s : psrc) (i : Z) : res A :=
    match s with
    | PSrc s => src_get A s i
    | PDict d => do k <- get K (keys d) i; do v <- get V (vals d) i; Ok (k, v)
    end.
  (* Sources without CanRead: lazy lists and groups *)
  Inductive esrc := ELazy (p : pipe A) | EGroup (g : group K V).

  (* Destinations without CanResize: Clear and AppendValue *)
  Section Dest.
    Variable D : Type.
    Variable clr : D -> res D.
    Variable app : D -> A -> res D.
    (* CopyFromAlgorithm<Ds, Ss, false, true> : OperationCopyFrom.h:45-60 *)
    Fixpoint app_loop (y : D) (s : psrc) (i : Z) (n : nat) : res D :=
      match n with
      | O => Ok y
      | S n' => do p <- psrc_get s i; do y <- app y p; app_loop y s (i + 1) n'
      end.
    Definition copy_ra (x : D) (s : psrc) (append : bool) : res D :=
      do y <- (if append then Ok x else clr x);
      app_loop y s 0 (Z.to_nat (psrc_count s)).
    (* CopyFromAlgorithm<Ds, Ss, false, false> : OperationCopyFrom.h:88-103 *)
    Fixpoint app_enum (fuel : nat) (y : D) (e : enum A) : res D :=
      match fuel with
      | O => NoFuel
      | S f =>
          do (b, e) <- next f e;
          if b then do p <- current e; do y <- app y p; app_enum f y e else Ok y
      end.
    Fixpoint app_group (fuel : nat) (y : D) (g : group K V) (e : genum K V) : res D :=
      match fuel with
      | O => NoFuel
      | S f =>
          do (e, b) <- g_next K V g e (Z.to_nat (count (gkeys g)) + 1);
          if b then do p <- g_cur K V e; do y <- app y p; app_group f y g e else Ok y
      end.
    Definition copy_en (fuel : nat) (x : D) (s : esrc) (append : bool) : res D :=
      do y <- (if append then Ok x else clr x);
      match s with
      | ELazy p => do e <- build fuel p; app_enum fuel y e
      | EGroup g => app_group fuel y g g_enum
      end.
  End Dest.

  (* AppendValue of Dictionary is Set : Dictionary.h:759-768; of Group it is Add : Interfaces.h:219-223, Dictionary.h:496-505 *)
  Definition dict_app (d : dict K V) (p : A) : res (dict K V) := d_set K V cmp d (fst p) (snd p).
  Definition group_app (g : group K V) (p : A) : res (group K V) := g_add K V cmp g (fst p) (snd p).
  Definition copy_dict_ra := copy_ra (dict K V) (d_clear K V) dict_app.
  Definition copy_dict_en := copy_en (dict K V) (d_clear K V) dict_app.
  Definition copy_group_ra := copy_ra (group K V) (g_clear K V) group_app.
  Definition copy_group_en := copy_en (group K V) (g_clear K V) group_app.
  (* lists and sorted lists of pairs, as in CpyModel *)
  Definition copy_list_ra (pcmp : A -> A -> option comparison) (k : kind) := copy_ra (lst A) (clear A) (add A pcmp k).
  Definition copy_list_en (pcmp : A -> A -> option comparison) (k : kind) := copy_en (lst A) (clear A) (add A pcmp k).

  (* Arrays of pairs.  CopyFromAlgorithm<Ds, Ss, true, true> : OperationCopyFrom.h:29-43 *)
  Fixpoint fill_loop (y : arr A) (s : psrc) (index i : Z) (n : nat) : res (arr A) :=
    match n with
    | O => Ok y
    | S n' => do p <- psrc_get s i; do y <- a_set A y (index + i) p; fill_loop y s index (i + 1) n'
    end.
  Definition copy_array_ra (dflt : option A) (x : arr A) (s : psrc) (append : bool) : res (arr A) :=
    let n := psrc_count s in
    let index := if append then acount x else 0 in
    do y <- a_resize A dflt x (index + n);
    fill_loop y s index 0 (Z.to_nat n).
  (* CopyFromAlgorithm<Ds, Ss, true, false> : OperationCopyFrom.h:62-86, from a group *)
  Fixpoint count_group (fuel : nat) (n : Z) (g : group K V) (e : genum K V) : res Z :=
    match fuel with
    | O => NoFuel
    | S f =>
        do (e, b) <- g_next K V g e (Z.to_nat (count (gkeys g)) + 1);
        if b then count_group f (n + 1) g e else Ok n
    end.
  Fixpoint fill_group (fuel : nat) (y : arr A) (index : Z) (g : group K V) (e : genum K V) : res (arr A) :=
    match fuel with
    | O => NoFuel
    | S f =>
        do (e, b) <- g_next K V g e (Z.to_nat (count (gkeys g)) + 1);
        if b then do p <- g_cur K V e; do y <- a_set A y index p; fill_group f y (index + 1) g e else Ok y
    end.
  Definition copy_array_group (fuel : nat) (dflt : option A) (x : arr A) (g : group K V) (append : bool) : res (arr A) :=
    do n <- count_group fuel 0 g g_enum;
    let index := if append then acount x else 0 in
    do y <- a_resize A dflt x (index + n);
    fill_group fuel y index g g_enum.

  (* CopyFrom(d, d, append): the loop runs on the dictionary being changed; GetValue copies the pair *)
  Fixpoint dict_self_loop (d : dict K V) (i : Z) (n : nat) : res (dict K V) :=
    match n with
    | O => Ok d
    | S n' =>
        do k <- get K (keys d) i; do v <- get V (vals d) i;
        do d <- d_set K V cmp d k v; dict_self_loop d (i + 1) n'
    end.
  Definition copy_dict_self (d : dict K V) (append : bool) : res (dict K V) :=
    do d <- (if append then Ok d else d_clear K V d);
    dict_self_loop d 0 (Z.to_nat (count (keys d))).
  (* CopyFrom(g, g, append): the enumerator, number 0 of EngModel, walks over the group being changed *)
  Fixpoint group_self_loop (fuel : nat) (s : gst K V) : res (gst K V) :=
    match fuel with
    | O => NoFuel
    | S f =>
        do (s, b) <- hstep K V cmp veq s (HNext 0);
        match b with
        | HRes (OBool true) =>
            do (s, k) <- hstep K V cmp veq s (HKey 0);
            do (s, v) <- hstep K V cmp veq s (HValue 0);
            match k, v with
            | HRes (OKey k), HRes (OVal v) => do (s, _) <- hstep K V cmp veq s (HGroup (GAdd k v)); group_self_loop f s
            | _, _ => Err
            end
        | HRes (OBool false) => Ok s
        | _ => Err
        end
    end.
  Definition copy_group_self (fuel : nat) (s : gst K V) (append : bool) : res (gst K V) :=
    do (s, _) <- (if append then Ok (s, HNone) else hstep K V cmp veq s (HGroup GClear));
    do (s, _) <- hstep K V cmp veq s (HNew 0);
    group_self_loop fuel s.
End Pairs.
Arguments PSrc {K V}. Arguments PDict {K V}. Arguments ELazy {K V}. Arguments EGroup {K V}.
