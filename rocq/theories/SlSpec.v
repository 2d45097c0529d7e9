(* What programs over string variables and lists of strings mean, on plain values.
   Shares with the model only the syntax of programs. *)
From Verif Require Import Base StrModel StrSpec SlModel.
From Verif Require LstSpec.
Open Scope Z_scope.

(* named variables, and lists as sequences of character sequences *)
Record plain := mkP { pvars : values; plists : list (option (list (list Z))) }.
Definition pstart (n m : nat) : plain := mkP (repeat None n) (repeat None m).

Definition pread (t : plain) (l : nat) : res (list (list Z)) :=
  match nth_error (plists t) l with Some (Some xs) => Ok xs | _ => UB end.
Definition pfree (t : plain) (l : nat) : res unit :=
  match nth_error (plists t) l with Some None => Ok tt | _ => UB end.

(* the string an argument denotes *)
Definition pvalue (t : plain) (a : arg) : res (list Z) :=
  match a with
  | AVar v => sread (pvars t) v
  | AItem l i =>
      do xs <- pread t l;
      match znth xs i with Some x => Ok x | None => Err end
  end.
Definition pput (t : plain) (l : nat) (x : option (list (list Z))) : plain :=
  mkP (pvars t) (upd (plists t) l x).
(* giving the place an argument denotes a new value *)
Definition pstore (t : plain) (a : arg) (c : list Z) : plain :=
  match a with
  | AVar v => mkP (upd (pvars t) v (Some c)) (plists t)
  | AItem l i =>
      match pread t l with
      | Ok xs => pput t l (Some (upd xs (Z.to_nat i) c))
      | _ => t
      end
  end.
(* an argument that was moved from is an empty string *)
Definition pgone (t : plain) (a : arg) (mv : bool) : plain := if mv then pstore t a [] else t.

(* the argument is an element of the list itself: with Add and Insert a client error
   here (C66 says what happens) *)
Definition own_item (l : nat) (a : arg) : bool :=
  match a with AVar _ => false | AItem m _ => Nat.eqb m l end.
Definition same_place (a b : arg) : bool :=
  match a, b with
  | AVar v, AVar w => Nat.eqb v w
  | AItem l i, AItem m j => Nat.eqb l m && (i =? j)
  | _, _ => false
  end.

(* equality of strings *)
Definition same (a b : list Z) : bool := match lex a b with Eq => true | _ => false end.

Inductive pout := POut (r : sout) | PBool (b : bool).

Definition padd (t : plain) (l : nat) (i : Z) (a : arg) (mv : bool) : res plain :=
  do xs <- pread t l; do c <- pvalue t a;
  if own_item l a then UB else
  do ys <- LstSpec.sinsert _ xs i c;
  Ok (pput (pgone t a mv) l (Some ys)).

Definition pstep_raw (t : plain) (o : lop) : res (plain * pout) :=
  match o with
  | TStr o => do (vs, r) <- sstep_raw (pvars t) o; Ok (mkP vs (plists t), POut r)
  | TNew l => do _ <- pfree t l; Ok (pput t l (Some []), POut SNone)
  | TMoveNew l m =>
      do _ <- pfree t l; do ys <- pread t m; Ok (pput (pput t l (Some ys)) m (Some []), POut SNone)
  | TMoveAssign l m =>
      do _ <- pread t l; do ys <- pread t m; Ok (pput (pput t l (Some ys)) m (Some []), POut SNone)
  | TDestroy l => do _ <- pread t l; Ok (pput t l None, POut SNone)
  | TAdd l a mv => do xs <- pread t l; do t' <- padd t l (zlen xs) a mv; Ok (t', POut (SInt (zlen xs)))
  | TInsert l i a mv => do t' <- padd t l i a mv; Ok (t', POut (SInt i))
  | TSet l i a mv =>
      do xs <- pread t l; do c <- pvalue t a;
      if (0 <=? i) && (i <? zlen xs) then
        Ok (if same_place (AItem l i) a then t else pstore (pgone t a mv) (AItem l i) c, PBool true)
      else Err
  | TRemoveAt l i =>
      do xs <- pread t l;
      if (0 <=? i) && (i <? zlen xs) then
        Ok (pput t l (Some (LstSpec.ztake _ i xs ++ LstSpec.zdrop _ (i + 1) xs)), PBool true)
      else Err
  | TRemoveRange l i n =>
      do xs <- pread t l; do ys <- LstSpec.sremove _ xs i n; Ok (pput t l (Some ys), PBool true)
  | TRemove l a =>
      do xs <- pread t l; do c <- pvalue t a;
      let i := LstSpec.first_pos _ same c xs in
      if i =? -1 then Ok (t, PBool false)
      else Ok (pput t l (Some (LstSpec.ztake _ i xs ++ LstSpec.zdrop _ (i + 1) xs)), PBool true)
  | TClear l => do _ <- pread t l; Ok (pput t l (Some []), PBool true)
  | TRead d l i => do c <- sread (pvars t) d; do c <- pvalue t (AItem l i); Ok (pstore t (AVar d) c, POut SNone)
  | TIndexOf l a =>
      do xs <- pread t l; do c <- pvalue t a; Ok (t, POut (SInt (LstSpec.first_pos _ same c xs)))
  | TContains l a =>
      do xs <- pread t l; do c <- pvalue t a; Ok (t, PBool (existsb (fun x => same x c) xs))
  | TCount l => do xs <- pread t l; Ok (t, POut (SInt (zlen xs)))
  end.
Definition pstep (t : plain) (o : lop) : res (plain * pout) :=
  match pstep_raw t o with Err => Ok (t, POut SError) | r => r end.
Fixpoint prun (t : plain) (os : list lop) : res (plain * list pout) :=
  match os with
  | [] => Ok (t, [])
  | o :: os' => do (t', r) <- pstep t o; do (t'', rs) <- prun t' os'; Ok (t'', r :: rs)
  end.

Definition tout_ok (r : tout) (s : pout) : Prop :=
  match r, s with
  | TOut r, POut s => out_ok r s
  | TBool a, PBool b => a = b
  | _, _ => False
  end.

(* the string object at an address shows the characters c *)
Definition string_at (s : state) (a : nat) (c : list Z) : Prop :=
  exists x, nth_error (vars s) a = Some (Some x) /\ content (hp s) x = Ok c /\ len x = zlen c.

(* A world shows plain values: every named variable and every element of every list does,
   and the rest of each buffer holds no object. *)
Definition list_shows (s : state) (x : slist) (xs : list (list Z)) : Prop :=
  cnt x = zlen xs /\ cnt x <= room x /\
  (forall i c, znth xs i = Some c -> string_at s (adr (base x) i) c) /\
  (forall i, cnt x <= i < room x -> nth_error (vars s) (adr (base x) i) = Some None).
Definition world_shows (w : world) (t : plain) : Prop :=
  nv w = length (pvars t) /\
  (forall v, match nth_error (pvars t) v with
             | Some (Some c) => string_at (strs w) v c
             | Some None => nth_error (vars (strs w)) v = Some None
             | None => True
             end) /\
  Forall2 (fun x l => match x, l with
                      | Some x, Some l => list_shows (strs w) x l
                      | None, None => True
                      | _, _ => False end) (lists w) (plists t).

(* the string objects a program can name: variables, and elements of lists *)
Definition elements (s : state) (x : slist) : list (option str) :=
  firstn (Z.to_nat (cnt x)) (skipn (base x) (vars s)).
Definition named (w : world) : list (option str) :=
  firstn (nv w) (vars (strs w)) ++
  flat_map (fun x => match x with Some x => elements (strs w) x | None => [] end) (lists w).
