(* What a program over strings means when allocations fail: a statement that reports
   std::bad_alloc changes nothing.  On plain lists of characters (StrSpec). *)
From Verif Require Import Base StrModel StrSpec OmModel.
Open Scope Z_scope.

(* the variables after a program, given which statements reported std::bad_alloc; every
   statement has to be one that the client may execute (sstep is defined) *)
Fixpoint after (vs : values) (p : list (op * bool)) : res values :=
  match p with
  | [] => Ok vs
  | (o, true) :: p' => do _ <- sstep vs o; after vs p'
  | (o, false) :: p' => do (vs', _) <- sstep vs o; after vs' p'
  end.
Definition failed (x : oout) : bool := match x with RNoMemory => true | ROut _ => false end.
(* what happened in a run: every statement with the flag for std::bad_alloc *)
Definition history (p : list (op * oracle)) (xs : list oout) : list (op * bool) :=
  combine (map fst p) (map failed xs).

(* the characters a string shows *)
Definition ocontent (s : ostate) (x : ostr) : res (list Z) :=
  do cs <- ocells s (obuf x); mem_read cs (ostart x) (olen x).
Definition oshows (s : ostate) (vs : values) : Prop :=
  Forall2 (fun x v =>
    match x, v with
    | Some st, Some l => ocontent s st = Ok l /\ olen st = zlen l
    | None, None => True
    | _, _ => False
    end) (ovars s) vs.

(* expressions whose value is put together from parts of strings *)
Definition joins (e : expr) : bool :=
  match e with
  | ERemove _ _ _ | EInsert _ _ _ | EConcat _ _ | EConcatLit _ _ | ELitConcat _ _ => true
  | _ => false
  end.
(* the failures that are survived: of the first allocation of any statement, and of the
   second one unless the statement joins strings or asks for the buffer *)
Definition tolerated (o : op) (f : oracle) : bool :=
  match f, o with
  | Some 1%nat, OInit _ e => negb (joins e)
  | Some 1%nat, OSet _ e => negb (joins e)
  | Some 1%nat, OBuffer _ => false
  | _, _ => true
  end.

(* buffers and counters that were allocated and not deleted *)
Definition live_buffers (s : ostate) : nat :=
  length (filter (fun b => match b with BNew _ => true | _ => false end) (bufs s)).
Definition live_counters (s : ostate) : nat :=
  length (filter (fun c => match c with Some _ => true | None => false end) (cnts s)).
(* variables that use counter c *)
Definition users (c : nat) (xs : list (option ostr)) : nat :=
  length (filter (fun x => match x with
                           | Some st => match octr st with Some c' => Nat.eqb c' c | None => false end
                           | None => false end) xs).

(* statements that lose memory: the second allocation of the statement failed *)
Definition copies (o : op) : bool :=
  match o with OInit _ (ECopyFrom _ _) | OSet _ (ECopyFrom _ _) => true | _ => false end.
Fixpoint lost (which : bool) (p : list (op * oracle)) (xs : list oout) : nat :=
  match p, xs with
  | (o, Some 1%nat) :: p', RNoMemory :: xs' =>
      ((if Bool.eqb (copies o) which then 1 else 0) + lost which p' xs')%nat
  | _ :: p', _ :: xs' => lost which p' xs'
  | _, _ => 0%nat
  end.
Definition lost_buffers := lost true.       (* CopyFrom loses its buffer *)
Definition lost_counters := lost false.     (* the other constructors lose their counter *)

(* the programs of the refutations *)
Definition abc : list Z := [97; 98; 99; 0].
(* Buffer() on a slice of a shared string *)
Definition torn : list (op * oracle) :=
  [ (OInit 0 (ELit (Some abc)), None); (OInit 1 (ESub 0 1 1), None); (OBuffer 1, Some 1%nat) ].
