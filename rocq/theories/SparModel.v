(* Strings in several threads: Source/Strings/String.h:20-502 with INCRC and DECRC (Source/Basic.h:135-136) as atomic steps.
   Every access to memory that strings may share (buffers, counters, string variables several threads can see) is a step of
   its own; the steps of the threads interleave.  The fields of the other string variables belong to one thread.
   Simplifications: allocations succeed; blocks and counters are numbered and numbers are not used again; vint is unbounded;
   loading or storing the five fields of a string variable that several threads can see is one step. *)
From Verif Require Import Base.
Open Scope Z_scope.

(* 27-31; sbuf = None is the address of zero *)
Record sv := mkSv { sbuf : option nat; scnt : option nat; sstart : Z; slen : Z; sreal : Z }.
Definition empty_sv : sv := mkSv None None 0 0 0.

(* what a thread executes: steps on the shared memory; the result decides how to go on *)
Inductive code (A : Type) :=
| Ret (a : A)
| Inc (c : nat) (k : code A)                     (* INCRC *)
| Dec (c : nat) (k : Z -> code A)                (* DECRC *)
| NewB (n : Z) (k : nat -> code A)               (* new T[n] *)
| NewC (z : Z) (k : nat -> code A)               (* new atomic_vint(z) *)
| Rd (b : option nat) (i : Z) (k : Z -> code A)
| Wr (b : nat) (i x : Z) (k : code A)
| DelB (b : nat) (k : code A)
| DelC (c : nat) (k : code A)
| Load (s : nat) (k : sv -> code A)              (* a variable several threads can see *)
| Store (s : nat) (v : sv) (k : code A).
Arguments Ret {A}. Arguments Inc {A}. Arguments Dec {A}. Arguments NewB {A}. Arguments NewC {A}. Arguments Rd {A}. Arguments Wr {A}.
Arguments DelB {A}. Arguments DelC {A}. Arguments Load {A}. Arguments Store {A}.

(* None: deleted; a cell that is None is not initialised *)
Record mem := mkMem { bufs : list (option (list (option Z))); cnts : list (option Z); shr : list sv }.
Definition astep {A} (p : code A) (m : mem) : res (code A * mem) :=
  match p with
  | Ret a => Ok (Ret a, m)
  | Inc c k => match nth_error (cnts m) c with Some (Some n) => Ok (k, mkMem (bufs m) (upd (cnts m) c (Some (n + 1))) (shr m)) | _ => UB end
  | Dec c k => match nth_error (cnts m) c with Some (Some n) => Ok (k (n - 1), mkMem (bufs m) (upd (cnts m) c (Some (n - 1))) (shr m)) | _ => UB end
  | NewB n k => if n <? 0 then UB else Ok (k (length (bufs m)), mkMem (bufs m ++ [Some (repeat None (Z.to_nat n))]) (cnts m) (shr m))
  | NewC z k => Ok (k (length (cnts m)), mkMem (bufs m) (cnts m ++ [Some z]) (shr m))
  | Rd None i k => if i =? 0 then Ok (k 0, m) else UB
  | Rd (Some b) i k =>
      match nth_error (bufs m) b with
      | Some (Some l) => do x <- aget l i; match x with Some x => Ok (k x, m) | None => UB end
      | _ => UB
      end
  | Wr b i x k =>
      match nth_error (bufs m) b with
      | Some (Some l) => do l <- aset l i (Some x); Ok (k, mkMem (upd (bufs m) b (Some l)) (cnts m) (shr m))
      | _ => UB
      end
  | DelB b k => match nth_error (bufs m) b with Some (Some _) => Ok (k, mkMem (upd (bufs m) b None) (cnts m) (shr m)) | _ => UB end
  | DelC c k => match nth_error (cnts m) c with Some (Some _) => Ok (k, mkMem (bufs m) (upd (cnts m) c None) (shr m)) | _ => UB end
  | Load s k => match nth_error (shr m) s with Some v => Ok (k v, m) | None => UB end
  | Store s v k => match nth_error (shr m) s with Some _ => Ok (k, mkMem (bufs m) (cnts m) (upd (shr m) s v)) | None => UB end
  end.

Section functions.
  Context {A : Type}.
  Definition inc (v : sv) (k : code A) : code A := match scnt v with None => k | Some c => Inc c k end.              (* 84-90 *)
  Definition dec (v : sv) (k : code A) : code A :=                                                                    (* 92-102 *)
    match scnt v with
    | None => k
    | Some c => Dec c (fun n => if n =? 0 then match sbuf v with Some b => DelB b (DelC c k) | None => DelC c k end else k)
    end.
  (* memcpy(to + j, from + i, n) *)
  Fixpoint copy (n : nat) (from : option nat) (i : Z) (to : nat) (j : Z) (k : code A) : code A :=
    match n with
    | O => k
    | S n => Rd from i (fun x => Wr to j x (copy n from (i + 1) to (j + 1) k))
    end.
  (* the text of a literal, written to a block *)
  Fixpoint write (l : list Z) (to : nat) (j : Z) (k : code A) : code A :=
    match l with [] => k | x :: l => Wr to j x (write l to (j + 1) k) end.
  Fixpoint literal (l : list Z) : list Z := match l with [] => [] | c :: l => if c =? 0 then [] else c :: literal l end.
  (* 183-192 ObjectString(const T* ) *)
  Definition make (l : list Z) (k : sv -> code A) : code A :=
    NewC 1 (fun c =>
    let n := zlen (literal l) in
    NewB (n + 1) (fun b =>
    write (literal l ++ [0]) b 0 (k (mkSv (Some b) (Some c) 0 n n)))).
  (* 104-115 *)
  Definition sub_unsafe (v : sv) (start len : Z) (k : sv -> code A) : code A :=
    if len <=? 0 then k empty_sv else inc v (k (mkSv (sbuf v) (scnt v) (sstart v + start) len (sreal v))).
  (* 117-133 *)
  Definition replace_unsafe (v source : sv) (index count : Z) (k : sv -> code A) : code A :=
    if (slen source =? 0) && (count =? 0) then inc v (k v)
    else if (index =? 0) && (count =? slen v) then inc source (k source)
    else
      NewC 1 (fun c =>
      let n := slen v - count + slen source in
      NewB (n + 1) (fun b =>
      copy (Z.to_nat index) (sbuf v) (sstart v) b 0
      (copy (Z.to_nat (slen source)) (sbuf source) (sstart source) b index
      (copy (Z.to_nat (slen v - index - count)) (sbuf v) (sstart v + index + count) b (index + slen source)
      (Wr b n 0 (k (mkSv (Some b) (Some c) 0 n n))))))).
  (* 41-55 *)
  Definition addr_eq (a b : sv) : bool :=
    match sbuf a, sbuf b with Some x, Some y => Nat.eqb x y | None, None => true | _, _ => false end && (sstart a =? sstart b).
  Fixpoint compare_loop (n : nat) (a : option nat) (i : Z) (b : option nat) (j : Z) (k : comparison -> code A) (last : comparison) : code A :=
    match n with
    | O => k last
    | S n => Rd a i (fun x => Rd b j (fun y => match x ?= y with Eq => compare_loop n a (i + 1) b (j + 1) k last | d => k d end))
    end.
  Definition compare (a b : sv) (k : comparison -> code A) : code A :=
    let last := slen a ?= slen b in
    if addr_eq a b then k last
    else compare_loop (Z.to_nat (Z.min (slen a) (slen b))) (sbuf a) (sstart a) (sbuf b) (sstart b) k last.
  (* what a client sees behind a pointer *)
  Fixpoint text_at (fuel : nat) (b : option nat) (i : Z) (k : list Z -> code A) : code A :=
    match fuel with
    | O => k []
    | S fuel => Rd b i (fun x => if x =? 0 then k [] else text_at fuel b (i + 1) (fun l => k (x :: l)))
    end.
  Definition text_of (v : sv) (k : list Z -> code A) : code A := text_at (S (Z.to_nat (slen v))) (sbuf v) (sstart v) k.
  (* 288-302 Buffer(), the copy; again says how the fields of this are read after the copy was made *)
  Definition detach (v : sv) (again : (sv -> code A) -> code A) (k : sv -> code A) : code A :=
    NewB (slen v + 1) (fun b =>
    copy (Z.to_nat (slen v)) (sbuf v) (sstart v) b 0
    (Wr b (slen v) 0
    (again (fun v' => dec v'
    (NewC 1 (fun c => k (mkSv (Some b) (Some c) 0 (slen v) (slen v)))))))).
End functions.

(* a variable of the thread, or one that every thread can see *)
Inductive src := Own (w : nat) | Sh (s : nat).
Inductive op :=
| OText (v : nat) (l : list Z)                     (* v = WString(l) *)
| OClear (v : nat)                                 (* v = WString() *)
| OCopy (v : nat) (x : src)                        (* v = x *)
| OMove (v w : nat)                                (* v = std::move(w) *)
| OSub (v : nat) (x : src) (i n : Z)               (* v = x.Sub(i, n) *)
| OInsert (v : nat) (x : src) (i : Z) (y : src)    (* v = x.Insert(i, y) *)
| ORemove (v : nat) (x : src) (i n : Z)            (* v = x.Remove(i, n) *)
| OAt (x : src) (i : Z)                            (* x[i] *)
| OCompare (x y : src)                             (* x <=> y *)
| OBuffer (x : src)                                (* the text behind x.Buffer() *)
| OSend (v j : nat)                                (* v is moved to the queue of thread j (with some lock of the client) *)
| OReceive (v : nat).                              (* v = the front of the queue of this thread *)
Inductive out := Done | Failed (* CHECK_ERROR *) | Nothing (* a variable that does not exist *) | Char (x : Z) | Ordering (c : comparison) | Text (l : list Z).
Definition env := list sv.
Definition pick {A} (e : env) (x : src) (bad : code A) (k : sv -> code A) : code A :=
  match x with
  | Own w => match nth_error e w with Some v => k v | None => bad end
  | Sh s => Load s k
  end.
(* 325-343 operator=(ObjectString<T>&&), from a temporary *)
Definition set_var (e : env) (v : nat) (x : sv) : code (env * out) :=
  match nth_error e v with Some old => dec old (Ret (upd e v x, Done)) | None => Ret (e, Nothing) end.
Definition has (e : env) (v : nat) : bool := Nat.ltb v (length e).
Definition op_code (e : env) (o : op) : code (env * out) :=
  let bad := Ret (e, Nothing) in
  let fail := Ret (e, Failed) in
  match o with
  | OText v l => if has e v then make l (set_var e v) else bad
  | OClear v => set_var e v empty_sv
  | OCopy v x =>                                                                                       (* 307-322 *)
      if has e v then
        match x with Own w => if Nat.eqb v w then Ret (e, Done) else pick e x bad (fun y =>
                       match nth_error e v with Some old => dec old (inc y (Ret (upd e v y, Done))) | None => bad end)
        | Sh _ => pick e x bad (fun y =>
                       match nth_error e v with Some old => dec old (inc y (Ret (upd e v y, Done))) | None => bad end)
        end
      else bad
  | OMove v w =>                                                                                       (* 325-343 *)
      match nth_error e v, nth_error e w with
      | Some old, Some y => if Nat.eqb v w then Ret (e, Done) else dec old (Ret (upd (upd e v y) w empty_sv, Done))
      | _, _ => bad
      end
  | OSub v x i n =>                                                                                    (* 462-467 *)
      if has e v then
        pick e x bad (fun y =>
        if negb ((i >=? 0) && (i <=? slen y)) then fail
        else if negb ((i + n >=? 0) && (i + n <=? slen y)) then fail
        else sub_unsafe y i n (set_var e v))
      else bad
  | OInsert v x i y =>                                                                                 (* 498-502 *)
      if has e v then
        pick e x bad (fun x => pick e y bad (fun y =>
        if negb ((i >=? 0) && (i <=? slen x)) then fail
        else replace_unsafe x y i 0 (set_var e v)))
      else bad
  | ORemove v x i n =>                                                                                 (* 480-485 *)
      if has e v then
        pick e x bad (fun x =>
        if negb ((i >=? 0) && (i <? slen x)) then fail
        else if negb ((i + n >=? 0) && (i + n <=? slen x)) then fail
        else replace_unsafe x empty_sv i n (set_var e v))
      else bad
  | OAt x i =>                                                                                         (* 392-396 *)
      pick e x bad (fun x =>
      if negb ((i >=? 0) && (i <? slen x)) then fail else Rd (sbuf x) (sstart x + i) (fun z => Ret (e, Char z)))
  | OCompare x y => pick e x bad (fun x => pick e y bad (fun y => compare x y (fun c => Ret (e, Ordering c))))
  | OBuffer (Own w) =>
      match nth_error e w with
      | Some v =>
          if sstart v + slen v =? sreal v then text_of v (fun l => Ret (e, Text l))
          else detach v (fun k => k v) (fun v => text_of v (fun l => Ret (upd e w v, Text l)))
      | None => bad
      end
  | OBuffer (Sh s) =>
      Load s (fun v =>
      if sstart v + slen v =? sreal v then text_of v (fun l => Ret (e, Text l))
      else detach v (Load s) (fun v => Store s v (text_of v (fun l => Ret (e, Text l)))))
  | OSend _ _ | OReceive _ => bad
  end.

(* a thread: its variables, the queue of strings sent to it, the rest of its program and the operation it is in *)
Record thread := mkT { vars : env; inbox : list sv; todo : list op; cur : option (op * code (env * out)) }.
Record world := mkW { memory : mem; threads : list thread; log : list (nat * out) }.      (* log: the finished operations *)
Definition with_threads (w : world) (l : list thread) : world := mkW (memory w) l (log w).
(* one step of thread i *)
Definition tstep (w : world) (i : nat) : res world :=
  match nth_error (threads w) i with
  | None => Ok w
  | Some t =>
      match cur t with
      | Some (o, Ret (e, r)) => Ok (mkW (memory w) (upd (threads w) i (mkT e (inbox t) (todo t) None)) (log w ++ [(i, r)]))
      | Some (o, p) =>
          do (p, m) <- astep p (memory w); Ok (mkW m (upd (threads w) i (mkT (vars t) (inbox t) (todo t) (Some (o, p)))) (log w))
      | None =>
          match todo t with
          | [] => Ok w
          | OSend v j :: os =>
              match nth_error (vars t) v, nth_error (threads w) j with
              | Some x, Some _ =>
                  let l := upd (threads w) i (mkT (upd (vars t) v empty_sv) (inbox t) os None) in
                  match nth_error l j with
                  | Some u => Ok (mkW (memory w) (upd l j (mkT (vars u) (inbox u ++ [x]) (todo u) (cur u))) (log w ++ [(i, Done)]))
                  | None => Ok w
                  end
              | _, _ => Ok (mkW (memory w) (upd (threads w) i (mkT (vars t) (inbox t) os None)) (log w ++ [(i, Nothing)]))
              end
          | OReceive v :: os =>
              match nth_error (vars t) v, inbox t with
              | None, _ => Ok (mkW (memory w) (upd (threads w) i (mkT (vars t) (inbox t) os None)) (log w ++ [(i, Nothing)]))
              | Some _, [] => Ok w                                                        (* wait *)
              | Some _, x :: q => Ok (with_threads w (upd (threads w) i (mkT (vars t) q os (Some (OReceive v, set_var (vars t) v x)))))
              end
          | o :: os => Ok (with_threads w (upd (threads w) i (mkT (vars t) (inbox t) os (Some (o, op_code (vars t) o)))))
          end
      end
  end.
Fixpoint run (w : world) (sched : list nat) : res world :=
  match sched with [] => Ok w | i :: sched => do w <- tstep w i; run w sched end.
(* threads with empty variables; text k seen through a variable with start i and length n that every thread can see *)
Definition start (texts : list (list Z * Z * Z)) (ts : list (nat * list op)) : world :=
  mkW (mkMem (map (fun t => Some (map Some (fst (fst t) ++ [0]))) texts)
             (map (fun _ => Some 1) texts)
             (map (fun p => let '(k, (l, i, n)) := p in mkSv (Some k) (Some k) i n (zlen l)) (combine (seq 0 (length texts)) texts)))
      (map (fun t => mkT (repeat empty_sv (fst t)) [] (snd t) None) ts) [].
