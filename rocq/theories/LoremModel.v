(* LoremIpsum: Source/Strings/LoremIpsum.cpp.
   Simplification: the allocation succeeds and bestLength + 21 is representable. *)
From Coq Require Import String Ascii.
From Verif Require Import Base.
Open Scope Z_scope.

(* 15-60 *)
Definition word_strings : list string :=
(
  ["lorem"; "ipsum"; "dolor"; "sit"; "amet"; "consectetur"; "adipiscing"; "elit"; "integer"; "nec"; "odio";
   "praesent"; "libero"; "sed"; "cursus"; "ante"; "dapibus"; "diam"; "sed"; "nisi"; "nulla"; "quis"; "sem";
   "at"; "nibh"; "elementum"; "imperdiet"; "duis"; "sagittis"; "ipsum"; "praesent"; "mauris"; "fusce"; "nec";
   "tellus"; "sed"; "augue"; "semper"; "porta"; "mauris"; "massa"; "vestibulum"; "lacinia"; "arcu"; "eget";
   "nulla"; "class"; "aptent"; "taciti"; "sociosqu"; "ad"; "litora"; "torquent"; "per"; "conubia"; "nostra";
   "per"; "inceptos"; "himenaeos"; "curabitur"; "sodales"; "ligula"; "in"; "libero"; "sed"; "dignissim";
   "lacinia"; "nunc"; "curabitur"; "tortor"; "pellentesque"; "nibh"; "aenean"; "quam"; "in"; "scelerisque";
   "sem"; "at"; "dolor"; "maecenas"; "mattis"; "sed"; "convallis"; "tristique"; "sem"; "proin"; "ut";
   "ligula"; "vel"; "nunc"; "egestas"; "porttitor"; "morbi"; "lectus"; "risus"; "iaculis"; "vel"; "suscipit";
   "quis"; "luctus"; "non"; "massa"; "fusce"; "ac"; "turpis"; "quis"; "ligula"; "lacinia"; "aliquet";
   "mauris"; "ipsum"; "nulla"; "metus"; "metus"; "ullamcorper"; "vel"; "tincidunt"; "sed"; "euismod"; "in";
   "nibh"; "quisque"; "volutpat"; "condimentum"; "velit"; "class"; "aptent"; "taciti"; "sociosqu"; "ad";
   "litora"; "torquent"; "per"; "conubia"; "nostra"; "per"; "inceptos"; "himenaeos"; "nam"; "nec"; "ante";
   "sed"; "lacinia"; "urna"; "non"; "tincidunt"; "mattis"; "tortor"; "neque"; "adipiscing"; "diam"; "a";
   "cursus"; "ipsum"; "ante"; "quis"; "turpis"; "nulla"; "facilisi"; "ut"; "fringilla"; "suspendisse";
   "potenti"; "nunc"; "feugiat"; "mi"; "a"; "tellus"; "consequat"; "imperdiet"; "vestibulum"; "sapien";
   "proin"; "quam"; "etiam"; "ultrices"; "suspendisse"; "in"; "justo"; "eu"; "magna"; "luctus"; "suscipit";
   "sed"; "lectus"; "integer"; "euismod"; "lacus"; "luctus"; "magna"; "quisque"; "cursus"; "metus"; "vitae";
   "pharetra"; "auctor"; "sem"; "massa"; "mattis"; "sem"; "at"; "interdum"; "magna"; "augue"; "eget"; "diam";
   "vestibulum"; "ante"; "ipsum"; "primis"; "in"; "faucibus"; "orci"; "luctus"; "et"; "ultrices"; "posuere";
   "cubilia"; "curae;"; "morbi"; "lacinia"; "molestie"; "dui"; "praesent"; "blandit"; "dolor"; "sed"; "non";
   "quam"; "in"; "vel"; "mi"; "sit"; "amet"; "augue"; "congue"; "elementum"; "morbi"; "in"; "ipsum"; "sit";
   "amet"; "pede"; "facilisis"; "laoreet"; "donec"; "lacus"; "nunc"; "viverra"; "nec"; "blandit"; "vel";
   "egestas"; "et"; "augue"; "vestibulum"; "tincidunt"; "malesuada"; "tellus"; "ut"; "ultrices"; "ultrices";
   "enim"; "curabitur"; "sit"; "amet"; "mauris"; "morbi"; "in"; "dui"; "quis"; "est"; "pulvinar";
   "ullamcorper"; "nulla"; "facilisi"; "integer"; "lacinia"; "sollicitudin"; "massa"; "cras"; "metus"; "sed";
   "aliquet"; "risus"; "a"; "tortor"; "integer"; "id"; "quam"; "morbi"; "mi"; "quisque"; "nisl"; "felis";
   "venenatis"; "tristique"; "dignissim"; "in"; "ultrices"; "sit"; "amet"; "augue"; "proin"; "sodales";
   "libero"; "eget"; "ante"; "nulla"; "quam"; "aenean"; "laoreet"; "vestibulum"; "nisi"; "lectus"; "commodo";
   "ac"; "facilisis"; "ac"; "ultricies"; "eu"; "pede"; "ut"; "orci"; "risus"; "accumsan"; "porttitor";
   "cursus"; "quis"; "aliquet"; "eget"; "justo"; "sed"; "pretium"; "blandit"; "orci"; "ut"; "eu"; "diam";
   "at"; "pede"; "suscipit"; "sodales"; "aenean"; "lectus"; "elit"; "fermentum"; "non"; "convallis"; "id";
   "sagittis"; "at"; "neque"; "nullam"; "mauris"; "orci"; "aliquet"; "et"; "iaculis"; "et"; "viverra";
   "vitae"; "ligula"; "nulla"; "ut"; "felis"; "in"; "purus"; "aliquam"; "imperdiet"; "maecenas"; "aliquet";
   "mollis"; "lectus"; "vivamus"; "consectetuer"; "risus"; "et"; "tortor"])%string.
Fixpoint chars (s : string) : list Z :=
  match s with EmptyString => [] | String c s => Z.of_N (N_of_ascii c) :: chars s end.
Definition words : list (list Z) := Eval vm_compute in map chars word_strings.
Inductive casing := AllLower | FirstUpper | AllUpper.            (* LoremIpsum.h:14-22 *)
Definition blank := 32.

Section lorem.
  Context (words : list (list Z)).
  Definition word_count := zlen words.                           (* 62 *)
  (* the buffer: None is uninitialised memory *)
  Notation mem := (list (option Z)).
  Fixpoint put (m : mem) (i : Z) (cs : list Z) : res mem :=
    match cs with [] => Ok m | c :: cs => do m <- aset m i (Some c); put m (i + 1) cs end.
  (* wcscpy_s: on Windows it fails when the text does not fit (Err); elsewhere it is wcscpy (String.cpp:119-122) *)
  Definition wcscpy (m : mem) (i size : Z) (w : list Z) : res mem :=
    if zlen w <? size then put m i (w ++ [0]) else Err.
  (* the text up to the terminator: WString result = buffer (102) *)
  Fixpoint cstr (m : mem) : res (list Z) :=
    match m with
    | Some c :: m => if c =? 0 then Ok [] else do t <- cstr m; Ok (c :: t)
    | _ => UB
    end.
  Definition upper (c : casing) (used : Z) : bool :=
    match c with AllUpper => true | FirstUpper => used =? 0 | AllLower => false end.
  (* the loop: 71-100; writing is buffer + used *)
  Fixpoint loop (fuel : nat) (best : Z) (c : casing) (m : mem) (used index : Z) : res (mem * Z) :=
    match fuel with
    | O => NoFuel
    | S fuel =>
        if used <? best then
          let blank_first := negb (used =? 0) in
          do m <- (if blank_first then aset m used (Some blank) else Ok m);
          let used := if blank_first then used + 1 else used in
          do w <- aget words index;
          do m <- wcscpy m used (best + 20 - used) w;
          do m <- (if upper c used then
                     do x <- aget m used;
                     match x with Some x => aset m used (Some (x - 32)) | None => UB end
                   else Ok m);
          if negb (used =? 0) && (used + zlen w >? best) && (best - used + 1 <? used + zlen w - best)
          then do m <- aset m (used - 1) (Some 0); Ok (m, index)
          else loop fuel best c m (used + zlen w) ((index + 1) mod word_count)
        else Ok (m, index)
    end.
  (* 13-105; the result is the text and the static variable index *)
  Definition lorem (best : Z) (c : casing) (index : Z) : res (list Z * Z) :=
    let best := if best <? 0 then 0 else best in
    let m := repeat None (Z.to_nat (best + 21)) in
    do m <- aset m 0 (Some 0);
    do (m, index) <- loop (Z.to_nat (best + 1)) best c m 0 index;
    do t <- cstr m;
    Ok (t, index).
  Definition title (best index : Z) := lorem best AllUpper index.                                            (* 107-110 *)
  Definition sentence (best index : Z) := do (t, i) <- lorem best FirstUpper index; Ok (t ++ [46], i).       (* 112-115 *)
  (* 117-161; rand k is the k-th random number, r counts them. comma == 0 means "not chosen yet" on entry *)
  Section paragraph.
    Context (rand : nat -> Z).
    Fixpoint para (fuel : nat) (best : Z) (c : casing) (comma : Z) (t : list Z) (index : Z) (r : nat) : res (list Z * Z) :=
      match fuel with
      | O => NoFuel
      | S fuel =>
          if zlen t <? best then
            let offset := best - zlen t in
            let '(comma, r) := if comma =? 0 then (rand r mod 4 + 1, S r) else (comma, r) in
            let '(length, r) := (rand r mod 45 + 15, S r) in
            let '(comma, length, r) :=
              if offset <? 20 then (0, offset - 1, r)
              else if length >? offset then (0, offset + rand r mod 11 - 5, S r)
              else (comma, length, r) in
            do (p, index) <- lorem length c index;
            let t := t ++ p in
            if comma =? 0 then Ok (t ++ [46], index)                                  (* "." *)
            else if comma =? 1 then para fuel best FirstUpper 0 (t ++ [46; 32]) index r     (* ". " *)
            else para fuel best AllLower (comma - 1) (t ++ [44; 32]) index r          (* ", " *)
          else Ok (t, index)
      end.
    Definition paragraph (best index : Z) : res (list Z * Z) :=
      para (S (Z.to_nat best)) best FirstUpper 0 [] index 0.
  End paragraph.
End lorem.
