(* Console: Source/Console.cpp, Console.Linux.cpp, Console.Windows.cpp.
   The operating system is a state: the characters still to be read and everything written so far.
   A pointer is the memory behind it as a list; outside a block is UB.  Interactive input is the
   list of everything that will be typed. *)
From Verif Require Import Base MbModel.
Open Scope Z_scope.

(* Where the text goes.
   - [Linux can]: std::wcout, [can c] says that the locale of the stream can represent c;
   - [Window]: a Windows console;
   - [File enc]: a Windows file or pipe, [enc s] is the text s in the output code page, or None
     if WideCharToMultiByte fails. *)
Inductive target := Linux (can : Z -> bool) | Window | File (enc : list Z -> option (list Z)).

(* con_bad is the badbit of std::wcout *)
Record console := mkCon { con_in : list Z; con_out : list Z; con_bad : bool }.

(* The n units at a pointer *)
Definition span (mem : list Z) (n : Z) : res (list Z) :=
  if (0 <=? n) && (n <=? zlen mem) then Ok (firstn (Z.to_nat n) mem) else UB.

(* wcout << : characters are written one by one; the first that cannot be represented sets the badbit.
   Nothing is written while the badbit is set. *)
Fixpoint put_chars (can : Z -> bool) (l : list Z) (c : console) : console :=
  if con_bad c then c else
  match l with
  | [] => c
  | x :: l =>
      if can x then put_chars can l (mkCon (con_in c) (con_out c ++ [x]) false)
      else mkCon (con_in c) (con_out c) true
  end.

(* Write(const wchar_t*, vint) : Console.Linux.cpp:22-26 (std::ends puts a zero), Console.Windows.cpp:22-40.
   DWORD is 32 bits.  A failing WideCharToMultiByte returns 0: the file is given 2^32-1 units of an empty block. *)
Definition write_n (t : target) (mem : list Z) (n : Z) (c : console) : res console :=
  match t with
  | Linux can => do s <- span mem n; Ok (put_chars can [0] (put_chars can s c))
  | Window => do s <- span mem (n mod 2 ^ 32); Ok (mkCon (con_in c) (con_out c ++ s) (con_bad c))
  | File enc =>
      do s <- c_text mem;
      match enc s with
      | Some b => Ok (mkCon (con_in c) (con_out c ++ b) (con_bad c))
      | None => UB
      end
  end.
(* Write(const wchar_t* ) : Console.cpp:18-21 *)
Definition write_z (t : target) (mem : list Z) (c : console) : res console :=
  do s <- c_text mem; write_n t mem (zlen s) c.
(* Write(const WString&) : Console.cpp:23-26.  Buffer() is the text and a zero (C10). *)
Definition write_s (t : target) (s : list Z) (c : console) : res console :=
  write_n t (s ++ [0]) (zlen s) c.
(* WriteLine(const WString&) : Console.cpp:28-32 *)
Definition write_line (t : target) (s : list Z) (c : console) : res console :=
  do c <- write_s t s c; write_z t [13; 10; 0] c.

(* std::getline(std::wcin, s, L'\n') : everything up to the delimiter, which is dropped, or up to the end *)
Fixpoint get_line (l : list Z) : list Z * list Z :=
  match l with
  | [] => ([], [])
  | x :: l => if x =? 10 then ([], l) else let (s, r) := get_line l in (x :: s, r)
  end.
(* Console.Windows.cpp:42-63.  ReadConsole at the end of the input leaves the variable unset: testing it is UB.
   WString::FromChar(0) is the empty string. *)
Fixpoint read_chars (l : list Z) : res (list Z * list Z) :=
  match l with
  | [] => UB
  | x :: l =>
      if x =? 13 then Ok ([], tl l)
      else if x =? 10 then Ok ([], l)
      else do (s, r) <- read_chars l; Ok ((if x =? 0 then s else x :: s), r)
  end.
(* Read() : Console.Linux.cpp:28-33, the string is built from c_str() ; Console.Windows.cpp:42-63 *)
Definition read_line (t : target) (c : console) : res (list Z * console) :=
  match t with
  | Linux _ =>
      let (s, r) := get_line (con_in c) in
      do s <- c_text (s ++ [0]); Ok (s, mkCon r (con_out c) (con_bad c))
  | _ => do (s, r) <- read_chars (con_in c); Ok (s, mkCon r (con_out c) (con_bad c))
  end.

(* SetColor : Console.Linux.cpp:35-42, wprintf does not look at the badbit of std::wcout.  On Windows the attribute
   is not part of the text : Console.Windows.cpp:65-74 *)
Definition set_color (t : target) (red green blue light : bool) (c : console) : console :=
  match t with
  | Linux _ =>
      let color := (if blue then 1 else 0) * 4 + (if green then 1 else 0) * 2 + (if red then 1 else 0) in
      mkCon (con_in c) (con_out c ++ [27; 91; 48; if light then 48 else 49; 59; 51; 48 + color; 109]) (con_bad c)
  | _ => c
  end.

Inductive con_op :=
| WriteN (mem : list Z) (n : Z)                    (* Write(const wchar_t*, vint) *)
| WriteZ (mem : list Z)                            (* Write(const wchar_t* ) *)
| WriteS (s : list Z)                              (* Write(const WString&) *)
| WriteLine (s : list Z)
| Read
| SetColor (red green blue light : bool)
| SetTitle (s : list Z).                           (* no effect on the text : Console.Linux.cpp:44-46 *)

(* One call: what Read returns (nothing for the others) and the new state *)
Definition con_step (t : target) (o : con_op) (c : console) : res (list Z * console) :=
  match o with
  | WriteN mem n => do c <- write_n t mem n c; Ok ([], c)
  | WriteZ mem => do c <- write_z t mem c; Ok ([], c)
  | WriteS s => do c <- write_s t s c; Ok ([], c)
  | WriteLine s => do c <- write_line t s c; Ok ([], c)
  | Read => read_line t c
  | SetColor r g b l => Ok ([], set_color t r g b l c)
  | SetTitle _ => Ok ([], c)
  end.
Fixpoint con_run (t : target) (os : list con_op) (c : console) : res (list (list Z) * console) :=
  match os with
  | [] => Ok ([], c)
  | o :: os => do (r, c) <- con_step t o c; do (rs, c) <- con_run t os c; Ok (r :: rs, c)
  end.
