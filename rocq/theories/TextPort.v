(** Model of the character level of textual ports: src/kernel/character.cpp,
    the character procedures of src/kernel/textual_input_port.cpp, the string
    constructor and string::utf8 of src/kernel/string.cpp.

    A byte is a [Z] in 0..255.  std::istream (libstdc++) is modelled by its three
    state bits, the bytes still to come and the bytes already taken (most recent
    first), which is what putback looks at.  The operands of [|] in take_character
    are unsequenced in C++; they are taken from left to right, as GCC does. *)
From Coq Require Import ZArith List Bool Lia.
Import ListNotations.
Open Scope Z_scope.

(** ** std::istream *)
Record istream := Stream {
  ahead : list Z;          (* bytes from the get pointer on *)
  behind : list Z;         (* bytes before the get pointer, nearest first *)
  eofbit : bool;
  failbit : bool;
  badbit : bool }.

Definition good (s : istream) : bool := negb (eofbit s || failbit s || badbit s).
(** istream::operator bool *)
Definition usable (s : istream) : bool := negb (failbit s || badbit s).
Definition eof : Z := -1.

(** std::istringstream built from a byte string (input_string_port.hpp:27-36) *)
Definition stream_of (bytes : list Z) : istream := Stream bytes [] false false false.

Definition with_fail (s : istream) := Stream (ahead s) (behind s) (eofbit s) true (badbit s).

(** istream::peek: the sentry sets failbit on a stream that is not good; reaching
    the end sets eofbit only *)
Definition i_peek (s : istream) : Z * istream :=
  if good s then
    match ahead s with
    | [] => (eof, Stream [] (behind s) true (failbit s) (badbit s))
    | b :: _ => (b, s)
    end
  else (eof, with_fail s).

(** istream::get: reaching the end sets eofbit and failbit *)
Definition i_get (s : istream) : Z * istream :=
  if good s then
    match ahead s with
    | [] => (eof, Stream [] (behind s) true true (badbit s))
    | b :: r => (b, Stream r (b :: behind s) (eofbit s) (failbit s) (badbit s))
    end
  else (eof, with_fail s).

(** istream::putback clears eofbit first; a byte that is not the one before the
    get pointer cannot be put back into an istringstream and sets badbit *)
Definition i_putback (b : Z) (s : istream) : istream :=
  let s := Stream (ahead s) (behind s) false (failbit s) (badbit s) in
  if good s then
    match behind s with
    | x :: r => if x =? b then Stream (b :: ahead s) r false (failbit s) (badbit s)
                else Stream (ahead s) (behind s) false (failbit s) true
    | [] => Stream (ahead s) (behind s) false (failbit s) true
    end
  else with_fail s.

(** ** Characters *)
(** A std::string built from a char const * ends at the first NUL *)
Fixpoint c_string (bs : list Z) : list Z :=
  match bs with
  | [] => []
  | b :: r => if b =? 0 then [] else b :: c_string r
  end.

(** character::utf8, character.cpp:25-59 *)
Definition utf8 (c : Z) : list Z :=
  c_string
    (if c <=? 0x7F then [Z.land c 0x7F]
     else if c <=? 0x7FF then
       [Z.lor 0xC0 (Z.land (Z.shiftr c 6) 0x1F); Z.lor 0x80 (Z.land c 0x3F)]
     else if c <=? 0xFFFF then
       [Z.lor 0xE0 (Z.land (Z.shiftr c 12) 0x0F); Z.lor 0x80 (Z.land (Z.shiftr c 6) 0x3F);
        Z.lor 0x80 (Z.land c 0x3F)]
     else if c <=? 0x10FFFF then
       [Z.lor 0xF0 (Z.land (Z.shiftr c 18) 0x07); Z.lor 0x80 (Z.land (Z.shiftr c 12) 0x3F);
        Z.lor 0x80 (Z.land (Z.shiftr c 6) 0x3F); Z.lor 0x80 (Z.land c 0x3F)]
     else [0xBD; 0xBF; 0xEF]).

(** What a character-level read yields: a character (or [eof]), or the read_error *)
Inductive taken := Char (c : Z) | ReadError.

(** textual_input_port::take_character, textual_input_port.cpp:620-656;
    is_eof, is_ascii: character.hpp *)
Definition take_character (s : istream) : taken * istream :=
  let '(c, s) := i_peek s in
  if (c =? eof) || ((0 <=? c) && (c <=? 0x7F)) then
    let '(b, s) := i_get s in (Char b, s)
  else if (0xC2 <=? c) && (c <=? 0xDF) then
    let '(b0, s) := i_get s in let '(b1, s) := i_get s in
    (Char (Z.lor (Z.shiftl (Z.land b0 0x1F) 6) (Z.land b1 0x3F)), s)
  else if (0xE0 <=? c) && (c <=? 0xEF) then
    let '(b0, s) := i_get s in let '(b1, s) := i_get s in let '(b2, s) := i_get s in
    (Char (Z.lor (Z.lor (Z.shiftl (Z.land b0 0x0F) 12) (Z.shiftl (Z.land b1 0x3F) 6))
                 (Z.land b2 0x3F)), s)
  else if (0xF0 <=? c) && (c <=? 0xF4) then
    let '(b0, s) := i_get s in let '(b1, s) := i_get s in
    let '(b2, s) := i_get s in let '(b3, s) := i_get s in
    (Char (Z.lor (Z.lor (Z.lor (Z.shiftl (Z.land b0 0x07) 18) (Z.shiftl (Z.land b1 0x3F) 12))
                        (Z.shiftl (Z.land b2 0x3F) 6))
                 (Z.land b3 0x3F)), s)
  else (ReadError, s).

(** textual_input_port::peek_character, textual_input_port.cpp:185-197 *)
Definition peek_character (s : istream) : taken * istream :=
  let '(t, s) := take_character s in
  match t with
  | ReadError => (ReadError, s)
  | Char c => (Char c, fold_left (fun s b => i_putback b s) (rev (utf8 c)) s)
  end.

(** ** The procedures behind read-char, peek-char, read-string and read-line *)
Inductive result :=
| Eof_object
| A_char (c : Z)
| A_string (cs : list Z)
| An_error
| No_fuel.

(** textual_input_port::get(), textual_input_port.cpp:125-135 *)
Definition p_get (s : istream) : result * istream :=
  let '(t, s) := take_character s in
  match t with
  | Char c => if c =? eof then (Eof_object, s) else (A_char c, s)
  | ReadError => (An_error, s)
  end.

(** textual_input_port::peek(), textual_input_port.cpp:173-183 *)
Definition p_peek (s : istream) : result * istream :=
  let '(t, s) := peek_character s in
  match t with
  | Char c => if c =? eof then (Eof_object, s) else (A_char c, s)
  | ReadError => (An_error, s)
  end.

(** The loop of textual_input_port::get(size), textual_input_port.cpp:147-150 *)
Fixpoint get_loop (size : nat) (s : istream) (acc : list Z) : result * istream :=
  match size with
  | O => (A_string acc, s)
  | S size =>
    let '(t, s) := peek_character s in
    match t with
    | ReadError => (An_error, s)
    | Char c =>
      if c =? eof then (A_string acc, s)
      else let '(t, s) := take_character s in
           match t with
           | ReadError => (An_error, s)
           | Char c => get_loop size s (acc ++ [c])
           end
    end
  end.

(** textual_input_port::get(size), textual_input_port.cpp:137-154 *)
Definition p_get_string (size : nat) (s : istream) : result * istream :=
  let '(t, s) := peek_character s in
  match t with
  | ReadError => (An_error, s)
  | Char c => if c =? eof then (Eof_object, s) else get_loop size s []
  end.

(** std::string += int: the codepoint is converted to char *)
Definition char_of (c : Z) : Z := c mod 256.

(** textual_input_port::take_character_until with the predicate of get_line,
    textual_input_port.hpp:84-95; [None] is the read_error.  The fuel bounds the
    number of iterations. *)
Fixpoint until_newline (fuel : nat) (s : istream) (acc : list Z)
  : option (option (list Z) * istream) :=
  match fuel with
  | O => None
  | S fuel =>
    if usable s then
      let '(t, s) := take_character s in
      match t with
      | ReadError => Some (None, s)
      | Char c => if c =? 10 then Some (Some acc, s) else until_newline fuel s (acc ++ [char_of c])
      end
    else Some (Some acc, s)
  end.

(** string::string(std::string const&), string.cpp:25-35 *)
Fixpoint decode_loop (fuel : nat) (s : istream) (acc : list Z) : result :=
  match fuel with
  | O => No_fuel
  | S fuel =>
    let '(t, s) := take_character s in
    match t with
    | ReadError => An_error
    | Char c => if c =? eof then A_string acc else decode_loop fuel s (acc ++ [c])
    end
  end.
Definition make_string (bytes : list Z) : result :=
  decode_loop (S (length bytes)) (stream_of bytes) [].

(** textual_input_port::get_line, textual_input_port.cpp:156-166 *)
Definition p_get_line (s : istream) : result * istream :=
  match until_newline (S (S (length (ahead s)))) s [] with
  | None => (No_fuel, s)
  | Some (None, s) => (An_error, s)
  | Some (Some bytes, s) => if eofbit s then (Eof_object, s) else (make_string bytes, s)
  end.

(** textual_input_port::get_ready, textual_input_port.cpp:168-171 *)
Definition p_ready (s : istream) : bool := usable s.

(** string::utf8, string.cpp:37-47; what write-string and display put on a port
    (textual_output_port.cpp:42-74) *)
Definition string_utf8 (cs : list Z) : list Z := flat_map utf8 cs.

(** read-char, peek-char, read-string, read-line: r7rs.ss:251-275 *)
Inductive read_op := Read_char | Peek_char | Read_string (k : nat) | Read_line.
Definition run_op (op : read_op) (s : istream) : result * istream :=
  match op with
  | Read_char => p_get s
  | Peek_char => p_peek s
  | Read_string k => p_get_string k s
  | Read_line => p_get_line s
  end.
Fixpoint run_ops (ops : list read_op) (s : istream) : list result * istream :=
  match ops with
  | [] => ([], s)
  | op :: ops => let '(r, s) := run_op op s in
                 let '(rs, s) := run_ops ops s in (r :: rs, s)
  end.
