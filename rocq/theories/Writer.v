(** Model of [write] on acyclic data: the operator << of each type.

    src/kernel/pair.cpp:71-111, vector.cpp:29-41, string.cpp:55-90,
    character.cpp:61-82, symbol.cpp:31-45, large_integer.cpp:100-103,
    ratio.cpp:96-106, eof.cpp, and nan_boxing_pointer.hpp:240-290 for immediate
    values.  Colours are off (escape_sequence.hpp:75-88 with a stream that is not
    colorable).

    A datum is a finite tree: sharing and cycles, and hence the datum labels of
    pair.cpp:36-90, are not modelled.  std::isprint is modelled in the "C" locale,
    which the program never changes; its argument must be 0..255 or EOF, anything
    else is undefined.  The stream flag std::hex set by string.cpp:80 stays set,
    but every integer is written after std::dec (nan_boxing_pointer.hpp:250). *)
From Coq Require Import Ascii String ZArith QArith List Bool.
From Verif Require Import Number NumberText TextPort.
Import ListNotations.
Open Scope Z_scope.

(** The bytes of a string constant of the source *)
Fixpoint codes (s : string) : list Z :=
  match s with
  | EmptyString => []
  | String a s => Z.of_nat (nat_of_ascii a) :: codes s
  end.
Arguments codes s%string.

Inductive datum :=
| Nil
| Bool (b : bool)
| Num (x : num)                  (* exact numbers *)
| Inexact (k : nat)              (* floating-point and complex numbers, opaque *)
| Chr (c : Z)
| Str (cs : list Z)
| Sym (name : list Z)            (* the bytes of the name *)
| Pair (a b : datum)
| Vec (ds : list datum)
| End.                           (* the end-of-file object *)

(** A text, or undefined behaviour *)
Definition obind {A B} (o : option A) (f : A -> option B) : option B :=
  match o with Some a => f a | None => None end.
Notation "'let?' x := e 'in' f" := (obind e (fun x => f)) (at level 200, x pattern, right associativity).

(** is_special_character, textual_input_port.hpp:126-156 *)
Definition special (c : Z) : bool :=
  (c =? eof) || existsb (Z.eqb c)
    [0x09; 0x0A; 0x0B; 0x0C; 0x0D; 0x20; 0x22; 0x23; 0x27; 0x28; 0x29; 0x2C; 0x3B; 0x5B; 0x5D; 0x60;
     0x7B; 0x7C; 0x7D].

(** std::isprint *)
Definition isprint (c : Z) : option bool :=
  if (-1 <=? c) && (c <=? 255) then Some ((32 <=? c) && (c <=? 126)) else None.

(** std::hex and std::uppercase *)
Definition upper (c : Z) : Z := if (97 <=? c) && (c <=? 122) then c - 32 else c.
Definition hex_text (n : Z) : list Z := map upper (digits 16 n).

(** The lambda [put] of string.cpp:57-82.  The cases for the control characters are
    unreachable because std::isprint is false of them. *)
Definition put (c : Z) : option (list Z) :=
  let? p := isprint c in
  Some (if p : bool then
          if c =? 0x22 then codes "\""" else if c =? 0x5C then codes "\\" else if c =? 0x7C then codes "\|"
          else [c]
        else codes "\x" ++ hex_text c ++ codes ";").
Fixpoint puts (cs : list Z) : option (list Z) :=
  match cs with
  | [] => Some []
  | c :: cs => let? t := put c in let? ts := puts cs in Some (t ++ ts)
  end.
(** string.cpp:55-90 *)
Definition write_string (cs : list Z) : option (list Z) :=
  let? t := puts cs in Some (0x22 :: t ++ [0x22]).

(** character.cpp:61-82 *)
Definition write_char (c : Z) : list Z :=
  codes "#\" ++
  (if c =? 0x00 then codes "null" else if c =? 0x07 then codes "alarm" else
   if c =? 0x08 then codes "backspace" else if c =? 0x09 then codes "tab" else
   if c =? 0x0A then codes "newline" else if c =? 0x0D then codes "return" else
   if c =? 0x1B then codes "escape" else if c =? 0x20 then codes "space" else
   if c =? 0x7F then codes "delete" else utf8 c).

(** symbol.cpp:31-45.  A name that is not UTF-8 makes the string constructor throw. *)
Definition write_symbol (name : list Z) : option (list Z) :=
  match name with
  | [] => Some (codes "||")
  | _ => if existsb special name then
           match make_string name with
           | A_string cs => let? t := write_string cs in Some (codes "#" ++ t)
           | _ => None
           end
         else Some name
  end.

(** nan_boxing_pointer.hpp:248-251, large_integer.cpp:100-103, ratio.cpp:96-106
    (mpq_get_str leaves out a denominator of 1) *)
Definition write_number (x : num) : list Z :=
  match x with
  | Small z | Large z => int_text 10 z
  | Ratio q => if Z.pos (Qden q) =? 1 then int_text 10 (Qnum q)
               else int_text 10 (Qnum q) ++ 0x2F :: int_text 10 (Z.pos (Qden q))
  end.

Section Write.
  (** How an opaque number is written *)
  Variable inexact_text : nat -> list Z.

  (** pair.cpp:71-111, vector.cpp:29-41, nan_boxing_pointer.hpp:240-290 *)
  Fixpoint write (d : datum) : option (list Z) :=
    match d with
    | Nil => Some (codes "()")
    | Bool b => Some (if b then codes "#t" else codes "#f")
    | Num x => Some (write_number x)
    | Inexact k => Some (inexact_text k)
    | Chr c => Some (write_char c)
    | Str cs => write_string cs
    | Sym name => write_symbol name
    | Pair a b =>
      let fix tail (b : datum) : option (list Z) :=
        match b with
        | Nil => Some (codes ")")
        | Pair a b => let? t := write a in let? ts := tail b in Some (0x20 :: t ++ ts)
        | x => let? t := write x in Some (codes " . " ++ t ++ codes ")")
        end in
      let? t := write a in let? ts := tail b in Some (0x28 :: t ++ ts)
    | Vec ds =>
      let fix elements (ds : list datum) : option (list Z) :=
        match ds with
        | [] => Some (codes ")")
        | d :: ds => let? t := write d in let? ts := elements ds in Some (0x20 :: t ++ ts)
        end in
      match ds with
      | [] => Some (codes "#()")
      | d :: ds => let? t := write d in let? ts := elements ds in Some (codes "#(" ++ t ++ ts)
      end
    | End => Some (codes "#,(eof-object)")
    end.
End Write.
