(** Model of characters: include/meevax/kernel/character.hpp:26-195, the entries of
    src/kernel/boot.cpp:90-110, library/r7rs.ss:381 and the generation of the
    tables, CMakeLists.txt:42-64.

    A character is its code point, a C++ int.  The switch statements are searches
    through the lists of UnicodeTables.v. *)
From Coq Require Import String ZArith List Bool Lia.
From Verif Require Import Number NumberText Bitwise Writer UnicodeTables.
Import ListNotations.
Open Scope Z_scope.

(** ** The tables *)
(** A line of UnicodeData.txt at its semicolons *)
Fixpoint split_at (sep : Z) (current : list Z) (line : list Z) : list (list Z) :=
  match line with
  | [] => [rev current]
  | c :: line => if c =? sep then rev current :: split_at sep [] line else split_at sep (c :: current) line
  end.
(** The sed commands of CMakeLists.txt:43, 47, 52 and 57: a line with the fields f0;...;fn becomes
    case 0x<f0>: return <prefix><field k + 1>; and a line with fewer fields stays. *)
Definition sed (k : nat) (prefix : list Z) (line : list Z) : list Z :=
  let fields := split_at 59 [] line in
  match nth_error fields (S k), fields with
  | Some value, code :: _ => codes "case 0x" ++ code ++ codes ": return " ++ prefix ++ value ++ codes ";"
  | _, _ => line
  end.

(** The grep of CMakeLists.txt:48, 53 and 58 after sed: lines where the value is not empty *)
Definition generate (k : nat) (prefix : list Z) (lines : list (list Z)) : list (list Z) :=
  flat_map (fun line => match nth_error (split_at 59 [] line) (S k) with Some (_ :: _) => [sed k prefix line] | _ => [] end) lines.

(** A switch statement: character.hpp:80-86, 143-149, 154-160 and 185-191 *)
Fixpoint switch {A} (cases : list (entry A)) (c : Z) : option A :=
  match cases with
  | [] => None
  | e :: cases => if (low e <=? c) && (c <=? high e) then Some (val e) else switch cases c
  end.
(** to_value_type, character.hpp:78-87 *)
Definition property (c : Z) : category := match switch property_cases c with Some g => g | None => Cn end.
(** digit_value, character.hpp:141-150 *)
Definition digit_value (c : Z) : option Z := switch digit_value_cases c.
(** downcase and upcase, character.hpp:152-161 and 183-192 *)
Definition downcase (c : Z) : Z := match switch downcase_cases c with Some d => d | None => c end.
Definition upcase (c : Z) : Z := match switch upcase_cases c with Some d => d | None => c end.

(** is_letter ... is_whitespace, character.hpp:89-117 *)
Definition is_letter (g : category) : bool := match g with Ll | Lm | Lo | Lt | Lu => true | _ => false end.
Definition is_lower_case (g : category) : bool := match g with Ll => true | _ => false end.
Definition is_numeric (g : category) : bool := match g with Nd => true | _ => false end.
Definition is_upper_case (g : category) : bool := match g with Lu => true | _ => false end.
Definition is_whitespace (g : category) : bool := match g with Zs => true | _ => false end.

(** ** The procedures, boot.cpp:91-110 *)
Definition char_alphabetic (c : Z) : bool := is_letter (property c).          (* boot.cpp:101 *)
Definition char_numeric (c : Z) : bool := is_numeric (property c).            (* boot.cpp:102 *)
Definition char_whitespace (c : Z) : bool := is_whitespace (property c).      (* boot.cpp:103 *)
Definition char_upper_case (c : Z) : bool := is_upper_case (property c).      (* boot.cpp:104 *)
Definition char_lower_case (c : Z) : bool := is_lower_case (property c).      (* boot.cpp:105 *)
(** char-foldcase, r7rs.ss:381 *)
Definition char_foldcase (c : Z) : Z := downcase c.
(** adjacent_find of a pair that is not in the relation, boot.cpp:91-100 *)
Fixpoint adjacent (related : Z -> Z -> bool) (cs : list Z) : bool :=
  match cs with
  | a :: rest => match rest with b :: _ => related a b && adjacent related rest | [] => true end
  | [] => true
  end.
(** char=? char<? char<=? char>? char>=?, boot.cpp:91-95 *)
Definition chars_eq := adjacent Z.eqb.
Definition chars_lt := adjacent Z.ltb.
Definition chars_le := adjacent Z.leb.
Definition chars_gt := adjacent Z.gtb.
Definition chars_ge := adjacent Z.geb.
(** char-ci=? char-ci<? char-ci<=? char-ci>? char-ci>=?, boot.cpp:96-100 *)
Definition chars_ci_eq := adjacent (fun a b => Z.eqb (downcase a) (downcase b)).
Definition chars_ci_lt := adjacent (fun a b => Z.ltb (downcase a) (downcase b)).
Definition chars_ci_le := adjacent (fun a b => Z.leb (downcase a) (downcase b)).
Definition chars_ci_gt := adjacent (fun a b => Z.gtb (downcase a) (downcase b)).
Definition chars_ci_ge := adjacent (fun a b => Z.geb (downcase a) (downcase b)).
(** char->integer and integer->char, boot.cpp:107-108 *)
Definition char_to_integer (c : Z) : num := Small c.
Definition integer_to_char (x : num) : outcome Z := cast_small x.
