(** Model of textual_input_port::read, src/kernel/textual_input_port.cpp:199-618.

    Simplifications.
    - Datum labels (#n= and #n#), #, #e #i, the homogeneous vectors (#u8 and the
      like) and #!fold-case are not modelled: reading one yields [Not_modelled].
      The flag fold_case is therefore always false.
    - make_number is modelled completely as to which literals are numbers; the
      value of one that is not an exact integer or ratio is a parameter.
    - A C++ exception is a result together with the state of the stream: the two
      exceptions of the reader itself ([Close] and [Dot]), or [Failed] for a
      read_error and any other std::exception.
    - std::isdigit and std::isspace are undefined outside 0..255 and EOF.
    - Recursion has fuel; [No_more_fuel] means that it ran out. *)
From Coq Require Import String ZArith QArith List Bool.
From Verif Require Import Number NumberText TextPort Writer.
Import ListNotations.
Open Scope Z_scope.

Inductive reading :=
| Datum (d : datum)
| Close                    (* std::integral_constant<char, ')'> *)
| Dot                      (* std::integral_constant<char, '.'> *)
| Failed
| Undefined
| Not_modelled
| No_more_fuel.

(** Enough iterations for a loop that takes a character each time *)
Definition enough (s : istream) : nat := S (S (length (ahead s))).

(** What taking a run of characters yields *)
Inductive run := Run (cs : list Z) | Run_fails | Run_undefined | Run_fuel.

(** textual_input_port::take_character_until, textual_input_port.hpp:84-95; the
    characters, before truncation to char *)
Fixpoint take_until (fuel : nat) (stop : Z -> bool) (s : istream) (acc : list Z) : run * istream :=
  match fuel with
  | O => (Run_fuel, s)
  | S fuel =>
    if usable s then
      let '(t, s) := take_character s in
      match t with
      | ReadError => (Run_fails, s)
      | Char c => if stop c then (Run acc, s) else take_until fuel stop s (acc ++ [c])
      end
    else (Run acc, s)
  end.

(** textual_input_port::take_character_while, textual_input_port.hpp:97-108; the
    predicate is undefined on some characters *)
Fixpoint take_while (fuel : nat) (satisfy : Z -> option bool) (s : istream) (acc : list Z) : run * istream :=
  match fuel with
  | O => (Run_fuel, s)
  | S fuel =>
    if usable s then
      let '(t, s) := peek_character s in
      match t with
      | ReadError => (Run_fails, s)
      | Char c =>
        match satisfy c with
        | None => (Run_undefined, s)
        | Some false => (Run acc, s)
        | Some true =>
          let '(t, s) := take_character s in
          match t with
          | ReadError => (Run_fails, s)
          | Char c => take_while fuel satisfy s (acc ++ [c])
          end
        end
      end
    else (Run acc, s)
  end.

(** std::isdigit and std::isspace *)
Definition ctype (p : Z -> bool) (c : Z) : option bool :=
  if (-1 <=? c) && (c <=? 255) then Some (p c) else None.
Definition isdigit : Z -> option bool := ctype (fun c => (48 <=? c) && (c <=? 57)).
Definition isspace : Z -> option bool := ctype is_blank.

(** lexical_cast<int>(std::hex, s), lexical_cast.hpp:27-55: blanks, a sign, an
    optional 0x and hexadecimal digits; the rest is ignored; [None] is the
    std::runtime_error *)
Definition hex_digits (s : list Z) : option Z :=
  match s with
  | c :: _ => match digit_in 16 c with Some _ => Some (fst (scan 16 0 s)) | None => None end
  | [] => None
  end.
Definition hex_prefix (s : list Z) : option Z :=
  match s with
  | z :: x :: t => if (z =? 48) && ((x =? 120) || (x =? 88)) then hex_digits t else hex_digits s
  | _ => hex_digits s
  end.
Definition hex_value (s : list Z) : option Z :=
  let? v := match skip_blanks s with
            | c :: t => if c =? 45 then option_map Z.opp (hex_prefix t)
                        else if c =? 43 then hex_prefix t else hex_prefix (c :: t)
            | [] => None
            end in
  if is_int32 v then Some v else None.

(** The lambda take_quoted, textual_input_port.cpp:206-251 *)
Fixpoint take_quoted (fuel : nat) (mark : Z) (s : istream) (acc : list Z) : run * istream :=
  match fuel with
  | O => (Run_fuel, s)
  | S fuel =>
    let '(t, s) := take_character s in
    match t with
    | ReadError => (Run_fails, s)
    | Char c =>
      if c =? eof then (Run_fails, s)
      else if c =? mark then (Run acc, s)
      else if c =? 0x5C then
        let '(t, s) := take_character s in
        match t with
        | ReadError => (Run_fails, s)
        | Char c =>
          if c =? 97 then take_quoted fuel mark s (acc ++ [7])
          else if c =? 98 then take_quoted fuel mark s (acc ++ [8])
          else if c =? 102 then take_quoted fuel mark s (acc ++ [12])
          else if c =? 110 then take_quoted fuel mark s (acc ++ [10])
          else if c =? 114 then take_quoted fuel mark s (acc ++ [13])
          else if c =? 116 then take_quoted fuel mark s (acc ++ [9])
          else if c =? 118 then take_quoted fuel mark s (acc ++ [11])
          else if c =? 120 then
            match take_until (enough s) (Z.eqb 0x3B) s [] with
            | (Run cs, s) => match hex_value (map char_of cs) with
                             | Some v => take_quoted fuel mark s (acc ++ [v])
                             | None => (Run_fails, s)
                             end
            | bad => bad
            end
          else if (c =? 10) || (c =? 13) then
            match take_while (enough s) isspace s [] with
            | (Run _, s) => take_quoted fuel mark s acc
            | bad => bad
            end
          else take_quoted fuel mark s (acc ++ [c])
        end
      else take_quoted fuel mark s (acc ++ [c])
    end
  end.

(** The lambda take_token, textual_input_port.cpp:253-266, with fold_case false *)
Fixpoint token_loop (fuel : nat) (s : istream) (acc : list Z) : run * istream :=
  match fuel with
  | O => (Run_fuel, s)
  | S fuel =>
    let '(t, s) := peek_character s in
    match t with
    | ReadError => (Run_fails, s)
    | Char c =>
      if special c then (Run acc, s)
      else let '(t, s) := take_character s in
           match t with
           | ReadError => (Run_fails, s)
           | Char c => token_loop fuel s (acc ++ [c])
           end
    end
  end.
Definition take_token (c : Z) (s : istream) : run * istream :=
  match token_loop (enough s) s [c] with
  | (Run cs, s) => (Run (string_utf8 cs), s)
  | bad => bad
  end.

(** The loop over a block comment, textual_input_port.cpp:507-541: [nest] is one
    less than the variable of that name *)
Fixpoint skip_block (fuel : nat) (nest : nat) (s : istream) : run * istream :=
  match fuel with
  | O => (Run_fuel, s)
  | S fuel =>
    let '(t, s) := take_character s in
    match t with
    | ReadError => (Run_fails, s)
    | Char c =>
      if c =? eof then (Run_fails, s)
      else if c =? 0x23 then
        let '(t, s) := peek_character s in
        match t with
        | ReadError => (Run_fails, s)
        | Char p => if p =? 0x7C then let '(_, s) := take_character s in skip_block fuel (S nest) s
                    else skip_block fuel nest s
        end
      else if c =? 0x7C then
        let '(t, s) := peek_character s in
        match t with
        | ReadError => (Run_fails, s)
        | Char p => if p =? 0x23 then
                      let '(_, s) := take_character s in
                      match nest with
                      | O => (Run [], s)
                      | S nest => skip_block fuel nest s
                      end
                    else skip_block fuel nest s
        end
      else skip_block fuel nest s
    end
  end.

(** The table of textual_input_port.cpp:481-491 *)
Definition char_names : list (list Z * Z) :=
  [(codes "alarm", 0x07); (codes "backspace", 0x08); (codes "delete", 0x7F); (codes "escape", 0x1B);
   (codes "newline", 0x0A); (codes "null", 0x00); (codes "return", 0x0D); (codes "space", 0x20);
   (codes "tab", 0x09)].
Fixpoint lookup (name : list Z) (t : list (list Z * Z)) : option Z :=
  match t with
  | [] => None
  | (n, c) :: t => if list_eq_dec Z.eq_dec n name then Some c else lookup name t
  end.

(** A list of data, or [None] for something else *)
Fixpoint elements (d : datum) : option (list datum) :=
  match d with
  | Nil => Some []
  | Pair a b => option_map (cons a) (elements b)
  | _ => None
  end.

(** What make_number yields on a literal *)
Inductive literal := Exact (x : num) | Flonum (k : nat) | Not_a_number | Literal_raises | Literal_undefined.

Definition of_run (r : run) : reading :=
  match r with Run _ => Failed | Run_fails => Failed | Run_undefined => Undefined | Run_fuel => No_more_fuel end.

(** std::regex_match with the pattern of number.cpp:423, as an equivalent
    deterministic recogniser: a sign or not; digits, digits and a point, or a point
    with digits after it; an exponent or not *)
Definition is_dec (c : Z) : bool := (48 <=? c) && (c <=? 57).
Definition is_sign (c : Z) : bool := (c =? 43) || (c =? 45).
Fixpoint decs (s : list Z) : list Z * list Z :=
  match s with
  | c :: t => if is_dec c then let '(a, b) := decs t in (c :: a, b) else ([], s)
  | [] => ([], [])
  end.
Definition unsigned (s : list Z) : list Z :=
  match s with c :: t => if is_sign c then t else s | [] => [] end.
Definition exponent (s : list Z) : bool :=
  match s with
  | [] => true
  | e :: t => existsb (Z.eqb e) [68; 69; 70; 100; 101; 102] &&
              match decs (unsigned t) with (_ :: _, []) => true | _ => false end
  end.
Definition decimal (s : list Z) : bool :=
  let '(ds, rest) := decs (unsigned s) in
  match rest with
  | c :: rest' =>
    if c =? 46 then
      let '(fs, rest'') := decs rest' in
      match ds, fs with [], [] => false | _, _ => exponent rest'' end
    else match ds with [] => false | _ => exponent rest end
  | [] => match ds with [] => false | _ => true end
  end.
Definition constants : list (list Z) := [codes "+inf.0"; codes "-inf.0"; codes "+nan.0"; codes "-nan.0"].

(** The last position where [p] holds, as the text before it and the text from it *)
Fixpoint split_last (p : Z -> bool) (s : list Z) : option (list Z * list Z) :=
  match s with
  | [] => None
  | c :: t => match split_last p t with
              | Some (a, b) => Some (c :: a, b)
              | None => if p c then Some ([], s) else None
              end
  end.
(** std::regex_match with the pattern [rectangular], complex.cpp:28: anything, a
    sign and anything, the letter i; the first part is as long as possible *)
Definition rectangular (s : list Z) : option (list Z * list Z) :=
  match rev s with
  | c :: t => if c =? 105 then split_last is_sign (rev t) else None
  | [] => None
  end.
(** std::regex_match with the pattern [polar], complex.cpp:30: anything, an at
    sign, anything *)
Definition polar (s : list Z) : option (list Z * list Z) :=
  option_map (fun '(a, b) => (a, tl b)) (split_last (Z.eqb 64) s).

Section Read.
  (** The value of a floating-point or complex literal in a radix; [None] is the
      std::out_of_range of std::stod *)
  Variable inexact_value : list Z -> Z -> option nat.
  (** How such a number is written *)
  Variable inexact_text : nat -> list Z.

  Definition inexact (s : list Z) (r : Z) : literal :=
    match inexact_value s r with Some k => Flonum k | None => Literal_raises end.
  (** make_real, number.cpp:405-470 *)
  Definition make_real (s : list Z) (r : Z) : literal :=
    match make_rational s r with
    | Ok (Some x) => Exact x
    | Ok None => if existsb (fun c => if list_eq_dec Z.eq_dec c s then true else false) constants || decimal s
                 then inexact s r else Not_a_number
    | Raise => Literal_raises
    | Crash => Literal_undefined
    end.
  (** The two parts of a complex literal, in order *)
  Definition both (a b : literal) (value : literal) : literal :=
    match a with
    | Exact _ | Flonum _ => match b with Exact _ | Flonum _ => value | bad => bad end
    | bad => bad
    end.
  (** make_complex, number.cpp:472-483, and the constructor complex.cpp:26-50 *)
  Definition make_complex (s : list Z) (r : Z) : literal :=
    match make_real s r with
    | Not_a_number =>
      match rectangular s with
      | Some (re, im) =>
        both (make_real (match re with [] => codes "0" | _ => re end) r)
             (make_real (match im with [_] => im ++ codes "1" | _ => im end) r) (inexact s r)
      | None =>
        match polar s with
        | Some (magnitude, angle) => both (make_real magnitude r) (make_real angle r) (inexact s r)
        | None => Not_a_number
        end
      end
    | x => x
    end.
  (** make_number, number.cpp:485-495 *)
  Definition make_number (s : list Z) (r : Z) : literal := make_complex s r.
  (** A number after a radix prefix: a literal that is not a number is an error *)
  Definition numeral (s : list Z) (r : Z) : reading :=
    match make_number s r with
    | Exact x => Datum (Num x)
    | Flonum k => Datum (Inexact k)
    | Not_a_number => Failed
    | Literal_raises => Failed
    | Literal_undefined => Undefined
    end.
  (** The default case, textual_input_port.cpp:600-614 *)
  Definition atom (token : list Z) : reading :=
    if list_eq_dec Z.eq_dec token (codes ".") then Dot
    else match make_number token 10 with
         | Exact x => Datum (Num x)
         | Flonum k => Datum (Inexact k)
         | Not_a_number => Datum (Sym token)
         | Literal_raises => Failed
         | Literal_undefined => Undefined
         end.

  (** The body of textual_input_port::read is divided into its cases; [rec] is the
      recursive call, whose first argument is 0 when the argument is left out *)
  Section Body.
    Variable rec : Z -> istream -> reading * istream.

    (** list(make_symbol(name), read(c)): textual_input_port.cpp:550, 576-583, 590 *)
    Definition abbreviation (name : list Z) (c : Z) (s : istream) : reading * istream :=
      match rec c s with
      | (Datum x, s) => (Datum (Pair (Sym name) (Pair x Nil)), s)
      | bad => bad
      end.
    (** #b #d #o #x: textual_input_port.cpp:363-381, 403-411, 457-465 *)
    Definition radix (r : Z) (s : istream) : reading * istream :=
      let '(t, s) := take_character s in
      match t with
      | ReadError => (Failed, s)
      | Char c3 =>
        if c3 =? 0x23 then
          match rec 0 s with
          | (Datum x, s) => match write inexact_text x with
                            | Some w => (numeral w r, s)
                            | None => (Undefined, s)
                            end
          | bad => bad
          end
        else match take_token c3 s with
             | (Run token, s) => (numeral token r, s)
             | (bad, s) => (of_run bad, s)
             end
      end.
    (** A symbol between quotation marks: textual_input_port.cpp:312-313, 592-593 *)
    Definition quoted_symbol (mark : Z) (s : istream) : reading * istream :=
      match take_quoted (enough s) mark s [] with
      | (Run cs, s) => (Datum (Sym (string_utf8 cs)), s)
      | (bad, s) => (of_run bad, s)
      end.
    (** The rest of a line *)
    Definition line (s : istream) : run * istream := take_until (enough s) (Z.eqb 0x0A) s [].
    (** #!: textual_input_port.cpp:289-303 *)
    Definition directive (c2 : Z) (s : istream) : reading * istream :=
      match take_token c2 s with
      | (Run token, s) =>
        if list_eq_dec Z.eq_dec token (codes "!fold-case") then (Not_modelled, s)
        else if list_eq_dec Z.eq_dec token (codes "!no-fold-case") then rec 0 s
        else match line s with
             | (Run _, s) => rec 0 s
             | (bad, s) => (of_run bad, s)
             end
      | (bad, s) => (of_run bad, s)
      end.
    (** #f: textual_input_port.cpp:386-398 *)
    Definition sharp_f (c2 : Z) (s : istream) : reading * istream :=
      match take_while (enough s) isdigit s [] with
      | (Run ds, s) =>
        let n := fst (scan 10 0 ds) in
        if 2 ^ 31 <=? n then (Failed, s)
        else if (n =? 32) || (n =? 64) then (Not_modelled, s)
        else match take_token c2 s with
             | (Run _, s) => (Datum (Bool false), s)
             | (bad, s) => (of_run bad, s)
             end
      | (bad, s) => (of_run bad, s)
      end.
    (** #\: textual_input_port.cpp:470-504 *)
    Definition sharp_char (s : istream) : reading * istream :=
      let '(t, s) := take_character s in
      match t with
      | ReadError => (Failed, s)
      | Char c3 =>
        let '(t, s) := peek_character s in
        match t with
        | ReadError => (Failed, s)
        | Char p =>
          if special p then (Datum (Chr c3), s)
          else if c3 =? 120 then
            match take_token 48 s with
            | (Run token, s) => match hex_value token with
                                | Some v => (Datum (Chr v), s)
                                | None => (Failed, s)
                                end
            | (bad, s) => (of_run bad, s)
            end
          else
            match take_token c3 s with
            | (Run name, s) => match lookup name char_names with
                               | Some v => (Datum (Chr v), s)
                               | None => (Failed, s)
                               end
            | (bad, s) => (of_run bad, s)
            end
        end
      end.
    (** The cases of c2: textual_input_port.cpp:287-547 *)
    Definition sharp (c2 : Z) (s : istream) : reading * istream :=
      if c2 =? 33 then directive c2 s
      else if c2 =? 0x3B then          (* a datum comment *)
        match rec 0 s with
        | (Datum _, s) => rec 0 s
        | bad => bad
        end
      else if c2 =? 0x22 then quoted_symbol c2 s
      else if c2 =? 98 then radix 2 s
      else if c2 =? 100 then radix 10 s
      else if c2 =? 102 then sharp_f c2 s
      else if c2 =? 111 then radix 8 s
      else if c2 =? 116 then           (* #t *)
        match take_token c2 s with
        | (Run _, s) => (Datum (Bool true), s)
        | (bad, s) => (of_run bad, s)
        end
      else if c2 =? 120 then radix 16 s
      else if c2 =? 0x28 then          (* a vector; the elements of an improper list are undefined *)
        match rec c2 s with
        | (Datum x, s) => match elements x with
                          | Some ds => (Datum (Vec ds), s)
                          | None => (Undefined, s)
                          end
        | bad => bad
        end
      else if c2 =? 0x5C then sharp_char s
      else if c2 =? 0x7C then          (* a block comment *)
        match skip_block (enough s) 0 s with
        | (Run _, s) => rec 0 s
        | (bad, s) => (of_run bad, s)
        end
      else if existsb (Z.eqb c2) [0x2C; 101; 105; 115; 117] || ((48 <=? c2) && (c2 <=? 57)) then (Not_modelled, s)
      else (Failed, s).
    (** The case of an opening parenthesis: textual_input_port.cpp:552-568 *)
    Definition open (c1 : Z) (s : istream) : reading * istream :=
      let '(r, s) :=
        match rec 0 s with
        | (Datum x, s) => match rec c1 s with
                          | (Datum y, s) => (Datum (Pair x y), s)
                          | bad => bad
                          end
        | bad => bad
        end in
      match r with
      | Close => (Datum Nil, s)
      | Dot => match rec 0 s with
               | (Datum x, s) => match take_until (enough s) (Z.eqb 0x29) s [] with
                                 | (Run _, s) => (Datum x, s)
                                 | (bad, s) => (of_run bad, s)
                                 end
               | bad => bad
               end
      | r => (r, s)
      end.
    (** The cases of c1: textual_input_port.cpp:270-614.  A further iteration of the
        loop is a recursive call with the same [c0]. *)
    Definition cases (c0 c1 : Z) (s : istream) : reading * istream :=
      if c1 =? eof then (Datum End, s)
      else if existsb (Z.eqb c1) [0x09; 0x0A; 0x0B; 0x0C; 0x0D; 0x20] then rec c0 s
      else if c1 =? 0x22 then
        match take_quoted (enough s) c1 s [] with
        | (Run cs, s) => (Datum (Str cs), s)
        | (bad, s) => (of_run bad, s)
        end
      else if c1 =? 0x23 then
        let '(t, s) := take_character s in
        match t with
        | ReadError => (Failed, s)
        | Char c2 => sharp c2 s
        end
      else if c1 =? 0x27 then abbreviation (codes "quote") 0 s
      else if c1 =? 0x28 then open c1 s
      else if c1 =? 0x29 then (Close, s)
      else if c1 =? 0x2C then
        let '(t, s) := take_character s in
        match t with
        | ReadError => (Failed, s)
        | Char c => if c =? 64 then abbreviation (codes "unquote-splicing") 0 s
                    else abbreviation (codes "unquote") c s
        end
      else if c1 =? 0x3B then          (* a line comment *)
        match line s with
        | (Run _, s) => rec c0 s
        | (bad, s) => (of_run bad, s)
        end
      else if c1 =? 0x60 then abbreviation (codes "quasiquote") 0 s
      else if c1 =? 0x7C then quoted_symbol c1 s
      else if existsb (Z.eqb c1) [0x5B; 0x5D; 0x7B; 0x7D] then (Failed, s)
      else match take_token c1 s with
           | (Run token, s) => (atom token, s)
           | (bad, s) => (of_run bad, s)
           end.
  End Body.

  (** textual_input_port::read, textual_input_port.cpp:199-618 *)
  Fixpoint read (fuel : nat) (c0 : Z) (s : istream) : reading * istream :=
    match fuel with
    | O => (No_more_fuel, s)
    | S fuel =>
      if usable s then
        let '(t, s) := if c0 =? 0 then take_character s else (Char c0, s) in
        match t with
        | ReadError => (Failed, s)
        | Char c1 => cases (read fuel) c0 c1 s
        end
      else (Failed, s)
    end.

  (** Reading data one after another until the end or an error *)
  Fixpoint read_all (n fuel : nat) (s : istream) : list reading :=
    match n with
    | O => []
    | S n => let '(r, s) := read fuel 0 s in
             r :: match r with Datum End => [] | Datum _ => read_all n fuel s | _ => [] end
    end.
End Read.

(** Reading a text; the inexact numbers are not told apart *)
Definition read_text (text : list Z) : reading :=
  fst (read (fun _ _ => Some O) (fun _ => []) 100 0 (stream_of text)).
