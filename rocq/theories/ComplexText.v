(** Model of the reading and writing of complex numbers: complex.cpp:26-49 and 92-115, number.cpp:472-495.

    Simplifications: parts that are floats (exponent marker f) and the value of a literal in polar form (magnitude times cosine
    and sine) are left out, the two parts of the latter are kept; the colours of what is written are left out. *)
From Coq Require Import String ZArith QArith List Bool.
From Verif Require Import Number NumberText Flonum Complex Decimal.
From Verif Require Reader Writer.
Import ListNotations.
Open Scope Z_scope.

(** ** Writing *)
(** An exact number: object.hpp's operator << with large_integer.cpp:100-103 or ratio.cpp:96-106 (mpq_get_str: without a denominator of 1);
    a flonum: see Decimal.v *)
Definition num_text (x : num) : list Z :=
  match x with
  | Small n | Large n => int_text 10 n
  | Ratio q => int_text 10 (Qnum q) ++ (if (Qden q =? 1)%positive then [] else 47 :: int_text 10 (Zpos (Qden q)))
  end.
Definition real_text (x : real) : list Z := match x with Exact x => num_text x | Flo f => written f end.
(** explicitly_signed, complex.cpp:100-111 *)
Definition explicitly_signed (s : list Z) : list Z := match s with c :: _ => if Reader.is_sign c then s else 43 :: s | [] => [43] end.
(** operator <<, complex.cpp:92-115; [Crash] only where number::equals is not defined *)
Definition complex_text (re im : real) : outcome (list Z) :=
  let! zero := equals im e0 in
  Ok (if zero : bool then real_text re else real_text re ++ explicitly_signed (real_text im) ++ [105]).

(** ** Reading *)
Inductive value := Value (x : number) | Polar (magnitude angle : real) | Float_part | Not_a_number | Raises | Undefined.
(** The two parts, read in order *)
Definition parts (f : real -> real -> value) (a b : reading) : value :=
  match a with
  | Read x =>
    match b with Read y => f x y | Binary32 => Float_part | Not_real => Not_a_number | Out_of_range => Raises | Undefined_behavior => Undefined end
  | Binary32 => Float_part
  | Not_real => Not_a_number
  | Out_of_range => Raises
  | Undefined_behavior => Undefined
  end.
(** make_number and make_complex, number.cpp:472-495, with the constructor of complex, complex.cpp:26-49; the patterns are those of Reader.v *)
Definition make_number (s : list Z) (r : Z) : value :=
  match make_real s r with
  | Read x => Value (Rn x)
  | Binary32 => Float_part
  | Not_real =>
    match Reader.rectangular s with
    | Some (re, im) =>
      parts (fun x y => Value (Cn x y)) (make_real (match re with [] => [48] | _ => re end) r) (make_real (match im with [c] => [c; 49] | _ => im end) r)
    | None => match Reader.polar s with Some (m, a) => parts Polar (make_real m r) (make_real a r) | None => Not_a_number end
    end
  | Out_of_range => Raises
  | Undefined_behavior => Undefined
  end.
