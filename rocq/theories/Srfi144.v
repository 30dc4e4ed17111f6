(** Model of the procedures of library/srfi-144.ss that take flonums apart, compare and combine them, on the
    doubles of Flonum.v, with the procedures of (meevax binary64) in src/kernel/boot.cpp:67-80 and of
    src/kernel/number/floating_point_manipulation.cpp.

    Simplifications.
    - The functions of <cmath> follow the C standard (annex F) and, where that leaves a choice, glibc on x86-64:
      ilogb of 0 and of NaN is INT_MIN and of an infinity INT_MAX, remquo gives three bits, fmax of a positive
      and a negative zero is the first argument.
    - NaNs have no sign, so copysign and the sign bit treat them as positive.
    - The arguments are doubles (.as<double>() raises otherwise), the second one of make-flonum fits an int.
    - fl+* (fused multiply-add), the constants that need transcendental functions and the transcendental
      procedures are left out; fl+ fl- fl* fl/ are + - * / (FlonumArith.v), fl=? … flnan? flabs flfloor … are the
      procedures of Flonum.v. *)
From Coq Require Import ZArith QArith Qreduction List Bool Floats.SpecFloat.
From Verif Require Import Number Flonum FlonumArith.
Import ListNotations.
Open Scope Z_scope.

(** ** Constants, boot.cpp:451-453 and srfi-144.ss:150-154: numeric_limits min, max and epsilon *)
Definition fl_least : double := S754_finite false (2 ^ 52) (-1074).
Definition fl_greatest : double := S754_finite false (2 ^ 53 - 1) 971.
Definition fl_epsilon : double := epsilon.

(** ** Parts *)
Definition signbit (x : double) : bool := match x with S754_zero s | S754_infinity s | S754_finite s _ _ => s | S754_nan => false end.
(** std::modf, boot.cpp:68-69 *)
Definition integral_part (x : double) : double := rounded d_trunc x.
Definition fractional_part (x : double) : double :=
  match x with
  | S754_finite s _ _ =>
    let r := Qred (fval x - fval (integral_part x))%Q in
    if Qnum r =? 0 then S754_zero s else of_q r
  | S754_infinity s => S754_zero s
  | _ => x
  end.
(** srfi-144.ss:173-175 *)
Definition flinteger_fraction (x : double) : double * double := (integral_part x, fractional_part x).
(** the exponent of the first digit *)
Definition top (m : positive) (e : Z) : Z := Z.log2 (Zpos m) + e.
(** std::logb and std::ilogb, boot.cpp:70-71 and srfi-144.ss:177-179 *)
Definition flexponent (x : double) : double :=
  match x with
  | S754_finite _ m e => of_q (inject_Z (top m e))
  | S754_zero _ => S754_infinity true
  | S754_infinity _ => S754_infinity false
  | S754_nan => S754_nan
  end.
Definition flinteger_exponent (x : double) : Z :=
  match x with
  | S754_finite _ m e => top m e
  | S754_infinity _ => int32_max
  | _ => int32_min
  end.
(** std::frexp, boot.cpp:72-73 and srfi-144.ss:181-183 *)
Definition flnormalized_fraction_exponent (x : double) : double * Z :=
  match x with
  | S754_finite _ m e => (of_q (fval x * Qpower 2 (- (top m e + 1)))%Q, top m e + 1)
  | _ => (x, 0)
  end.
(** boot.cpp:74 and srfi-144.ss:185-186 *)
Definition flsign_bit (x : double) : Z := if signbit x then 1 else 0.
(** std::fpclassify, boot.cpp:75-76: the field of the exponent is not 0 *)
Definition flnormalized (x : double) : bool := match x with S754_finite _ m e => 2 ^ 52 <=? Zpos m | _ => false end.
Definition fldenormalized (x : double) : bool := match x with S754_finite _ m e => Zpos m <? 2 ^ 52 | _ => false end.

(** ** Making flonums *)
(** std::copysign, floating_point_manipulation.cpp:34, number.hpp:631-642 *)
Definition flcopysign (x y : double) : double :=
  match x with
  | S754_zero _ => S754_zero (signbit y)
  | S754_infinity _ => S754_infinity (signbit y)
  | S754_finite _ m e => S754_finite (signbit y) m e
  | S754_nan => S754_nan
  end.
(** srfi-144.ss:250-251 *)
Definition flsgn (x : double) : double := flcopysign (of_q 1) x.
(** std::ldexp, floating_point_manipulation.cpp:21-30 *)
Definition make_flonum (x : double) (n : Z) : double :=
  match x with
  | S754_finite s m e => binary_round prec emax s m (e + n)
  | _ => x
  end.
(** std::nextafter, floating_point_manipulation.cpp:32: one more or one less in the last place *)
Definition away (s : bool) (m : positive) (e : Z) : double :=
  if Zpos m + 1 =? 2 ^ 53 then (if e =? 971 then S754_infinity s else S754_finite s (2 ^ 52) (e + 1))
  else S754_finite s (m + 1) e.
Definition towards (s : bool) (m : positive) (e : Z) : double :=
  if (Zpos m =? 2 ^ 52) && (-1074 <? e) then S754_finite s (2 ^ 53 - 1) (e - 1)
  else if Zpos m =? 1 then S754_zero s else S754_finite s (m - 1) e.
Definition fladjacent (x y : double) : double :=
  match x, y with
  | S754_nan, _ | _, S754_nan => S754_nan
  | _, _ =>
    if SFeqb x y then y else
    let up := SFltb x y in
    match x with
    | S754_zero _ => S754_finite (negb up) 1 (-1074)
    | S754_infinity s => S754_finite s (2 ^ 53 - 1) 971
    | S754_finite s m e => if xorb s up then away s m e else towards s m e
    | S754_nan => S754_nan
    end
  end.

(** ** Comparing *)
(** std::fmax and std::fmin: a NaN is left out *)
Definition fmax (x y : double) : double :=
  match x, y with S754_nan, _ => y | _, S754_nan => x | _, _ => if SFltb x y then y else x end.
Definition fmin (x y : double) : double :=
  match x, y with S754_nan, _ => y | _, S754_nan => x | _, _ => if SFltb y x then y else x end.
(** boot.cpp:77-78 *)
Definition flmax (xs : list double) : double := fold_left fmax xs (S754_infinity true).
Definition flmin (xs : list double) : double := fold_left fmin xs (S754_infinity false).
(** srfi-144.ss:200-202 *)
Definition flunordered (x y : double) : bool := is_nan (Flo x) || is_nan (Flo y).
(** srfi-144.ss:244-248: (flabs (- x y)) and (flmax (fl- x y) 0.0) *)
Definition flabsdiff (x y : double) : double := SFabs (SFsub prec emax x y).
Definition flposdiff (x y : double) : double := flmax [SFsub prec emax x y; S754_zero false].

(** ** Remainders and roots *)
(** std::remquo, boot.cpp:80 and srfi-144.ss:327-330; C leaves the quotient open if the remainder is NaN *)
Definition flremquo (x y : double) : double * Z :=
  (ieee_remainder x y,
   match x, y with
   | S754_nan, _ | _, S754_nan | S754_infinity _, _ | _, S754_zero _ | _, S754_infinity _ => 0
   | _, _ => let n := nearest_even (fval x / fval y)%Q in
             (if xorb (signbit x) (signbit y) then -1 else 1) * (Z.abs n mod 8)
   end).
(** quotient, number.cpp:784-787: truncate (x / y) *)
Definition flquotient (x y : double) : double := rounded d_trunc (SFdiv prec emax x y).
(** (square x), the product of x and x, r7rs.ss:161-162; flhypot, srfi-144.ss:279-281 *)
Definition flsquare (x : double) : real := times [Flo x; Flo x].
Definition flhypot (x y : double) : outcome rooted := sqrt (plus [flsquare x; flsquare y]).
(** flsqrt, srfi-144.ss:274, and flcbrt, srfi-144.ss:276-277: (expt x (/ 1 3)) *)
Definition flsqrt (x : double) : outcome rooted := sqrt (Flo x).
Definition flcbrt (pow : double -> double -> double) (x : double) : outcome real :=
  let! y := n_div (Small 1) (Small 3) in expt pow (Flo x) (Exact y).
