(** Model of the inexact real numbers: the instances of the templates of
    include/meevax/kernel/number.hpp, src/kernel/number.cpp, src/kernel/number/power.cpp and
    src/kernel/number/nearest_integer.cpp at double, together with those at the exact types
    (Number.v).

    Simplifications.
    - double is binary64 of IEEE 754, as specified by the standard library of Coq
      (Floats.SpecFloat with precision 53 and emax 1024). NaNs have neither sign nor payload.
    - float (single precision, which only literals with the exponent marker f give) and
      complex numbers are left out; where sqrt makes a complex number, it is a pair.
    - GMP follows its documentation: mpz_get_d and mpq_get_d truncate, and give an infinity
      if the result is too large; mpz_cmp_d and mpq_set_d are exact and mpz_init_set_d
      truncates. Its documentation leaves undefined what they do with a NaN and, except
      mpz_cmp_d, with an infinity; its implementation ends the process
      (__gmp_invalid_operation): outcome [Crash].
    - The conversion of an int64 which is the widened value of a small_integer is exact, and
      written as the same truncation.
    - std::pow is a parameter of [expt]; std::sqrt is rounded correctly (IEEE 754). *)
From Coq Require Import ZArith QArith Qreduction Qround List Bool Floats.SpecFloat.
From Verif Require Import Number.
Import ListNotations.
Open Scope Z_scope.

Definition double := spec_float.
Definition prec := 53.
Definition emax := 1024.

(** A real number object: exact, or double (number.hpp:591, real_number) *)
Inductive real := Exact (x : num) | Flo (f : double).

(** The value of a finite double (GMP: mpq_set_d, ratio.cpp:62-66) *)
Definition finite (f : double) : bool := match f with S754_zero _ | S754_finite _ _ _ => true | _ => false end.
Definition fval (f : double) : Q :=
  match f with
  | S754_finite s m e => inject_Z (cond_Zopp s (Zpos m)) * Qpower 2 e
  | _ => 0
  end.

(** mpz_get_d and mpq_get_d (large_integer.hpp:69-84, ratio.hpp:50-54) *)
Definition of_q (q : Q) : double :=
  match get_d q with
  | None => S754_infinity (Qnum q <? 0)
  | Some d => match d_m d with
              | Zpos m => S754_finite (d_neg d) m (d_e d)
              | _ => S754_zero false
              end
  end.
(** static_cast<double> of an exact number, number.cpp:111-121 and 178-188 *)
Definition to_double (x : num) : double := of_q (to_q x).

(** ** Comparison *)
(** mpz_cmp_d *)
Definition cmp_d (z : Z) (f : double) : outcome comparison :=
  match f with
  | S754_nan => Crash
  | S754_infinity s => Ok (if s then Gt else Lt)
  | _ => Ok (Qcompare (inject_Z z) (fval f))
  end.
Definition c_lt (c : comparison) := match c with Lt => true | _ => false end.
Definition c_gt (c : comparison) := match c with Gt => true | _ => false end.
Definition c_eq (c : comparison) := match c with Eq => true | _ => false end.
Definition SFgtb (f g : double) : bool := SFltb g f.

(** 2^-52, std::numeric_limits<double>::epsilon() *)
Definition epsilon : double := S754_finite false (2 ^ 52)%positive (-104).
(** inexact_equals for two doubles, number.hpp:315-338 *)
Definition inexact_equals (x y : double) : bool :=
  match x, y with
  | S754_nan, S754_nan => true
  | _, _ =>
    match x, y with
    | S754_infinity _, _ | _, S754_infinity _ => SFeqb x y
    | _, _ => SFleb (SFabs (SFsub prec emax x y)) epsilon
    end
  end.

(** equals, number.cpp:499-502, with the overloads at 116, 183, 233 and 245 *)
Definition equals (x y : real) : outcome bool :=
  match x, y with
  | Exact x, Exact y => Ok (n_eq x y)
  | Flo f, Flo g => Ok (inexact_equals f g)
  | Exact (Small z), Flo g => Ok (SFeqb (to_double (Small z)) g)
  | Flo f, Exact (Small z) => Ok (SFeqb f (to_double (Small z)))
  | Exact (Large z), Flo g => let! c := cmp_d z g in Ok (c_eq c)
  | Flo f, Exact (Large z) => let! c := cmp_d z f in Ok (c_eq c)
  | Exact (Ratio q), Flo g => Ok (inexact_equals (to_double (Ratio q)) g)
  | Flo f, Exact (Ratio q) => Ok (inexact_equals f (to_double (Ratio q)))
  end.
(** less_than, number.cpp:514-517, with the overloads at 118, 185, 235 and 247 *)
Definition less_than (x y : real) : outcome bool :=
  match x, y with
  | Exact x, Exact y => Ok (n_lt x y)
  | Flo f, Flo g => Ok (SFltb f g)
  | Exact (Large z), Flo g => let! c := cmp_d z g in Ok (c_lt c)
  | Flo f, Exact (Large z) => let! c := cmp_d z f in Ok (c_gt c)
  | Exact x, Flo g => Ok (SFltb (to_double x) g)
  | Flo f, Exact y => Ok (SFltb f (to_double y))
  end.
(** greater_than, number.cpp:524-527, with the overloads at 120, 187, 237 and 249 *)
Definition greater_than (x y : real) : outcome bool :=
  match x, y with
  | Exact x, Exact y => Ok (n_gt x y)
  | Flo f, Flo g => Ok (SFgtb f g)
  | Exact (Large z), Flo g => let! c := cmp_d z g in Ok (c_gt c)
  | Flo f, Exact (Large z) => let! c := cmp_d z f in Ok (c_lt c)
  | Exact x, Flo g => Ok (SFgtb (to_double x) g)
  | Flo f, Exact y => Ok (SFgtb f (to_double y))
  end.
(** number.cpp:509-512, 519-522 and 529-532 *)
Definition not_equals (x y : real) : outcome bool := let! b := equals x y in Ok (negb b).
Definition less_than_or_equals (x y : real) : outcome bool := let! b := greater_than x y in Ok (negb b).
Definition greater_than_or_equals (x y : real) : outcome bool := let! b := less_than x y in Ok (negb b).

(** =, <, <=, > and >= of two arguments: adjacent_find of the opposite, boot.cpp:196-200 *)
Definition s_equal (x y : real) : outcome bool := let! b := not_equals x y in Ok (negb b).
Definition s_less (x y : real) : outcome bool := let! b := greater_than_or_equals x y in Ok (negb b).
Definition s_less_equal (x y : real) : outcome bool := let! b := greater_than x y in Ok (negb b).
Definition s_greater (x y : real) : outcome bool := let! b := less_than_or_equals x y in Ok (negb b).
Definition s_greater_equal (x y : real) : outcome bool := let! b := less_than x y in Ok (negb b).

(** ** Exactness *)
(** canonicalize, number.hpp:437-481, applied to a number that is returned as it is *)
Definition recanonical (x : num) : num := match x with Ratio q => canon_ratio q | _ => x end.
(** exact, number.cpp:534-554; ratio(double) is mpq_set_d *)
Definition exact (x : real) : outcome real :=
  match x with
  | Exact x => Ok (Exact (recanonical x))
  | Flo f => if finite f then Ok (Exact (canon_ratio (Qred (fval f)))) else Crash
  end.
(** inexact, number.cpp:556-572 *)
Definition inexact (x : real) : real :=
  match x with
  | Exact x => Flo (to_double x)
  | Flo f => Flo f
  end.

(** ** Predicates, number.cpp:601-619 and 646-741 *)
Definition is_nan (x : real) : bool := match x with Flo S754_nan => true | _ => false end.
Definition is_infinite (x : real) : bool := match x with Flo (S754_infinity _) => true | _ => false end.
Definition is_finite (x : real) : bool := negb (is_infinite x).
Definition is_rational (x : real) : bool :=
  match x with
  | Flo f => negb (is_nan x) && negb (is_infinite x)
  | _ => true
  end.
Definition is_exact (x : real) : bool := match x with Exact _ => true | Flo _ => false end.
Definition is_inexact (x : real) : bool := negb (is_exact x).
Definition is_exact_integer (x : real) : bool := match x with Exact x => Number.is_exact_integer x | Flo _ => false end.
Definition is_zero (x : real) : outcome bool := equals x (Exact (Small 0)).
Definition is_positive (x : real) : outcome bool := less_than (Exact (Small 0)) x.
Definition is_negative (x : real) : outcome bool := less_than x (Exact (Small 0)).

(** ** Nearest integers of doubles, nearest_integer.cpp:21-52: std::floor, std::ceil,
    std::trunc, std::round keep zeros, infinities and NaN; a result of 0 has the sign of
    the argument *)
Definition rounded (f : dbl -> Z) (x : double) : double :=
  match x with
  | S754_finite s m e =>
    let z := f {| d_neg := s; d_m := Zpos m; d_e := e |} in
    if z =? 0 then S754_zero s else of_q (inject_Z z)
  | _ => x
  end.
Definition nearest (f : dbl -> Z) (x : real) : outcome real :=
  match x with
  | Exact x => let! r := Number.nearest f x in Ok (Exact r)
  | Flo x => Ok (Flo (rounded f x))
  end.
Definition floor := nearest d_floor.
Definition ceiling := nearest d_ceil.
Definition truncate := nearest d_trunc.
Definition round := nearest d_round.
(** is_integer, number.cpp:621-644: x == std::trunc(x) *)
Definition is_integer (x : real) : bool :=
  match x with
  | Exact x => Number.is_integer x
  | Flo f => SFeqb f (rounded d_trunc f)
  end.

(** ** Remainders *)
(** x - n * y for the given integer n, with the sign of x if it is 0: both std::fmod and
    std::remainder are exact *)
Definition minus_multiple (x : double) (n : Z) (y : double) : double :=
  let r := Qred (fval x - inject_Z n * fval y)%Q in
  if Qnum r =? 0 then S754_zero match x with S754_finite s _ _ | S754_zero s => s | _ => false end
  else of_q r.
Definition quot_q (q : Q) : Z := Z.quot (Qnum q) (Zpos (Qden q)).
(** the integer nearest to q, the even one of two *)
Definition nearest_even (q : Q) : Z :=
  let z := Qfloor q in
  match Qcompare (q - inject_Z z)%Q (1 # 2) with
  | Lt => z
  | Gt => z + 1
  | Eq => if Z.even z then z else z + 1
  end.
(** std::fmod and std::remainder: NaN for NaN, for an infinite x and for a zero y; x for
    an infinite y *)
Definition remainder_by (quotient : Q -> Z) (x y : double) : double :=
  match x, y with
  | S754_nan, _ | _, S754_nan | S754_infinity _, _ | _, S754_zero _ => S754_nan
  | _, S754_infinity _ => x
  | _, _ => minus_multiple x (quotient (fval x / fval y)%Q) y
  end.
Definition fmod := remainder_by quot_q.
Definition ieee_remainder := remainder_by nearest_even.

(** operator %, number.cpp:340-358: std::fmod if one is a double and the other a double or
    an int64, otherwise the overloads at 115, 182, 232 and 244, std::remainder *)
Definition r_rem (x y : real) : outcome real :=
  match x, y with
  | Exact x, Exact y => let! r := n_rem x y in Ok (Exact r)
  | Flo f, Flo g => Ok (Flo (fmod f g))
  | Flo f, Exact (Small z) => Ok (Flo (fmod f (to_double (Small z))))
  | Exact (Small z), Flo g => Ok (Flo (fmod (to_double (Small z)) g))
  | Flo f, Exact y => Ok (Flo (ieee_remainder f (to_double y)))
  | Exact x, Flo g => Ok (Flo (ieee_remainder (to_double x) g))
  end.
(** operator +, number.cpp:301-305 *)
Definition r_add (x y : real) : real :=
  match x, y with
  | Exact x, Exact y => Exact (n_add x y)
  | Flo f, Flo g => Flo (SFadd prec emax f g)
  | Flo f, Exact y => Flo (SFadd prec emax f (to_double y))
  | Exact x, Flo g => Flo (SFadd prec emax (to_double x) g)
  end.
(** remainder and modulo, number.cpp:789-797 *)
Definition remainder (x y : real) : outcome real := r_rem x y.
Definition modulo (x y : real) : outcome real := let! r := r_rem x y in r_rem (r_add r y) y.
(** is_even and is_odd, number.cpp:743-751 *)
Definition is_even (x : real) : outcome bool := let! r := r_rem x (Exact (Small 2)) in is_zero r.
Definition is_odd (x : real) : outcome bool := let! b := is_even x in Ok (negb b).

(** ** abs, magnitude, number.cpp:753-782 and 843-858; the result is canonicalised *)
Definition abs (x : real) : real :=
  match x with
  | Exact x => Exact (n_abs x)
  | Flo f => Flo (SFabs f)
  end.
Definition magnitude (x : real) : real := match x with Exact x => Exact (recanonical x) | Flo f => Flo f end.

(** numerator and denominator, number.cpp:865-899 *)
Definition numerator (x : real) : outcome real :=
  match x with
  | Exact x => Ok (Exact (n_numerator x))
  | Flo f => let! e := exact x in
             match e with Exact e => Ok (inexact (Exact (n_numerator e))) | Flo _ => Crash end
  end.
Definition denominator (x : real) : outcome real :=
  match x with
  | Exact x => Ok (Exact (n_denominator x))
  | Flo f => if is_integer x then Ok (Flo (of_q 1))
             else let! e := exact x in
                  match e with Exact e => Ok (inexact (Exact (n_denominator e))) | Flo _ => Crash end
  end.

(** ** sqrt and expt *)
(** mpz_init_set_d: truncation *)
Definition large_of (f : double) : outcome num :=
  if finite f then Ok (Large (quot_q (fval f))) else Crash.

(** The lambda sqrt, power.cpp:88-113, for an argument that is not negative; double(x) for
    an int64 is exact *)
Definition root (x : real) : outcome real :=
  match x with
  | Exact (Small z) =>
    let s := SFsqrt prec emax (to_double (Small z)) in
    let i := quot_q (fval s) in
    Ok (if i * i =? z then Exact (Small i) else Flo s)
  | Exact (Large z) =>
    let '(s, r) := Z.sqrtrem z in
    if r =? 0 then Ok (Exact (Large s))
    else let! n := large_of (SFsqrt prec emax (to_double (Large z))) in Ok (Exact n)
  | Exact (Ratio q) => Ok (Flo (SFsqrt prec emax (to_double (Ratio q))))
  | Flo f => Ok (Flo (SFsqrt prec emax f))
  end.
(** 0 - x *)
Definition negated (x : real) : real :=
  match x with
  | Exact (Small z) => Exact (Small (0 - z))    (* an int64, it need not be canonical *)
  | Exact (Large z) => Exact (Large (0 - z))
  | Exact (Ratio q) => Exact (Ratio (mpq_sub (ratio_of 0) q))
  | Flo f => Flo (SFsub prec emax (S754_zero false) f)
  end.
(** sqrt, power.cpp:75-120, where the complex numbers are made at 115: a real number, or the complex number 0 + xi *)
Inductive rooted := Real (x : real) | Imaginary (x : real).
Definition sqrt (x : real) : outcome rooted :=
  let! n := less_than x (Exact (Small 0)) in
  if n then let! r := root (negated x) in Ok (Imaginary r)
  else let! r := root x in Ok (Real r).

(** pow, power.cpp:21-73, with std::pow as a parameter *)
Section Power.
  Variable pow : double -> double -> double.
  Definition expt (x y : real) : outcome real :=
    match x, y with
    | Exact (Small a), Exact (Small b) =>
      let r := pow (to_double (Small a)) (to_double (Small b)) in
      if SFleb (of_q (inject_Z int32_min)) r && SFleb r (of_q (inject_Z int32_max)) then Ok (Exact (Small (quot_q (fval r))))
      else let! n := large_of r in Ok (Exact n)
    | Exact (Large a), Exact (Large b) => Ok (Exact (Large (a ^ (Z.abs b mod 2 ^ 64))))
    | Exact a, Exact b => Ok (Flo (pow (to_double a) (to_double b)))
    | Exact a, Flo g => Ok (Flo (pow (to_double a) g))
    | Flo f, Exact b => Ok (Flo (pow f (to_double b)))
    | Flo f, Flo g => Ok (Flo (pow f g))
    end.
End Power.
