(** Model of the complex numbers: include/meevax/kernel/complex.hpp, the instances of the
    templates of number.hpp, number.cpp and nearest_integer.cpp at complex, and the entries
    of boot.cpp for max and min on real numbers.

    Simplifications.
    - The parts of a complex number are real numbers (Flonum.v). make-rectangular does not
      check its arguments (boot.cpp:241); what it gives for other objects is left out.
    - float is left out, as in Flonum.v, and so are the functions on std::complex<double>:
      sqrt, expt, exp, log, and the trigonometric ones. sqrt of a complex number is
      not modelled; std::atan2 is a parameter. *)
From Coq Require Import ZArith QArith List Bool Floats.SpecFloat.
From Verif Require Import Number Flonum.
Import ListNotations.
Open Scope Z_scope.

(** A number object (number.hpp:587): a real number or a complex object *)
Inductive number := Rn (x : real) | Cn (re im : real).
Definition e0 : real := Exact (Small 0).

(** operators -, * and / of real numbers, number.cpp:307-338, with the overloads at
    111-114, 178-181, 228-231 and 240-243 *)
Definition mixed (on_exact : num -> num -> outcome num) (on_double : double -> double -> double) (x y : real) : outcome real :=
  match x, y with
  | Exact x, Exact y => let! r := on_exact x y in Ok (Exact r)
  | Flo f, Flo g => Ok (Flo (on_double f g))
  | Flo f, Exact y => Ok (Flo (on_double f (to_double y)))
  | Exact x, Flo g => Ok (Flo (on_double (to_double x) g))
  end.
Definition add (x y : real) : outcome real := Ok (r_add x y).
Definition sub := mixed (fun x y => Ok (n_sub x y)) (SFsub prec emax).
Definition mul := mixed (fun x y => Ok (n_mul x y)) (SFmul prec emax).
Definition div := mixed n_div (SFdiv prec emax).

(** canonicalize of a complex, number.hpp:444-454 *)
Definition canonicalize (re im : real) : outcome number :=
  let! b := equals im e0 in Ok (if b then Rn re else Cn re im).

(** The parts that an operand has in mixed operations, number.cpp:56-61, 123-128, 190-195,
    252-257, 259-278 and 287-292; also real and imag, number.cpp:809-841 *)
Definition real_part (x : number) : real := match x with Rn x => x | Cn re _ => re end.
Definition imag_part (x : number) : real := match x with Rn _ => e0 | Cn _ im => im end.

(** number.cpp:294-297 *)
Definition complex_add (x y : number) : outcome number :=
  let! re := add (real_part x) (real_part y) in let! im := add (imag_part x) (imag_part y) in canonicalize re im.
Definition complex_sub (x y : number) : outcome number :=
  let! re := sub (real_part x) (real_part y) in let! im := sub (imag_part x) (imag_part y) in canonicalize re im.
Definition complex_mul (x y : number) : outcome number :=
  let! a := mul (real_part x) (real_part y) in let! b := mul (imag_part x) (imag_part y) in
  let! c := mul (imag_part x) (real_part y) in let! d := mul (real_part x) (imag_part y) in
  let! re := sub a b in let! im := add c d in canonicalize re im.
Definition complex_div (x y : number) : outcome number :=
  let! a := mul (real_part x) (real_part y) in let! b := mul (imag_part x) (imag_part y) in let! n := add a b in
  let! c := mul (imag_part x) (real_part y) in let! d := mul (real_part x) (imag_part y) in let! m := sub c d in
  let! e := mul (real_part y) (real_part y) in let! f := mul (imag_part y) (imag_part y) in let! q := add e f in
  let! re := div n q in let! im := div m q in canonicalize re im.

(** operators +, -, * and /, number.cpp:301-338 *)
Definition lift (on_real : real -> real -> outcome real) (on_complex : number -> number -> outcome number) (x y : number) : outcome number :=
  match x, y with
  | Rn x, Rn y => let! r := on_real x y in Ok (Rn r)
  | _, _ => on_complex x y
  end.
Definition plus := lift add complex_add.
Definition minus := lift sub complex_sub.
Definition times := lift mul complex_mul.
Definition divides := lift div complex_div.

(** +, -, * and /, boot.cpp:208-211 *)
Definition fold (f : number -> number -> outcome number) (xs : list number) (x : number) : outcome number :=
  fold_left (fun o y => let! a := o in f a y) xs (Ok x).
Definition s_add (xs : list number) : outcome number := fold plus xs (Rn (Exact (Small 0))).
Definition s_mul (xs : list number) : outcome number := fold times xs (Rn (Exact (Small 1))).
Definition s_sub (x : number) (xs : list number) : outcome number :=
  match xs with [] => minus (Rn (Exact (Small 0))) x | _ => fold minus xs x end.
Definition s_div (x : number) (xs : list number) : outcome number :=
  match xs with [] => divides (Rn (Exact (Small 1))) x | _ => fold divides xs x end.

(** equals, number.cpp:499-502 and 298 *)
Definition c_equals (x y : number) : outcome bool :=
  match x, y with
  | Rn x, Rn y => equals x y
  | _, _ => let! a := equals (real_part x) (real_part y) in
            if a then equals (imag_part x) (imag_part y) else Ok false
  end.

(** make-rectangular, boot.cpp:241 *)
Definition make_rectangular (x y : real) : number := Cn x y.

(** is_real, is_rational, is_integer, is_exact, is_inexact, is_exact_integer,
    number.cpp:584-677 *)
Definition c_is_real (x : number) : outcome bool := match x with Rn _ => Ok true | Cn _ im => equals im e0 end.
Definition c_is_rational (x : number) : bool := match x with Rn x => is_rational x | Cn _ _ => false end.
Definition c_is_integer (x : number) : outcome bool :=
  match x with
  | Rn x => Ok (is_integer x)
  | Cn re im => let! b := equals im e0 in Ok (b && is_integer re)
  end.
Definition c_is_exact (x : number) : bool := match x with Rn x => is_exact x | Cn re im => is_exact re && is_exact im end.
Definition c_is_inexact (x : number) : bool := negb (c_is_exact x).
Definition c_is_exact_integer (x : number) : bool := match x with Rn x => is_exact_integer x | Cn _ _ => false end.
(** is_infinite, is_finite, is_nan and is_zero, number.cpp:679-731 *)
Definition c_is_infinite (x : number) : bool := match x with Rn x => is_infinite x | Cn re im => is_infinite re || is_infinite im end.
Definition c_is_finite (x : number) : bool := negb (c_is_infinite x).
Definition c_is_nan (x : number) : bool := match x with Rn x => is_nan x | Cn re im => is_nan re || is_nan im end.
Definition c_is_zero (x : number) : outcome bool := c_equals x (Rn e0).

(** exact and inexact, number.cpp:534-572 *)
Definition c_exact (x : number) : outcome number :=
  match x with
  | Rn x => let! r := exact x in Ok (Rn r)
  | Cn re im => let! re := exact re in let! im := exact im in canonicalize re im
  end.
Definition c_inexact (x : number) : outcome number :=
  match x with
  | Rn x => Ok (Rn (inexact x))
  | Cn re im => canonicalize (inexact re) (inexact im)
  end.

(** magnitude, number.cpp:843-858; abs of a complex number is the same, 771-774 *)
Definition c_magnitude (x : number) : outcome rooted :=
  match x with
  | Rn x => Ok (Real (magnitude x))
  | Cn re im => let! a := mul re re in let! b := mul im im in let! s := add a b in sqrt s
  end.
(** angle, number.cpp:860-863, with std::atan2 as a parameter (number.hpp:632-643) *)
Definition as_double (x : real) : double := match x with Exact x => to_double x | Flo f => f end.
Definition angle (atan2 : double -> double -> double) (x : number) : real :=
  Flo (atan2 (as_double (real_part x)) (as_double (imag_part x))).

(** ** max and min, boot.cpp:206-207: max_element and min_element with less_than, the first
    of several; none: the unspecified object *)
Fixpoint max_from (best : real) (xs : list real) : outcome real :=
  match xs with
  | [] => Ok best
  | y :: xs => let! b := less_than best y in max_from (if b then y else best) xs
  end.
Fixpoint min_from (best : real) (xs : list real) : outcome real :=
  match xs with
  | [] => Ok best
  | y :: xs => let! b := less_than y best in min_from (if b then y else best) xs
  end.
Definition contagion (xs : list real) (x : real) : real := if existsb is_inexact xs then inexact x else x.
Definition s_max (xs : list real) : outcome (option real) :=
  match xs with [] => Ok None | x :: ys => let! m := max_from x ys in Ok (Some (contagion xs m)) end.
Definition s_min (xs : list real) : outcome (option real) :=
  match xs with [] => Ok None | x :: ys => let! m := min_from x ys in Ok (Some (contagion xs m)) end.
