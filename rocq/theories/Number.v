(** Model of the exact part of src/kernel/number.cpp, include/meevax/kernel/number.hpp,
    src/kernel/ratio.cpp, src/kernel/number/nearest_integer.cpp and the numeric
    entries of src/kernel/boot.cpp.

    Simplifications.  GMP is trusted to implement its documentation: an mpz_t is
    a [Z], an mpq_t a [Q], mpq_canonicalize is [Qred], and mpq_add/sub/mul/div
    return canonical results.  Inexact and complex numbers are left out: the
    functions below are the instances of the templates at small_integer,
    large_integer and ratio.  A GMP division by zero, a C++ integer division by
    zero, an out-of-range shift and the conversion of an infinite double to
    mpz_t end the process or are undefined: outcome [Crash].  A C++ exception
    becomes a Scheme error: outcome [Raise]. *)
From Coq Require Import ZArith QArith Qreduction List Bool Lia.
Import ListNotations.
Open Scope Z_scope.

Inductive outcome (A : Type) := Ok (a : A) | Raise | Crash.
Arguments Ok {A}. Arguments Raise {A}. Arguments Crash {A}.
Definition obind {A B} (o : outcome A) (f : A -> outcome B) : outcome B :=
  match o with Ok a => f a | Raise => Raise | Crash => Crash end.
Notation "'let!' x := e 'in' f" := (obind e (fun x => f)) (at level 200, x name, e at level 100, f at level 200).

(** An exact number object: small_integer (immediate int32), large_integer
    (mpz_t) or ratio (mpq_t). *)
Inductive num := Small (z : Z) | Large (z : Z) | Ratio (q : Q).

Definition int32_min : Z := -2^31.
Definition int32_max : Z := 2^31 - 1.
Definition is_int32 (z : Z) : bool := (int32_min <=? z) && (z <=? int32_max).

(** number.hpp:447-475 canonicalize, the branches for widen_integer,
    large_integer and ratio. *)
Definition canon_wide (x : Z) : num := if is_int32 x then Small x else Large x.
Definition canon_large (z : Z) : num := Large z.
Definition canon_ratio (q : Q) : num := if (Zpos (Qden q) =? 1) then Large (Qnum q) else Ratio q.

(** mpq_t constructors, ratio.cpp:40-58: from integers, and from numerator and
    denominator with mpq_canonicalize, which divides by zero if d = 0. *)
Definition ratio_of (z : Z) : Q := inject_Z z.
Definition ratio_nd (n d : Z) : outcome Q :=
  match d with
  | Z0 => Crash
  | Zpos p => Ok (Qred (n # p))
  | Zneg p => Ok (Qred ((- n) # p))
  end.

(** GMP's mpq_add, mpq_sub, mpq_mul, mpq_div *)
Definition mpq_add (a b : Q) : Q := Qred (a + b).
Definition mpq_sub (a b : Q) : Q := Qred (a - b).
Definition mpq_mul (a b : Q) : Q := Qred (a * b).
Definition mpq_div (a b : Q) : outcome Q := if Qnum b =? 0 then Crash else Ok (Qred (a / b)).

(** The mpq_t view of an operand in mixed operations, number.cpp:44-47, 94-97,
    130-133, 142-145. *)
Definition to_q (x : num) : Q := match x with Small z | Large z => ratio_of z | Ratio q => q end.

(** number.cpp:301-305 with the overloads at 32-33, 44-45, 72-74, 84-86,
    94-96, 130-132, 142-144, 154-156. *)
Definition n_add (x y : num) : num :=
  match x, y with
  | Small a, Small b => canon_wide (a + b)
  | Small a, Large b | Large a, Small b | Large a, Large b => canon_large (a + b)
  | _, _ => canon_ratio (mpq_add (to_q x) (to_q y))
  end.
(** number.cpp:307-311 *)
Definition n_sub (x y : num) : num :=
  match x, y with
  | Small a, Small b => canon_wide (a - b)
  | Small a, Large b | Large a, Small b | Large a, Large b => canon_large (a - b)
  | _, _ => canon_ratio (mpq_sub (to_q x) (to_q y))
  end.
(** number.cpp:313-317 *)
Definition n_mul (x y : num) : num :=
  match x, y with
  | Small a, Small b => canon_wide (a * b)
  | Small a, Large b | Large a, Small b | Large a, Large b => canon_large (a * b)
  | _, _ => canon_ratio (mpq_mul (to_q x) (to_q y))
  end.
(** number.cpp:319-338.  For two small integers the result is an object made by
    [make<ratio>], which canonicalize (number.hpp:449-453) returns unchanged;
    all other cases pass a C++ ratio to canonicalize. *)
Definition n_div (x y : num) : outcome num :=
  match x, y with
  | Small a, Small b => let! q := ratio_nd a b in Ok (Ratio q)
  | Small a, Large b | Large a, Small b | Large a, Large b =>
    let! q := ratio_nd a b in Ok (canon_ratio q)
  | _, _ => let! q := mpq_div (to_q x) (to_q y) in Ok (canon_ratio q)
  end.
(** number.cpp:340-358; 36, 76, 88 and, for ratios, 48, 98, 134, 146, 158 *)
Definition n_rem (x y : num) : outcome num :=
  match x, y with
  | Small a, Small b => if b =? 0 then Crash else Ok (canon_wide (Z.rem a b))
  | Small a, Large b | Large a, Small b | Large a, Large b =>
    if b =? 0 then Crash else Ok (canon_large (Z.rem a b))
  | _, _ => Raise
  end.

(** ** Comparison: number.cpp:499-532 with the overloads 37-42 etc.  mpz_cmp,
    mpz_cmp_si, mpq_cmp, mpq_cmp_z and mpq_cmp_si return the sign of the
    comparison. *)
Definition cmp (x y : num) : comparison :=
  match x, y with
  | Ratio _, _ | _, Ratio _ => Qcompare (to_q x) (to_q y)
  | (Small a | Large a), (Small b | Large b) => Z.compare a b
  end.
Definition n_eq (x y : num) : bool := match cmp x y with Eq => true | _ => false end.
Definition n_lt (x y : num) : bool := match cmp x y with Lt => true | _ => false end.
Definition n_gt (x y : num) : bool := match cmp x y with Gt => true | _ => false end.
Definition n_ne (x y : num) : bool := negb (n_eq x y).         (* 509-512 *)
Definition n_le (x y : num) : bool := negb (n_gt x y).         (* 519-522 *)
Definition n_ge (x y : num) : bool := negb (n_lt x y).         (* 529-532 *)
(** number.cpp:504-507, used by eqv? (comparator.hpp) *)
Definition exact_integer_equals (x y : num) : bool :=
  match x, y with
  | (Small a | Large a), (Small b | Large b) => a =? b
  | _, _ => false
  end.

(** std::ranges::adjacent_find(xs, p) == end, boot.cpp:196-200 *)
Fixpoint no_adjacent (p : num -> num -> bool) (xs : list num) : bool :=
  match xs with
  | x :: ((y :: _) as xs') => negb (p x y) && no_adjacent p xs'
  | _ => true
  end.
Definition s_eq := no_adjacent n_ne.   (* = *)
Definition s_lt := no_adjacent n_ge.   (* < *)
Definition s_le := no_adjacent n_gt.   (* <= *)
Definition s_gt := no_adjacent n_le.   (* > *)
Definition s_ge := no_adjacent n_lt.   (* >= *)

(** ** Predicates: number.cpp:601-677, 728-751 *)
Definition is_integer (x : num) : bool :=
  match x with Ratio q => Zpos (Qden q) =? 1 | _ => true end.
Definition is_exact_integer (x : num) : bool := match x with Ratio _ => false | _ => true end.
Definition is_zero (x : num) : bool := n_eq x (Small 0).
Definition is_positive (x : num) : bool := n_lt (Small 0) x.
Definition is_negative (x : num) : bool := n_lt x (Small 0).
Definition is_even (x : num) : outcome bool := let! r := n_rem x (Small 2) in Ok (is_zero r).
Definition is_odd (x : num) : outcome bool := let! b := is_even x in Ok (negb b).

(** number.cpp:753-782 *)
Definition n_abs (x : num) : num :=
  match x with
  | Small z => canon_wide (Z.abs z)
  | Large z => canon_large (Z.abs z)
  | Ratio q => canon_ratio (match Qcompare q (ratio_of 0) with Lt => mpq_sub (ratio_of 0) q | _ => q end)
  end.

(** ** Nearest integers

    mpq_get_d (ratio.hpp:50-54): truncation toward zero to a binary64 value,
    returned as m * 2^e with 0 <= m < 2^53 and -1074 <= e, together with the
    sign.  Values of magnitude 2^1024 and more give infinity ([None]). *)
Definition scaled (n : Z) (d : positive) (e : Z) : Z :=    (* floor (n/d / 2^e) *)
  if 0 <=? e then n / (Zpos d * 2^e) else (n * 2^(-e)) / Zpos d.
Definition ilog2 (n : Z) (d : positive) : Z :=              (* floor (log2 (n/d)), n > 0 *)
  let k := Z.log2 n - Z.log2 (Zpos d) in
  if scaled n d k =? 0 then k - 1 else k.
Record dbl := { d_neg : bool; d_m : Z; d_e : Z }.
Definition get_d (q : Q) : option dbl :=
  let n := Z.abs (Qnum q) in
  if n =? 0 then Some {| d_neg := false; d_m := 0; d_e := 0 |}
  else
    let l := ilog2 n (Qden q) in
    if 1024 <=? l then None
    else
      let e := Z.max (-1074) (l - 52) in
      Some {| d_neg := Qnum q <? 0; d_m := scaled n (Qden q) e; d_e := e |}.

(** std::floor, std::ceil, std::trunc, std::round of m * 2^e, composed with the
    exact conversion mpz_init_set_d (large_integer.hpp:45-48). *)
Definition d_trunc_abs (x : dbl) : Z := if 0 <=? d_e x then d_m x * 2^(d_e x) else d_m x / 2^(- d_e x).
Definition d_ceil_abs (x : dbl) : Z := if 0 <=? d_e x then d_m x * 2^(d_e x) else - ((- d_m x) / 2^(- d_e x)).
(* half away from zero *)
Definition d_round_abs (x : dbl) : Z :=
  if 0 <=? d_e x then d_m x * 2^(d_e x) else (2 * d_m x + 2^(- d_e x)) / (2 * 2^(- d_e x)).
Definition signed (x : dbl) (z : Z) : Z := if d_neg x then - z else z.
Definition d_trunc (x : dbl) : Z := signed x (d_trunc_abs x).
Definition d_floor (x : dbl) : Z := signed x (if d_neg x then d_ceil_abs x else d_trunc_abs x).
Definition d_ceil (x : dbl) : Z := signed x (if d_neg x then d_trunc_abs x else d_ceil_abs x).
Definition d_round (x : dbl) : Z := signed x (d_round_abs x).

(** nearest_integer.cpp:21-52; for integers canonicalize returns the same. *)
Definition nearest (f : dbl -> Z) (x : num) : outcome num :=
  match x with
  | Small z => Ok (canon_wide z)
  | Large z => Ok (canon_large z)
  | Ratio q => match get_d q with Some d => Ok (canon_large (f d)) | None => Crash end
  end.
Definition n_floor := nearest d_floor.
Definition n_ceiling := nearest d_ceil.
Definition n_truncate := nearest d_trunc.
Definition n_round := nearest d_round.

(** number.cpp:784-807 *)
Definition n_quotient (x y : num) : outcome num := let! q := n_div x y in n_truncate q.
Definition n_remainder (x y : num) : outcome num := n_rem x y.
Definition n_modulo (x y : num) : outcome num :=
  let! r := n_rem x y in n_rem (n_add r y) y.
(** gcd recurses while y is not zero; [None] is out of fuel, see gcd_fuel. *)
Fixpoint n_gcd_f (fuel : nat) (x y : num) : option (outcome num) :=
  match fuel with
  | O => None
  | S f =>
    if is_zero y then Some (Ok (n_abs x))
    else match n_remainder x y with
         | Ok r => n_gcd_f f y r
         | Raise => Some Raise
         | Crash => Some Crash
         end
  end.
Definition mag (x : num) : Z := match x with Small z | Large z => Z.abs z | Ratio q => Z.abs (Qnum q) end.
Definition gcd_fuel (x y : num) : nat := S (S (Z.to_nat (mag y))).
Definition n_gcd (x y : num) : option (outcome num) := n_gcd_f (gcd_fuel x y) x y.
Definition n_lcm (x y : num) : option (outcome num) :=
  match n_gcd x y with
  | Some (Ok g) => Some (let! q := n_quotient (n_mul x y) g in Ok (n_abs q))
  | o => o
  end.

(** number.cpp:865-899 *)
Definition n_numerator (x : num) : num := match x with Ratio q => Large (Qnum q) | _ => x end.
Definition n_denominator (x : num) : num := match x with Ratio q => Large (Zpos (Qden q)) | _ => Small 1 end.

(** ** n-ary entry points, boot.cpp:208-211 *)
Definition s_add (xs : list num) : num := fold_left n_add xs (Small 0).
Definition s_mul (xs : list num) : num := fold_left n_mul xs (Small 1).
Definition s_sub (x : num) (xs : list num) : num :=
  match xs with [] => n_sub (Small 0) x | _ => fold_left n_sub xs x end.
Definition s_div (x : num) (xs : list num) : outcome num :=
  match xs with
  | [] => n_div (Small 1) x
  | _ => fold_left (fun o y => let! a := o in n_div a y) xs (Ok x)
  end.
(** boot.cpp:206-207: std::ranges::max_element(xs, less_than) and min_element;
    the first of equal extrema. *)
Fixpoint max_from (best : num) (xs : list num) : num :=
  match xs with [] => best | y :: xs' => max_from (if n_lt best y then y else best) xs' end.
Fixpoint min_from (best : num) (xs : list num) : num :=
  match xs with [] => best | y :: xs' => min_from (if n_lt y best then y else best) xs' end.
Definition s_max (xs : list num) : option num := match xs with [] => None | x :: xs' => Some (max_from x xs') end.
Definition s_min (xs : list num) : option num := match xs with [] => None | x :: xs' => Some (min_from x xs') end.
(** boot.cpp:216-217: one argument is returned as it is *)
Definition s_gcd (xs : list num) : option (outcome num) :=
  match xs with
  | [] => Some (Ok (Small 0))
  | [x] => Some (Ok x)
  | x :: xs' => fold_left (fun o y => match o with Some (Ok a) => n_gcd a y | _ => o end) xs' (Some (Ok x))
  end.
Definition s_lcm (xs : list num) : option (outcome num) :=
  match xs with
  | [] => Some (Ok (Small 1))
  | [x] => Some (Ok x)
  | x :: xs' => fold_left (fun o y => match o with Some (Ok a) => n_lcm a y | _ => o end) xs' (Some (Ok x))
  end.

(** boot.cpp:239 exact-integer-square-root: mpz_rootrem(s, r, x, 2).  GMP
    raises SIGFPE for an even root of a negative number. *)
Definition n_isqrt (x : num) : outcome (num * num) :=
  match x with
  | Small z | Large z => if z <? 0 then Crash else Ok (Large (Z.sqrt z), Large (z - Z.sqrt z * Z.sqrt z))
  | Ratio _ => Raise
  end.
