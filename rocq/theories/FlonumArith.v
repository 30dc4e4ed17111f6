(** Model of +, -, * and / of real numbers of which some are inexact
    (src/kernel/number.cpp and src/kernel/boot.cpp), with the doubles of Flonum.v.
    The same simplifications apply: no floats of single precision, no complex numbers. *)
From Coq Require Import ZArith QArith List Floats.SpecFloat.
From Verif Require Import Number Flonum.
Import ListNotations.
Open Scope Z_scope.

(** operator -, number.cpp:307-311; at doubles 112, 179, 229 and 241 *)
Definition r_sub (x y : real) : real :=
  match x, y with
  | Exact x, Exact y => Exact (n_sub x y)
  | Flo f, Flo g => Flo (SFsub prec emax f g)
  | Flo f, Exact y => Flo (SFsub prec emax f (to_double y))
  | Exact x, Flo g => Flo (SFsub prec emax (to_double x) g)
  end.
(** operator *, number.cpp:313-317; at doubles 113, 180, 230 and 242 *)
Definition r_mul (x y : real) : real :=
  match x, y with
  | Exact x, Exact y => Exact (n_mul x y)
  | Flo f, Flo g => Flo (SFmul prec emax f g)
  | Flo f, Exact y => Flo (SFmul prec emax f (to_double y))
  | Exact x, Flo g => Flo (SFmul prec emax (to_double x) g)
  end.
(** operator /, number.cpp:319-338; at doubles 114, 181, 231 and 243 *)
Definition r_div (x y : real) : outcome real :=
  match x, y with
  | Exact x, Exact y => let! q := n_div x y in Ok (Exact q)
  | Flo f, Flo g => Ok (Flo (SFdiv prec emax f g))
  | Flo f, Exact y => Ok (Flo (SFdiv prec emax f (to_double y)))
  | Exact x, Flo g => Ok (Flo (SFdiv prec emax (to_double x) g))
  end.

(** The procedures +, *, - and /, boot.cpp:208-211; e0 and e1 are exact 0 and 1. The last
    two take at least one argument. *)
Definition e0 := Exact (Small 0).
Definition e1 := Exact (Small 1).
Definition plus (xs : list real) : real := fold_left r_add xs e0.
Definition times (xs : list real) : real := fold_left r_mul xs e1.
Definition minus (x : real) (xs : list real) : real :=
  match xs with [] => r_sub e0 x | _ => fold_left r_sub xs x end.
Definition divided (x : real) (xs : list real) : outcome real :=
  match xs with [] => r_div e1 x | _ => fold_left (fun o y => let! a := o in r_div a y) xs (Ok x) end.
