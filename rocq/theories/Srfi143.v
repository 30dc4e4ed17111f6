(** Model of the arithmetic of library/srfi-143.ss (fixnums) on exact integers. The procedures that are others under a new
    name, lines 71-107, are given where they are needed; for the bitwise ones see Bitwise.v. *)
From Coq Require Import ZArith List Bool.
From Verif Require Import Number Flonum Srfi141.
Import ListNotations.
Open Scope Z_scope.

(** integer32? of boot.cpp:136, fixnum? of srfi-143.ss:71 *)
Definition fixnum (x : num) : bool := match x with Small _ => true | _ => false end.
(** integer32-width, -min and -max of boot.cpp:587-589; srfi-143.ss:65-69 *)
Definition fx_width : num := Small 32.
Definition fx_least : num := Small int32_min.
Definition fx_greatest : num := Small int32_max.
(** srfi-143.ss:99-107: other procedures under new names *)
Definition fxneg (x : num) : num := s_sub x [].
Definition fxabs (x : num) : num := n_abs x.
(** square of r7rs.ss:161-162 *)
Definition fxsquare (x : num) : num := s_mul [x; x].
Definition fxsqrt (x : num) : outcome rooted := sqrt (Exact x).

Section Carry.
  (** std::pow *)
  Variable pow : double -> double -> double.
  (** (let*-values (((q r) (balanced/ s (expt 2 fx-width)))) (values r q)), in srfi-143.ss:109-122. expt of small
      integers is exact *)
  Definition carry (s : num) : outcome (num * num) :=
    let! w := expt pow (Exact (Small 2)) (Exact fx_width) in
    match w with
    | Exact d => let! qr := balanced_div s d in Ok (snd qr, fst qr)
    | Flo _ => Raise
    end.
  (** srfi-143.ss:109-112 *)
  Definition fx_add_carry (i j k : num) : outcome (num * num) := carry (s_add [i; j; k]).
  (** srfi-143.ss:114-117 *)
  Definition fx_sub_carry (i j k : num) : outcome (num * num) := carry (s_sub i [j; k]).
  (** srfi-143.ss:119-122 *)
  Definition fx_mul_carry (i j k : num) : outcome (num * num) := carry (s_add [s_mul [i; j]; k]).
End Carry.
