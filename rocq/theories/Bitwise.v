(** Model of src/kernel/number/bitwise.cpp and library/srfi-151.ss.

    The 64-bit intermediate values of the code are [Z]s that are wrapped
    explicitly where C++ would wrap; a shift of a 64-bit integer by 64 or more
    and the negation of INT32_MIN are undefined behaviour ([Crash]). *)
From Coq Require Import ZArith QArith List Bool Lia.
From Verif Require Import Number.
Import ListNotations.
Open Scope Z_scope.

Definition wrap64 (z : Z) : Z := (z + 2^63) mod 2^64 - 2^63.
Definition wrap32 (z : Z) : Z := (z + 2^31) mod 2^32 - 2^31.

(** bitwise.cpp:21-37 *)
Definition b_not (x : num) : outcome num :=
  match x with
  | Small z => Ok (canon_wide (Z.lnot z))
  | Large z => Ok (Large (Z.lnot z))
  | Ratio _ => Raise
  end.
(** bitwise.cpp:39-81; mpz_and, mpz_ior and mpz_xor work on two's complement *)
Definition b_op2 (f : Z -> Z -> Z) (x y : num) : outcome num :=
  match x, y with
  | Small a, Small b => Ok (canon_wide (f a b))
  | Small a, Large b | Large a, Small b | Large a, Large b => Ok (Large (f a b))
  | _, _ => Raise
  end.
Definition b_and := b_op2 Z.land.
Definition b_ior := b_op2 Z.lor.
Definition b_xor := b_op2 Z.lxor.

(** n-ary entry points, boot.cpp:261-263 *)
Definition ofold (f : num -> num -> outcome num) (xs : list num) (init : num) : outcome num :=
  fold_left (fun o y => let! a := o in f a y) xs (Ok init).
Definition s_and (xs : list num) := ofold b_and xs (Small (-1)).
Definition s_ior (xs : list num) := ofold b_ior xs (Small 0).
Definition s_xor (xs : list num) := ofold b_xor xs (Small 0).

(** mpz_get_si: the value if it fits, else its low bits with the sign kept *)
Definition mpz_get_si (z : Z) : Z :=
  if z <? 0 then -1 - ((Z.abs z mod 2^64 - 1) mod 2^63) else z mod 2^63.
(** exact_integer_cast<small_integer>, number.hpp:339-358.  A ratio goes through
    double; out of range conversions to int are undefined. *)
Definition cast_small (x : num) : outcome Z :=
  match x with
  | Small z => Ok z
  | Large z => Ok (wrap32 (mpz_get_si z))
  | Ratio q => match get_d q with
               | Some d => if is_int32 (d_trunc d) then Ok (d_trunc d) else Crash
               | None => Crash
               end
  end.

(** bitwise.cpp:83-131 *)
Definition bit_shift (x : num) (c : Z) : outcome num :=
  match x with
  | Large z =>
    if c <? 0 then (if c =? -2^31 then Crash else Ok (Large (z / 2^(-c))))      (* mpz_fdiv_q_2exp *)
    else if c =? 0 then Ok (Large z)
    else Ok (Large (z * 2^c))                                                  (* mpz_mul_2exp *)
  | Small z =>
    if c <? 0 then
      (if c =? -2^31 then Crash else if -c <? 64 then Ok (canon_wide (Z.shiftr z (-c))) else Crash)
    else if c =? 0 then Ok (canon_wide z)
    else if (64 <=? c) || (z <? Z.shiftr (-2^63) c) || (Z.shiftr (2^63 - 1) c <? z)
    then Ok (Large (z * 2^c))
    else Ok (canon_wide (wrap64 (Z.shiftl z c)))
  | Ratio _ => Raise
  end.
(** boot.cpp:264 *)
Definition b_shift (x c : num) : outcome num := let! k := cast_small c in bit_shift x k.

Fixpoint pos_popcount (p : positive) : Z :=
  match p with xH => 1 | xO p' => pos_popcount p' | xI p' => 1 + pos_popcount p' end.
(** mpz_popcount of a non-negative number and std::popcount *)
Definition popcount (z : Z) : Z := match z with Zpos p => pos_popcount p | _ => 0 end.

(** bitwise.cpp:133-157 *)
Definition b_count (x : num) : outcome num :=
  match x with
  | Large z => Ok (Small (wrap32 (popcount (if z <? 0 then Z.lnot z else z))))
  | Small z => Ok (Small (wrap32 (popcount ((if z <? 0 then Z.lnot z else z) mod 2^64))))
  | Ratio _ => Raise
  end.

(** mpz_sizeinbase(z, 2); it is 1 for zero *)
Definition sizeinbase2 (z : Z) : Z := match z with 0 => 1 | _ => Z.log2 (Z.abs z) + 1 end.
(** 64 - std::countl_zero *)
Definition width64 (z : Z) : Z := if z =? 0 then 0 else Z.log2 z + 1.
(** bitwise.cpp:159-201 *)
Definition b_width (x : num) : outcome num :=
  match x with
  | Large z =>
    Ok (canon_wide (if z <? 0 then sizeinbase2 (Z.lnot z) else if z =? 0 then 0 else sizeinbase2 z))
  | Small z =>
    Ok (canon_wide (if z <? 0 then width64 (Z.lnot z) else if z =? 0 then 0 else width64 z))
  | Ratio _ => Raise
  end.

(** ** library/srfi-151.ss *)

(** library/srfi-151.ss:71-94 *)
Definition bitwise_nand i j := let! a := b_and i j in b_not a.
Definition bitwise_nor i j := let! a := b_ior i j in b_not a.
Definition bitwise_andc1 i j := let! a := b_not i in b_and a j.
Definition bitwise_andc2 i j := let! a := b_not j in b_and i a.
Definition bitwise_orc1 i j := let! a := b_not i in b_ior a j.
Definition bitwise_orc2 i j := let! a := b_not j in b_ior i a.
Definition bitwise_eqv (xs : list num) : outcome num :=
  ofold (fun ans x => let! a := b_xor ans x in b_not a) xs (Small (-1)).
(** library/srfi-151.ss:96-97 *)
Definition mask (start en : num) : outcome num :=
  let! a := b_shift (Small (-1)) (n_sub en start) in b_not a.
(** (- x) with one argument is e0 - x, boot.cpp:210 *)
Definition neg (x : num) : num := n_sub (Small 0) x.
(** library/srfi-151.ss:99-106 *)
Definition bit_set (index n : num) : outcome bool :=
  let! a := b_shift (Small 1) index in let! b := b_and a n in Ok (negb (is_zero b)).
Definition any_bit_set (test n : num) : outcome bool :=
  let! b := b_and test n in Ok (negb (is_zero b)).
Definition every_bit_set (test n : num) : outcome bool :=
  let! b := b_and test n in Ok (n_eq test b).
(** library/srfi-151.ss:108-118 *)
Definition bit_field (n start en : num) : outcome num :=
  let! m := mask start en in let! s := b_shift n (neg start) in b_and m s.
Definition bit_field_any (n start en : num) : outcome bool :=
  let! s := b_shift n (neg start) in let! m := mask start en in
  let! b := b_and s m in Ok (negb (is_zero b)).
Definition bit_field_every (n start en : num) : outcome bool :=
  let! m := mask start en in let! s := b_shift n (neg start) in
  let! b := b_and s m in Ok (exact_integer_equals m b).
(** library/srfi-151.ss:126-129, 120-124 *)
Definition bit_field_replace (n new start en : num) : outcome num :=
  let! m := mask start en in
  let! ms := b_shift m start in let! nms := b_not ms in let! lo := b_and n nms in
  let! f := b_and new m in let! hi := b_shift f start in b_ior lo hi.
Definition bit_field_clear (n start en : num) := bit_field_replace n (Small 0) start en.
Definition bit_field_set (n start en : num) := bit_field_replace n (Small (-1)) start en.
(** library/srfi-151.ss:214-216, 131-132 *)
Definition bitwise_if (m n0 n1 : num) : outcome num :=
  let! a := b_and m n0 in let! nm := b_not m in let! b := b_and nm n1 in b_ior a b.
Definition bit_field_replace_same (to from start en : num) : outcome num :=
  let! m := mask start en in let! ms := b_shift m start in bitwise_if ms from to.
(** library/srfi-151.ss:134-135 *)
Definition first_set_bit (i : num) : outcome num :=
  let! a := b_xor i (n_sub i (Small 1)) in let! c := b_count a in Ok (n_sub c (Small 1)).
(** library/srfi-151.ss:191-194 *)
Definition copy_bit (index to : num) (b : bool) : outcome num :=
  let! s := b_shift (Small 1) index in
  if b then b_ior to s else let! ns := b_not s in b_and to ns.
(** library/srfi-151.ss:234-237 *)
Definition bit_swap (n1 n2 i : num) : outcome num :=
  let! b1 := bit_set n1 i in let! b2 := bit_set n2 i in
  let! j := copy_bit n1 i b2 in copy_bit n2 j b1.
(** library/srfi-151.ss:160-168 *)
Definition bit_field_rotate (n count start en : num) : outcome num :=
  let width := n_sub en start in
  let! count := n_modulo count width in
  let! a := b_shift (Small (-1)) width in let! m := b_not a in
  let! s := b_shift n (neg start) in let! zn := b_and m s in
  let! l := b_shift zn count in let! l := b_and m l in
  let! r := b_shift zn (n_sub count width) in
  let! lr := b_ior l r in let! hi := b_shift lr start in
  let! ms := b_shift m start in let! nms := b_not ms in let! lo := b_and nms n in
  b_ior hi lo.
(** library/srfi-151.ss:170-182: the do loop runs k times *)
Fixpoint bit_reverse_loop (k : nat) (m rvs : num) : outcome num :=
  match k with
  | O => Ok rvs
  | S k' =>
    let! m' := b_shift m (Small (-1)) in
    let! r2 := b_shift rvs (Small 1) in let! b := b_and (Small 1) m in let! rvs' := b_ior r2 b in
    bit_reverse_loop k' m' rvs'
  end.
(** Simplification: the counter is an exact integer. *)
Definition int_of (x : num) : Z := match x with Small z | Large z => z | Ratio _ => 0 end.
Definition bit_reverse (k n : num) : outcome num :=
  let! m := (if is_negative n then b_not n else Ok n) in
  let! rvs := bit_reverse_loop (Z.to_nat (int_of k)) m (Small 0) in
  if is_negative n then b_not rvs else Ok rvs.
(** library/srfi-151.ss:184-189 *)
Definition bit_field_reverse (n start en : num) : outcome num :=
  let width := n_sub en start in
  let! a := b_shift (Small (-1)) width in let! m := b_not a in
  let! s := b_shift n (neg start) in let! zn := b_and m s in
  let! rv := bit_reverse width zn in let! hi := b_shift rv start in
  let! ms := b_shift m start in let! nms := b_not ms in let! lo := b_and nms n in
  b_ior hi lo.
(** library/srfi-151.ss:196-204.  Without a length the loop ends when k <= 0; [fuel] bounds it. *)
Fixpoint bits_list_loop (fuel : nat) (k : num) : outcome (list bool) :=
  match fuel with
  | O => Crash
  | S f =>
    if n_le k (Small 0) then Ok []
    else let! b := is_odd k in let! k' := b_shift k (Small (-1)) in
         let! l := bits_list_loop f k' in Ok (b :: l)
  end.
Definition bits_to_list (k : num) : outcome (list bool) :=
  bits_list_loop (S (S (Z.to_nat (Z.log2 (mag k))))) k.
Fixpoint bits_to_list_len (len : nat) (k : num) : outcome (list bool) :=
  match len with
  | O => Ok []
  | S l => let! b := is_odd k in let! k' := b_shift k (Small (-1)) in
           let! r := bits_to_list_len l k' in Ok (b :: r)
  end.
(** library/srfi-151.ss:206-212 *)
Definition list_to_bits (bs : list bool) : num :=
  fold_left (fun acc (b : bool) => n_add (n_add acc acc) (Small (if b then 1 else 0))) (rev bs) (Small 0).
(** library/srfi-151.ss:239-244 *)
Fixpoint bitwise_fold_loop {A} (proc : bool -> A -> A) (i : num) (todo : nat) (n : num) (r : A) : outcome A :=
  match todo with
  | O => Ok r
  | S t => let! b := bit_set n i in bitwise_fold_loop proc i t (n_add n (Small 1)) (proc b r)
  end.
Definition bitwise_fold {A} (proc : bool -> A -> A) (seed : A) (i : num) : outcome A :=
  let! len := b_width i in bitwise_fold_loop proc i (Z.to_nat (mag len)) (Small 0) seed.

(** ** library/srfi-143.ss:134-136 *)
Definition fxarithmetic_shift := b_shift.
Definition fxarithmetic_shift_left := b_shift.
Definition fxarithmetic_shift_right := b_shift.
