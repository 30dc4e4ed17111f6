(** Model of the reading and writing of flonums in decimal: number.cpp:405-470 and 901-920,
    nan_boxing_pointer.hpp:271-285.

    std::stod is strtod of glibc: the nearest double, of two the even one; std::out_of_range where strtod
    sets errno to ERANGE, i.e. if the result is infinite, or if it is not exact and the number is tiny. Whether it is
    tiny is seen after rounding to 53 digits (as on x86). std::to_chars without a precision writes the shortest
    digits that stand for the number; it writes an exponent as printf does for %g. *)
From Coq Require Import String ZArith QArith Qround Qabs List Bool Floats.SpecFloat.
From Verif Require Import Number NumberText Flonum.
From Verif Require Reader Writer.
Import ListNotations.
Open Scope Z_scope.

(** ** Reading *)
(** n / d rounded to the nearest double (strtod of glibc, for std::stod at number.cpp:455 and 463) *)
Definition nearest (s : bool) (n d : positive) : double :=
  let '(m, e, l) := SFdiv_core_binary prec emax (Zpos n) 0 (Zpos d) 0 in binary_round_aux prec emax s m e l.
(** Below this, a number is tiny: it is less than 2^-1022 even if it is rounded to 53 digits *)
Definition tiny : Q := (Qpower 2 (-1022) - Qpower 2 (-1076))%Q.
(** The double for a number q >= 0 with a sign; [Raise] is std::out_of_range (number.cpp:455 and 463) *)
Definition round_decimal (s : bool) (q : Q) : outcome double :=
  match Qnum q with
  | Zpos n =>
    let f := nearest s n (Qden q) in
    if negb (finite f) then Raise
    else if negb (Qle_bool tiny q) && negb (Qeq_bool (Qabs (fval f)) q) then Raise
    else Ok f
  | _ => Ok (S754_zero s)
  end.
(** The value of digits *)
Definition digits_value (ds : list Z) : Z := fold_left (fun a c => 10 * a + (c - 48)) ds 0.
(** std::stod (number.cpp:455 and 463): a sign, digits, a point and digits, the letter e and an exponent. Reading
    ends before the first character that does not belong to this, as the letter d does not *)
Definition stod (s : list Z) : outcome double :=
  let negative := match s with c :: _ => c =? 45 | [] => false end in
  let '(ip, rest) := Reader.decs (Reader.unsigned s) in
  let '(fp, rest) := match rest with c :: t => if c =? 46 then Reader.decs t else ([], rest) | [] => ([], []) end in
  let e :=
    match rest with
    | c :: t =>
      if (c =? 69) || (c =? 101) then
        let v := digits_value (fst (Reader.decs (Reader.unsigned t))) in
        match t with c :: _ => if c =? 45 then - v else v | [] => v end
      else 0
    | [] => 0
    end in
  round_decimal negative (inject_Z (digits_value (ip ++ fp)) * Qpower 10 (e - Z.of_nat (length fp))).
(** The exponent marker, if there is one: the group of the pattern of number.cpp:423 *)
Definition marker (s : list Z) : option Z :=
  let '(_, rest) := Reader.decs (Reader.unsigned s) in
  let rest := match rest with c :: t => if c =? 46 then snd (Reader.decs t) else rest | [] => [] end in
  match rest with c :: _ => Some c | [] => None end.
(** The constants of number.cpp:413-421. A double that is NaN has no sign here *)
Definition constant (s : list Z) : option double :=
  if list_eq_dec Z.eq_dec s (Writer.codes "+inf.0"%string) then Some (S754_infinity false)
  else if list_eq_dec Z.eq_dec s (Writer.codes "-inf.0"%string) then Some (S754_infinity true)
  else if list_eq_dec Z.eq_dec s (Writer.codes "+nan.0"%string) then Some S754_nan
  else if list_eq_dec Z.eq_dec s (Writer.codes "-nan.0"%string) then Some S754_nan
  else None.
(** [Binary32] is a float, whose value is left out; [Not_real] is std::invalid_argument,
    [Out_of_range] another exception, [Undefined_behavior] that of make_rational *)
Inductive reading := Read (x : real) | Binary32 | Not_real | Out_of_range | Undefined_behavior.
(** make_real, number.cpp:405-470 *)
Definition make_real (s : list Z) (r : Z) : reading :=
  match make_rational s r with
  | Ok (Some x) => Read (Exact x)
  | Ok None =>
    match constant s with
    | Some f => Read (Flo f)
    | None =>
      if Reader.decimal s then
        match marker s with
        | Some c =>
          if (c =? 70) || (c =? 102) then Binary32
          else match stod s with Ok f => Read (Flo f) | Raise => Out_of_range | Crash => Undefined_behavior end
        | None => match stod s with Ok f => Read (Flo f) | Raise => Out_of_range | Crash => Undefined_behavior end
        end
      else Not_real
    end
  | Raise => Out_of_range
  | Crash => Undefined_behavior
  end.

(** ** Writing *)
(** The p with 10^p <= q < 10^(p+1), above or below some p (of std::to_chars, number.cpp:917) *)
Fixpoint decade_up (fuel : nat) (p : Z) (q : Q) : Z :=
  match fuel with
  | O => p
  | S fuel => if Qle_bool (Qpower 10 (p + 1)) q then decade_up fuel (p + 1) q else p
  end.
Fixpoint decade_down (fuel : nat) (p : Z) (q : Q) : Z :=
  match fuel with
  | O => p
  | S fuel => if Qle_bool (Qpower 10 p) q then p else decade_down fuel (p - 1) q
  end.
Definition decade (q : Q) : Z := if Qle_bool 1 q then decade_up 320 0 q else decade_down 330 (-1) q.
(** c 10^k is read as the double f (of std::to_chars, number.cpp:917) *)
Definition stands_for (f : double) (c k : Z) : bool :=
  let q := (inject_Z c * Qpower 10 k)%Q in
  match Qnum q with Zpos n => SFeqb (nearest false n (Qden q)) f | _ => false end.
(** The shortest digits that stand for f > 0, and the exponent of the last one: n digits or more; of those of equal
    length the nearest (std::to_chars, number.cpp:917 and nan_boxing_pointer.hpp:283) *)
Fixpoint shortest (fuel : nat) (f : double) (p n : Z) : Z * Z :=
  let k := p - n + 1 in
  let x := (fval f * Qpower 10 (- k))%Q in
  let c := Qfloor x in
  match fuel with
  | O => (c, k)
  | S fuel =>
    match stands_for f c k, stands_for f (c + 1) k with
    | true, true => if Qle_bool (x - inject_Z c) (1 # 2) then (c, k) else (c + 1, k)
    | true, false => (c, k)
    | false, true => (c + 1, k)
    | false, false => shortest fuel f p (n + 1)
    end
  end.
(** Without the zeros at the end (of std::to_chars, number.cpp:917) *)
Fixpoint strip (fuel : nat) (c k : Z) : Z * Z :=
  match fuel with
  | O => (c, k)
  | S fuel => if c mod 10 =? 0 then strip fuel (c / 10) (k + 1) else (c, k)
  end.
Definition zeros (n : Z) : list Z := repeat 48 (Z.to_nat n).
(** The digits ds with the last one at 10^k, without an exponent (of std::to_chars, number.cpp:917) *)
Definition fixed (ds : list Z) (k : Z) : list Z :=
  let n := Z.of_nat (length ds) in
  if 0 <=? k then ds ++ zeros k
  else if 0 <? n + k then firstn (Z.to_nat (n + k)) ds ++ 46 :: skipn (Z.to_nat (n + k)) ds
  else 48 :: 46 :: zeros (- (n + k)) ++ ds.
(** With the exponent x, of two digits or more (of std::to_chars, number.cpp:917) *)
Definition scientific (ds : list Z) (x : Z) : list Z :=
  match ds with
  | d :: t => d :: (match t with [] => [] | _ => 46 :: t end) ++ 101 :: (if x <? 0 then 45 else 43) ::
              (if Z.abs x <? 10 then [48] else []) ++ digits 10 (Z.abs x)
  | [] => []
  end.
(** std::to_chars with std::chars_format::general, number.cpp:917 and nan_boxing_pointer.hpp:283: an exponent if it is
    below -4 or above 5 *)
Definition to_chars (f : double) : list Z :=
  match f with
  | S754_zero s => (if s then [45] else []) ++ [48]
  | S754_finite s _ _ =>
    let g := SFabs f in
    let '(c, k) := shortest 17 g (decade (fval g)) 1 in
    let '(c, k) := strip 20 c k in
    let ds := digits 10 c in
    let x := k + Z.of_nat (length ds) - 1 in
    (if s then [45] else []) ++ (if (-4 <=? x) && (x <? 6) then fixed ds k else scientific ds x)
  | S754_infinity s => (if s then [45] else []) ++ Writer.codes "inf"%string
  | S754_nan => Writer.codes "nan"%string
  end.
(** number_to_string of a double in the radix 10, number.cpp:905-920 *)
Definition flonum_to_string (f : double) : list Z := to_chars f.
(** The double as it is written, nan_boxing_pointer.hpp:271-285, without the colour *)
Definition written (f : double) : list Z :=
  match f with
  | S754_nan => Writer.codes "+nan.0"%string
  | S754_infinity s => (if s then [45] else [43]) ++ Writer.codes "inf.0"%string
  | _ => to_chars f
  end.
