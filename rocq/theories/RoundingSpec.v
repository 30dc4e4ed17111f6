(** Rounding as IEEE 754 4.3.1 defines it (roundTiesToEven), in terms of rational numbers only. *)
From Coq Require Import ZArith QArith Qabs.
From Verif Require Import FlonumSpec.
Open Scope Q_scope.

(** From here on, numbers are too large: the greatest finite one and half a unit in its last place *)
Definition limit : Q := Qpower 2 1024 - Qpower 2 970.
(** The last of the 53 digits of v is 0 *)
Definition even_digits (v : Q) : Prop :=
  exists m e, v == inject_Z m * Qpower 2 e /\ (Z.abs m < 2 ^ 53)%Z /\ (-1074 <= e <= 971)%Z /\
    (e = -1074 \/ 2 ^ 52 <= Z.abs m)%Z /\ Z.Even m.
(** r is q rounded: the representable number that is nearest to it, of two the even one *)
Definition rounds_to (q : Q) (r : ext) : Prop :=
  match r with
  | Fin v => Qabs q < limit /\ closest q v /\ (forall y, closest q y -> y == v \/ even_digits v)
  | PInf => limit <= q
  | NInf => q <= - limit
  | NaN => False
  end.

(** What IEEE 754 (6.1, 6.2 and 7.2) asks of the sum, difference, product and quotient r of
    two numbers; the sign of an infinite quotient by 0 depends on the sign of that 0 *)
Definition sum_of (x y r : ext) : Prop :=
  match x, y with
  | Fin a, Fin b => rounds_to (a + b) r
  | NaN, _ | _, NaN | PInf, NInf | NInf, PInf => r = NaN
  | PInf, _ | _, PInf => r = PInf
  | NInf, _ | _, NInf => r = NInf
  end.
Definition opposite (x : ext) : ext := match x with Fin a => Fin (- a) | PInf => NInf | NInf => PInf | NaN => NaN end.
Definition difference_of (x y r : ext) : Prop := sum_of x (opposite y) r.
(** an infinity times a number that is not 0, or NaN *)
Definition infinite_times (positive : bool) (a : Q) : ext :=
  match Qcompare a 0 with
  | Eq => NaN
  | Gt => if positive then PInf else NInf
  | Lt => if positive then NInf else PInf
  end.
Definition product_of (x y r : ext) : Prop :=
  match x, y with
  | Fin a, Fin b => rounds_to (a * b) r
  | NaN, _ | _, NaN => r = NaN
  | PInf, Fin a | Fin a, PInf => r = infinite_times true a
  | NInf, Fin a | Fin a, NInf => r = infinite_times false a
  | PInf, PInf | NInf, NInf => r = PInf
  | PInf, NInf | NInf, PInf => r = NInf
  end.
Definition quotient_of (x y r : ext) : Prop :=
  match x, y with
  | Fin a, Fin b => (~ b == 0 -> rounds_to (a / b) r) /\ (b == 0 -> a == 0 -> r = NaN) /\ (b == 0 -> ~ a == 0 -> r = PInf \/ r = NInf)
  | NaN, _ | _, NaN => r = NaN
  | PInf, Fin a => (0 < a -> r = PInf) /\ (a < 0 -> r = NInf) /\ (a == 0 -> r = PInf \/ r = NInf)
  | NInf, Fin a => (0 < a -> r = NInf) /\ (a < 0 -> r = PInf) /\ (a == 0 -> r = PInf \/ r = NInf)
  | Fin _, _ => same r (Fin 0)
  | _, _ => r = NaN
  end.
