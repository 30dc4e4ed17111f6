(** What R7RS 6.2 asks of real numbers, in terms of their values only. *)
From Coq Require Import ZArith QArith Qround Qabs.
Open Scope Q_scope.

(** A real number object stands for a rational number, an infinity or no number *)
Inductive ext := Fin (q : Q) | PInf | NInf | NaN.

Definition lt (x y : ext) : Prop :=
  match x, y with
  | Fin a, Fin b => a < b
  | NInf, Fin _ | NInf, PInf | Fin _, PInf => True
  | _, _ => False
  end.
Definition same (x y : ext) : Prop :=
  match x, y with
  | Fin a, Fin b => a == b
  | NInf, NInf | PInf, PInf => True
  | _, _ => False
  end.
Definition le (x y : ext) : Prop := lt x y \/ same x y.

(** z is the nearest integer to q, the even one of two that are equally near *)
Definition rounds_even (q : Q) (z : Z) : Prop :=
  (forall z', Qabs (q - inject_Z z) <= Qabs (q - inject_Z z')) /\
  (forall z', Qabs (q - inject_Z z) == Qabs (q - inject_Z z') -> z' = z \/ Z.Even z).

(** The rational numbers that a binary64 number can stand for *)
Definition representable (q : Q) : Prop :=
  exists m e, q == inject_Z m * Qpower 2 e /\ (Z.abs m < 2 ^ 53)%Z /\ (-1074 <= e <= 971)%Z.
(** no other one is nearer to q than x *)
Definition closest (q x : Q) : Prop :=
  representable x /\ forall y, representable y -> Qabs (q - x) <= Qabs (q - y).

(** r is the remainder of the division of x by y truncated towards 0 *)
Definition truncate_remainder (x y r : Q) : Prop :=
  exists n : Z, x == inject_Z n * y + r /\ Qabs r < Qabs y /\ 0 <= r * x.
