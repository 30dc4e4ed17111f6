(** rationalize, library/r4rs.ss:268-292, on exact arguments.

    Numbers are the rationals of the standard library; that the exact arithmetic and the comparisons of
    the interpreter are those of the rationals is C08, C09, C11 and C13.  The recursion has fuel,
    and [None] is that it is used up. *)
From Coq Require Import ZArith QArith Qround Qabs Lia.
Local Open Scope Q_scope.

(** (< x y), (= x y) *)
Definition less (x y : Q) : bool := negb (Qle_bool y x).
(** r4rs.ss:270-278 *)
Fixpoint internal (fuel : nat) (x y : Q) : option Q :=
  match fuel with
  | O => None
  | S fuel =>
    let fx := inject_Z (Qfloor x) in
    let fy := inject_Z (Qfloor y) in
    if negb (less fx x) then Some fx
    else if Qeq_bool fx fy then
      match internal fuel (/ (y - fy)) (/ (x - fx)) with
      | Some z => Some (fx + / z)
      | None => None
      end
    else Some (1 + fx)
  end.
(** r4rs.ss:279-290; the clause (< y x) calls the procedure with the arguments swapped, once *)
Definition simplest_ordered (fuel : nat) (x y : Q) : option Q :=
  if negb (less x y) then Some x
  else if less 0 x then internal fuel x y
  else if less x 0 then match internal fuel (- y) (- x) with Some z => Some (- z) | None => None end
  else Some 0.
Definition simplest (fuel : nat) (x y : Q) : option Q := if less y x then simplest_ordered fuel y x else simplest_ordered fuel x y.
(** r4rs.ss:268, 291-292 *)
Definition rationalize (fuel : nat) (x e : Q) : option Q := simplest fuel (x - e) (x + e).

(** ** Specification, R7RS 6.2.6.  A rational is p/q in lowest terms with q positive; z is simpler than w
    when neither |p| nor q is greater. *)
Definition numerator (z : Q) : Z := Qnum (Qred z).
Definition denominator (z : Q) : positive := Qden (Qred z).
Definition simpler (z w : Q) : Prop := (Z.abs (numerator z) <= Z.abs (numerator w))%Z /\ (denominator z <= denominator w)%positive.
(** the simplest rational that differs from x by no more than e *)
Definition simplest_within (x e z : Q) : Prop := Qabs (z - x) <= Qabs e /\ forall w, Qabs (w - x) <= Qabs e -> simpler z w.
