(** Square roots rounded to the nearest representable number, in terms of rational numbers only. *)
From Coq Require Import ZArith QArith.
From Verif Require Import FlonumSpec.
Open Scope Q_scope.

(** v is the representable number that is nearest to the square root of q: the root is below the middle of v and any
    greater representable number, and above the middle of v and any smaller one *)
Definition root_rounds (q v : Q) : Prop :=
  representable v /\ 0 <= v /\
  forall y, representable y -> 0 <= y ->
    let middle := (v + y) / 2 in (v < y -> q < middle * middle) /\ (y < v -> middle * middle < q).
