(** Complex numbers with rational parts, as pairs. *)
From Coq Require Import QArith.
Open Scope Q_scope.

Definition cq : Type := Q * Q.
Definition ceq (x y : cq) : Prop := fst x == fst y /\ snd x == snd y.
Definition cadd (x y : cq) : cq := (fst x + fst y, snd x + snd y).
Definition csub (x y : cq) : cq := (fst x - fst y, snd x - snd y).
Definition cmul (x y : cq) : cq := (fst x * fst y - snd x * snd y, fst x * snd y + snd x * fst y).
Definition cof (q : Q) : cq := (q, 0).
