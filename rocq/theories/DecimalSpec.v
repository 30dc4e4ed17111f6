(** Which numbers decimal literals denote: R7RS 7.1.1, <decimal 10>, with a sign; characters are given by their codes. *)
From Coq Require Import ZArith QArith List.
Import ListNotations.
Open Scope Z_scope.

Definition digit (c : Z) : Prop := 48 <= c <= 57.
(** The natural number that digits stand for, the first digit being the most significant *)
Fixpoint natural (ds : list Z) : Z :=
  match ds with [] => 0 | d :: ds => (d - 48) * 10 ^ Z.of_nat (length ds) + natural ds end.
(** no sign, + or - *)
Inductive sign : list Z -> bool -> Prop :=
| sign_none : sign [] false
| sign_plus : sign [43] false
| sign_minus : sign [45] true.
Definition with_sign (negative : bool) (q : Q) : Q := if negative then (- q)%Q else q.
(** e or E, a sign, and digits; or nothing *)
Inductive suffix : list Z -> Z -> Prop :=
| suffix_none : suffix [] 0
| suffix_exponent : forall marker sg negative ds, marker = 101 \/ marker = 69 -> sign sg negative -> ds <> [] -> Forall digit ds ->
    suffix (marker :: sg ++ ds) (if negative then - natural ds else natural ds).
(** Digits, a point among them or not, not only a point *)
Inductive mantissa : list Z -> list Z -> list Z -> Prop :=
| mantissa_integer : forall ip, Forall digit ip -> ip <> [] -> mantissa ip ip []
| mantissa_point : forall ip fp, Forall digit ip -> Forall digit fp -> ip ++ fp <> [] -> mantissa (ip ++ 46 :: fp) ip fp.
(** s is a decimal literal that denotes q, and begins with a minus sign or not *)
Definition denotes (s : list Z) (negative : bool) (q : Q) : Prop :=
  exists sg m ip fp ex k, s = sg ++ m ++ ex /\ sign sg negative /\ mantissa m ip fp /\ suffix ex k /\
    (q == with_sign negative (inject_Z (natural (ip ++ fp)) * Qpower 10 (k - Z.of_nat (length fp))))%Q.
(** It has a point or an exponent, so that it denotes an inexact number *)
Definition inexact_literal (s : list Z) : Prop := In 46 s \/ In 101 s \/ In 69 s.
