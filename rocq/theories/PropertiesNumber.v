(** Properties C08-C11, C13, C45, C46: exact arithmetic.
    Specification: [value] maps an exact number object to the rational it
    denotes, [valid] says which objects exist, [is_int x z] says that x is an
    exact integer object denoting z (NumberProofs.v). *)
From Coq Require Import ZArith QArith Qround List Bool Sorted Lia.
From Verif Require Import Number NumberProofs NumberRounding NumberGcd NumberMore.
Import ListNotations.
Open Scope Z_scope.

(** ** C08 *)
Theorem C08_add : forall x y, valid (n_add x y) /\ value (n_add x y) == value x + value y.
Proof. exact add_ok. Qed.
Print Assumptions C08_add.
Theorem C08_sub : forall x y, valid (n_sub x y) /\ value (n_sub x y) == value x - value y.
Proof. exact sub_ok. Qed.
Print Assumptions C08_sub.
Theorem C08_mul : forall x y, valid (n_mul x y) /\ value (n_mul x y) == value x * value y.
Proof. exact mul_ok. Qed.
Print Assumptions C08_mul.
(** Integral results are exact integer objects, whatever the operands. *)
Theorem C08_integral_results : forall x y z,
  (value x + value y == inject_Z z -> is_int (n_add x y) z) /\
  (value x - value y == inject_Z z -> is_int (n_sub x y) z) /\
  (value x * value y == inject_Z z -> is_int (n_mul x y) z).
Proof. exact (fun x y z => conj (add_integral x y z) (conj (sub_integral x y z) (mul_integral x y z))). Qed.
Print Assumptions C08_integral_results.
Theorem C08_nary : forall x xs,
  value (s_add xs) == fold_right Qplus 0%Q (map value xs) /\
  value (s_mul xs) == fold_right Qmult 1%Q (map value xs) /\
  value (s_sub x xs) == match xs with [] => - value x | _ => value x - fold_right Qplus 0%Q (map value xs) end.
Proof. exact (fun x xs => conj (s_add_ok xs) (conj (s_mul_ok xs) (s_sub_ok x xs))). Qed.
Print Assumptions C08_nary.
Example C08_ex :
  n_add (Small (2^31 - 1)) (Small 1) = Large (2^31) /\
  n_mul (Small (-2^31)) (Small (-2^31)) = Large (2^62) /\
  n_sub (Large (2^31)) (Small (2^31 - 1)) = Large 1 /\
  n_add (Ratio (1 # 2)) (Ratio (1 # 2)) = Large 1 /\
  s_sub (Small 5) [Small 7; Ratio (1 # 2)] = Ratio (-5 # 2).
Proof. vm_compute. auto. Qed.

(** ** C09 *)
Theorem C09_value : forall x y, ~ value y == 0 ->
  exists r, n_div x y = Ok r /\ valid r /\ value r == value x / value y.
Proof. exact div_ok. Qed.
Print Assumptions C09_value.
Theorem C09_nary : forall x xs, Forall (fun y => ~ value y == 0) (match xs with [] => [x] | _ => xs end) ->
  exists r, s_div x xs = Ok r /\
    match xs with [] => value r * value x == 1 | _ => value r * fold_right Qmult 1%Q (map value xs) == value x end.
Proof. exact s_div_ok. Qed.
Print Assumptions C09_nary.
(** Full statement: for all x y z, value x / value y == z -> exists r, n_div x y = Ok r /\ is_int r z.
    It fails exactly when both operands are small: the quotient is then never
    an integer object. *)
Theorem C09_refuted : 
  (exists r, n_div (Small 6) (Small 3) = Ok r /\ value r == 2 /\ is_exact_integer r = false /\
     exact_integer_equals r (Small 2) = false /\ is_even r = Raise) /\
  (forall a b, b <> 0 -> exists r, n_div (Small a) (Small b) = Ok r /\ forall z, ~ is_int r z).
Proof.
  split.
  - eexists. split; [vm_compute; reflexivity|]. vm_compute. auto.
  - intros a b Hb. destruct (ratio_nd_ok a b Hb) as [q [E _]]. exists (Ratio q).
    split; [cbn [n_div]; rewrite E; reflexivity|]. intros z [H|H]; discriminate H.
Qed.
Print Assumptions C09_refuted.
Theorem C09_integer_partial : forall x y z, ~ value y == 0 ->
  ~ (exists a b, x = Small a /\ y = Small b) -> value x / value y == inject_Z z -> n_div x y = Ok (Large z).
Proof. exact div_int. Qed.
Print Assumptions C09_integer_partial.
Example C09_ex : n_div (Large (2^40)) (Small 4) = Ok (Large (2^38)) /\ n_div (Small 6) (Small (-4)) = Ok (Ratio (-3 # 2)).
Proof. vm_compute. auto. Qed.

(** ** C10 *)
Theorem C10_remainder : forall x y n d, is_int x n -> is_int y d -> d <> 0 ->
  exists o r, n_remainder x y = Ok o /\ is_int o r /\
    (d | n - r) /\ Z.abs r < Z.abs d /\ (r = 0 \/ Z.sgn r = Z.sgn n).
Proof. exact remainder_laws. Qed.
Print Assumptions C10_remainder.
Theorem C10_modulo : forall x y n d, is_int x n -> is_int y d -> d <> 0 ->
  exists o m, n_modulo x y = Ok o /\ is_int o m /\
    (d | n - m) /\ Z.abs m < Z.abs d /\ (m = 0 \/ Z.sgn m = Z.sgn d).
Proof. exact modulo_laws. Qed.
Print Assumptions C10_modulo.
(** Full statement: n = d * quotient + remainder for all n and d <> 0.  It fails
    from quotients of 2^53 on, and the process dies from 2^1024 on. *)
Theorem C10_refuted :
  (exists n o p q r, n_quotient (Large n) (Small 2) = Ok o /\ is_int o q /\
     n_remainder (Large n) (Small 2) = Ok p /\ is_int p r /\ n <> 2 * q + r) /\
  (exists n, n_quotient (Large n) (Small 2) = Crash).
Proof.
  split.
  - exists (2 * (2^53 + 1) + 1). do 4 eexists. split; [vm_compute; reflexivity|]. split; [right; reflexivity|].
    split; [vm_compute; reflexivity|]. split; [right; reflexivity|]. vm_compute. discriminate.
  - exists (2^1025 + 1). vm_compute. reflexivity.
Qed.
Print Assumptions C10_refuted.
Theorem C10_quotient_partial : forall x y n d, valid x -> valid y -> is_int x n -> is_int y d -> d <> 0 ->
  Z.abs n < 2^53 * Z.abs d \/ (d | n) ->
  exists o p q r, n_quotient x y = Ok o /\ is_int o q /\ n_remainder x y = Ok p /\ is_int p r /\ n = d * q + r.
Proof. exact quotient_laws. Qed.
Print Assumptions C10_quotient_partial.
Example C10_ex : n_quotient (Small (-7)) (Small 2) = Ok (Large (-3)) /\ n_remainder (Small (-7)) (Small 2) = Ok (Small (-1)) /\
  n_modulo (Small (-7)) (Small 2) = Ok (Small 1) /\ n_modulo (Large 7) (Small (-2)) = Ok (Large (-1)).
Proof. vm_compute. auto. Qed.

(** ** C11 *)
Theorem C11_integers : forall f x n, is_int x n -> exists r, nearest f x = Ok r /\ is_int r n.
Proof. exact integer_rounding. Qed.
Print Assumptions C11_integers.
(** Full statements: the conclusions below for every ratio.  All four fail. *)
Theorem C11_refuted :
  (n_round (Ratio (5 # 2)) = Ok (Large 3) /\ ~ rounds_to (5 # 2) 3) /\
  (exists n, n_truncate (Ratio (n # 2)) = Ok (Large (n / 2 - 1)) /\ 0 < n) /\
  (exists q, n_ceiling (Ratio q) = Ok (Large 0) /\ (0 < q)%Q) /\
  (exists q z, n_floor (Ratio q) = Ok (Large z) /\ (q < inject_Z z)%Q) /\
  (exists q, n_floor (Ratio q) = Crash).
Proof.
  split; [|split; [|split; [|split]]].
  - split; [vm_compute; reflexivity|]. intros [_ H]. destruct H as [k Hk]; [vm_compute; reflexivity|]. lia.
  - exists (2 * (2^53 + 1) + 1). split; vm_compute; reflexivity.
  - exists (1 # 2^1100). split; vm_compute; reflexivity.
  - exists (- (3 * 2^60) - 1 # 3). eexists. split; vm_compute; reflexivity.
  - exists (2^1025 + 1 # 2). vm_compute. reflexivity.
Qed.
Print Assumptions C11_refuted.
Theorem C11_truncate_partial : forall q, Z.abs (Qnum q) < 2^53 * Zpos (Qden q) ->
  exists z, n_truncate (Ratio q) = Ok (Large z) /\ z = if Qnum q <? 0 then Qceiling q else Qfloor q.
Proof. exact truncate_spec. Qed.
Print Assumptions C11_truncate_partial.
Theorem C11_floor_ceiling_partial : forall q, Z.abs (Qnum q) <= 2^52 -> Zpos (Qden q) <= 2^52 ->
  n_floor (Ratio q) = Ok (Large (Qfloor q)) /\ n_ceiling (Ratio q) = Ok (Large (Qceiling q)).
Proof. exact floor_ratio. Qed.
Print Assumptions C11_floor_ceiling_partial.
Theorem C11_round_partial : forall q, ~ tie q -> Z.abs (Qnum q) < 2^52 * Zpos (Qden q) ->
  exists z, n_round (Ratio q) = Ok (Large z) /\ rounds_to q z.
Proof. exact round_no_tie. Qed.
Print Assumptions C11_round_partial.
Example C11_ex : n_floor (Ratio (-7 # 2)) = Ok (Large (-4)) /\ n_ceiling (Ratio (-7 # 2)) = Ok (Large (-3)) /\
  n_truncate (Ratio (-7 # 2)) = Ok (Large (-3)) /\ n_round (Ratio (10 # 3)) = Ok (Large 3).
Proof. vm_compute. auto. Qed.

(** ** C13 *)
Theorem C13_binary : forall x y,
  (n_eq x y = true <-> value x == value y) /\ (n_lt x y = true <-> (value x < value y)%Q) /\
  (n_gt x y = true <-> (value y < value x)%Q) /\ (n_le x y = true <-> (value x <= value y)%Q) /\
  (n_ge x y = true <-> (value y <= value x)%Q).
Proof. exact (fun x y => conj (n_eq_ok x y) (conj (n_lt_ok x y) (conj (n_gt_ok x y) (conj (n_le_ok x y) (n_ge_ok x y))))). Qed.
Print Assumptions C13_binary.
(** The n-ary procedures relate every earlier argument to every later one. *)
Theorem C13_nary : forall xs,
  (s_eq xs = true <-> StronglySorted (fun x y => value x == value y) xs) /\
  (s_lt xs = true <-> StronglySorted (fun x y => (value x < value y)%Q) xs) /\
  (s_le xs = true <-> StronglySorted (fun x y => (value x <= value y)%Q) xs) /\
  (s_gt xs = true <-> StronglySorted (fun x y => (value y < value x)%Q) xs) /\
  (s_ge xs = true <-> StronglySorted (fun x y => (value y <= value x)%Q) xs).
Proof. exact (fun xs => conj (s_eq_ok xs) (conj (s_lt_ok xs) (conj (s_le_ok xs) (conj (s_gt_ok xs) (s_ge_ok xs))))). Qed.
Print Assumptions C13_nary.
Example C13_ex : s_lt [Small (-3); Ratio (1 # 2); Large 1; Small 2] = true /\ s_lt [Small 1; Large 1] = false /\
  s_ge [Large (2^64); Large (2^64); Ratio (1 # 3)] = true /\ s_eq [Small 2; Large 2; Ratio (2 # 1)] = true.
Proof. vm_compute. auto. Qed.

(** ** C45: gcd, lcm, max, min, parity, abs, exact-integer-sqrt *)
Theorem C45_gcd : forall x y a b, is_int x a -> is_int y b ->
  exists r, n_gcd x y = Some (Ok r) /\ is_int r (Z.gcd a b).
Proof. exact gcd_int. Qed.
Print Assumptions C45_gcd.
Theorem C45_lcm_partial : forall x y a b, valid x -> valid y -> is_int x a -> is_int y b -> (a <> 0 \/ b <> 0) ->
  exists r, n_lcm x y = Some (Ok r) /\ is_int r (Z.lcm a b).
Proof. exact lcm_int. Qed.
Print Assumptions C45_lcm_partial.
(** (lcm 0 0) ends the process; (gcd -4) is -4; (exact-integer-sqrt -1) ends the process. *)
Theorem C45_refuted :
  n_lcm (Small 0) (Small 0) = Some Crash /\ s_gcd [Small (-4)] = Some (Ok (Small (-4))) /\
  s_lcm [Small (-4)] = Some (Ok (Small (-4))) /\ n_isqrt (Small (-1)) = Crash.
Proof. vm_compute. auto. Qed.
Print Assumptions C45_refuted.
Theorem C45_max_min : forall x xs, exists mx mn, s_max (x :: xs) = Some mx /\ s_min (x :: xs) = Some mn /\
  In mx (x :: xs) /\ (forall y, In y (x :: xs) -> (value y <= value mx)%Q) /\
  In mn (x :: xs) /\ (forall y, In y (x :: xs) -> (value mn <= value y)%Q).
Proof.
  exact (fun x xs => ex_intro _ _ (ex_intro _ _ (conj eq_refl (conj eq_refl
    (conj (proj1 (max_from_ok xs x)) (conj (proj2 (max_from_ok xs x)) (min_from_ok xs x))))))).
Qed.
Print Assumptions C45_max_min.
Theorem C45_parity : forall x z, is_int x z -> is_even x = Ok (Z.even z) /\ is_odd x = Ok (Z.odd z).
Proof. exact even_int. Qed.
Print Assumptions C45_parity.
Theorem C45_abs : forall x, valid x -> valid (n_abs x) /\ value (n_abs x) == Qabs.Qabs (value x).
Proof. exact abs_value. Qed.
Print Assumptions C45_abs.
Theorem C45_exact_integer_sqrt : forall x z, is_int x z -> 0 <= z ->
  exists s r, n_isqrt x = Ok (Large s, Large r) /\ 0 <= s /\ s * s + r = z /\ s * s <= z < (s + 1) * (s + 1).
Proof. exact isqrt_ok. Qed.
Print Assumptions C45_exact_integer_sqrt.
Example C45_ex : n_gcd (Small 12) (Large (-18)) = Some (Ok (Large 6)) /\ n_lcm (Small 4) (Small (-6)) = Some (Ok (Large 12)) /\
  s_max [Small 1; Ratio (5 # 2); Small 2] = Some (Ratio (5 # 2)) /\ n_isqrt (Small 17) = Ok (Large 4, Large 1).
Proof. vm_compute. auto. Qed.

(** ** C46: division by an exact zero.  Full statement: an error is raised
    (outcome [Raise]).  In fact the process ends. *)
Theorem C46_refuted : 
  (forall x y, value y == 0 -> n_div x y = Crash) /\
  (forall x y n, is_int x n -> is_int y 0 -> n_quotient x y = Crash /\ n_remainder x y = Crash /\ n_modulo x y = Crash).
Proof.
  split; [exact div_zero|]. intros x y n Hx Hy. unfold n_quotient, n_modulo, n_remainder.
  rewrite (div_zero x y) by (rewrite (is_int_value y 0 Hy); reflexivity).
  destruct Hx as [->| ->], Hy as [->| ->]; auto.
Qed.
Print Assumptions C46_refuted.
