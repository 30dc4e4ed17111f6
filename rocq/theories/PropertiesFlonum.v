(** Properties C77-C85: inexact real numbers (Flonum.v) against R7RS 6.2 (FlonumSpec.v).
    [rvalid]: fractions are in lowest terms, small integers fit 32 bits, doubles are in the
    normal form of binary64. [denote]: the number an object stands for. *)
From Coq Require Import ZArith QArith Qreduction Qround Qabs Qpower Lia Lqa ZifyBool List Bool Floats.SpecFloat.
From Coq Require QArith.Qcanon ZArith.Zpow_facts.
From Verif Require Import Number NumberProofs NumberGcd NumberRounding Flonum FlonumProofs FlonumProofs2 FlonumProofs3 FlonumSpec.
Open Scope Z_scope.

(** ** C77 Comparison *)
(** [ordered]: neither is NaN, and they are not a fraction and a double *)
Theorem C77_order_partial : forall x y, rvalid x -> rvalid y -> ordered x y ->
  (exists b, s_less x y = Ok b /\ (b = true <-> lt (denote x) (denote y))) /\
  (exists b, s_greater x y = Ok b /\ (b = true <-> lt (denote y) (denote x))) /\
  (exists b, s_less_equal x y = Ok b /\ (b = true <-> le (denote x) (denote y))) /\
  (exists b, s_greater_equal x y = Ok b /\ (b = true <-> le (denote y) (denote x))).
Proof.
  intros x y V1 V2 O. destruct (less_than_ok x y V1 V2 O) as (b & E & I).
  destruct (less_than_ok y x V2 V1 (ordered_sym _ _ O)) as (c & F & J). destruct O as (N1 & N2 & _).
  unfold s_less, s_greater, s_less_equal, s_greater_equal, less_than_or_equals, greater_than_or_equals.
  rewrite !greater_less, E, F. cbn [obind].
  pose proof (not_lt_le _ _ N2 N1) as L1. pose proof (not_lt_le _ _ N1 N2) as L2.
  repeat split; eexists; (split; [reflexivity|]); rewrite ?negb_involutive, ?negb_true_iff; try assumption.
  - rewrite <- L1, <- J. destruct c; intuition congruence.
  - rewrite <- L2, <- I. destruct b; intuition congruence.
Qed.
Print Assumptions C77_order_partial.
Example C77_example_order :
  s_less (Flo (of_q (1 # 2))) (Exact (Small 1)) = Ok true /\
  s_less (Exact (Large (10 ^ 400))) (Flo (S754_infinity false)) = Ok true /\
  s_less_equal (Flo (of_q (inject_Z (2 ^ 60)))) (Exact (Large (2 ^ 60))) = Ok true /\
  s_less (Flo (of_q (inject_Z (2 ^ 60)))) (Exact (Large (2 ^ 60 + 1))) = Ok true.
Proof. repeat split; vm_compute; reflexivity. Qed.

(** = of an exact integer and a double, and of exact numbers *)
Theorem C77_equal_partial : forall x y, rvalid x -> rvalid y -> ordered x y -> (is_exact x || is_exact y = true) ->
  exists b, s_equal x y = Ok b /\ (b = true <-> same (denote x) (denote y)).
Proof.
  intros x y V1 V2 (N1 & N2 & O) X. unfold s_equal, not_equals.
  assert (H : exists b, equals x y = Ok b /\ (b = true <-> same (denote x) (denote y))).
  { destruct x as [x|f], y as [y|g]; [| | |discriminate].
    - exists (n_eq x y). split; [destruct x, y; reflexivity|]. apply n_eq_ok.
    - destruct x as [z|z|q]; [| |contradiction]; cbn [equals denote value] in *.
      + eexists. split; [reflexivity|]. rewrite eqb_iff by (exact V2 || apply of_q_valid).
        destruct (small_exact z V1) as [-> E]. apply (same_Fin _ _ (fext g) E).
      + destruct (cmp_d_ok z g N2) as (c & -> & A & B & C). eexists. split; [reflexivity|exact C].
    - destruct y as [z|z|q]; [| |contradiction]; cbn [equals denote value] in *.
      + eexists. split; [reflexivity|]. rewrite eqb_iff by (exact V1 || apply of_q_valid).
        destruct (small_exact z V2) as [-> E]. apply (same_Fin _ _ (fext f) E).
      + destruct (cmp_d_ok z f N1) as (c & -> & A & B & C). eexists. split; [reflexivity|].
        rewrite C. destruct (fext f); cbn [same]; try tauto. split; intros H; symmetry; exact H. }
  destruct H as (b & E & I). rewrite E. cbn [obind]. rewrite negb_involutive. eauto.
Qed.
Print Assumptions C77_equal_partial.
(** = of two doubles: a double is equal to itself *)
Theorem C77_reflexive : forall f, s_equal (Flo f) (Flo f) = Ok true.
Proof.
  intros f. unfold s_equal, not_equals, equals. cbn [obind]. rewrite negb_involutive. f_equal.
  destruct f as [[]|[]| |s m e]; try reflexivity. unfold inexact_equals.
  unfold SFsub. cbn zeta. rewrite Z.sub_diag. reflexivity.
Qed.
Print Assumptions C77_reflexive.
(** An infinity is equal to itself only, and two doubles of one value are equal *)
Theorem C77_infinite : forall f g s, f = S754_infinity s \/ g = S754_infinity s ->
  exists b, s_equal (Flo f) (Flo g) = Ok b /\ (b = true <-> same (fext f) (fext g)).
Proof.
  intros f g s H. unfold s_equal, not_equals, equals. cbn [obind]. eexists. split; [reflexivity|]. rewrite negb_involutive.
  destruct H as [-> | ->]; [destruct s, g as [[]|[]| |[] ? ?]|destruct s, f as [[]|[]| |[] ? ?]]; cbn; intuition (discriminate || auto).
Qed.
Print Assumptions C77_infinite.
Theorem C77_same : forall f g, vfloat f -> vfloat g -> same (fext f) (fext g) -> s_equal (Flo f) (Flo g) = Ok true.
Proof.
  intros f g V W H. apply eqb_iff in H; [|assumption|assumption].
  destruct f as [s|s| |s m e], g as [t|t| |t n d]; try (destruct s, t; reflexivity || discriminate H);
    try (destruct s; discriminate H); try (destruct t; discriminate H); try discriminate H.
  assert (E : S754_finite s m e = S754_finite t n d).
  { revert H. unfold SFeqb, SFcompare. destruct s, t; try discriminate; destruct (Z.compare_spec e d) as [->| |]; cbn; try discriminate;
      rewrite Pos.compare_cont_spec; unfold Pos.switch_Eq; destruct (Pos.compare_spec m n) as [-> | |]; cbn; congruence. }
  rewrite E. apply C77_reflexive.
Qed.
Print Assumptions C77_same.
Example C77_example_infinite :
  s_equal (Flo (S754_infinity false)) (Flo (S754_infinity true)) = Ok false /\
  s_equal (Flo (S754_infinity false)) (Flo (S754_infinity false)) = Ok true /\
  s_equal (Flo (S754_zero false)) (Flo (S754_zero true)) = Ok true.
Proof. repeat split; reflexivity. Qed.
Example C77_example_equal :
  s_equal (Flo (of_q 1)) (Exact (Small 1)) = Ok true /\ s_equal (Flo (of_q (inject_Z (2 ^ 60)))) (Exact (Large (2 ^ 60 + 1))) = Ok false.
Proof. split; vm_compute; reflexivity. Qed.

(** = of two doubles is true of different numbers, (= 1e-300 2e-300), and not transitive *)
Theorem C77_equal_refuted : exists x y z, vfloat x /\ vfloat y /\ vfloat z /\
  s_equal (Flo x) (Flo y) = Ok true /\ s_equal (Flo y) (Flo z) = Ok true /\ s_equal (Flo x) (Flo z) = Ok false /\
  ~ same (fext x) (fext y) /\ s_less (Flo x) (Flo y) = Ok true.
Proof.
  exists (of_q 0), (of_q (1 # (2 ^ 52))), (of_q (2 # (2 ^ 52))).
  repeat split; try apply of_q_valid; try (vm_compute; reflexivity). intros H. vm_compute in H. discriminate.
Qed.
Print Assumptions C77_equal_refuted.
(** A fraction is rounded before it is compared: 1/3 is equal to a smaller double, and not
    greater *)
Theorem C77_ratio_refuted : let d := of_q (1 # 3) in let r := Exact (Ratio (1 # 3)) in
  rvalid (Flo d) /\ rvalid r /\ lt (denote (Flo d)) (denote r) /\
  s_less (Flo d) r = Ok false /\ s_equal (Flo d) r = Ok true /\ s_greater_equal (Flo d) r = Ok true.
Proof. cbv zeta. repeat split; vm_compute; reflexivity. Qed.
Print Assumptions C77_ratio_refuted.
(** NaN is less than or equal to every double and equal to itself, and comparing it with a
    large integer ends the process *)
Theorem C77_nan_refuted :
  (forall f, s_less_equal (Flo S754_nan) (Flo f) = Ok true /\ s_greater_equal (Flo S754_nan) (Flo f) = Ok true) /\
  s_equal (Flo S754_nan) (Flo S754_nan) = Ok true /\
  (forall z, s_less (Flo S754_nan) (Exact (Large z)) = Crash /\ s_equal (Flo S754_nan) (Exact (Large z)) = Crash).
Proof. split; [intros f; destruct f as [[]|[]| |[] ? ?]; split; reflexivity|]. split; [reflexivity|]. intros z. split; reflexivity. Qed.
Print Assumptions C77_nan_refuted.

(** ** C78 exact and inexact *)
Theorem C78_exact : forall f, vfloat f -> finite f = true ->
  exists x, exact (Flo f) = Ok (Exact x) /\ valid x /\ (value x == fval f)%Q.
Proof.
  intros f V F. cbn [exact]. rewrite F. eexists. split; [reflexivity|]. split.
  - apply canon_valid, valid_q.
  - rewrite canon_value. apply Qred_correct.
Qed.
Print Assumptions C78_exact.
Theorem C78_inexact_representable : forall x, representable (value x) ->
  exists f, inexact (Exact x) = Flo f /\ vfloat f /\ finite f = true /\ (fval f == value x)%Q.
Proof.
  intros x R. exists (to_double x). split; [reflexivity|]. split; [apply of_q_valid|].
  replace (to_double x) with (of_q (value x)) by (destruct x; reflexivity). apply of_q_representable, R.
Qed.
Print Assumptions C78_inexact_representable.
(** exact and then inexact gives the same double, except for the sign of 0 *)
Theorem C78_round_trip : forall f x, vfloat f -> exact (Flo f) = Ok x ->
  inexact x = Flo f \/ (exists s, f = S754_zero s) /\ inexact x = Flo (S754_zero false).
Proof.
  intros f x V E. destruct (finite f) eqn:F; [|cbn [exact] in E; rewrite F in E; discriminate].
  destruct f as [s|s| |s m e]; try discriminate.
  { right. split; [eauto|]. injection E as <-. reflexivity. }
  left. destruct (C78_exact _ V F) as (y & E' & Vy & Ey). rewrite E in E'. injection E' as ->.
  destruct (C78_inexact_representable y) as (g & -> & Vg & Fg & Eg).
  { destruct (fval_representable _ V F) as (a & b & A & B). exists a, b. rewrite Ey. auto. }
  destruct (vfloat_inj _ _ Vg V Fg F) as [->|(u & t & _ & H)]; [rewrite Eg; exact Ey|reflexivity|discriminate].
Qed.
Print Assumptions C78_round_trip.
Example C78_example :
  exact (Flo (of_q (-5 # 2))) = Ok (Exact (Ratio (-5 # 2))) /\ exact (Flo (of_q (inject_Z (10 ^ 22)))) = Ok (Exact (Large (10 ^ 22))) /\
  inexact (Exact (Ratio (1 # 4))) = Flo (S754_finite false (2 ^ 52) (-54)) /\ representable (value (Ratio (1 # 4))).
Proof.
  split; [vm_compute; reflexivity|]. split; [vm_compute; reflexivity|]. split; [vm_compute; reflexivity|].
  exists 1, (-2). split; [reflexivity|]. split; [reflexivity|lia].
Qed.

(** For other numbers R7RS asks for the numerically closest one. Here it is the next one
    towards 0 *)
Theorem C78_inexact_partial : forall x, valid x -> (Qabs (value x) < Qpower 2 1024)%Q ->
  exists f, inexact (Exact x) = Flo f /\ vfloat f /\ finite f = true /\
    (Qabs (fval f) <= Qabs (value x))%Q /\ (0 <= fval f * value x)%Q /\
    forall y, representable y -> (Qabs y <= Qabs (value x))%Q -> (Qabs y <= Qabs (fval f))%Q.
Proof.
  intros x V L. exists (to_double x). split; [reflexivity|]. split; [apply of_q_valid|].
  replace (to_double x) with (of_q (value x)) by (destruct x; reflexivity).
  destruct (of_q_truncates (value x) L) as (A & B & C). repeat split; try assumption.
  intros y R H. apply of_q_maximal; assumption.
Qed.
Print Assumptions C78_inexact_partial.
Theorem C78_nearest_refuted : exists x f, valid x /\ inexact (Exact x) = Flo f /\ ~ closest (value x) (fval f).
Proof.
  exists (Ratio (1 # 5)), (to_double (Ratio (1 # 5))). split; [reflexivity|]. split; [reflexivity|].
  intros [_ H]. assert (R : representable (inject_Z 7205759403792794 * Qpower 2 (-55))).
  { exists 7205759403792794, (-55). split; [reflexivity|]. split; [reflexivity|lia]. }
  specialize (H _ R). clear R. vm_compute in H. apply H. reflexivity.
Qed.
Print Assumptions C78_nearest_refuted.
(** exact of an infinity or a NaN ends the process *)
Theorem C78_crash_refuted : forall f, finite f = false -> exact (Flo f) = Crash.
Proof. intros f F. cbn [exact]. rewrite F. reflexivity. Qed.
Print Assumptions C78_crash_refuted.

(** ** C79 Predicates *)
Theorem C79_classes : forall x, rvalid x ->
  (is_rational x = true <-> exists q, denote x = Fin q) /\
  (is_nan x = true <-> denote x = NaN) /\
  (is_infinite x = true <-> denote x = PInf \/ denote x = NInf) /\
  (exists b, is_zero x = Ok b /\ (b = true <-> same (denote x) (Fin 0))) /\
  (exists b, is_positive x = Ok b /\ (b = true <-> lt (Fin 0) (denote x))) /\
  (exists b, is_negative x = Ok b /\ (b = true <-> lt (denote x) (Fin 0))).
Proof.
  intros x V. assert (V0 : rvalid (Exact (Small 0))) by (cbn; lia).
  assert (Z0 : fext (to_double (Small 0)) = Fin 0) by reflexivity.
  destruct x as [x|f].
  - cbn [is_rational is_nan is_infinite denote].
    split; [split; eauto|]. split; [split; discriminate|]. split; [split; [discriminate|intros []; discriminate]|].
    unfold is_zero, is_positive, is_negative. rewrite !less_exact.
    replace (equals (Exact x) (Exact (Small 0))) with (Ok (n_eq x (Small 0))) by (destruct x; reflexivity).
    repeat split; eexists; (split; [reflexivity|]); [apply n_eq_ok|apply n_lt_ok|apply n_lt_ok].
  - cbn [denote]. split; [destruct f as [|[]| |]; cbn; split; eauto; try discriminate; intros [? ?]; discriminate|].
    split; [destruct f as [|[]| |]; cbn; split; congruence|].
    split; [destruct f as [|[]| |]; cbn; intuition discriminate|].
    unfold is_zero, is_positive, is_negative. cbn [equals less_than].
    repeat split; eexists; (split; [reflexivity|]).
    + rewrite eqb_iff, Z0 by (exact V || apply of_q_valid). reflexivity.
    + rewrite ltb_iff, Z0 by (exact V || apply of_q_valid). reflexivity.
    + rewrite ltb_iff, Z0 by (exact V || apply of_q_valid). reflexivity.
Qed.
Print Assumptions C79_classes.
Example C79_example : is_rational (Flo (of_q (1 # 2))) = true /\ is_zero (Flo (S754_zero true)) = Ok true /\
  is_negative (Flo (S754_infinity true)) = Ok true /\ is_positive (Flo S754_nan) = Ok false.
Proof. repeat split; vm_compute; reflexivity. Qed.
(** [z is the number x stands for] *)
Definition stands_for_integer (x : real) (z : Z) : Prop := exists v, denote x = Fin v /\ (v == inject_Z z)%Q.
Theorem C79_integer_partial : forall f, vfloat f -> is_infinite (Flo f) = false ->
  (is_integer (Flo f) = true <-> exists z, stands_for_integer (Flo f) z).
Proof.
  intros f V N. cbn [is_integer]. destruct (rounded_trunc f V) as [W R]. rewrite eqb_iff by assumption.
  destruct (finite f) eqn:F; [|destruct f as [|[]| |]; try discriminate; cbn; split; [contradiction|]; intros (z & v & E & _); discriminate].
  destruct R as (v & E & Q0). unfold stands_for_integer. cbn [denote]. rewrite E, (fext_finite f F). change (same (Fin (fval f)) (Fin v)) with (fval f == v)%Q. split.
  - intros H. change (fval f == v)%Q in H. exists (trunc_z (fval f)). exists (fval f). split; [reflexivity|]. exact (Qeq_trans _ _ _ H Q0).
  - intros (z & u & X & Y). injection X as <-. change (fval f == v)%Q. apply (Qeq_trans _ _ _ Y). apply Qeq_sym, (Qeq_trans _ _ _ Q0). rewrite (trunc_z_int _ z Y). reflexivity.
Qed.
Print Assumptions C79_integer_partial.
Theorem C79_finite_partial : forall x, rvalid x -> denote x <> NaN -> (is_finite x = true <-> exists q, denote x = Fin q).
Proof.
  intros x V N. unfold is_finite. destruct x as [x|[|[]| |]]; cbn in *; split; eauto; try discriminate; try (intros [? ?]; discriminate); contradiction.
Qed.
Print Assumptions C79_finite_partial.
(** (integer? +inf.0), (finite? +nan.0) *)
Theorem C79_integer_refuted : forall s, is_integer (Flo (S754_infinity s)) = true /\ ~ exists z, stands_for_integer (Flo (S754_infinity s)) z.
Proof. intros []; (split; [reflexivity|]); intros (z & v & E & _); discriminate. Qed.
Print Assumptions C79_integer_refuted.
Theorem C79_finite_refuted : is_finite (Flo S754_nan) = true.
Proof. reflexivity. Qed.
Print Assumptions C79_finite_refuted.
Theorem C79_parity : forall f z, vfloat f -> stands_for_integer (Flo f) z ->
  is_even (Flo f) = Ok (Z.even z) /\ is_odd (Flo f) = Ok (Z.odd z).
Proof.
  intros f z V (v & E & Ev).
  assert (F : finite f = true) by (destruct f as [|[]| |]; try discriminate; reflexivity).
  cbn [denote] in E. rewrite (fext_finite f F) in E. injection E as <-.
  assert (H : is_even (Flo f) = Ok (Z.even z)).
  { unfold is_even, r_rem. cbn [obind]. unfold is_zero. cbn [equals]. f_equal.
    destruct (fmod_ok f (to_double (Small 2)) V (of_q_valid _) F eq_refl) as (Vr & Fr & n & E1 & E2 & E3).
    { vm_compute. discriminate. }
    set (r := fmod f (to_double (Small 2))) in *.
    assert (T : (fval (to_double (Small 2)) == inject_Z 2)%Q) by reflexivity.
    rewrite T, Ev in E1. rewrite T in E2.
    assert (R : (fval r == inject_Z (z - n * 2))%Q).
    { unfold Z.sub. rewrite inject_Z_plus, inject_Z_opp, inject_Z_mult, E1. ring. }
    assert (S0 : SFeqb r (to_double (Small 0)) = true <-> z - n * 2 = 0).
    { rewrite eqb_iff by (exact Vr || apply of_q_valid). rewrite (fext_finite r Fr). change (fext (to_double (Small 0))) with (Fin (inject_Z 0)).
      cbn [same]. rewrite R. apply inject_Z_injective. }
    assert (B : Z.abs (z - n * 2) < 2).
    { rewrite R in E2. change (Qabs (inject_Z (z - n * 2))) with (inject_Z (Z.abs (z - n * 2))) in E2.
      change (Qabs (inject_Z 2)) with (inject_Z 2) in E2. rewrite <- inject_lt in E2. exact E2. }
    destruct (SFeqb r (to_double (Small 0))) eqn:X.
    - symmetry. apply Z.even_spec. exists n. destruct S0 as [S0 _]. specialize (S0 eq_refl). lia.
    - destruct (Z.even z) eqn:Y; [|reflexivity]. exfalso. apply Z.even_spec in Y as [k K].
      assert (z - n * 2 = 0) by lia. apply S0 in H. discriminate. }
  split; [exact H|]. unfold is_odd. rewrite H. cbn [obind]. rewrite <- Z.negb_even. reflexivity.
Qed.
Print Assumptions C79_parity.

(** ** C80 floor, ceiling, truncate and round of doubles *)
Theorem C80_directed : forall f, vfloat f -> finite f = true ->
  (exists r, floor (Flo f) = Ok (Flo r) /\ stands_for_integer (Flo r) (Qfloor (fval f))) /\
  (exists r, ceiling (Flo f) = Ok (Flo r) /\ stands_for_integer (Flo r) (Qceiling (fval f))) /\
  (exists r z, truncate (Flo f) = Ok (Flo r) /\ stands_for_integer (Flo r) z /\
     (Qabs (inject_Z z) <= Qabs (fval f))%Q /\ (Qabs (fval f - inject_Z z) < 1)%Q).
Proof.
  intros f V F. pose proof (rounded_floor f V) as [_ A]. pose proof (rounded_ceil f V) as [_ B]. pose proof (rounded_trunc f V) as [_ C].
  rewrite F in A, B, C. split; [|split]; eexists; [split; [reflexivity|exact A]|split; [reflexivity|exact B]|].
  exists (trunc_z (fval f)). split; [reflexivity|]. split; [exact C|]. apply trunc_z_abs.
Qed.
Print Assumptions C80_directed.
Theorem C80_special : forall f, finite f = false ->
  floor (Flo f) = Ok (Flo f) /\ ceiling (Flo f) = Ok (Flo f) /\ truncate (Flo f) = Ok (Flo f) /\ round (Flo f) = Ok (Flo f).
Proof. intros f F. destruct f; try discriminate; repeat split. Qed.
Print Assumptions C80_special.
(** round: a nearest integer; the one that R7RS asks for unless two are equally near *)
Theorem C80_round_partial : forall f, vfloat f -> finite f = true ->
  exists r z, round (Flo f) = Ok (Flo r) /\ stands_for_integer (Flo r) z /\
    (forall z', Qabs (fval f - inject_Z z) <= Qabs (fval f - inject_Z z'))%Q /\
    (~ (exists k, fval f == inject_Z k + (1 # 2))%Q -> rounds_even (fval f) z).
Proof.
  intros f V F. destruct (rounded_round f V) as [_ R]. rewrite F in R. destruct R as (v & z & A & B & C).
  eexists. exists z. split; [reflexivity|]. split; [exists v; auto|]. apply nearest_spec, C.
Qed.
Print Assumptions C80_round_partial.
Example C80_example :
  floor (Flo (of_q (-7 # 2))) = Ok (Flo (of_q (-4))) /\ ceiling (Flo (of_q (-7 # 2))) = Ok (Flo (of_q (-3))) /\
  truncate (Flo (of_q (-7 # 2))) = Ok (Flo (of_q (-3))) /\ round (Flo (of_q (13 # 4))) = Ok (Flo (of_q 3)).
Proof. repeat split; vm_compute; reflexivity. Qed.
(** (round 2.5) is 3.0 *)
Theorem C80_round_refuted : exists f z, vfloat f /\ round (Flo f) = Ok (Flo (of_q (inject_Z z))) /\ ~ rounds_even (fval f) z.
Proof.
  exists (of_q (5 # 2)), 3. split; [reflexivity|]. split; [vm_compute; reflexivity|].
  intros [_ H]. destruct (H 2) as [E|[k E]]; [vm_compute; reflexivity|discriminate|lia].
Qed.
Print Assumptions C80_round_refuted.

(** ** C81 remainder and modulo *)
(** a double, or a small integer *)
Definition plain (x : real) : Prop := match x with Exact (Small _) | Flo _ => True | _ => False end.
Theorem C81_remainder_partial : forall x y a b, rvalid x -> rvalid y -> plain x -> plain y -> is_exact x && is_exact y = false ->
  denote x = Fin a -> denote y = Fin b -> ~ (b == 0)%Q ->
  exists r, remainder x y = Ok (Flo r) /\ vfloat r /\ finite r = true /\ truncate_remainder a b (fval r).
Proof.
  intros x y a b V1 V2 P1 P2 X D1 D2 N.
  assert (K : forall x a, rvalid x -> plain x -> denote x = Fin a ->
    exists f, (x = Flo f \/ exists z, x = Exact (Small z) /\ f = to_double (Small z)) /\ vfloat f /\ finite f = true /\ (fval f == a)%Q).
  { clear. intros [[z|z|q]|f] a V P D; cbn in P; try contradiction.
    - cbn [denote value] in D. injection D as <-. exists (to_double (Small z)). split; [eauto|]. split; [apply of_q_valid|].
      cbn [rvalid valid] in V. apply of_Z_exact. lia.
    - exists f. split; [auto|]. cbn [denote] in D.
      assert (F : finite f = true) by (destruct f as [|[]| |]; try discriminate; reflexivity).
      rewrite (fext_finite f F) in D. injection D as <-. split; [assumption|]. split; [assumption|reflexivity]. }
  destruct (K x a V1 P1 D1) as (f & Hf & Vf & Ff & Ef). destruct (K y b V2 P2 D2) as (g & Hg & Vg & Fg & Eg).
  assert (R : remainder x y = Ok (Flo (fmod f g))).
  { unfold remainder. destruct Hf as [->|(u & -> & ->)], Hg as [->|(v & -> & ->)]; try reflexivity. discriminate X. }
  destruct (fmod_ok f g Vf Vg Ff Fg) as (A & B & n & C1 & C2 & C3); [rewrite Eg; exact N|].
  eexists. split; [exact R|]. split; [exact A|]. split; [exact B|]. exists n. rewrite Ef, Eg in *. auto.
Qed.
Print Assumptions C81_remainder_partial.
Example C81_example : remainder (Flo (of_q (-7))) (Exact (Small 3)) = Ok (Flo (of_q (-1))) /\
  remainder (Exact (Small 7)) (Flo (of_q (5 # 2))) = Ok (Flo (of_q 2)) /\ modulo (Flo (of_q (-7))) (Exact (Small 3)) = Ok (Flo (of_q 2)).
Proof. repeat split; vm_compute; reflexivity. Qed.
(** A large integer is divided rounding to the nearest: (remainder 10000000001 3.0) is -1.0,
    where 10000000001 = 3 * 3333333333 + 2 *)
Theorem C81_large_refuted : exists z g r, vfloat g /\ remainder (Exact (Large z)) (Flo g) = Ok (Flo r) /\
  finite r = true /\ ~ truncate_remainder (inject_Z z) (fval g) (fval r).
Proof.
  exists 10000000001, (of_q 3), (of_q (-1)). split; [reflexivity|]. split; [vm_compute; reflexivity|]. split; [reflexivity|].
  intros (n & _ & _ & H). vm_compute in H. now apply H.
Qed.
Print Assumptions C81_large_refuted.
(** modulo adds the divisor, and the sum is rounded: (modulo 3.0 9007199254740994.0) is 2.0 *)
Theorem C81_modulo_refuted : let y := Flo (of_q (inject_Z 9007199254740994)) in
  modulo (Flo (of_q 3)) y = Ok (Flo (of_q 2)) /\ denote y = Fin (fval (of_q (inject_Z 9007199254740994))) /\
  (fval (of_q (inject_Z 9007199254740994)) == inject_Z 9007199254740994)%Q.
Proof. cbv zeta. repeat split; vm_compute; reflexivity. Qed.
Print Assumptions C81_modulo_refuted.

(** ** C82 sqrt *)
Theorem C82_small : forall z, valid (Small z) -> 0 <= z ->
  (forall k, 0 <= k -> k * k = z -> sqrt (Exact (Small z)) = Ok (Real (Exact (Small k))) /\ valid (Small k)) /\
  ((forall k, k * k <> z) -> exists f, sqrt (Exact (Small z)) = Ok (Real (Flo f))).
Proof.
  intros z V H. cbn [valid] in V.
  assert (E : sqrt (Exact (Small z)) = let! r := root (Exact (Small z)) in Ok (Real r)).
  { unfold sqrt. rewrite less_exact. cbn [obind]. unfold n_lt. rewrite cmp_value. cbn [value].
    destruct (Qcompare (inject_Z z) (inject_Z 0)) eqn:C; try reflexivity.
    apply Qlt_alt in C. rewrite <- inject_lt in C. lia. }
  rewrite E. cbn [root obind]. split.
  - intros k K <-. rewrite root_square by nia. rewrite Z.eqb_refl. split; [reflexivity|]. cbn [valid]. nia.
  - intros N. destruct (_ =? z) eqn:X; [|eauto]. apply Z.eqb_eq in X. exfalso. exact (N _ X).
Qed.
Print Assumptions C82_small.
(** the square root of a negative number is an imaginary number *)
Theorem C82_negative : forall k, 0 < k -> k * k <= 2 ^ 31 ->
  sqrt (Exact (Small (- (k * k)))) = Ok (Imaginary (Exact (Small k))).
Proof.
  intros k K B. unfold sqrt. rewrite less_exact. cbn [obind]. unfold n_lt. rewrite cmp_value. cbn [value].
  assert (C : Qcompare (inject_Z (- (k * k))) (inject_Z 0) = Lt) by (apply -> Qlt_alt; rewrite <- inject_lt; nia).
  rewrite C. cbn [negated]. replace (0 - - (k * k)) with (k * k) by lia. cbn [root obind].
  rewrite root_square by nia. rewrite Z.eqb_refl. reflexivity.
Qed.
Print Assumptions C82_negative.
Theorem C82_large_partial : forall k, 0 <= k -> sqrt (Exact (Large (k * k))) = Ok (Real (Exact (Large k))).
Proof.
  intros k K. unfold sqrt. rewrite less_exact. cbn [obind]. unfold n_lt. rewrite cmp_value. cbn [value].
  destruct (Qcompare (inject_Z (k * k)) (inject_Z 0)) eqn:C.
  2:{ apply Qlt_alt in C. rewrite <- inject_lt in C. nia. }
  all: cbn [root obind]; rewrite sqrtrem_square by exact K; reflexivity.
Qed.
Print Assumptions C82_large_partial.
Example C82_example : sqrt (Exact (Small 144)) = Ok (Real (Exact (Small 12))) /\ sqrt (Exact (Small (-9))) = Ok (Imaginary (Exact (Small 3))) /\
  (exists m e, sqrt (Exact (Small 2)) = Ok (Real (Flo (S754_finite false m e)))) /\ sqrt (Exact (Large (10 ^ 40))) = Ok (Real (Exact (Large (10 ^ 20)))).
Proof. repeat split; try (eexists; eexists); vm_compute; reflexivity. Qed.
(** The square root of every large integer is given as an exact integer: (sqrt 10000000001)
    is 100000; and a square root too large for a double ends the process *)
Theorem C82_large_refuted : sqrt (Exact (Large 10000000001)) = Ok (Real (Exact (Large 100000))) /\
  sqrt (Exact (Large (10 ^ 310 + 1))) = Crash.
Proof. split; vm_compute; reflexivity. Qed.
Print Assumptions C82_large_refuted.

(** ** C83 expt *)
(** What is asked of std::pow here: an integer power that is a double is given as such *)
Definition exact_power (pow : double -> double -> double) : Prop :=
  forall f g n, vfloat f -> finite f = true -> vfloat g -> finite g = true -> (fval g == inject_Z n)%Q ->
    (0 <= n \/ ~ (fval f == 0)%Q) -> representable (Qpower (fval f) n) ->
    vfloat (pow f g) /\ finite (pow f g) = true /\ (fval (pow f g) == Qpower (fval f) n)%Q.
Theorem C83_expt_partial : forall pow a b, exact_power pow -> valid (Small a) -> valid (Small b) -> 0 <= b -> Z.abs (a ^ b) < 2 ^ 53 ->
  exists x, expt pow (Exact (Small a)) (Exact (Small b)) = Ok (Exact x) /\ is_int x (a ^ b) /\ valid x.
Proof.
  intros pow a b P Va Vb B H. cbn [valid] in Va, Vb.
  destruct (of_Z_exact a ltac:(lia)) as [Fa Ea]. destruct (of_Z_exact b ltac:(lia)) as [Fb Eb].
  assert (Pw : (Qpower (fval (to_double (Small a))) b == inject_Z (a ^ b))%Q).
  { rewrite Zpower_Qpower by exact B. unfold to_double, to_q, ratio_of. rewrite Ea. reflexivity. }
  destruct (P (to_double (Small a)) (to_double (Small b)) b (of_q_valid _) Fa (of_q_valid _) Fb Eb (or_introl B)) as (Vr & Fr & Er).
  { exists (a ^ b), 0. split; [rewrite Pw; change (Qpower 2 0) with 1%Q; ring|lia]. }
  rewrite Pw in Er. cbn [expt]. set (r := pow _ _) in *.
  assert (LE : forall f g, vfloat f -> vfloat g -> finite f = true -> finite g = true -> SFleb f g = true <-> (fval f <= fval g)%Q).
  { clear. intros f g V1 V2 F1 F2. unfold SFleb. rewrite SFcompare_finite by assumption. rewrite Qle_alt.
    destruct (Qcompare (fval f) (fval g)); intuition congruence. }
  pose proof (of_Z_exact int32_min ltac:(vm_compute; discriminate)) as [Fm Em].
  pose proof (of_Z_exact int32_max ltac:(vm_compute; discriminate)) as [FM EM].
  rewrite (quot_q_int (fval r) (a ^ b)) by exact Er.
  destruct (SFleb (of_q (inject_Z int32_min)) r && SFleb r (of_q (inject_Z int32_max))) eqn:C.
  - apply andb_prop in C as [C1 C2]. apply LE in C1; try assumption; try apply of_q_valid. apply LE in C2; try assumption; try apply of_q_valid.
    rewrite Em, Er in C1. rewrite EM, Er in C2. rewrite <- inject_le in C1, C2. unfold int32_min, int32_max in *.
    eexists. split; [reflexivity|]. split; [left; reflexivity|]. cbn [valid]. lia.
  - unfold large_of. rewrite Fr. cbn [obind]. rewrite (quot_q_int (fval r) (a ^ b)) by exact Er.
    eexists. split; [reflexivity|]. split; [right; reflexivity|exact I].
Qed.
Print Assumptions C83_expt_partial.
(** a power of std::pow, for the example: exact if the result is a double *)
Definition some_pow (f g : double) : double := of_q (Qpower (fval f) (quot_q (fval g))).
Example C83_example : exact_power some_pow /\ expt some_pow (Exact (Small (-3))) (Exact (Small 5)) = Ok (Exact (Small (-243))) /\
  expt some_pow (Exact (Small 2)) (Exact (Small 40)) = Ok (Exact (Large (2 ^ 40))).
Proof.
  split; [|split; vm_compute; reflexivity]. intros f g n V1 F1 V2 F2 E N R. unfold some_pow.
  rewrite (quot_q_int _ n E). split; [apply of_q_valid|]. apply of_q_representable, R.
Qed.
(** Whatever double std::pow gives: (expt 3 40) is not 3^40, (expt 10 309) is not 10^309,
    and a power of a large integer by a small one is inexact *)
Theorem C83_digits_refuted : forall pow, (forall f g, vfloat (pow f g)) ->
  (forall x, expt pow (Exact (Small 3)) (Exact (Small 40)) = Ok (Exact x) -> ~ is_int x (3 ^ 40)) /\
  (forall x, expt pow (Exact (Small 10)) (Exact (Small 309)) = Ok (Exact x) -> ~ is_int x (10 ^ 309)) /\
  (forall z b x, expt pow (Exact (Large z)) (Exact (Small b)) = Ok x -> is_exact x = false).
Proof.
  intros pow P.
  assert (K : forall a b c x, (forall f, vfloat f -> finite f = true -> quot_q (fval f) <> c) -> c <> 0 ->
    expt pow (Exact (Small a)) (Exact (Small b)) = Ok (Exact x) -> ~ is_int x c).
  { intros a b c x H Hc E I. cbn [expt] in E. set (r := pow _ _) in *.
    assert (X : finite r = true -> quot_q (fval r) <> c) by (intros F; apply H; [apply P|exact F]).
    destruct (_ && _).
    - injection E as <-. destruct I as [I|I]; [|discriminate]. injection I as I. destruct (finite r) eqn:F; [exact (X eq_refl I)|].
      destruct r; try discriminate; cbn in I; congruence.
    - unfold large_of in E. destruct (finite r) eqn:F; [|discriminate]. cbn [obind] in E. injection E as <-.
      destruct I as [I|I]; [discriminate|]. injection I as I. exact (X eq_refl I). }
  split; [|split].
  - intros x. apply K; [|discriminate]. intros f V F E. apply (no_wide_integer f V F (3 ^ 40)); [exact E|reflexivity|reflexivity].
  - intros x. apply K; [|discriminate]. intros f V F E. apply (no_huge_integer f V F (10 ^ 309)); [exact E|vm_compute; discriminate].
  - intros z b x E. cbn [expt] in E. injection E as <-. reflexivity.
Qed.
Print Assumptions C83_digits_refuted.
(** (expt 2 -1) is 0, and a negative exponent that is a large integer is taken for its
    absolute value *)
Theorem C83_negative_refuted : forall pow, exact_power pow ->
  expt pow (Exact (Small 2)) (Exact (Small (-1))) = Ok (Exact (Small 0)) /\
  expt pow (Exact (Large 2)) (Exact (Large (-3))) = Ok (Exact (Large 8)).
Proof.
  intros pow P. split; [|reflexivity].
  destruct (P (to_double (Small 2)) (to_double (Small (-1))) (-1)) as (V & F & E); try reflexivity.
  - right. vm_compute. discriminate.
  - exists 1, (-1). repeat split; vm_compute; reflexivity || discriminate.
  - cbn [expt]. set (r := pow _ _) in *. assert (H : (fval r == 1 # 2)%Q) by (rewrite E; reflexivity).
    assert (R : r = of_q (1 # 2)).
    { destruct (vfloat_inj r (of_q (1 # 2)) V eq_refl F eq_refl) as [X|(s & t & _ & X)]; [rewrite H; reflexivity|exact X|discriminate X]. }
    rewrite R. vm_compute. reflexivity.
Qed.
Print Assumptions C83_negative_refuted.

(** ** C84 abs and magnitude *)
Theorem C84_abs : forall x, rvalid x -> rvalid (abs x) /\ is_exact (abs x) = is_exact x /\
  match denote x with
  | Fin q => exists r, denote (abs x) = Fin r /\ (r == Qabs q)%Q
  | PInf | NInf => denote (abs x) = PInf
  | NaN => denote (abs x) = NaN
  end.
Proof.
  intros [x|f] V.
  - cbn [abs rvalid is_exact denote]. destruct (abs_value x V) as [A B]. repeat split; [exact A|]. eauto.
  - destruct f as [s|[]| |s m e]; cbn [abs SFabs rvalid is_exact denote fext]; repeat split; try exact V; try (eexists; split; reflexivity).
    eexists. split; [reflexivity|]. rewrite !fval_abs. pose proof (a_pos m e). destruct s.
    + rewrite Qabs_opp, Qabs_pos by lra. reflexivity.
    + rewrite Qabs_pos by lra. reflexivity.
Qed.
Print Assumptions C84_abs.
Theorem C84_magnitude_partial : forall x, rvalid x -> ~ lt (denote x) (Fin 0) ->
  is_exact (magnitude x) = is_exact x /\
  match denote x with
  | Fin q => exists r, denote (magnitude x) = Fin r /\ (r == Qabs q)%Q
  | d => denote (magnitude x) = d
  end.
Proof.
  intros [x|f] V N; cbn [magnitude is_exact denote] in *.
  - split; [reflexivity|]. exists (value (recanonical x)). split; [reflexivity|].
    assert (E : (value (recanonical x) == value x)%Q) by (destruct x; try reflexivity; apply canon_value).
    rewrite E. cbn [lt] in N. rewrite Qabs_pos by lra. reflexivity.
  - split; [reflexivity|]. destruct (fext f) as [q| | |] eqn:E; try reflexivity. exists q. split; [reflexivity|].
    cbn [lt] in N. rewrite Qabs_pos by lra. reflexivity.
Qed.
Print Assumptions C84_magnitude_partial.
Example C84_example : abs (Flo (of_q (-5 # 2))) = Flo (of_q (5 # 2)) /\ abs (Exact (Ratio (-1 # 2))) = Exact (Ratio (1 # 2)) /\ magnitude (Exact (Small 5)) = Exact (Small 5).
Proof. repeat split; vm_compute; reflexivity. Qed.
(** (magnitude -5) is -5 *)
Theorem C84_magnitude_refuted : magnitude (Exact (Small (-5))) = Exact (Small (-5)) /\ magnitude (Flo (of_q (-5))) = Flo (of_q (-5)).
Proof. split; reflexivity. Qed.
Print Assumptions C84_magnitude_refuted.

(** ** C85 numerator and denominator of doubles *)
Theorem C85_parts_partial : forall f n d, vfloat f -> finite f = true ->
  (fval f == inject_Z n / inject_Z d)%Q -> 0 < d -> Z.gcd n d = 1 ->
  (exists r, numerator (Flo f) = Ok (Flo r) /\ stands_for_integer (Flo r) n) /\
  (d < 2 ^ 1024 -> exists r, denominator (Flo f) = Ok (Flo r) /\ stands_for_integer (Flo r) d).
Proof.
  intros f n d V F E D G. destruct d as [|d|d]; try lia.
  assert (Q0 : Qred (fval f) = n # d).
  { rewrite (Qred_complete _ (n # d)); [apply Qcanon.Qred_iff; exact G|]. rewrite E. symmetry. apply Qmake_Qdiv. }
  destruct (fval_parts f V F) as [R (j & J & P)]. rewrite Q0 in R, P. cbn [Qnum Qden] in R, P.
  assert (C0 : exact (Flo f) = Ok (Exact (canon_ratio (n # d)))) by (cbn [exact]; rewrite F, Q0; reflexivity).
  assert (Int : forall z, representable (inject_Z z) -> stands_for_integer (Flo (of_q (inject_Z z))) z).
  { intros z H. destruct (of_q_representable _ H) as [A B]. exists (fval (of_q (inject_Z z))). cbn [denote]. rewrite fext_finite by exact A. auto. }
  split.
  - unfold numerator. rewrite C0. cbn [obind]. unfold canon_ratio. cbn [Qnum Qden].
    destruct (Zpos d =? 1); cbn [n_numerator inexact Qnum]; eexists; (split; [reflexivity|]); apply Int, R.
  - intros L. unfold denominator. destruct (is_integer (Flo f)) eqn:I.
    + eexists. split; [reflexivity|]. apply C79_integer_partial in I; [|exact V|destruct f; try discriminate; reflexivity].
      destruct I as (z & v & X & Y). cbn [denote] in X. rewrite (fext_finite f F) in X. injection X as <-.
      assert (Zpos d = 1).
      { rewrite Y, <- Qmake_Qdiv in E. unfold Qeq, inject_Z in E. cbn [Qnum Qden] in E.
        assert (X : (Zpos d | n)) by (exists z; lia). apply Z.divide_gcd_iff in X; [|lia]. rewrite Z.gcd_comm in X. lia. }
      rewrite H. exists (fval (of_q 1)). split; reflexivity.
    + rewrite C0. cbn [obind]. unfold canon_ratio. cbn [Qnum Qden].
      assert (Rd : representable (inject_Z (Zpos d))).
      { rewrite P in L. apply Z.pow_lt_mono_r_iff in L; [|lia..].
        destruct (Z_lt_ge_dec j 53).
        - exists (2 ^ j), 0. split; [rewrite P; change (Qpower 2 0) with 1%Q; ring|]. split; [|lia].
          rewrite Z.abs_eq by lia. apply Z.pow_lt_mono_r; lia.
        - exists (2 ^ 52), (j - 52). split; [|lia]. fold (p2 (j - 52)). rewrite <- (p2_Z 52), <- p2_add, P, <- p2_Z by lia.
          replace (52 + (j - 52)) with j by lia. reflexivity. }
      destruct (Zpos d =? 1) eqn:X; cbn [n_denominator inexact Qden].
      * apply Z.eqb_eq in X. rewrite X. eexists. split; [reflexivity|]. exists (fval (of_q 1)). split; reflexivity.
      * eexists. split; [reflexivity|]. apply Int, Rd.
Qed.
Print Assumptions C85_parts_partial.
Example C85_example : numerator (Flo (of_q (-3 # 8))) = Ok (Flo (of_q (-3))) /\ denominator (Flo (of_q (-3 # 8))) = Ok (Flo (of_q 8)).
Proof. split; vm_compute; reflexivity. Qed.
(** The denominator of the smallest double is an infinity; the numerator of an infinity ends
    the process, and its denominator is 1.0 *)
Theorem C85_refuted : denominator (Flo (S754_finite false 1 (-1074))) = Ok (Flo (S754_infinity false)) /\
  forall s, numerator (Flo (S754_infinity s)) = Crash /\ denominator (Flo (S754_infinity s)) = Ok (Flo (of_q 1)).
Proof. split; [vm_compute; reflexivity|]. intros []; split; reflexivity. Qed.
Print Assumptions C85_refuted.

(** the hypotheses of C79 and C81 are met *)
Example C79_example_integer : is_integer (Flo (of_q 7)) = true /\ is_odd (Flo (of_q 7)) = Ok true /\ is_integer (Flo (of_q (7 # 2))) = false /\
  stands_for_integer (Flo (of_q 7)) 7.
Proof. repeat split; try (vm_compute; reflexivity). exists (fval (of_q 7)). split; reflexivity. Qed.
