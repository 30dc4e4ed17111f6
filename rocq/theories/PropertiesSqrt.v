(** Property C111: sqrt gives the double nearest to the root (RootSpec.v). The model of sqrt is in Flonum.v. *)
From Coq Require Import ZArith QArith Qreduction Qround Qabs Qpower Lia Lqa ZifyBool List Bool Floats.SpecFloat.
From Verif Require Import Number NumberProofs NumberRounding Flonum FlonumProofs FlonumSpec FlonumProofs2 FlonumProofs3 PropertiesFlonum RoundingSpec FlonumRound
  FlonumArith PropertiesFlonumArith RootSpec FlonumSqrt Srfi144.
Open Scope Z_scope.

Lemma root_rounds_comp q q' v : (q == q')%Q -> root_rounds q v -> root_rounds q' v.
Proof. intros E (A & B & C). split; [exact A|]. split; [exact B|]. intros y R Y. cbv zeta. rewrite <- E. apply C; assumption. Qed.
(** g is the root of q, rounded *)
Definition rounded_root (q : Q) (g : double) : Prop := vfloat g /\ finite g = true /\ root_rounds q (fval g).
Lemma sub_zero s m e : vfloat (S754_finite s m e) -> SFsub prec emax (S754_zero false) (S754_finite s m e) = S754_finite (negb s) m e.
Proof. reflexivity. Qed.

(** For inexact numbers: the rounded root, of a negative number the rounded root of its opposite as an imaginary number *)
Theorem C111_inexact : forall s m e, let f := S754_finite s m e in vfloat f ->
  exists g, sqrt (Flo f) = Ok (if s then Imaginary (Flo g) else Real (Flo g)) /\ rounded_root (Qabs (fval f)) g.
Proof.
  intros s m e f V. assert (V' : vfloat (S754_finite false m e)) by exact V.
  pose proof (sqrt_finite m e V') as (A & B & C). exists (SFsqrt prec emax (S754_finite false m e)). split.
  - unfold sqrt, f. cbn [less_than]. change (to_double (Small 0)) with (S754_zero false). destruct s; reflexivity.
  - split; [exact A|]. split; [exact B|]. eapply root_rounds_comp; [|exact C]. unfold f. rewrite (fval_abs false m e).
    rewrite (fval_abs s m e). assert (0 < inject_Z (Zpos m) * p2 e)%Q by (apply Qmult_lt_0_compat; [reflexivity|apply p2_pos]).
    destruct s; [rewrite Qabs_opp|]; rewrite Qabs_pos by lra; reflexivity.
Qed.
Print Assumptions C111_inexact.
Theorem C111_special : (forall s, sqrt (Flo (S754_zero s)) = Ok (Real (Flo (S754_zero s)))) /\ sqrt (Flo (S754_infinity false)) = Ok (Real (Flo (S754_infinity false))) /\
  sqrt (Flo (S754_infinity true)) = Ok (Imaginary (Flo (S754_infinity false))) /\ sqrt (Flo S754_nan) = Ok (Real (Flo S754_nan)).
Proof. split; [intros []; reflexivity|]. repeat split; reflexivity. Qed.
Print Assumptions C111_special.
Example C111_example : exists g, sqrt (Flo (of_q 2)) = Ok (Real (Flo g)) /\ (fval g == 6369051672525773 # 4503599627370496)%Q /\ root_rounds 2 (fval g).
Proof.
  destruct (C111_inexact false 4503599627370496 (-51) eq_refl) as (g & A & B & C & D). exists g. split; [exact A|].
  assert (E : sqrt (Flo (S754_finite false 4503599627370496 (-51))) = Ok (Real (Flo (S754_finite false 6369051672525773 (-52))))) by (vm_compute; reflexivity).
  assert (G : g = S754_finite false 6369051672525773 (-52)) by congruence. subst g. split; [vm_compute; reflexivity|].
  eapply root_rounds_comp; [|exact D]. vm_compute. reflexivity.
Qed.

(** For exact numbers that are not squares: integers of 32 bits, and ratios that a double can stand for *)
Lemma double_root q : representable q -> (0 < q)%Q -> rounded_root q (SFsqrt prec emax (of_q q)).
Proof.
  intros R P. destruct (of_q_representable q R) as [F E]. pose proof (of_q_valid q) as V. destruct (of_q q) as [s|s| |s m e]; try discriminate.
  - exfalso. cbn [fval] in E. rewrite <- E in P. exact (Qlt_irrefl _ P).
  - destruct s; [exfalso; destruct (fval_nonzero true m e) as [_ N]; rewrite E in N; lra|]. destruct (sqrt_finite m e V) as (A & B & C).
    split; [exact A|]. split; [exact B|]. eapply root_rounds_comp; [exact E|exact C].
Qed.
Theorem C111_small : forall z, valid (Small z) -> (forall k, k * k <> Z.abs z) ->
  exists g, sqrt (Exact (Small z)) = Ok (if z <? 0 then Imaginary (Flo g) else Real (Flo g)) /\ rounded_root (inject_Z (Z.abs z)) g.
Proof.
  intros z V N. cbn [valid] in V.
  assert (R : representable (inject_Z (Z.abs z))) by (exists (Z.abs z), 0; split; [rewrite Qmult_1_r; reflexivity|lia]).
  assert (P : (0 < inject_Z (Z.abs z))%Q) by (change 0%Q with (inject_Z 0); rewrite <- inject_lt; specialize (N 0); lia).
  exists (SFsqrt prec emax (to_double (Small (Z.abs z)))). split; [|apply double_root; assumption].
  unfold sqrt. rewrite less_exact. cbn [obind]. unfold n_lt. rewrite cmp_value. cbn [value].
  assert (Ro : root (Exact (Small (Z.abs z))) = Ok (Flo (SFsqrt prec emax (to_double (Small (Z.abs z)))))).
  { cbn [root]. set (i := quot_q _). destruct (i * i =? Z.abs z) eqn:E; [|reflexivity]. apply Z.eqb_eq in E. exfalso. exact (N i E). }
  destruct (z <? 0) eqn:Sg.
  - assert (C : Qcompare (inject_Z z) (inject_Z 0) = Lt) by (apply -> Qlt_alt; rewrite <- inject_lt; lia). rewrite C. cbn [negated]. replace (0 - z) with (Z.abs z) by lia. rewrite Ro. reflexivity.
  - assert (C : Qcompare (inject_Z z) (inject_Z 0) <> Lt) by (rewrite <- Qlt_alt, <- inject_lt; lia).
    replace (Z.abs z) with z in * by lia. destruct (Qcompare (inject_Z z) (inject_Z 0)); try congruence; rewrite Ro; reflexivity.
Qed.
Print Assumptions C111_small.
(** What is missing: ratios that a double cannot stand for (C111_ratio_refuted) and large integers (C82_large_refuted) *)
Theorem C111_ratio_partial : forall q, representable q -> (0 < q)%Q -> exists g, sqrt (Exact (Ratio q)) = Ok (Real (Flo g)) /\ rounded_root q g.
Proof.
  intros q R P. exists (SFsqrt prec emax (of_q q)). split; [|apply double_root; assumption].
  unfold sqrt. rewrite less_exact. cbn [obind]. unfold n_lt. rewrite cmp_value. cbn [value].
  assert (C : Qcompare q (inject_Z 0) <> Lt) by (rewrite <- Qlt_alt; change (inject_Z 0) with 0%Q; lra).
  destruct (Qcompare q (inject_Z 0)); try congruence; reflexivity.
Qed.
Print Assumptions C111_ratio_partial.
Theorem C111_unique : forall q v w, root_rounds q v -> root_rounds q w -> (v == w)%Q.
Proof.
  intros q v w (A & B & C) (A' & B' & C'). assert (M : ((v + w) / 2 == (w + v) / 2)%Q) by (rewrite (Qplus_comm v w); reflexivity).
  destruct (Q_dec v w) as [[L|L]|E]; [exfalso|exfalso|exact E].
  - destruct (C w A' B') as [C1 _]. destruct (C' v A B) as [_ C2]. specialize (C1 L). specialize (C2 L). rewrite M in C1. lra.
  - destruct (C w A' B') as [_ C1]. destruct (C' v A B) as [C2 _]. specialize (C1 L). specialize (C2 L). rewrite M in C1. lra.
Qed.
Print Assumptions C111_unique.
(** (sqrt 1/7): 1/7 is truncated to a double first, and its root is not the double that is nearest to the root of 1/7 *)
Theorem C111_ratio_refuted : exists g, sqrt (Exact (Ratio (1 # 7))) = Ok (Real (Flo g)) /\ ~ root_rounds (1 # 7) (fval g).
Proof.
  eexists. split; [vm_compute; reflexivity|]. intros (_ & _ & H).
  set (n := S754_finite false 6808802639214567 (-54)). assert (V : vfloat n) by (vm_compute; reflexivity).
  destruct (H (fval n)) as [U _]; [apply fval_representable; [exact V|reflexivity]|vm_compute; discriminate|].
  assert (L : (1 # 7 < (fval (S754_finite false 6808802639214566 (-54)) + fval n) / 2 * ((fval (S754_finite false 6808802639214566 (-54)) + fval n) / 2))%Q) by (apply U; vm_compute; reflexivity).
  vm_compute in L. discriminate L.
Qed.
Print Assumptions C111_ratio_refuted.
(** The root of a square whose root is representable is that root *)
Theorem C111_squares : forall f r, vfloat f -> finite f = true -> representable r -> (0 < r)%Q -> (fval f == r * r)%Q ->
  exists g, sqrt (Flo f) = Ok (Real (Flo g)) /\ vfloat g /\ (fval g == r)%Q.
Proof.
  intros f r V F R P E. assert (Pf : (0 < fval f)%Q) by (rewrite E; nra). destruct f as [s|s| |s m e]; try discriminate.
  destruct s; [exfalso; destruct (fval_nonzero true m e) as [_ N]; lra|]. destruct (C111_inexact false m e V) as (g & A & B & C & D). exists g. split; [exact A|]. split; [exact B|].
    apply (C111_unique (r * r)); [eapply root_rounds_comp; [|exact D]; rewrite Qabs_pos by lra; exact E|].
    split; [exact R|]. split; [lra|]. intros y Ry Y0. cbv zeta. split; intros L.
    + apply sq_lt; [lra|]. apply Qlt_shift_div_l; [reflexivity|lra].
    + apply sq_lt; [apply Qle_shift_div_l; [reflexivity|lra]|]. apply Qlt_shift_div_r; [reflexivity|lra].
Qed.
Print Assumptions C111_squares.
Example C111_example_squares : sqrt (Flo (of_q (9 # 16))) = Ok (Real (Flo (of_q (3 # 4)))) /\ sqrt (Flo (of_q (-9))) = Ok (Imaginary (Flo (of_q 3))).
Proof. split; vm_compute; reflexivity. Qed.
