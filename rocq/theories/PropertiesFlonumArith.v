(** Property C108: +, -, * and / of inexact real numbers (FlonumArith.v) against IEEE 754 and
    R7RS 6.2.4 (RoundingSpec.v). *)
From Coq Require Import ZArith QArith Qreduction Qround Qabs Qpower Lia Lqa ZifyBool List Bool Floats.SpecFloat.
From Verif Require Import Number NumberProofs NumberRounding Flonum FlonumProofs FlonumSpec FlonumProofs2 FlonumProofs3 RoundingSpec FlonumRound FlonumArith.
Import ListNotations.
Open Scope Z_scope.

(** ** Operations on doubles *)
Lemma same_refl x : x <> NaN -> same x x.
Proof. destruct x; cbn; try tauto. intros _. reflexivity. Qed.
Lemma sum_same x x' y y' r : match x with NaN => x' = NaN | _ => same x x' end -> match y with NaN => y' = NaN | _ => same y y' end ->
  sum_of x y r -> sum_of x' y' r.
Proof.
  destruct x, x'; cbn [same]; try tauto; try discriminate; destruct y, y'; cbn [same sum_of]; try tauto; try discriminate; try congruence.
  intros A B. apply rounds_to_comp. rewrite A, B. reflexivity.
Qed.
Lemma double_add f g : vfloat f -> vfloat g -> vfloat (SFadd prec emax f g) /\ sum_of (fext f) (fext g) (fext (SFadd prec emax f g)).
Proof.
  intros V W. destruct (finite f) eqn:F; [destruct (finite g) eqn:G|].
  - rewrite (fext_finite f F), (fext_finite g G). apply add_finite; assumption.
  - destruct g as [|[]| |]; try discriminate; destruct f; try discriminate; split; reflexivity.
  - destruct f as [|[]| |]; try discriminate; destruct g as [|[]| |]; split; reflexivity.
Qed.
Lemma double_sub f g : vfloat f -> vfloat g -> vfloat (SFsub prec emax f g) /\ difference_of (fext f) (fext g) (fext (SFsub prec emax f g)).
Proof.
  intros V W. rewrite sub_add. destruct (opp_ok g W) as (A & B & C & D). destruct (double_add f (SFopp g) V A) as [E G].
  split; [exact E|]. unfold difference_of. revert G. apply sum_same.
  - destruct (fext f); try reflexivity; try exact Logic.I.
  - destruct (fext g) as [b| | |]; [destruct D as (b' & -> & D); exact D|rewrite D..]; try exact Logic.I. reflexivity.
Qed.
Lemma infinite_times_sign b s m e : infinite_times b (fval (S754_finite s m e)) = if xorb b s then PInf else NInf.
Proof.
  unfold infinite_times. assert (P : (0 < inject_Z (Zpos m) * p2 e)%Q) by (apply Qmult_lt_0_compat; [reflexivity|apply p2_pos]).
  pose proof (fval_abs s m e) as A. set (v := fval _) in *. clearbody v.
  destruct (Qcompare_spec v 0) as [H|H|H]; destruct b, s; cbn [xorb]; try reflexivity; lra.
Qed.
Lemma double_mul f g : vfloat f -> vfloat g -> vfloat (SFmul prec emax f g) /\ product_of (fext f) (fext g) (fext (SFmul prec emax f g)).
Proof.
  intros V W. destruct (finite f) eqn:F; [destruct (finite g) eqn:G|].
  - rewrite (fext_finite f F), (fext_finite g G). apply mul_finite; assumption.
  - destruct g as [|[]| |]; try discriminate; destruct f as [|[]| |[] ? ?]; try discriminate; split; try reflexivity;
      cbn [fext product_of]; rewrite infinite_times_sign; reflexivity.
  - destruct f as [|[]| |]; try discriminate; destruct g as [|[]| |[] ? ?]; split; try reflexivity;
      cbn [fext product_of]; rewrite infinite_times_sign; reflexivity.
Qed.
Lemma fval_nonzero s m e : ~ (fval (S754_finite s m e) == 0)%Q /\ (if s then fval (S754_finite s m e) < 0 else 0 < fval (S754_finite s m e))%Q.
Proof.
  assert (P : (0 < inject_Z (Zpos m) * p2 e)%Q) by (apply Qmult_lt_0_compat; [reflexivity|apply p2_pos]).
  pose proof (fval_abs s m e) as A. set (v := fval _) in *. clearbody v. destruct s; lra.
Qed.
Lemma double_div f g : vfloat f -> vfloat g -> vfloat (SFdiv prec emax f g) /\ quotient_of (fext f) (fext g) (fext (SFdiv prec emax f g)).
Proof.
  intros V W. destruct (finite f) eqn:F; [destruct (finite g) eqn:G|].
  - rewrite (fext_finite f F), (fext_finite g G). cbn [quotient_of].
    destruct (Qeq_dec (fval g) 0) as [Z0|NZ].
    + destruct g as [s|s| |s m e]; try discriminate; [|destruct (fval_nonzero s m e); tauto].
      destruct f as [s'|s'| |s' m e]; try discriminate.
      * split; [reflexivity|]. cbn. tauto.
      * split; [reflexivity|]. split; [tauto|]. split; [destruct (fval_nonzero s' m e); tauto|]. cbn [SFdiv fext]. destruct (xorb s' s); tauto.
    + destruct (div_finite f g V W F G NZ) as [A B]. split; [exact A|]. tauto.
  - destruct g as [|[]| |]; try discriminate; destruct f as [|[]| |[] ? ?]; try discriminate; split; reflexivity.
  - destruct f as [|s| |]; try discriminate; [|split; reflexivity].
    destruct g as [s'|s'| |s' m e]; [| | |].
    + split; [reflexivity|]. change (fext (S754_zero s')) with (Fin 0). cbn [SFdiv].
      destruct s, s'; cbn [fext xorb quotient_of]; (split; [intros H; lra|]); (split; [intros H; lra|tauto]).
    + split; [reflexivity|]. destruct s, s'; reflexivity.
    + split; [reflexivity|]. destruct s; reflexivity.
    + split; [reflexivity|]. change (fext (S754_finite s' m e)) with (Fin (fval (S754_finite s' m e))). destruct (fval_nonzero s' m e) as [N S0].
      cbn [SFdiv]. destruct s, s'; cbn [fext xorb quotient_of]; (split; [intros H; (reflexivity || lra)|]); (split; [intros H; (reflexivity || lra)|tauto]).
Qed.

(** ** C108 *)
(** A number that becomes a double of the same value: an inexact one, or an exact one that is
    representable *)
Definition convertible (x : real) : Prop := match x with Exact a => representable (value a) | Flo _ => True end.
Definition as_double (x : real) : double := match x with Exact a => to_double a | Flo f => f end.
Lemma as_double_ok x : rvalid x -> convertible x -> vfloat (as_double x) /\
  match fext (as_double x) with NaN => denote x = NaN | _ => same (fext (as_double x)) (denote x) end.
Proof.
  intros V C. destruct x as [a|f]; cbn [as_double denote].
  - split; [apply of_q_valid|]. replace (to_double a) with (of_q (value a)) by (destruct a; reflexivity).
    destruct (of_q_representable _ C) as [F E]. rewrite (fext_finite _ F). exact E.
  - split; [exact V|]. destruct (fext f); try reflexivity; exact Logic.I.
Qed.
Lemma product_same x x' y y' r : match x with NaN => x' = NaN | _ => same x x' end -> match y with NaN => y' = NaN | _ => same y y' end ->
  product_of x y r -> product_of x' y' r.
Proof.
  destruct x, x'; cbn [same]; try tauto; try discriminate; destruct y, y'; cbn [same product_of]; try tauto; try discriminate; try congruence.
  - intros A B. apply rounds_to_comp. rewrite A, B. reflexivity.
  - intros A _. unfold infinite_times. rewrite A. tauto.
  - intros A _. unfold infinite_times. rewrite A. tauto.
  - intros _ A. unfold infinite_times. rewrite A. tauto.
  - intros _ A. unfold infinite_times. rewrite A. tauto.
Qed.
Lemma quotient_same x x' y y' r : match x with NaN => x' = NaN | _ => same x x' end -> match y with NaN => y' = NaN | _ => same y y' end ->
  quotient_of x y r -> quotient_of x' y' r.
Proof.
  destruct x, x'; cbn [same]; try tauto; try discriminate; destruct y, y'; cbn [same quotient_of]; try tauto; try discriminate; try congruence.
  - intros A B (H & K & L). rewrite A, B in *. split; [|tauto]. intros N. assert (N' : ~ q1 == 0) by (rewrite B; exact N). specialize (H N'). revert H. apply rounds_to_comp. rewrite A, B. reflexivity.
  - intros _ A. rewrite A. tauto.
  - intros _ A. rewrite A. tauto.
Qed.
Lemma opposite_same y y' : match y with NaN => y' = NaN | _ => same y y' end ->
  match opposite y with NaN => opposite y' = NaN | _ => same (opposite y) (opposite y') end.
Proof. destruct y, y'; cbn; try tauto; try discriminate. intros ->. reflexivity. Qed.

Definition inexact_one (x y : real) : Prop := is_inexact x || is_inexact y = true.
(** The four operators, on two numbers of which at least one is inexact *)
Theorem C108_operators_partial : forall x y, rvalid x -> rvalid y -> inexact_one x y -> convertible x -> convertible y ->
  (exists f, r_add x y = Flo f /\ vfloat f /\ sum_of (denote x) (denote y) (fext f)) /\
  (exists f, r_sub x y = Flo f /\ vfloat f /\ difference_of (denote x) (denote y) (fext f)) /\
  (exists f, r_mul x y = Flo f /\ vfloat f /\ product_of (denote x) (denote y) (fext f)) /\
  (exists f, r_div x y = Ok (Flo f) /\ vfloat f /\ quotient_of (denote x) (denote y) (fext f)).
Proof.
  intros x y V W I1 C D. destruct (as_double_ok x V C) as [A1 A2]. destruct (as_double_ok y W D) as [B1 B2].
  set (f := as_double x) in *. set (g := as_double y) in *.
  assert (R : r_add x y = Flo (SFadd prec emax f g) /\ r_sub x y = Flo (SFsub prec emax f g) /\ r_mul x y = Flo (SFmul prec emax f g) /\
    r_div x y = Ok (Flo (SFdiv prec emax f g))).
  { destruct x, y; try discriminate; repeat split. }
  destruct R as (-> & -> & -> & ->).
  destruct (double_add f g A1 B1) as [P1 P2]. destruct (double_sub f g A1 B1) as [Q1 Q2].
  destruct (double_mul f g A1 B1) as [R1 R2]. destruct (double_div f g A1 B1) as [S1 S2].
  split; [|split; [|split]]; eexists; (split; [reflexivity|]); (split; [eassumption|]).
  - exact (sum_same _ _ _ _ _ A2 B2 P2).
  - exact (sum_same _ _ _ _ _ A2 (opposite_same _ _ B2) Q2).
  - exact (product_same _ _ _ _ _ A2 B2 R2).
  - exact (quotient_same _ _ _ _ _ A2 B2 S2).
Qed.
Print Assumptions C108_operators_partial.
(** (+ 0.5 1), 3 times 1e308, (/ 1.0 0), (- +inf.0 +inf.0); 2^53 + 1.0 is rounded to even *)
Example C108_example_operators :
  r_add (Flo (of_q (1 # 2))) (Exact (Small 1)) = Flo (of_q (3 # 2)) /\
  r_mul (Exact (Small 3)) (Flo (of_q (inject_Z (10 ^ 308)))) = Flo (S754_infinity false) /\
  r_div (Flo (of_q 1)) (Exact (Small 0)) = Ok (Flo (S754_infinity false)) /\
  r_sub (Flo (S754_infinity false)) (Flo (S754_infinity false)) = Flo S754_nan /\
  r_add (Flo (of_q (inject_Z (2 ^ 53)))) (Flo (of_q 1)) = Flo (of_q (inject_Z (2 ^ 53))) /\
  r_add (Flo (of_q (inject_Z (2 ^ 53)))) (Flo (of_q 3)) = Flo (of_q (inject_Z (2 ^ 53 + 4))).
Proof. repeat split; vm_compute; reflexivity. Qed.
(** The result is the only one that rounding allows *)
Theorem C108_unique : forall q r r', rounds_to q r -> rounds_to q r' -> same r r'.
Proof.
  assert (L0 : (0 < limit)%Q) by reflexivity.
  assert (Absl : forall q, (Qabs q < limit -> - limit < q /\ q < limit)%Q).
  { intros q H. apply Qabs_Qlt_condition in H. exact H. }
  intros q r r' H H'. destruct r as [v| | |], r' as [w| | |]; cbn [rounds_to same] in *; try tauto;
    try lra; try (destruct H as (H & _); apply Absl in H; lra); try (destruct H' as (H' & _); apply Absl in H'; lra).
  destruct H as (_ & B & C), H' as (_ & B' & C'). clear Absl.
  pose proof (proj2 B w (proj1 B')) as D1. pose proof (proj2 B' v (proj1 B)) as D2.
  destruct (C w B') as [E|Ev]; [symmetry; exact E|]. destruct (C' v B) as [E|Ew]; [exact E|].
  destruct (Qeq_dec v w) as [|NE]; [assumption|exfalso].
  (* both even and equally near: the representable number between them is nearer *)
  assert (M : (q == (v + w) * (1 # 2))%Q).
  { revert D1 D2. destruct (Qabs_case' (q - v)) as [[? ->]|[? ->]]; destruct (Qabs_case' (q - w)) as [[? ->]|[? ->]]; lra. }
  assert (K : forall a b, even_digits a -> even_digits b -> (a < b)%Q -> exists c, representable c /\ (a < c < b)%Q).
  { clear. intros a b (m & e & A & A1 & A2 & A3 & A4) (n & d & B & B1 & B2 & B3 & B4) L.
    destruct A4 as [m' ->], B4 as [n' ->].
    destruct (Z_le_gt_dec e d) as [Led|Gde].
    - destruct (Z_lt_ge_dec (2 * m' + 1) (2 ^ 53)) as [X|X].
      + exists (inject_Z (2 * m' + 1) * p2 e)%Q. split; [exists (2 * m' + 1), e; split; [reflexivity|split; [|lia]]; lia|].
        change (Qpower 2 e) with (p2 e) in A. change (Qpower 2 d) with (p2 d) in B. split.
        * rewrite A. apply scale_lt. rewrite <- inject_lt. lia.
        * rewrite A in L. replace d with (d - e + e) in B by lia. rewrite p2_add, Qmult_assoc, (p2_Z (d - e)), <- inject_Z_mult in B by lia.
          rewrite B in L |- *. apply scale_lt in L. apply scale_lt. rewrite <- inject_lt in L |- *.
          replace (2 * n' * 2 ^ (d - e)) with (2 * (n' * 2 ^ (d - e))) in * by ring. lia.
      + exfalso. lia.
    - destruct (Z_lt_ge_dec (- (2 ^ 53)) (2 * n' - 1)) as [X|X].
      + exists (inject_Z (2 * n' - 1) * p2 d)%Q. split; [exists (2 * n' - 1), d; split; [reflexivity|split; [|lia]]; lia|].
        change (Qpower 2 e) with (p2 e) in A. change (Qpower 2 d) with (p2 d) in B. split.
        * rewrite B in L. replace e with (e - d + d) in A by lia. rewrite p2_add, Qmult_assoc, (p2_Z (e - d)), <- inject_Z_mult in A by lia.
          rewrite A in L |- *. apply scale_lt in L. apply scale_lt. rewrite <- inject_lt in L |- *.
          replace (2 * m' * 2 ^ (e - d)) with (2 * (m' * 2 ^ (e - d))) in * by ring. lia.
        * rewrite B. apply scale_lt. rewrite <- inject_lt. lia.
      + exfalso. lia. }
  assert (Near : exists c, representable c /\ (v < c /\ c < w \/ w < c /\ c < v)%Q).
  { destruct (Qlt_le_dec v w) as [Lvw|Gvw].
    - destruct (K v w Ev Ew Lvw) as (c & R & X). exists c. tauto.
    - destruct (K w v Ew Ev ltac:(lra)) as (c & R & X). exists c. tauto. }
  destruct Near as (c & Rc & X). pose proof (proj2 B c Rc) as N1.
  revert N1 D1 D2. destruct (Qabs_case' (q - v)) as [[? ->]|[? ->]]; destruct (Qabs_case' (q - w)) as [[? ->]|[? ->]]; destruct (Qabs_case' (q - c)) as [[? ->]|[? ->]]; lra.
Qed.
Print Assumptions C108_unique.
Example C108_example_rounds : rounds_to (1 # 10) (fext (SFdiv prec emax (of_q 1) (of_q 10))).
Proof.
  eapply rounds_to_comp; [|apply (proj2 (div_finite (of_q 1) (of_q 10) ltac:(apply of_q_valid) ltac:(apply of_q_valid) eq_refl eq_refl ltac:(vm_compute; discriminate)))].
  vm_compute. reflexivity.
Qed.

(** The procedures. A running result: every step rounds *)
Fixpoint accumulates (step : ext -> ext -> ext -> Prop) (a : ext) (xs : list ext) (r : ext) : Prop :=
  match xs with
  | [] => r = a
  | x :: xs => exists b, step a x b /\ accumulates step b xs r
  end.
Lemma fold_add fs : Forall vfloat fs -> forall f, vfloat f ->
  exists g, fold_left r_add (map Flo fs) (Flo f) = Flo g /\ vfloat g /\ accumulates sum_of (fext f) (map fext fs) (fext g).
Proof.
  induction 1 as [|h fs H Hs IH]; intros f V; cbn [map fold_left accumulates r_add]; [eauto|].
  destruct (double_add f h V H) as [A B]. destruct (IH _ A) as (g & E & G & K). exists g. split; [exact E|]. split; [exact G|]. eauto.
Qed.
Lemma fold_mul fs : Forall vfloat fs -> forall f, vfloat f ->
  exists g, fold_left r_mul (map Flo fs) (Flo f) = Flo g /\ vfloat g /\ accumulates product_of (fext f) (map fext fs) (fext g).
Proof.
  induction 1 as [|h fs H Hs IH]; intros f V; cbn [map fold_left accumulates r_mul]; [eauto|].
  destruct (double_mul f h V H) as [A B]. destruct (IH _ A) as (g & E & G & K). exists g. split; [exact E|]. split; [exact G|]. eauto.
Qed.
Lemma fold_sub fs : Forall vfloat fs -> forall f, vfloat f ->
  exists g, fold_left r_sub (map Flo fs) (Flo f) = Flo g /\ vfloat g /\ accumulates difference_of (fext f) (map fext fs) (fext g).
Proof.
  induction 1 as [|h fs H Hs IH]; intros f V; cbn [map fold_left accumulates r_sub]; [eauto|].
  destruct (double_sub f h V H) as [A B]. destruct (IH _ A) as (g & E & G & K). exists g. split; [exact E|]. split; [exact G|]. eauto.
Qed.
Lemma fold_div fs : Forall vfloat fs -> forall f, vfloat f ->
  exists g, fold_left (fun o y => let! a := o in r_div a y) (map Flo fs) (Ok (Flo f)) = Ok (Flo g) /\ vfloat g /\ accumulates quotient_of (fext f) (map fext fs) (fext g).
Proof.
  induction 1 as [|h fs H Hs IH]; intros f V; cbn [map fold_left accumulates r_div obind]; [eauto|].
  destruct (double_div f h V H) as [A B]. destruct (IH _ A) as (g & E & G & K). exists g. split; [exact E|]. split; [exact G|]. eauto.
Qed.
(** + and * of one or more flonums, - and / of two or more: the first argument is kept, and
    each further one is added to (subtracted from, …) the rounded result so far *)
Theorem C108_procedures : forall f fs, vfloat f -> Forall vfloat fs ->
  (exists g a, plus (map Flo (f :: fs)) = Flo g /\ vfloat g /\ (f <> S754_nan -> same a (fext f)) /\ accumulates sum_of a (map fext fs) (fext g)) /\
  (exists g a, times (map Flo (f :: fs)) = Flo g /\ vfloat g /\ (f <> S754_nan -> same a (fext f)) /\ accumulates product_of a (map fext fs) (fext g)) /\
  (fs <> [] -> exists g, minus (Flo f) (map Flo fs) = Flo g /\ vfloat g /\ accumulates difference_of (fext f) (map fext fs) (fext g)) /\
  (fs <> [] -> exists g, divided (Flo f) (map Flo fs) = Ok (Flo g) /\ vfloat g /\ accumulates quotient_of (fext f) (map fext fs) (fext g)).
Proof.
  intros f fs V Vs. assert (Rep0 : convertible e0) by (exists 0, 0; cbn; split; [reflexivity|lia]).
  assert (Rep1 : convertible e1) by (exists 1, 0; cbn; split; [reflexivity|lia]).
  assert (V0 : rvalid e0) by (cbn; unfold int32_min, int32_max; lia). assert (V1 : rvalid e1) by (cbn; unfold int32_min, int32_max; lia).
  split; [|split; [|split]].
  - unfold plus. cbn [map fold_left]. destruct (C108_operators_partial e0 (Flo f) V0 V eq_refl Rep0 Logic.I) as ((h & E & H & S0) & _).
    rewrite E. destruct (fold_add fs Vs h H) as (g & E' & G & K). exists g, (fext h). split; [exact E'|]. split; [exact G|]. split; [|exact K].
    intros N. destruct (finite f) eqn:F.
    + cbn [denote] in S0. rewrite (fext_finite f F) in S0 |- *. cbn [e0 denote value sum_of] in S0. eapply C108_unique; [exact S0|].
      apply rounds_to_comp with (fval f); [change (inject_Z 0) with 0%Q; ring|].
      rewrite <- (fext_finite f F). apply rounds_valid; assumption.
    + destruct f as [|[]| |]; try discriminate; try congruence; cbn in S0; rewrite S0; exact Logic.I.
  - unfold times. cbn [map fold_left]. destruct (C108_operators_partial e1 (Flo f) V1 V eq_refl Rep1 Logic.I) as (_ & _ & (h & E & H & S0) & _).
    rewrite E. destruct (fold_mul fs Vs h H) as (g & E' & G & K). exists g, (fext h). split; [exact E'|]. split; [exact G|]. split; [|exact K].
    intros N. destruct (finite f) eqn:F.
    + cbn [denote] in S0. rewrite (fext_finite f F) in S0 |- *. cbn [e1 denote value product_of] in S0. eapply C108_unique; [exact S0|].
      apply rounds_to_comp with (fval f); [change (inject_Z 1) with 1%Q; ring|].
      rewrite <- (fext_finite f F). apply rounds_valid; assumption.
    + destruct f as [|[]| |]; try discriminate; try congruence; cbn in S0; rewrite S0; exact Logic.I.
  - intros NE. destruct (fold_sub fs Vs f V) as (g & E & K). exists g. split; [|exact K]. rewrite <- E. destruct fs; [contradiction|reflexivity].
  - intros NE. destruct (fold_div fs Vs f V) as (g & E & K). exists g. split; [|exact K]. rewrite <- E. destruct fs; [contradiction|reflexivity].
Qed.
Print Assumptions C108_procedures.
(** Unary - negates, and unary / is the rounded reciprocal *)
Theorem C108_unary : forall f, vfloat f ->
  (exists g, minus (Flo f) [] = Flo g /\ vfloat g /\ (f <> S754_nan -> same (fext g) (opposite (fext f))) /\ (f = S754_nan -> g = S754_nan)) /\
  (exists g, divided (Flo f) [] = Ok (Flo g) /\ vfloat g /\ quotient_of (Fin 1) (fext f) (fext g)).
Proof.
  intros f V. assert (Rep0 : convertible e0) by (exists 0, 0; cbn; split; [reflexivity|lia]).
  assert (Rep1 : convertible e1) by (exists 1, 0; cbn; split; [reflexivity|lia]).
  assert (V0 : rvalid e0) by (cbn; unfold int32_min, int32_max; lia). assert (V1 : rvalid e1) by (cbn; unfold int32_min, int32_max; lia).
  split.
  - destruct (C108_operators_partial e0 (Flo f) V0 V eq_refl Rep0 Logic.I) as (_ & (h & E & H & S0) & _).
    exists h. split; [exact E|]. split; [exact H|]. split.
    + intros N. destruct (finite f) eqn:F.
      * cbn [denote] in S0. unfold difference_of in S0. rewrite (fext_finite f F) in S0 |- *. cbn [e0 denote value sum_of opposite] in *.
        eapply C108_unique; [exact S0|]. destruct (opp_ok f V) as (A & B & C & _).
        pose proof (rounds_valid (SFopp f) A ltac:(rewrite B; exact F)) as R. rewrite fext_finite in R by (rewrite B; exact F).
        eapply rounds_to_comp; [|eapply rounds_to_value; [exact C|exact R]]. rewrite C. change (inject_Z 0) with 0%Q. ring.
      * destruct f as [|[]| |]; try discriminate; try congruence; cbn in S0; rewrite S0; exact Logic.I.
    + intros ->. cbn in E. injection E as <-. reflexivity.
  - destruct (C108_operators_partial e1 (Flo f) V1 V eq_refl Rep1 Logic.I) as (_ & _ & _ & (h & E & H & S0)).
    exists h. split; [exact E|]. split; [exact H|exact S0].
Qed.
Print Assumptions C108_unary.
Example C108_example_procedures :
  plus (map Flo [of_q (1 # 2); of_q (1 # 4); of_q (1 # 8)]) = Flo (of_q (7 # 8)) /\
  minus (Flo (of_q 1)) (map Flo [of_q (1 # 4); of_q (1 # 4)]) = Flo (of_q (1 # 2)) /\
  times (map Flo [of_q (1 # 2); of_q 3]) = Flo (of_q (3 # 2)) /\ divided (Flo (of_q 4)) [] = Ok (Flo (of_q (1 # 4))).
Proof. repeat split; vm_compute; reflexivity. Qed.

(** An exact number that is not representable is first truncated: (+ 0.0 1/10) is not the
    double that is closest to 1/10 *)
Theorem C108_exact_operand_refuted : let x := Exact (Ratio (1 # 10)) in let y := Flo (of_q 0) in
  rvalid x /\ rvalid y /\ exists f, r_add y x = Flo f /\ ~ sum_of (denote y) (denote x) (fext f).
Proof.
  cbv zeta. split; [reflexivity|]. split; [reflexivity|]. eexists. split; [reflexivity|]. intros S0.
  cbn [denote sum_of value] in S0. change (fext (of_q 0)) with (Fin 0) in S0. cbn [sum_of] in S0.
  pose proof (C108_unique _ _ _ S0 (rounds_to_comp _ _ _ (Qeq_sym (0 + (1 # 10)) (1 # 10) ltac:(ring)) C108_example_rounds)) as K.
  vm_compute in K. discriminate.
Qed.
Print Assumptions C108_exact_operand_refuted.
(** R7RS 6.2.4: the negation of zero is negative zero, and the sum of negative zeros is
    negative zero. Here both are 0.0 (and so is the sum of one negative zero). *)
Theorem C108_negative_zero_refuted :
  minus (Flo (S754_zero false)) [] = Flo (S754_zero false) /\
  plus [Flo (S754_zero true); Flo (S754_zero true)] = Flo (S754_zero false) /\
  plus [Flo (S754_zero true)] = Flo (S754_zero false) /\
  divided (Flo (S754_zero true)) [] = Ok (Flo (S754_infinity true)) /\
  divided (plus [Flo (S754_zero true)]) [] = Ok (Flo (S754_infinity false)).
Proof. repeat split; reflexivity. Qed.
Print Assumptions C108_negative_zero_refuted.
(** Without arguments + and * give exact numbers, also as fl+ and fl* *)
Theorem C108_no_arguments : plus [] = Exact (Small 0) /\ times [] = Exact (Small 1).
Proof. split; reflexivity. Qed.
Print Assumptions C108_no_arguments.
