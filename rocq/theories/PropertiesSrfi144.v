(** Properties C109 and C110: flonums (Srfi144.v) against SRFI 144, in terms of the numbers they stand for
    ([fext], FlonumSpec.v, RoundingSpec.v). [vfloat]: the double is in the normal form of binary64. *)
From Coq Require Import ZArith QArith Qreduction Qround Qabs Qpower Lia Lqa ZifyBool List Bool Floats.SpecFloat.
From Verif Require Import Number NumberProofs NumberRounding Flonum FlonumProofs FlonumSpec FlonumProofs2 FlonumProofs3 RoundingSpec FlonumRound
  FlonumArith PropertiesFlonumArith Srfi144.
Import ListNotations.
Open Scope Z_scope.

(** ** Lemmas *)
Lemma mag_pos m e : (0 < inject_Z (Zpos m) * p2 e)%Q.
Proof. apply Qmult_lt_0_compat; [reflexivity|apply p2_pos]. Qed.
Lemma abs_fval s m e : (Qabs (fval (S754_finite s m e)) == inject_Z (Zpos m) * p2 e)%Q.
Proof. rewrite fval_abs. pose proof (mag_pos m e). destruct s; [rewrite Qabs_opp|]; apply Qabs_pos; lra. Qed.
Lemma top_bounds m e : (p2 (top m e) <= inject_Z (Zpos m) * p2 e)%Q /\ (inject_Z (Zpos m) * p2 e < p2 (top m e + 1))%Q.
Proof.
  unfold top. pose proof (Z.log2_spec (Zpos m) ltac:(lia)) as [A B]. pose proof (Z.log2_nonneg (Zpos m)) as P. split.
  - rewrite p2_add. apply scale_le. rewrite p2_Z by exact P. rewrite <- inject_le. exact A.
  - replace (Z.log2 (Zpos m) + e + 1) with (Z.log2 (Zpos m) + 1 + e) by lia. rewrite p2_add. apply scale_lt. rewrite (p2_Z (_ + 1)) by lia. rewrite <- inject_lt. exact B.
Qed.
Lemma top_range s m e : vfloat (S754_finite s m e) -> -1074 <= top m e <= 1023.
Proof.
  intros V. apply digits_valid in V. unfold top. cbn [Zdigits2] in V. rewrite digits2_log2 in V. lia.
Qed.
Lemma sub_representable q z : representable q -> (Qabs (q - inject_Z z) <= Qabs q)%Q -> (Qabs (q - inject_Z z) < 1)%Q -> representable (q - inject_Z z).
Proof.
  intros (m & e & E & A & B) L1 L2. change (Qpower 2 e) with (p2 e) in E. destruct (Z_le_gt_dec e 0) as [L|G].
  - assert (D : (q - inject_Z z == inject_Z (m - z * 2 ^ (- e)) * p2 e)%Q).
    { unfold Z.sub. rewrite inject_Z_plus, inject_Z_opp, inject_Z_mult, <- p2_Z by lia.
      setoid_replace ((inject_Z m + - (inject_Z z * p2 (- e))) * p2 e)%Q with (inject_Z m * p2 e - inject_Z z * (p2 e * p2 (- e)))%Q by ring.
      rewrite p2_opp, E. ring. }
    exists (m - z * 2 ^ (- e)), e. split; [exact D|]. split; [|exact B].
    rewrite D, E, !abs_scaled in L1. apply Qmult_le_r in L1; [|apply p2_pos]. rewrite <- inject_le in L1. lia.
  - assert (D : (q - inject_Z z == inject_Z (m * 2 ^ e - z))%Q).
    { unfold Z.sub. rewrite inject_Z_plus, inject_Z_opp, inject_Z_mult, <- p2_Z by lia. rewrite E. reflexivity. }
    rewrite D, abs_inject in L2. change 1%Q with (inject_Z 1) in L2. rewrite <- inject_lt in L2.
    exists 0, 0. split; [rewrite D; replace (m * 2 ^ e - z) with 0 by lia; reflexivity|lia].
Qed.

Lemma trunc_same_sign x : (0 <= inject_Z (trunc_z x) * x)%Q.
Proof.
  unfold trunc_z. destruct (Qnum x <? 0) eqn:E; [assert (L : (x < 0)%Q) by (unfold Qlt; cbn; lia)|assert (L : (0 <= x)%Q) by (unfold Qle; cbn; lia)].
  - assert (inject_Z (Qceiling x) <= 0)%Q.
    { change 0%Q with (inject_Z 0). rewrite <- inject_le. unfold Qceiling. assert (0 <= Qfloor (- x)); [|lia]. change 0 with (Qfloor 0). apply Qfloor_resp_le. lra. }
    setoid_replace (inject_Z (Qceiling x) * x)%Q with (- inject_Z (Qceiling x) * - x)%Q by ring. apply Qmult_le_0_compat; lra.
  - apply Qmult_le_0_compat; [|exact L]. change 0%Q with (inject_Z 0). rewrite <- inject_le. change 0 with (Qfloor 0). apply Qfloor_resp_le, L.
Qed.
Lemma integral_sign s m e : vfloat (S754_finite s m e) -> signbit (integral_part (S754_finite s m e)) = s.
Proof.
  intros V. destruct (rounded_trunc _ V) as [_ (v & B & C)]. unfold integral_part. cbn [rounded] in *. destruct (_ =? 0) eqn:Ez; [reflexivity|].
  rewrite d_trunc_ok in *. set (q := fval (S754_finite s m e)) in *. set (z := if s then Qceiling q else Qfloor q) in *.
  assert (Z0 : z = trunc_z q) by (unfold z, trunc_z, q; rewrite fval_sign; reflexivity).
  pose proof (trunc_same_sign q) as T. rewrite <- Z0 in *. destruct (fval_nonzero s m e) as [_ P]. fold q in P.
  destruct (of_q (inject_Z z)) as [b|[]| |b m' e']; try discriminate; injection B as <-.
  - exfalso. unfold Qeq in C. cbn in C. lia.
  - cbn [signbit]. destruct (fval_nonzero b m' e') as [_ Pb]. change (fval (S754_finite b m' e') == inject_Z z)%Q in C. set (w := fval (S754_finite b m' e')) in *. clearbody w. rewrite <- C in T. clearbody q. destruct b, s; try reflexivity; exfalso; nra.
Qed.

(** ** C109 Taking flonums apart, and making them *)
(** flinteger-fraction: an integer and a fraction with the sign of x, whose sum is x *)
Theorem C109_integer_fraction : forall x, vfloat x -> finite x = true ->
  let '(i, f) := flinteger_fraction x in
  vfloat i /\ vfloat f /\ finite i = true /\ finite f = true /\ (exists z, fval i == inject_Z z)%Q /\
  (fval x == fval i + fval f)%Q /\ (Qabs (fval f) < 1)%Q /\ (0 <= fval f * fval x)%Q /\ signbit i = signbit x /\ signbit f = signbit x.
Proof.
  intros x V F. unfold flinteger_fraction. destruct (rounded_trunc x V) as [A B]. rewrite F in B. destruct B as (v & B & C).
  assert (Fi : finite (integral_part x) = true).
  { unfold integral_part. destruct (rounded d_trunc x) as [|[]| |]; try reflexivity; discriminate. }
  assert (Vi : (fval (integral_part x) == inject_Z (trunc_z (fval x)))%Q).
  { change (rounded d_trunc x) with (integral_part x) in B. rewrite (fext_finite _ Fi) in B. injection B as B. rewrite B. exact C. }
  destruct (trunc_z_spec (fval x)) as (T1 & T2 & T3).
  destruct x as [s|s| |s m e]; try discriminate.
  { cbn. repeat (split; [first [reflexivity|discriminate|exists 0; reflexivity]|]). reflexivity. }
  set (x := S754_finite s m e) in *. set (t := trunc_z (fval x)) in *.
  assert (R : representable (fval x - inject_Z t)) by (apply sub_representable; [apply fval_representable; assumption|exact T3|exact T1]).
  assert (P : (if s then fval x < 0 else 0 < fval x)%Q) by (apply fval_nonzero).
  set (r := Qred (fval x - fval (integral_part x))%Q).
  assert (Er : (r == fval x - inject_Z t)%Q) by (unfold r; rewrite Qred_correct, Vi; reflexivity).
  assert (K : forall f, vfloat f -> finite f = true -> (fval f == r)%Q -> signbit f = s ->
     vfloat (integral_part x) /\ vfloat f /\ finite (integral_part x) = true /\ finite f = true /\ (exists z, fval (integral_part x) == inject_Z z)%Q /\
     (fval x == fval (integral_part x) + fval f)%Q /\ (Qabs (fval f) < 1)%Q /\ (0 <= fval f * fval x)%Q /\ signbit (integral_part x) = signbit x /\ signbit f = signbit x).
  { intros f Vf Ff Ef Sf. split; [exact A|]. split; [exact Vf|]. split; [exact Fi|]. split; [exact Ff|]. split; [eauto|].
    rewrite Ef, Er, Vi. split; [ring|]. split; [exact T1|]. split; [exact T2|]. split; [|exact Sf].
    apply integral_sign, V. }
  assert (Ef : fractional_part x = if Qnum r =? 0 then S754_zero s else of_q r) by reflexivity. rewrite Ef. clear Ef. destruct (Qnum r =? 0) eqn:Z0.
  - apply K; try reflexivity. apply Z.eqb_eq in Z0. clearbody r. cbn [fval]. unfold Qeq. rewrite Z0. reflexivity.
  - assert (Rr : representable r) by (eapply representable_comp; [symmetry; exact Er|exact R]).
    destruct (of_q_representable r Rr) as [F1 F2]. apply K; [apply of_q_valid|exact F1|exact F2|].
    rewrite <- F2 in Er. clear K. destruct (of_q r) as [b|b| |b m' e'] eqn:Eo; try discriminate.
    + exfalso. apply Z.eqb_neq in Z0. clearbody r. cbn [fval] in F2. unfold Qeq in F2. cbn [Qnum Qden] in F2. lia.
    + cbn [signbit]. destruct (fval_nonzero b m' e') as [_ Pb]. set (w := fval (S754_finite b m' e')) in *. rewrite <- Er in T2. clearbody w. set (v0 := fval x) in *. clearbody v0. destruct b, s; try reflexivity; exfalso; nra.
Qed.
Print Assumptions C109_integer_fraction.
Theorem C109_integer_fraction_infinite : forall s, flinteger_fraction (S754_infinity s) = (S754_infinity s, S754_zero s).
Proof. reflexivity. Qed.
Print Assumptions C109_integer_fraction_infinite.
Example C109_example_integer_fraction : flinteger_fraction (of_q (-7 # 2)) = (of_q (-3), of_q (-1 # 2)) /\ flinteger_fraction (of_q (1 # 4)) = (S754_zero false, of_q (1 # 4)).
Proof. split; vm_compute; reflexivity. Qed.

(** flexponent and flinteger-exponent: the integer part of the binary logarithm of the magnitude *)
Theorem C109_exponent : forall x, vfloat x -> finite x = true -> ~ (fval x == 0)%Q ->
  exists k, flinteger_exponent x = k /\ (p2 k <= Qabs (fval x))%Q /\ (Qabs (fval x) < p2 (k + 1))%Q /\
    vfloat (flexponent x) /\ finite (flexponent x) = true /\ (fval (flexponent x) == inject_Z k)%Q.
Proof.
  intros x V F N. destruct x as [s|s| |s m e]; try discriminate; [exfalso; apply N; reflexivity|].
  exists (top m e). split; [reflexivity|]. rewrite abs_fval. destruct (top_bounds m e) as [A B]. split; [exact A|]. split; [exact B|].
  cbn [flexponent]. destruct (of_Z_exact (top m e)) as [C D]; [pose proof (top_range _ _ _ V); lia|]. split; [apply of_q_valid|]. auto.
Qed.
Print Assumptions C109_exponent.
Theorem C109_exponent_special : (forall s, flexponent (S754_zero s) = S754_infinity true /\ flexponent (S754_infinity s) = S754_infinity false) /\ flexponent S754_nan = S754_nan.
Proof. split; [intros s; split|]; reflexivity. Qed.
Print Assumptions C109_exponent_special.
Example C109_example_exponent : flinteger_exponent (of_q (-10)) = 3 /\ flexponent (of_q (3 # 8)) = of_q (-2) /\ flinteger_exponent (of_q (p2 (-1074))) = -1074.
Proof. repeat split; vm_compute; reflexivity. Qed.

(** flnormalized-fraction-exponent: x = f * 2^k with 1/2 <= |f| < 1 *)
Theorem C109_normalized_fraction : forall x, vfloat x -> finite x = true -> ~ (fval x == 0)%Q ->
  let '(f, k) := flnormalized_fraction_exponent x in
  vfloat f /\ finite f = true /\ (fval x == fval f * p2 k)%Q /\ ((1 # 2) <= Qabs (fval f))%Q /\ (Qabs (fval f) < 1)%Q.
Proof.
  intros x V F N. destruct x as [s|s| |s m e]; try discriminate; [exfalso; apply N; reflexivity|].
  cbn [flnormalized_fraction_exponent]. set (x := S754_finite s m e) in *. set (k := top m e + 1). change (Qpower 2 (- k)) with (p2 (- k)).
  destruct (top_bounds m e) as [A B]. pose proof (top_range _ _ _ V) as T. pose proof (digits_valid _ _ _ V) as (D1 & D2 & D3).
  assert (M : (fval x * p2 (- k) == inject_Z (cond_Zopp s (Zpos m)) * p2 (e - k))%Q).
  { unfold x, fval. change (Qpower 2 e) with (p2 e). rewrite <- Qmult_assoc, <- p2_add. reflexivity. }
  cbn [Zdigits2] in D2, D3. rewrite digits2_log2 in D2, D3. pose proof V as V'. apply vfloat_iff in V'.
  assert (R : representable (fval x * p2 (- k))).
  { exists (cond_Zopp s (Zpos m)), (e - k). split; [exact M|]. split; [destruct s; cbn; lia|]. unfold k, top. lia. }
  destruct (of_q_representable _ R) as [F1 F2]. split; [apply of_q_valid|]. split; [exact F1|].
  rewrite F2. rewrite unscale'. split; [reflexivity|].
  rewrite Qabs_Qmult, (Qabs_pos (p2 (- k))) by (apply Qlt_le_weak, p2_pos). unfold x. rewrite abs_fval. split.
  - apply Qle_trans with (p2 (top m e) * p2 (- k))%Q; [|apply scale_le, A]. rewrite <- p2_add. replace (top m e + - k) with (-1) by (unfold k; lia). discriminate.
  - apply Qlt_le_trans with (p2 k * p2 (- k))%Q; [apply scale_lt, B|]. rewrite p2_opp. apply Qle_refl.
Qed.
Print Assumptions C109_normalized_fraction.
Example C109_example_normalized_fraction : flnormalized_fraction_exponent (of_q (-10)) = (of_q (-5 # 8), 4) /\
  flnormalized_fraction_exponent (of_q (p2 (-1074))) = (of_q (1 # 2), -1073).
Proof. repeat split; vm_compute; reflexivity. Qed.

(** flsign-bit and flcopysign; a zero has a sign *)
Theorem C109_sign : forall x y,
  (flsign_bit x = 0 \/ flsign_bit x = 1) /\
  (vfloat x -> lt (fext x) (Fin 0) -> flsign_bit x = 1) /\ (vfloat x -> lt (Fin 0) (fext x) -> flsign_bit x = 0) /\
  (flsign_bit (S754_zero false) = 0 /\ flsign_bit (S754_zero true) = 1) /\
  (x <> S754_nan -> flsign_bit (flcopysign x y) = flsign_bit y /\ SFabs (flcopysign x y) = SFabs x) /\
  (same (fext (flsgn y)) (Fin 1) /\ flsign_bit y = 0 \/ same (fext (flsgn y)) (Fin (-1)) /\ flsign_bit y = 1).
Proof.
  intros x y. unfold flsign_bit. split; [destruct (signbit x); auto|].
  assert (S1 : forall (s : bool) m e, (if s then fval (S754_finite s m e) < 0 else 0 < fval (S754_finite s m e))%Q) by (intros; apply fval_nonzero).
  split; [|split; [|split; [|split]]].
  - intros _ L. destruct x as [s|[]| |s m e]; cbn [fext lt signbit] in *; try lra; try tauto; [exfalso; exact (Qlt_irrefl _ L)|].
    specialize (S1 s m e). destruct s; [reflexivity|]. exfalso. exact (Qlt_irrefl _ (Qlt_trans _ _ _ S1 L)).
  - intros _ L. destruct x as [s|[]| |s m e]; cbn [fext lt signbit] in *; try lra; try tauto; [exfalso; exact (Qlt_irrefl _ L)|].
    specialize (S1 s m e). destruct s; [|reflexivity]. exfalso. exact (Qlt_irrefl _ (Qlt_trans _ _ _ S1 L)).
  - split; reflexivity.
  - intros N. destruct x; try congruence; cbn [flcopysign signbit]; split; reflexivity.
  - destruct y as [[]|[]| |[] m e]; cbn [signbit]; ((left; split; [vm_compute; reflexivity|reflexivity]) || (right; split; [vm_compute; reflexivity|reflexivity])).
Qed.
Print Assumptions C109_sign.
Example C109_example_sign : flsgn (S754_infinity true) = of_q (-1) /\ flcopysign (of_q 3) (S754_zero true) = of_q (-3).
Proof. split; vm_compute; reflexivity. Qed.

(** flnormalized? and fldenormalized? *)
Theorem C109_normalized : forall x, vfloat x ->
  (flnormalized x = true <-> finite x = true /\ (p2 (-1022) <= Qabs (fval x))%Q) /\
  (fldenormalized x = true <-> finite x = true /\ (0 < Qabs (fval x))%Q /\ (Qabs (fval x) < p2 (-1022))%Q).
Proof.
  intros x V. assert (P : (0 < p2 (-1022))%Q) by apply p2_pos.
  destruct x as [s|s| |s m e]; try (cbn [flnormalized fldenormalized finite fval]; change (Qabs 0) with 0%Q; split; split; intros H; try discriminate; [destruct H; exfalso; try discriminate; lra|destruct H as (H1 & H2 & H3); try discriminate; exfalso; lra]).
  cbn [flnormalized fldenormalized finite]. rewrite abs_fval. pose proof (mag_pos m e) as Pm. pose proof V as V'. apply vfloat_iff in V'. destruct V' as (A & B & C).
  assert (K : (2 ^ 52 <=? Zpos m) = true <-> (p2 (-1022) <= inject_Z (Zpos m) * p2 e)%Q).
  { rewrite Z.leb_le. split; intros H.
    - apply Qle_trans with (p2 52 * p2 e)%Q; [rewrite <- p2_add; apply p2_le; lia|]. apply scale_le. rewrite p2_Z, <- inject_le by lia. exact H.
    - destruct C as [-> |C]; [|exact C]. change (-1022) with (52 + -1074) in H. rewrite p2_add in H. apply Qmult_le_r in H; [|apply p2_pos].
      rewrite p2_Z, <- inject_le in H by lia. exact H. }
  split; [rewrite K; tauto|]. assert (L : (Zpos m <? 2 ^ 52) = true <-> ~ (2 ^ 52 <=? Zpos m) = true) by lia. rewrite L, K.
  split; [intros H; split; [reflexivity|]; split; [exact Pm|]; lra|intros (_ & _ & H) H'; lra].
Qed.
Print Assumptions C109_normalized.
Example C109_example_normalized : flnormalized (of_q (p2 (-1022))) = true /\ fldenormalized (of_q (p2 (-1023))) = true /\ flnormalized (S754_zero false) = false.
Proof. repeat split; vm_compute; reflexivity. Qed.

(** make-flonum: x * 2^n, rounded if that is not representable *)
Theorem C109_make_flonum : forall x n, vfloat x ->
  vfloat (make_flonum x n) /\ (if finite x then rounds_to (fval x * p2 n) (fext (make_flonum x n)) else make_flonum x n = x) /\
  flsign_bit (make_flonum x n) = flsign_bit x.
Proof.
  intros x n V. destruct x as [s|s| |s m e]; cbn [make_flonum finite]; try (split; [exact V|split; reflexivity]).
  - split; [exact V|]. split; [|reflexivity]. eapply rounds_to_comp; [|apply (rounds_valid (S754_zero s)); reflexivity]. cbn [fval]. ring.
  - destruct (binary_round_ok s m (e + n)) as (A & B & C). split; [exact A|]. split.
    + eapply rounds_to_comp; [|exact C]. unfold fval. change (Qpower 2 e) with (p2 e). rewrite <- Qmult_assoc, <- p2_add.
      destruct s; cbn [signed cond_Zopp]; [rewrite inject_Z_opp; ring|reflexivity].
    + unfold flsign_bit. destruct (binary_round prec emax s m (e + n)) as [b|b| |b m' e']; cbn [sign_of] in B; cbn [signbit]; subst; reflexivity.
Qed.
Print Assumptions C109_make_flonum.
Example C109_example_make_flonum : make_flonum (of_q 3) 4 = of_q 48 /\ make_flonum (of_q 3) (-1075) = of_q (p2 (-1073)) /\ make_flonum (of_q (-1)) 1024 = S754_infinity true.
Proof. repeat split; vm_compute; reflexivity. Qed.

(** fladjacent: the next flonum in the direction of y; the flonums are the representable numbers and the infinities *)
Definition flonum (x : ext) : Prop := match x with Fin q => representable q | NaN => False | _ => True end.
Definition next_above (x r : ext) : Prop := lt x r /\ forall z, flonum z -> lt x z -> le r z.
Definition next_below (x r : ext) : Prop := lt r x /\ forall z, flonum z -> lt z x -> le z r.
Lemma away_ok m e : vfloat (S754_finite false m e) -> vfloat (away false m e) /\ next_above (Fin (inject_Z (Zpos m) * p2 e)) (fext (away false m e)).
Proof.
  intros V. pose proof V as V'. apply vfloat_iff in V'. destruct V' as (A & B & C).
  assert (K : forall q, representable q -> (inject_Z (Zpos m) * p2 e < q)%Q -> (inject_Z (Zpos m + 1) * p2 e <= q)%Q).
  { intros q R L. destruct (multiple q e R) as [z E].
    - destruct C as [C|C]; [left; exact C|right]. apply Qle_trans with (inject_Z (Zpos m) * p2 e)%Q.
      + rewrite Z.add_comm, p2_add. apply scale_le. rewrite p2_Z, <- inject_le by lia. exact C.
      + apply Qlt_le_weak. eapply Qlt_le_trans; [exact L|apply Qle_Qabs].
    - rewrite E in L |- *. apply Qmult_lt_r in L; [|apply p2_pos]. apply scale_le. rewrite <- inject_lt in L. rewrite <- inject_le. lia. }
  assert (L1 : (inject_Z (Zpos m) * p2 e < inject_Z (Zpos m + 1) * p2 e)%Q) by (apply scale_lt; rewrite <- inject_lt; lia).
  assert (Fine : forall f, vfloat f -> fext f = Fin (fval f) -> (fval f == inject_Z (Zpos m + 1) * p2 e)%Q -> vfloat f /\ next_above (Fin (inject_Z (Zpos m) * p2 e)) (fext f)).
  { intros f Vf Ff Ef. split; [exact Vf|]. rewrite Ff. split; [cbn [lt]; rewrite Ef; exact L1|]. intros z Z1 Z2. destruct z as [q| | |]; cbn [flonum lt] in Z1, Z2; try tauto.
    - specialize (K q Z1 Z2). rewrite <- Ef in K. unfold le. cbn [lt same]. apply Qle_lteq in K. exact K.
    - left. exact Logic.I. }
  unfold away. destruct (Zpos m + 1 =? 2 ^ 53) eqn:E1; [destruct (e =? 971) eqn:E2|].
  - split; [reflexivity|]. cbn [fext]. split; [exact Logic.I|]. intros z Z1 Z2. destruct z as [q| | |]; cbn [flonum lt] in Z1, Z2; try tauto; [|right; exact Logic.I].
    exfalso. specialize (K q Z1 Z2). replace (Zpos m + 1) with (2 ^ 53) in K by lia. replace e with 971 in K by lia.
    pose proof (representable_limit q Z1) as Lq. rewrite limit_p2 in Lq. pose proof (Qle_Qabs q).
    assert ((inject_Z (2 ^ 53) - (1 # 2)) * p2 971 < inject_Z (2 ^ 53) * p2 971)%Q by (apply scale_lt; lra). lra.
  - apply Fine; [apply vfloat_iff; cbn; lia|reflexivity|]. rewrite fval_abs, (Z.add_comm e 1), p2_add. change (p2 1) with 2%Q.
    replace (Zpos m + 1) with (2 ^ 53) by lia. change (inject_Z (2 ^ 53)) with (2 * inject_Z (2 ^ 52))%Q. change (inject_Z (Zpos (2 ^ 52))) with (inject_Z (2 ^ 52)). ring.
  - apply Fine; [apply vfloat_iff; lia|reflexivity|]. rewrite fval_abs. replace (Zpos (m + 1)) with (Zpos m + 1) by lia. reflexivity.
Qed.
Lemma towards_ok m e : vfloat (S754_finite false m e) -> vfloat (towards false m e) /\ next_below (Fin (inject_Z (Zpos m) * p2 e)) (fext (towards false m e)).
Proof.
  intros V. pose proof V as V'. apply vfloat_iff in V'. destruct V' as (A & B & C).
  assert (Fine : forall f k d, vfloat f -> fext f = Fin (fval f) -> (fval f == inject_Z k * p2 d)%Q -> (d = -1074 \/ 2 ^ 52 <= k) ->
    (inject_Z (Zpos m) * p2 e == inject_Z (k + 1) * p2 d)%Q -> vfloat f /\ next_below (Fin (inject_Z (Zpos m) * p2 e)) (fext f)).
  { intros f k d Vf Ff Ef Hd Hm. split; [exact Vf|]. rewrite Ff. split; [cbn [lt]; rewrite Ef, Hm; apply scale_lt; rewrite <- inject_lt; lia|].
    intros z Z1 Z2. destruct z as [q| | |]; cbn [flonum lt] in Z1, Z2; try tauto; [|left; exact Logic.I].
    unfold le. cbn [lt same]. apply Qle_lteq. rewrite Ef. destruct (Qlt_le_dec (inject_Z k * p2 d) q) as [L|L]; [exfalso|exact L].
    destruct (multiple q d Z1) as [z E].
    - destruct Hd as [Hd|Hd]; [left; exact Hd|right]. apply Qle_trans with (inject_Z k * p2 d)%Q.
      + rewrite Z.add_comm, p2_add. apply scale_le. rewrite p2_Z, <- inject_le by lia. exact Hd.
      + apply Qlt_le_weak. eapply Qlt_le_trans; [exact L|apply Qle_Qabs].
    - rewrite Hm, E in Z2. rewrite E in L. apply Qmult_lt_r in Z2; [|apply p2_pos]. apply Qmult_lt_r in L; [|apply p2_pos]. rewrite <- inject_lt in Z2, L. lia. }
  unfold towards. destruct ((Zpos m =? 2 ^ 52) && (-1074 <? e)) eqn:E1; [|destruct (Zpos m =? 1) eqn:E2].
  - apply (Fine _ (2 ^ 53 - 1) (e - 1)); [apply vfloat_iff; cbn; lia|reflexivity| |right; lia|].
    + rewrite fval_abs. reflexivity.
    + replace (Zpos m) with (2 ^ 52) by lia. replace e with (1 + (e - 1)) at 1 by lia. rewrite p2_add. change (p2 1) with 2%Q.
      change (inject_Z (2 ^ 53 - 1 + 1)) with (2 * inject_Z (2 ^ 52))%Q. ring.
  - apply (Fine _ 0 e); [reflexivity|reflexivity|cbn [fval]; change (inject_Z 0) with 0%Q; ring|lia|]. replace (Zpos m) with (0 + 1) by lia. reflexivity.
  - apply (Fine _ (Zpos m - 1) e); [apply vfloat_iff; lia|reflexivity| |lia|].
    + rewrite fval_abs. replace (Zpos (m - 1)) with (Zpos m - 1) by lia. reflexivity.
    + replace (Zpos m - 1 + 1) with (Zpos m) by lia. reflexivity.
Qed.
Lemma flonum_opposite z : flonum z -> flonum (opposite z).
Proof. destruct z; cbn; try tauto. apply representable_opp. Qed.
Lemma lt_opposite x y : lt x y <-> lt (opposite y) (opposite x).
Proof. destruct x, y; cbn; try tauto. lra. Qed.
Lemma opposite_invol x : match x with NaN => opposite (opposite x) = NaN | _ => same (opposite (opposite x)) x end.
Proof. destruct x; cbn; try tauto; try reflexivity. ring. Qed.
Lemma le_opposite x y : le x y <-> le (opposite y) (opposite x).
Proof. unfold le. destruct x, y; cbn; try tauto. split; intros [H|H]; [left; lra|right; rewrite H; reflexivity|left; lra|right; lra]. Qed.
Lemma next_opposite x r : x <> NaN -> (next_above x r -> next_below (opposite x) (opposite r)) /\ (next_below x r -> next_above (opposite x) (opposite r)).
Proof.
  intros N. assert (I : forall z, le (opposite (opposite z)) z -> True) by tauto. split; intros [A B]; (split; [apply -> lt_opposite; exact A|]).
  - intros z Z1 Z2. apply flonum_opposite in Z1. assert (L : lt x (opposite z)).
    { destruct x, z; cbn in *; try tauto. lra. }
    specialize (B _ Z1 L). destruct r, z; unfold le in *; cbn in *; try tauto. destruct B as [B|B]; [left; lra|right; rewrite B; ring].
  - intros z Z1 Z2. apply flonum_opposite in Z1. assert (L : lt (opposite z) x).
    { destruct x, z; cbn in *; try tauto. lra. }
    specialize (B _ Z1 L). destruct r, z; unfold le in *; cbn in *; try tauto. destruct B as [B|B]; [left; lra|right; rewrite <- B; ring].
Qed.
Definition esame (x y : ext) : Prop := match x with NaN => y = NaN | _ => same x y end.
Lemma next_same x x' r r' : esame x x' -> esame r r' -> (next_above x r -> next_above x' r') /\ (next_below x r -> next_below x' r').
Proof.
  intros E F. assert (L : forall a a' b b', esame a a' -> esame b b' -> lt a b -> lt a' b').
  { intros a a' b b'. destruct a, a'; cbn; try tauto; try discriminate; destruct b, b'; cbn; try tauto; try discriminate. intros -> ->. tauto. }
  assert (L' : forall a a' b b', esame a a' -> esame b b' -> le a b -> le a' b').
  { unfold le. intros a a' b b'. destruct a, a'; cbn; try tauto; try discriminate; destruct b, b'; cbn; try tauto; try discriminate. intros -> ->. tauto. }
  assert (R : forall z, esame z z) by (intros []; cbn; try tauto; reflexivity).
  assert (Sy : forall a b, esame a b -> esame b a) by (intros [] []; cbn; try tauto; try discriminate; intros ->; reflexivity).
  split; intros [A B]; (split; [eapply L; [..|exact A]; assumption|]); intros z Z1 Z2.
  - eapply L'; [exact F|apply R|]. apply B; [exact Z1|]. eapply L; [apply Sy, E|apply R|exact Z2].
  - eapply L'; [apply R|exact F|]. apply B; [exact Z1|]. eapply L; [apply R|apply Sy, E|exact Z2].
Qed.
Lemma fext_opp f : esame (opposite (fext f)) (fext (SFopp f)).
Proof.
  destruct f as [s|[]| |s m e]; try exact Logic.I; try reflexivity. cbn [fext SFopp opposite esame same]. rewrite (fval_abs s m e), (fval_abs (negb s) m e). destruct s; cbn [negb]; ring.
Qed.
Lemma opp_away s m e : SFopp (away s m e) = away (negb s) m e.
Proof. unfold away. destruct (_ =? _); [destruct (_ =? _)|]; reflexivity. Qed.
Lemma opp_towards s m e : SFopp (towards s m e) = towards (negb s) m e.
Proof. unfold towards. destruct (_ && _); [|destruct (_ =? _)]; reflexivity. Qed.
Lemma esame_pos (s : bool) m e : esame (if s then opposite (Fin (inject_Z (Zpos m) * p2 e)) else Fin (inject_Z (Zpos m) * p2 e)) (fext (S754_finite s m e)).
Proof. destruct s; cbn [fext opposite esame same]; rewrite fval_abs; reflexivity. Qed.
Lemma steps (s : bool) m e : vfloat (S754_finite s m e) ->
  (let r := if s then towards s m e else away s m e in vfloat r /\ next_above (fext (S754_finite s m e)) (fext r)) /\
  (let r := if s then away s m e else towards s m e in vfloat r /\ next_below (fext (S754_finite s m e)) (fext r)).
Proof.
  intros V. assert (V' : vfloat (S754_finite false m e)) by exact V. destruct (away_ok m e V') as [A B], (towards_ok m e V') as [C D].
  assert (R : forall z, esame z z) by (intros []; cbn; try tauto; reflexivity).
  pose proof (esame_pos s m e) as E. destruct s; cbv zeta.
  - split.
    + split; [rewrite <- (opp_towards false); apply opp_ok, C|]. refine (proj1 (next_same _ _ _ _ E _) (proj2 (next_opposite (Fin (inject_Z (Zpos m) * p2 e)) _ ltac:(discriminate)) D)).
      rewrite <- (opp_towards false). apply fext_opp.
    + split; [rewrite <- (opp_away false); apply opp_ok, A|]. refine (proj2 (next_same _ _ _ _ E _) (proj1 (next_opposite (Fin (inject_Z (Zpos m) * p2 e)) _ ltac:(discriminate)) B)).
      rewrite <- (opp_away false). apply fext_opp.
  - split; [split; [exact A|exact (proj1 (next_same _ _ _ _ E (R _)) B)]|split; [exact C|exact (proj2 (next_same _ _ _ _ E (R _)) D)]].
Qed.
Lemma greatest_ok : (fval fl_greatest == inject_Z (2 ^ 53 - 1) * p2 971)%Q /\ forall q, representable q -> (Qabs q <= fval fl_greatest)%Q.
Proof.
  assert (E : (fval fl_greatest == inject_Z (2 ^ 53 - 1) * p2 971)%Q) by (unfold fl_greatest; rewrite fval_abs; reflexivity).
  split; [exact E|]. intros q (m & e & Eq & A & B). rewrite E, Eq. change (Qpower 2 e) with (p2 e). rewrite abs_scaled.
  apply Qle_trans with (inject_Z (2 ^ 53 - 1) * p2 e)%Q; [apply scale_le; rewrite <- inject_le; lia|].
  rewrite !(Qmult_comm (inject_Z _)). apply Qmult_le_compat_r; [apply p2_le; lia|discriminate].
Qed.
Lemma least_ok q : representable q -> (0 < q)%Q -> (p2 (-1074) <= q)%Q.
Proof.
  intros (m & e & Eq & A & B) P. change (Qpower 2 e) with (p2 e) in Eq. rewrite Eq in *.
  assert (M : 0 < m). { destruct (Z_lt_ge_dec 0 m) as [|G]; [assumption|exfalso]. assert (inject_Z m <= 0)%Q by (change 0%Q with (inject_Z 0); rewrite <- inject_le; lia).
    pose proof (p2_pos e). nra. }
  apply Qle_trans with (1 * p2 e)%Q; [rewrite Qmult_1_l; apply p2_le; lia|]. apply scale_le. change 1%Q with (inject_Z 1). rewrite <- inject_le. lia.
Qed.
Theorem C109_adjacent : forall x y, vfloat x -> vfloat y -> x <> S754_nan -> y <> S754_nan ->
  vfloat (fladjacent x y) /\
  (lt (fext x) (fext y) -> next_above (fext x) (fext (fladjacent x y))) /\
  (lt (fext y) (fext x) -> next_below (fext x) (fext (fladjacent x y))) /\
  (same (fext x) (fext y) -> same (fext x) (fext (fladjacent x y))).
Proof.
  intros x y V W Nx Ny. pose proof (ltb_iff x y V W) as L. pose proof (eqb_iff x y V W) as Q0.
  assert (E : fladjacent x y = if SFeqb x y then y else
    match x with
    | S754_zero _ => S754_finite (negb (SFltb x y)) 1 (-1074)
    | S754_infinity s => S754_finite s (2 ^ 53 - 1) 971
    | S754_finite s m e => if xorb s (SFltb x y) then away s m e else towards s m e
    | S754_nan => S754_nan
    end) by (destruct x, y; try congruence; reflexivity).
  assert (Tri : (lt (fext x) (fext y) -> ~ same (fext x) (fext y)) /\ (lt (fext y) (fext x) -> ~ same (fext x) (fext y) /\ ~ lt (fext x) (fext y)) /\
    (~ lt (fext x) (fext y) -> ~ same (fext x) (fext y) -> lt (fext y) (fext x))).
  { assert (N1 : fext x <> NaN) by (destruct x as [|[]| |]; try congruence; discriminate). assert (N2 : fext y <> NaN) by (destruct y as [|[]| |]; try congruence; discriminate).
    destruct (fext x), (fext y); cbn; try tauto; try congruence. split; [lra|]. split; [lra|]. intros A B. apply Qnot_lt_le in A. lra. }
  destruct Tri as (T1 & T2 & T3). rewrite E. clear E.
  destruct (SFeqb x y) eqn:Eq1.
  { assert (S0 : same (fext x) (fext y)) by tauto. split; [exact W|]. split; [intros H; exfalso; exact (T1 H S0)|]. split; [intros H; exfalso; exact (proj1 (T2 H) S0)|]. intros H; exact H. }
  assert (NS : ~ same (fext x) (fext y)) by (intros H; apply Q0 in H; discriminate).
  assert (Fin3 : forall r, vfloat r -> (if SFltb x y then next_above (fext x) (fext r) else next_below (fext x) (fext r)) ->
    vfloat r /\ (lt (fext x) (fext y) -> next_above (fext x) (fext r)) /\ (lt (fext y) (fext x) -> next_below (fext x) (fext r)) /\ (same (fext x) (fext y) -> same (fext x) (fext r))).
  { intros r Vr H. split; [exact Vr|]. split; [intros K; apply L in K; rewrite K in H; exact H|]. split; [|tauto].
    intros K. destruct (SFltb x y) eqn:B; [|exact H]. exfalso. apply (proj2 (T2 K)). apply L. reflexivity. }
  destruct x as [s|s| |s m e]; [| |congruence|].
  - apply Fin3; [reflexivity|]. destruct (SFltb (S754_zero s) y); cbn [negb].
    + split; [cbn [fext lt]; rewrite fval_abs; apply mag_pos|]. intros z Z1 Z2. destruct z as [q| | |]; cbn [flonum lt fext fval] in Z1, Z2; try tauto; [|left; exact Logic.I].
      pose proof (least_ok q Z1 Z2) as K. unfold le. cbn [fext lt same]. rewrite fval_abs. change (inject_Z 1) with 1%Q. rewrite Qmult_1_l. apply Qle_lteq, K.
    + split; [cbn [fext lt]; rewrite fval_abs; pose proof (mag_pos 1 (-1074)); cbn [fval]; lra|]. intros z Z1 Z2. destruct z as [q| | |]; cbn [flonum lt fext fval] in Z1, Z2; try tauto; [|left; exact Logic.I].
      pose proof (least_ok (- q) (representable_opp _ Z1) ltac:(lra)) as K. unfold le. cbn [fext lt same]. rewrite fval_abs. change (inject_Z 1) with 1%Q. rewrite Qmult_1_l. apply Qle_lteq. lra.
  - apply Fin3; [reflexivity|]. destruct greatest_ok as [G1 G2]. unfold fl_greatest in G1, G2.
    assert (B : SFltb (S754_infinity s) y = s).
    { destruct s, y as [?|[]| |[] ? ?]; try reflexivity; (discriminate Eq1 || congruence). }
    rewrite B. destruct s.
    + split; [exact Logic.I|]. intros z Z1 Z2. destruct z as [q| | |]; cbn [flonum lt fext] in Z1, Z2; try tauto; [|left; exact Logic.I].
      unfold le. cbn [fext lt same]. apply Qle_lteq. specialize (G2 (- q)%Q (representable_opp _ Z1)). pose proof (Qle_Qabs (- q)) as K. rewrite fval_abs in G2. rewrite fval_abs. lra.
    + split; [exact Logic.I|]. intros z Z1 Z2. destruct z as [q| | |]; cbn [flonum lt fext] in Z1, Z2; try tauto; [|left; exact Logic.I].
      unfold le. cbn [fext lt same]. apply Qle_lteq. specialize (G2 q Z1). pose proof (Qle_Qabs q) as K. lra.
  - destruct (steps s m e V) as [(A1 & A2) (B1 & B2)]. destruct (SFltb (S754_finite s m e) y) eqn:B; apply Fin3; destruct s; cbn [xorb] in *; assumption.
Qed.
Print Assumptions C109_adjacent.
Example C109_example_adjacent : fladjacent (of_q 0) (of_q 1) = of_q (p2 (-1074)) /\ fladjacent (of_q 1) (of_q 0) = of_q (1 - p2 (-53)) /\
  fladjacent (of_q (-1)) (S754_infinity true) = of_q (-1 - p2 (-52)) /\ fladjacent fl_greatest (S754_infinity false) = S754_infinity false.
Proof. repeat split; vm_compute; reflexivity. Qed.

(** fl-greatest is the largest finite flonum, and fl-epsilon the difference of 1.0 and the next flonum *)
Theorem C109_constants : vfloat fl_greatest /\ finite fl_greatest = true /\ (forall x, vfloat x -> finite x = true -> (fval x <= fval fl_greatest)%Q) /\
  (fval fl_epsilon == p2 (-52))%Q /\ next_above (Fin 1) (Fin (1 + fval fl_epsilon)).
Proof.
  destruct greatest_ok as [G1 G2]. split; [reflexivity|]. split; [reflexivity|]. split.
  { intros x V F. eapply Qle_trans; [apply Qle_Qabs|]. apply G2, fval_representable; assumption. }
  split; [vm_compute; reflexivity|].
  assert (V1 : vfloat (of_q 1)) by apply of_q_valid. destruct (C109_adjacent (of_q 1) (of_q 2) V1 ltac:(apply of_q_valid) ltac:(discriminate) ltac:(discriminate)) as (_ & A & _).
  assert (L : lt (fext (of_q 1)) (fext (of_q 2))) by (vm_compute; reflexivity). specialize (A L).
  refine (proj1 (next_same _ _ _ _ _ _) A); vm_compute; reflexivity.
Qed.
Print Assumptions C109_constants.
(** fl-least is not the smallest positive flonum but the smallest normalised one: half of it, and (fladjacent 0.0 1.0), are
    smaller. The test that compares the latter with fl-least passes because = allows for an error of 2^-52. *)
Theorem C109_least_refuted :
  (exists x, vfloat x /\ finite x = true /\ (0 < fval x)%Q /\ (fval x < fval fl_least)%Q /\ x = fladjacent (of_q 0) (of_q 1)) /\
  s_equal (Flo (fladjacent (of_q 0) (of_q 1))) (Flo fl_least) = Ok true /\ s_less (Flo (fladjacent (of_q 0) (of_q 1))) (Flo fl_least) = Ok true.
Proof.
  split; [eexists; split; [|split; [|split; [|split; [|reflexivity]]]]; vm_compute; reflexivity|]. split; vm_compute; reflexivity.
Qed.
Print Assumptions C109_least_refuted.
Theorem C109_least_normalized : forall x, vfloat x -> flnormalized x = true -> (fval fl_least <= Qabs (fval x))%Q.
Proof.
  intros x V H. apply C109_normalized in H; [|exact V]. destruct H as [_ H]. eapply Qle_trans; [|exact H]. vm_compute. discriminate.
Qed.
Print Assumptions C109_least_normalized.

(** NaN, and the results of flinteger-exponent and flnormalized-fraction-exponent that C leaves to the implementation *)
Theorem C109_nan : forall x n, fladjacent S754_nan x = S754_nan /\ fladjacent x S754_nan = S754_nan /\ make_flonum S754_nan n = S754_nan /\
  flcopysign S754_nan x = S754_nan /\ flinteger_fraction S754_nan = (S754_nan, S754_nan) /\ fst (flnormalized_fraction_exponent S754_nan) = S754_nan /\
  flnormalized S754_nan = false /\ fldenormalized S754_nan = false.
Proof. intros x n. repeat split; destruct x; reflexivity. Qed.
Print Assumptions C109_nan.
Theorem C109_fraction_special : forall s, flnormalized_fraction_exponent (S754_zero s) = (S754_zero s, 0) /\ fst (flnormalized_fraction_exponent (S754_infinity s)) = S754_infinity s.
Proof. intros s. split; reflexivity. Qed.
Print Assumptions C109_fraction_special.

(** ** C110 Comparing, differences, remainders and roots *)
(** flmax and flmin: the greatest and the least of the arguments that are not NaN *)
Lemma fext_nan f : fext f = NaN <-> f = S754_nan.
Proof. destruct f as [s|[]| |s m e]; cbn; split; congruence. Qed.
Lemma le_refl x : x <> NaN -> le x x.
Proof. destruct x; intros N; unfold le; cbn; try tauto; [right; reflexivity]. Qed.
Lemma le_trans x y z : le x y -> le y z -> le x z.
Proof. unfold le. destruct x, y, z; cbn; try tauto. intros A B. apply Qle_lteq. apply Qle_trans with q0; apply Qle_lteq; assumption. Qed.
Lemma lt_total x y : x <> NaN -> y <> NaN -> ~ lt x y -> le y x.
Proof. intros A B. unfold le. destruct x, y; cbn; try tauto; try congruence. intros H. apply Qle_lteq, Qnot_lt_le, H. Qed.
Lemma fmax_ok x y : vfloat x -> vfloat y -> vfloat (fmax x y) /\ (x <> S754_nan -> fmax x y <> S754_nan /\ le (fext x) (fext (fmax x y)) /\
  (y <> S754_nan -> le (fext y) (fext (fmax x y))) /\ (fmax x y = x \/ fmax x y = y /\ y <> S754_nan)).
Proof.
  intros V W. pose proof (ltb_iff x y V W) as L. assert (Nan : forall f, f <> S754_nan -> fext f <> NaN) by (intros f H K; apply H, fext_nan, K).
  assert (E : x <> S754_nan -> y <> S754_nan -> fmax x y = if SFltb x y then y else x) by (intros; destruct x, y; try congruence; reflexivity).
  assert (D : {y = S754_nan} + {y <> S754_nan}) by (destruct y; (left; reflexivity) || (right; discriminate)).
  assert (Dx : {x = S754_nan} + {x <> S754_nan}) by (destruct x; (left; reflexivity) || (right; discriminate)).
  destruct Dx as [-> |Nx]; [split; [exact W|congruence]|]. destruct D as [-> |Ny].
  - assert (F : fmax x S754_nan = x) by (destruct x; reflexivity). rewrite F. split; [exact V|]. intros _. split; [exact Nx|]. split; [apply le_refl, Nan, Nx|]. split; [congruence|auto].
  - rewrite (E Nx Ny). destruct (SFltb x y) eqn:B.
    + split; [exact W|]. intros _. split; [exact Ny|]. split; [left; tauto|]. split; [intros _; apply le_refl, Nan, Ny|auto].
    + split; [exact V|]. intros _. split; [exact Nx|]. split; [apply le_refl, Nan, Nx|]. split; [|auto]. intros _.
      apply lt_total; [apply Nan; assumption..|]. intros H. apply L in H. congruence.
Qed.
Lemma fmin_ok x y : vfloat x -> vfloat y -> vfloat (fmin x y) /\ (x <> S754_nan -> fmin x y <> S754_nan /\ le (fext (fmin x y)) (fext x) /\
  (y <> S754_nan -> le (fext (fmin x y)) (fext y)) /\ (fmin x y = x \/ fmin x y = y /\ y <> S754_nan)).
Proof.
  intros V W. pose proof (ltb_iff y x W V) as L. assert (Nan : forall f, f <> S754_nan -> fext f <> NaN) by (intros f H K; apply H, fext_nan, K).
  assert (E : x <> S754_nan -> y <> S754_nan -> fmin x y = if SFltb y x then y else x) by (intros; destruct x, y; try congruence; reflexivity).
  assert (D : {y = S754_nan} + {y <> S754_nan}) by (destruct y; (left; reflexivity) || (right; discriminate)).
  assert (Dx : {x = S754_nan} + {x <> S754_nan}) by (destruct x; (left; reflexivity) || (right; discriminate)).
  destruct Dx as [-> |Nx]; [split; [exact W|congruence]|]. destruct D as [-> |Ny].
  - assert (F : fmin x S754_nan = x) by (destruct x; reflexivity). rewrite F. split; [exact V|]. intros _. split; [exact Nx|]. split; [apply le_refl, Nan, Nx|]. split; [congruence|auto].
  - rewrite (E Nx Ny). destruct (SFltb y x) eqn:B.
    + split; [exact W|]. intros _. split; [exact Ny|]. split; [left; tauto|]. split; [intros _; apply le_refl, Nan, Ny|auto].
    + split; [exact V|]. intros _. split; [exact Nx|]. split; [apply le_refl, Nan, Nx|]. split; [|auto]. intros _.
      apply lt_total; [apply Nan; assumption..|]. intros H. apply L in H. congruence.
Qed.
Theorem C110_max : forall xs, Forall vfloat xs -> let r := flmax xs in
  vfloat r /\ r <> S754_nan /\ (forall x, In x xs -> x <> S754_nan -> le (fext x) (fext r)) /\
  (In r xs \/ r = S754_infinity true).
Proof.
  intros xs H. unfold flmax. cbv zeta.
  enough (G : forall xs a, Forall vfloat xs -> vfloat a -> a <> S754_nan -> let r := fold_left fmax xs a in
    vfloat r /\ r <> S754_nan /\ le (fext a) (fext r) /\ (forall x, In x xs -> x <> S754_nan -> le (fext x) (fext r)) /\ (In r xs \/ r = a)).
  { destruct (G xs (S754_infinity true) H eq_refl ltac:(discriminate)) as (A & B & _ & C & D). tauto. }
  clear. induction xs as [|x xs IH]; intros a F V N; cbn [fold_left].
  - split; [exact V|]. split; [exact N|]. split; [apply le_refl; intros K; apply N, fext_nan, K|]. split; [intros ? []|auto].
  - inversion F as [|? ? Vx Fx]; subst. destruct (fmax_ok a x V Vx) as [A B]. destruct (B N) as (B1 & B2 & B3 & B4).
    destruct (IH (fmax a x) Fx A B1) as (C1 & C2 & C3 & C4 & C5). set (r := fold_left fmax xs (fmax a x)) in *.
    split; [exact C1|]. split; [exact C2|]. split; [eapply le_trans; [exact B2|exact C3]|]. split.
    + intros z [<- |Hz] Nz; [eapply le_trans; [exact (B3 Nz)|exact C3]|auto].
    + destruct C5 as [C5|C5]; [left; right; exact C5|]. destruct B4 as [B4|[B4 _]]; rewrite B4 in C5; [right; exact C5|left; left; symmetry; exact C5].
Qed.
Print Assumptions C110_max.
Theorem C110_min : forall xs, Forall vfloat xs -> let r := flmin xs in
  vfloat r /\ r <> S754_nan /\ (forall x, In x xs -> x <> S754_nan -> le (fext r) (fext x)) /\
  (In r xs \/ r = S754_infinity false).
Proof.
  intros xs H. unfold flmin. cbv zeta.
  enough (G : forall xs a, Forall vfloat xs -> vfloat a -> a <> S754_nan -> let r := fold_left fmin xs a in
    vfloat r /\ r <> S754_nan /\ le (fext r) (fext a) /\ (forall x, In x xs -> x <> S754_nan -> le (fext r) (fext x)) /\ (In r xs \/ r = a)).
  { destruct (G xs (S754_infinity false) H eq_refl ltac:(discriminate)) as (A & B & _ & C & D). tauto. }
  clear. induction xs as [|x xs IH]; intros a F V N; cbn [fold_left].
  - split; [exact V|]. split; [exact N|]. split; [apply le_refl; intros K; apply N, fext_nan, K|]. split; [intros ? []|auto].
  - inversion F as [|? ? Vx Fx]; subst. destruct (fmin_ok a x V Vx) as [A B]. destruct (B N) as (B1 & B2 & B3 & B4).
    destruct (IH (fmin a x) Fx A B1) as (C1 & C2 & C3 & C4 & C5). set (r := fold_left fmin xs (fmin a x)) in *.
    split; [exact C1|]. split; [exact C2|]. split; [eapply le_trans; [exact C3|exact B2]|]. split.
    + intros z [<- |Hz] Nz; [eapply le_trans; [exact C3|exact (B3 Nz)]|auto].
    + destruct C5 as [C5|C5]; [left; right; exact C5|]. destruct B4 as [B4|[B4 _]]; rewrite B4 in C5; [right; exact C5|left; left; symmetry; exact C5].
Qed.
Print Assumptions C110_min.
(** with NaN only, or with no argument, the result is an infinity that is not an argument *)
Theorem C110_max_nan_refuted : flmax [S754_nan] = S754_infinity true /\ flmin [S754_nan] = S754_infinity false.
Proof. split; reflexivity. Qed.
Print Assumptions C110_max_nan_refuted.
Example C110_example_max : flmax [of_q 1; S754_nan; of_q 3; of_q (-2)] = of_q 3 /\ flmin [of_q 1; S754_nan; of_q 3; of_q (-2)] = of_q (-2).
Proof. split; vm_compute; reflexivity. Qed.

(** flunordered?: neither less, nor equal, nor greater *)
Theorem C110_unordered : forall x y, vfloat x -> vfloat y ->
  (flunordered x y = true <-> ~ lt (fext x) (fext y) /\ ~ same (fext x) (fext y) /\ ~ lt (fext y) (fext x)).
Proof.
  intros x y V W.
  assert (E : flunordered x y = true <-> fext x = NaN \/ fext y = NaN).
  { rewrite !fext_nan. unfold flunordered. destruct x, y; cbn; split; intros H; try discriminate; auto; destruct H; congruence. }
  rewrite E. destruct (fext x), (fext y); cbn; split; try tauto; try (intros [H|H]; discriminate); intros (A & B & C); exfalso; try tauto.
  apply B. apply Qle_antisym; apply Qnot_lt_le; assumption.
Qed.
Print Assumptions C110_unordered.
Example C110_example_unordered : flunordered S754_nan (of_q 1) = true /\ flunordered (of_q 1) (S754_infinity false) = false.
Proof. split; reflexivity. Qed.

(** flabsdiff and flposdiff: the magnitude of the rounded difference, and that difference if it is positive, otherwise 0 *)
Definition magnitude (x r : ext) : Prop := match x with Fin a => same (Fin (Qabs a)) r | NaN => r = NaN | _ => r = PInf end.
Theorem C110_differences : forall x y, vfloat x -> vfloat y -> exists d,
  vfloat (flabsdiff x y) /\ vfloat (flposdiff x y) /\
  difference_of (fext x) (fext y) d /\ magnitude d (fext (flabsdiff x y)) /\
  (lt (Fin 0) d -> fext (flposdiff x y) = d) /\ (le d (Fin 0) -> same (fext (flposdiff x y)) (Fin 0)).
Proof.
  intros x y V W. destruct (double_sub x y V W) as [A B]. unfold flabsdiff, flposdiff. set (d := SFsub prec emax x y) in *. clearbody d. exists (fext d).
  split; [destruct d; exact A|]. split; [apply C110_max; repeat constructor; assumption|]. split; [exact B|]. split.
  - destruct d as [s|[]| |s m e]; try reflexivity. cbn [fext SFabs magnitude same]. rewrite abs_fval, fval_abs. reflexivity.
  - unfold flmax. cbn [fold_left].
    assert (E1 : fmax (S754_infinity true) d = match d with S754_nan => S754_infinity true | _ => d end) by (destruct d as [|[]| |[] m e]; reflexivity).
    rewrite E1. assert (Z0 : vfloat (S754_zero false)) by reflexivity. pose proof (ltb_iff d (S754_zero false) A Z0) as L. split; intros H.
    + destruct d as [s|[]| |[] m e]; cbn [fext lt fval] in H; try contradiction; try reflexivity.
      exfalso. destruct (fval_nonzero true m e) as [_ P]. exact (Qlt_irrefl _ (Qlt_trans _ _ _ H P)).
    + destruct d as [s|[]| |[] m e]; try (unfold le in H; cbn [fext lt same] in H; tauto); try (vm_compute; reflexivity).
      exfalso. destruct (fval_nonzero false m e) as [_ P]. unfold le in H. cbn [fext lt same] in H. set (w := fval _) in *. clearbody w. destruct H; lra.
Qed.
Print Assumptions C110_differences.
(** C's fdim, which flposdiff stands for in SRFI 144, is NaN if an argument is; here the answer is 0.0 *)
Theorem C110_posdiff_nan_refuted : forall x y, x = S754_nan \/ y = S754_nan -> flposdiff x y = S754_zero false.
Proof. intros x y [-> | ->]; [reflexivity|destruct x; reflexivity]. Qed.
Print Assumptions C110_posdiff_nan_refuted.
Example C110_example_differences : flposdiff (of_q 5) (of_q 3) = of_q 2 /\ flposdiff (of_q 3) (of_q 5) = of_q 0 /\ flabsdiff (of_q 3) (of_q 5) = of_q 2.
Proof. repeat split; vm_compute; reflexivity. Qed.

(** flremquo: x - n y, exactly, for the integer n nearest to x / y, and the sign and at least the three last binary digits of n *)
Lemma nearest_even_ok q : (Qabs (q - inject_Z (nearest_even q)) <= 1 # 2)%Q /\ ((Qabs (q - inject_Z (nearest_even q)) == 1 # 2)%Q -> Z.Even (nearest_even q)).
Proof.
  unfold nearest_even. pose proof (Qfloor_le q) as A. pose proof (Qlt_floor q) as B. set (z := Qfloor q) in *. clearbody z. rewrite inject_Z_plus in B. change (inject_Z 1) with 1%Q in B.
  destruct (Qcompare (q - inject_Z z) (1 # 2)) eqn:C.
  - apply Qeq_alt in C. destruct (Z.even z) eqn:Ev.
    + apply Z.even_spec in Ev. split; [rewrite Qabs_pos by lra; lra|auto].
    + rewrite inject_Z_plus. change (inject_Z 1) with 1%Q. split; [rewrite Qabs_neg by lra; lra|]. intros _. apply Z.even_spec. rewrite Z.even_add, Ev. reflexivity.
  - apply Qlt_alt in C. rewrite Qabs_pos by lra. split; [lra|]. intros H. lra.
  - apply Qgt_alt in C. rewrite inject_Z_plus. change (inject_Z 1) with 1%Q. rewrite Qabs_neg by lra. split; [lra|]. intros H. lra.
Qed.
Lemma rest_representable x y n : representable x -> representable y -> (Qabs (x - inject_Z n * y) <= Qabs x)%Q -> (Qabs (x - inject_Z n * y) <= Qabs y)%Q -> representable (x - inject_Z n * y).
Proof.
  intros (a & e1 & X1 & X2 & X3) (b & e2 & Y1 & Y2 & Y3) R2 R1. change (Qpower 2 e1) with (p2 e1) in X1. change (Qpower 2 e2) with (p2 e2) in Y1. set (r := (x - inject_Z n * y)%Q) in *.
  assert (K : forall k e, (r == inject_Z k * p2 e)%Q -> forall c, (Qabs r <= inject_Z (Z.abs c) * p2 e)%Q -> Z.abs k <= Z.abs c).
  { intros k e H c L. rewrite H, abs_scaled in L. apply Qmult_le_r in L; [|apply p2_pos]. rewrite <- inject_le in L. exact L. }
  destruct (Z_le_gt_dec e1 e2) as [L|G].
  - assert (H : (r == inject_Z (a - n * (b * 2 ^ (e2 - e1))) * p2 e1)%Q).
    { unfold r. rewrite X1, Y1. unfold Z.sub at 1. rewrite inject_Z_plus, inject_Z_opp, !inject_Z_mult.
      rewrite <- (p2_Z (e2 - e1)) by lia. replace e2 with (e2 - e1 + e1) at 1 by lia. rewrite p2_add. ring. }
    exists (a - n * (b * 2 ^ (e2 - e1))), e1. split; [exact H|]. split; [|lia].
    assert (Z.abs (a - n * (b * 2 ^ (e2 - e1))) <= Z.abs a); [|lia]. apply (K _ e1 H). rewrite <- abs_scaled, <- X1. exact R2.
  - assert (H : (r == inject_Z (a * 2 ^ (e1 - e2) - n * b) * p2 e2)%Q).
    { unfold r. rewrite X1, Y1. unfold Z.sub at 1. rewrite inject_Z_plus, inject_Z_opp, !inject_Z_mult.
      rewrite <- (p2_Z (e1 - e2)) by lia. replace e1 with (e1 - e2 + e2) at 1 by lia. rewrite p2_add. ring. }
    exists (a * 2 ^ (e1 - e2) - n * b), e2. split; [exact H|]. split; [|lia].
    assert (Z.abs (a * 2 ^ (e1 - e2) - n * b) <= Z.abs b); [|lia]. apply (K _ e2 H). rewrite <- abs_scaled, <- Y1. exact R1.
Qed.
Lemma signbit_value x : finite x = true -> ~ (fval x == 0)%Q -> (if signbit x then fval x < 0 else 0 < fval x)%Q.
Proof. destruct x as [s|s| |s m e]; try discriminate; intros _ N; [exfalso; apply N; reflexivity|]. apply fval_nonzero. Qed.
Theorem C110_remquo : forall x y, vfloat x -> vfloat y -> finite x = true -> finite y = true -> ~ (fval y == 0)%Q ->
  let '(r, q) := flremquo x y in exists n,
  vfloat r /\ finite r = true /\ (fval x == inject_Z n * fval y + fval r)%Q /\
  (2 * Qabs (fval r) <= Qabs (fval y))%Q /\ ((2 * Qabs (fval r) == Qabs (fval y))%Q -> Z.Even n) /\
  (q mod 8 = n mod 8 /\ Z.abs q < 8 /\ 0 <= q * n).
Proof.
  intros x y V1 V2 F1 F2 N. unfold flremquo.
  set (n := nearest_even (fval x / fval y)%Q).
  assert (E : ieee_remainder x y = minus_multiple x n y).
  { unfold ieee_remainder, remainder_by, n. destruct x, y; try discriminate; try reflexivity; exfalso; apply N; reflexivity. }
  assert (Eq1 : match x, y with
   | S754_nan, _ | _, S754_nan | S754_infinity _, _ | _, S754_zero _ | _, S754_infinity _ => 0
   | _, _ => (if xorb (signbit x) (signbit y) then -1 else 1) * (Z.abs n mod 8) end = (if xorb (signbit x) (signbit y) then -1 else 1) * (Z.abs n mod 8)).
  { destruct x, y; try discriminate; try reflexivity; exfalso; apply N; reflexivity. }
  rewrite E, Eq1. clear E Eq1. exists n.
  destruct (nearest_even_ok (fval x / fval y)) as [A B]. fold n in A, B.
  set (r := (fval x - inject_Z n * fval y)%Q).
  assert (R : (r == (fval x / fval y - inject_Z n) * fval y)%Q) by (unfold r; field; exact N).
  assert (Y : (0 < Qabs (fval y))%Q).
  { destruct (Qlt_le_dec 0 (Qabs (fval y))) as [L|L]; [exact L|]. exfalso. apply N. apply Qabs_Qle_condition in L. lra. }
  assert (Ra : (Qabs r == Qabs (fval x / fval y - inject_Z n) * Qabs (fval y))%Q) by (rewrite R; apply Qabs_Qmult).
  assert (R1 : (2 * Qabs r <= Qabs (fval y))%Q) by (rewrite Ra; nra).
  assert (R2 : (Qabs r <= Qabs (fval x))%Q).
  { destruct (Z.eq_dec n 0) as [E|E].
    - unfold r. rewrite E. change (inject_Z 0) with 0%Q. rewrite Qmult_0_l. unfold Qminus. rewrite Qplus_0_r. apply Qle_refl.
    - assert (X : (Qabs (fval x) == Qabs (fval x / fval y) * Qabs (fval y))%Q) by (rewrite <- Qabs_Qmult; apply Qabs_wd; field; exact N).
      assert (H1 : (1 <= Qabs (inject_Z n))%Q) by (rewrite abs_inject; change 1%Q with (inject_Z 1); rewrite <- inject_le; lia).
      pose proof (Qabs_triangle (inject_Z n - fval x / fval y) (fval x / fval y)) as T.
      setoid_replace (inject_Z n - fval x / fval y + fval x / fval y)%Q with (inject_Z n) in T by ring. rewrite (Qabs_Qminus (inject_Z n)) in T.
      assert (1 # 2 <= Qabs (fval x / fval y))%Q by lra. rewrite X. nra. }
  assert (Rep : representable r).
  { apply rest_representable; [apply fval_representable; assumption..|exact R2|]. fold r. lra. }
  assert (Sg : n <> 0 -> (if xorb (signbit x) (signbit y) then n < 0 else 0 < n)).
  { intros Nz. assert (H : (0 < inject_Z n * (fval x / fval y))%Q).
    { apply Qabs_Qle_condition in A. destruct (Z_lt_ge_dec 0 n) as [L|L].
      - assert (1 <= inject_Z n)%Q by (change 1%Q with (inject_Z 1); rewrite <- inject_le; lia). nra.
      - assert (inject_Z n <= -1)%Q by (change (-1)%Q with (inject_Z (-1)); rewrite <- inject_le; lia). nra. }
    assert (Nx : ~ (fval x == 0)%Q). { intros Hx. rewrite Hx in H. unfold Qdiv in H. rewrite Qmult_0_l, Qmult_0_r in H. lra. }
    pose proof (signbit_value x F1 Nx) as Sx. pose proof (signbit_value y F2 N) as Sy.
    assert (H' : (0 < inject_Z n * (fval x * fval y))%Q).
    { setoid_replace (inject_Z n * (fval x * fval y))%Q with (inject_Z n * (fval x / fval y) * (fval y * fval y))%Q by (field; exact N).
      apply Qmult_lt_0_compat; [exact H|]. destruct (signbit y); nra. }
    destruct (Z_lt_ge_dec 0 n) as [L|L].
    - assert (P : (0 < inject_Z n)%Q) by (change 0%Q with (inject_Z 0); rewrite <- inject_lt; lia).
      destruct (signbit x), (signbit y); cbn [xorb]; try lia; exfalso;
        assert ((fval x * fval y < 0)%Q) by nra; nra.
    - assert (P : (inject_Z n < 0)%Q) by (change 0%Q with (inject_Z 0); rewrite <- inject_lt; lia).
      destruct (signbit x), (signbit y); cbn [xorb]; try lia; exfalso;
        assert ((0 < fval x * fval y)%Q) by nra; nra. }
  assert (Q8 : let q := (if xorb (signbit x) (signbit y) then -1 else 1) * (Z.abs n mod 8) in q mod 8 = n mod 8 /\ Z.abs q < 8 /\ 0 <= q * n).
  { cbv zeta. pose proof (Z.mod_pos_bound (Z.abs n) 8 ltac:(lia)) as Bm. destruct (Z.eq_dec n 0) as [E|E]; [rewrite E; destruct (xorb _ _); cbn; lia|]. specialize (Sg E).
    destruct (xorb (signbit x) (signbit y)).
    - split; [|split; [lia|nia]]. rewrite <- Z.mul_mod_idemp_r by lia. rewrite Z.mod_mod by lia. rewrite Z.mul_mod_idemp_r by lia. f_equal. lia.
    - split; [|split; [lia|nia]]. rewrite Z.mul_1_l, Z.mod_mod by lia. f_equal. lia. }
  assert (Done : forall g, vfloat g -> finite g = true -> (fval g == r)%Q -> vfloat g /\ finite g = true /\ (fval x == inject_Z n * fval y + fval g)%Q /\
    (2 * Qabs (fval g) <= Qabs (fval y))%Q /\ ((2 * Qabs (fval g) == Qabs (fval y))%Q -> Z.Even n) /\
    (let q := (if xorb (signbit x) (signbit y) then -1 else 1) * (Z.abs n mod 8) in q mod 8 = n mod 8 /\ Z.abs q < 8 /\ 0 <= q * n)).
  { intros g G1 G2 G3. split; [exact G1|]. split; [exact G2|]. split; [rewrite G3; unfold r; ring|]. split; [rewrite G3; exact R1|]. split; [|exact Q8].
    rewrite G3. intros H. apply B. rewrite Ra in H. set (u := Qabs (fval x / fval y - inject_Z n)) in *. clearbody u. nra. }
  unfold minus_multiple. fold r. destruct (Qnum (Qred r) =? 0) eqn:E0.
  - apply Done; try reflexivity. apply Z.eqb_eq in E0. rewrite <- (Qred_correct r). cbn [fval]. unfold Qeq. rewrite E0. reflexivity.
  - rewrite (of_q_comp _ _ (Qred_correct r)). destruct (of_q_representable r Rep). apply Done; [apply of_q_valid|assumption..].
Qed.
Print Assumptions C110_remquo.
Theorem C110_remquo_special : forall x y, fst (flremquo S754_nan y) = S754_nan /\ fst (flremquo x S754_nan) = S754_nan /\
  (forall s, fst (flremquo (S754_infinity s) y) = S754_nan) /\ (forall s, fst (flremquo x (S754_zero s)) = S754_nan) /\
  (forall s, finite x = true -> flremquo x (S754_infinity s) = (x, 0)).
Proof.
  intros x y. repeat split; try (destruct x; reflexivity); try (destruct y; reflexivity); intros s; try (destruct x; reflexivity); try (destruct y; reflexivity).
  intros F. destruct x; try discriminate; reflexivity.
Qed.
Print Assumptions C110_remquo_special.
Example C110_example_remquo : flremquo (of_q 29) (of_q 3) = (of_q (-1), 2) /\ flremquo (of_q (-5)) (of_q 2) = (of_q (-1), -2).
Proof. split; vm_compute; reflexivity. Qed.

(** flquotient is the quotient rounded and then truncated: one too many for large integers *)
Theorem C110_quotient_partial : forall x y, vfloat x -> vfloat y -> finite x = true -> finite y = true -> ~ (fval y == 0)%Q ->
  exists q, rounds_to (fval x / fval y) (fext q) /\ vfloat (flquotient x y) /\
    (if finite q then exists v, fext (flquotient x y) = Fin v /\ (v == inject_Z (trunc_z (fval q)))%Q else flquotient x y = q).
Proof.
  intros x y V W F G N. destruct (double_div x y V W) as [A B]. rewrite (fext_finite x F), (fext_finite y G) in B. destruct B as [B _].
  exists (SFdiv prec emax x y). split; [exact (B N)|]. exact (rounded_trunc _ A).
Qed.
Print Assumptions C110_quotient_partial.
Theorem C110_quotient_refuted : let x := of_q (inject_Z 49953024300641488) in let y := of_q 6 in
  (fval x == inject_Z 49953024300641488)%Q /\ (fval y == 6)%Q /\ 49953024300641488 / 6 = 8325504050106914 /\ (fval (flquotient x y) == inject_Z 8325504050106915)%Q.
Proof. repeat split; vm_compute; reflexivity. Qed.
Print Assumptions C110_quotient_refuted.
Example C110_example_quotient : flquotient (of_q (-7)) (of_q 2) = of_q (-3).
Proof. vm_compute. reflexivity. Qed.

(** flhypot squares its arguments: its result overflows for numbers whose hypotenuse is a flonum *)
Theorem C110_hypot_refuted : let x := of_q (3 * p2 700) in let y := of_q (4 * p2 700) in
  (fval x == 3 * p2 700)%Q /\ (fval y == 4 * p2 700)%Q /\ representable (5 * p2 700) /\ (5 * p2 700 * (5 * p2 700) == fval x * fval x + fval y * fval y)%Q /\
  flhypot x y = Ok (Real (Flo (S754_infinity false))).
Proof.
  cbv zeta. split; [vm_compute; reflexivity|]. split; [vm_compute; reflexivity|]. split; [exists 5, 700; split; [reflexivity|lia]|]. split; [vm_compute; reflexivity|]. vm_compute. reflexivity.
Qed.
Print Assumptions C110_hypot_refuted.
(** In part: flhypot is flsqrt of the rounded sum of the rounded products 1 x x and 1 y y; it is not near to the hypotenuse if these are too large or too small, see above *)
Theorem C110_hypot_partial : forall x y, vfloat x -> vfloat y -> exists x1 a y1 b a1 s,
  product_of (fext (of_q 1)) (fext x) (fext x1) /\ product_of (fext x1) (fext x) (fext a) /\ product_of (fext (of_q 1)) (fext y) (fext y1) /\ product_of (fext y1) (fext y) (fext b) /\
  sum_of (fext (of_q 0)) (fext a) (fext a1) /\ sum_of (fext a1) (fext b) (fext s) /\ vfloat s /\ flhypot x y = flsqrt s.
Proof.
  intros x y V W. assert (O1 : vfloat (of_q 1)) by apply of_q_valid. assert (O0 : vfloat (of_q 0)) by apply of_q_valid.
  destruct (double_mul (of_q 1) x O1 V) as [A1 A2]. destruct (double_mul _ x A1 V) as [B1 B2]. destruct (double_mul (of_q 1) y O1 W) as [C1 C2]. destruct (double_mul _ y C1 W) as [D1 D2].
  destruct (double_add (of_q 0) _ O0 B1) as [E1 E2]. destruct (double_add _ _ E1 D1) as [F1 F2]. do 6 eexists.
  split; [exact A2|]. split; [exact B2|]. split; [exact C2|]. split; [exact D2|]. split; [exact E2|]. split; [exact F2|]. split; [exact F1|]. reflexivity.
Qed.
Print Assumptions C110_hypot_partial.
Example C110_example_hypot : flhypot (of_q 3) (of_q 4) = Ok (Real (Flo (of_q 5))).
Proof. vm_compute. reflexivity. Qed.
(** flsqrt of a negative number is not a flonum but an imaginary number; SRFI 144 asks for NaN *)
Theorem C110_sqrt_refuted : flsqrt (of_q (-4)) = Ok (Imaginary (Flo (of_q 2))).
Proof. vm_compute. reflexivity. Qed.
Print Assumptions C110_sqrt_refuted.
(** flcbrt of a negative number is NaN if, as in C, a negative number has no power of an exponent that is not an integer *)
Theorem C110_cbrt_refuted : forall pow, (forall f g, (fval f < 0)%Q -> finite f = true -> finite g = true -> (forall z, ~ (fval g == inject_Z z)%Q) -> pow f g = S754_nan) ->
  flcbrt pow (of_q (-8)) = Ok (Flo S754_nan).
Proof.
  intros pow H. assert (E : flcbrt pow (of_q (-8)) = Ok (Flo (pow (of_q (-8)) (of_q (1 # 3))))) by (vm_compute; reflexivity).
  rewrite E. rewrite H; [reflexivity|vm_compute; reflexivity|vm_compute; reflexivity|vm_compute; reflexivity|].
  intros z K. assert (A : (0 < fval (of_q (1 # 3)))%Q) by (vm_compute; reflexivity). assert (B : (fval (of_q (1 # 3)) < 1)%Q) by (vm_compute; reflexivity).
  rewrite K in A, B. change 0%Q with (inject_Z 0) in A. change 1%Q with (inject_Z 1) in B. rewrite <- inject_lt in A, B. lia.
Qed.
Print Assumptions C110_cbrt_refuted.
