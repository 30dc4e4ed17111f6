(** Properties C112 and C113: which flonums decimal literals are read as, and that flonums are read as they were written.
    The model is in Decimal.v, the specification in DecimalSpec.v and RoundingSpec.v. *)
From Coq Require Import String ZArith QArith Qreduction Qround Qabs Qpower Zpow_facts Znumtheory Lia Lqa ZifyBool List Bool Floats.SpecFloat.
From Verif Require Import Number NumberProofs NumberRounding Flonum FlonumProofs FlonumSpec FlonumProofs2 FlonumProofs3 RoundingSpec FlonumRound.
From Verif Require Import FlonumArith PropertiesFlonumArith NumberText DecimalSpec Decimal DecimalProofs DecimalWrite.
From Verif Require Reader Writer.
Import ListNotations.
Open Scope Z_scope.

(** ** C112: a literal with a point or an exponent is read as the flonum that is nearest to what it denotes, with its sign *)
(** What is missing: numbers that are too small, see C112_out_of_range and C112_small_refuted *)
Theorem C112_decimal_partial : forall s n q, denotes s n q -> inexact_literal s -> (Qabs q < limit)%Q ->
  representable q \/ (Qpower 2 (-1022) - Qpower 2 (-1076) <= Qabs q)%Q ->
  exists f, make_real s 10 = Read (Flo f) /\ vfloat f /\ sign_of f = n /\ rounds_to q (fext f).
Proof.
  intros s n q D I0 L C. destruct (make_real_literal s n q D I0) as (q' & P & E & M).
  assert (Ea : (Qabs q == q')%Q) by (rewrite E; apply signed_abs', P). rewrite Ea in L, C.
  destruct (round_decimal_ok n q' P L) as (f & A & V & F & S0 & R).
  - destruct C as [C|C]; [left|right; exact C]. apply representable_comp with (Qabs q); [exact Ea|].
    destruct (Qabs_case' q) as [[_ K]|[_ K]]; (eapply representable_comp; [symmetry; exact K|]); [exact C|apply representable_opp, C].
  - exists f. rewrite M, A. split; [reflexivity|]. split; [exact V|]. split; [exact S0|]. eapply rounds_to_comp; [symmetry; exact E|exact R].
Qed.
Print Assumptions C112_decimal_partial.
(** 1.5e3 is 1500.0, -.25 is -0.25, and 0.1 the flonum nearest to 1/10 *)
Example C112_example_denotes : denotes (Writer.codes "1.5e3") false 1500 /\ denotes (Writer.codes "-.25") true (-1 # 4).
Proof.
  split.
  - exists [], (Writer.codes "1.5"), [49], [53], (Writer.codes "e3"), 3. split; [reflexivity|]. split; [constructor|]. split; [apply (mantissa_point [49] [53]); try discriminate; repeat (constructor; [unfold digit; lia|]); constructor|].
    split; [apply (suffix_exponent 101 [] false [51]); [left; reflexivity|constructor|discriminate|constructor; [unfold digit; lia|constructor]]|reflexivity].
  - exists [45], (Writer.codes ".25"), [], [50; 53], [], 0. split; [reflexivity|]. split; [constructor|]. split; [apply (mantissa_point [] [50; 53]); try discriminate; repeat (constructor; [unfold digit; lia|]); constructor|].
    split; [constructor|reflexivity].
Qed.
Example C112_example : make_real (Writer.codes "1.5e3") 10 = Read (Flo (of_q 1500)) /\ make_real (Writer.codes "-.25") 10 = Read (Flo (of_q (-1 # 4))) /\
  make_real (Writer.codes "0.1") 10 = Read (Flo (S754_finite false 7205759403792794 (-56))) /\ make_real (Writer.codes "-0.0") 10 = Read (Flo (S754_zero true)) /\
  make_real (Writer.codes "1e23") 10 = Read (Flo (S754_finite false 5960464477539062 24)).
Proof. repeat split; vm_compute; reflexivity. Qed.
(** Literals of numbers that are too large are refused, and so are literals of numbers below 2^-1022 that are not flonums *)
Theorem C112_out_of_range : forall s n q, denotes s n q -> inexact_literal s ->
  (limit <= Qabs q)%Q \/ (~ representable q /\ (Qabs q < Qpower 2 (-1022) - Qpower 2 (-1076))%Q) -> make_real s 10 = Out_of_range.
Proof.
  intros s n q D I0 C. destruct (make_real_literal s n q D I0) as (q' & P & E & M).
  assert (Ea : (Qabs q == q')%Q) by (rewrite E; apply signed_abs', P). rewrite Ea in C. rewrite M, round_decimal_range; [reflexivity|exact P|].
  destruct C as [C|[C C']]; [left; exact C|right; split; [|exact C']]. intros R. apply C. apply representable_comp with (signed n q'); [symmetry; exact E|]. destruct n; [apply representable_opp|]; exact R.
Qed.
Print Assumptions C112_out_of_range.
(** 1e-320 is not read, although there are flonums near to it *)
Theorem C112_small_refuted : denotes (Writer.codes "1e-320") false (Qpower 10 (-320)) /\ (exists f, vfloat f /\ finite f = true /\ rounds_to (Qpower 10 (-320)) (fext f)) /\
  make_real (Writer.codes "1e-320") 10 = Out_of_range.
Proof.
  split; [|split; [|vm_compute; reflexivity]].
  - exists [], [49], [49], [], (Writer.codes "e-320"), (-320). split; [reflexivity|]. split; [constructor|]. split; [apply mantissa_integer; [constructor; [unfold digit; lia|constructor]|discriminate]|].
    split; [apply (suffix_exponent 101 [45] true [51; 50; 48]); [left; reflexivity|constructor|discriminate|repeat (constructor; [unfold digit; lia|]); constructor]|vm_compute; reflexivity].
  - assert (Ev : (Qpower 10 (-320) == Zpos 1 # Z.to_pos (10 ^ 320))%Q) by (vm_compute; reflexivity).
    pose proof (nearest_ok false 1 (Z.to_pos (10 ^ 320))) as N. cbv zeta in N. cbn [signed] in N. destruct N as (V & _ & R).
    exists (nearest false 1 (Z.to_pos (10 ^ 320))). split; [exact V|]. split; [vm_compute; reflexivity|]. exact (rounds_to_comp _ _ _ (Qeq_sym _ _ Ev) R).
Qed.
Print Assumptions C112_small_refuted.
(** The exponent after the letter d is left out: 1d5 is 1.0; and an integer with the sign + is not exact: +5 is 5.0 *)
Theorem C112_marker_refuted : make_real (Writer.codes "1d5") 10 = Read (Flo (of_q 1)) /\ make_real (Writer.codes "1e5") 10 = Read (Flo (of_q 100000)) /\
  make_real (Writer.codes "+5") 10 = Read (Flo (of_q 5)) /\ make_real (Writer.codes "5") 10 = Read (Exact (Small 5)).
Proof. repeat split; vm_compute; reflexivity. Qed.
Print Assumptions C112_marker_refuted.
(** The reader (Reader.v, C38) reads the same texts as exact and as inexact real numbers *)
Theorem C112_reader : forall inexact_value s r,
  (forall x, make_real s r = Read (Exact x) <-> Reader.make_real inexact_value s r = Reader.Exact x) /\
  (make_real s r = Not_real <-> Reader.make_real inexact_value s r = Reader.Not_a_number).
Proof.
  intros iv s r. unfold make_real, Reader.make_real.
  assert (Cs : existsb (fun c => if list_eq_dec Z.eq_dec c s then true else false) Reader.constants = match constant s with Some _ => true | None => false end).
  { unfold Reader.constants, constant. cbn [existsb].
    repeat match goal with |- context [list_eq_dec Z.eq_dec ?a s] => destruct (list_eq_dec Z.eq_dec a s) as [<-|?]; [reflexivity|] end.
    cbn [orb]. repeat match goal with |- context [list_eq_dec Z.eq_dec s ?a] => destruct (list_eq_dec Z.eq_dec s a) as [->|?]; [congruence|] end. reflexivity. }
  rewrite Cs. unfold Reader.inexact. destruct (make_rational s r) as [[x|]| |].
  - split; [intros y; split; intros H; injection H as ->; reflexivity|split; discriminate].
  - destruct (constant s); cbn [orb].
    + destruct (iv s r); split; try (intros y); split; discriminate.
    + destruct (Reader.decimal s); [|split; [intros y; split; discriminate|split; reflexivity]].
      destruct (iv s r), (marker s) as [c|], (stod s); try destruct ((c =? 70) || (c =? 102)); split; try (intros y); split; discriminate.
  - split; [intros y; split; discriminate|split; discriminate].
  - split; [intros y; split; discriminate|split; discriminate].
Qed.
Print Assumptions C112_reader.

(** ** C113: reading what was written for a flonum *)
Lemma read_integer s t : Forall digit t -> t <> [] -> Z.of_nat (length t) <= 6 -> make_real (minus s ++ t) 10 = Read (Exact (Small (if s then - natural t else natural t))).
Proof.
  intros D N L. pose proof (natural_bound t D) as B. pose proof (Z.pow_le_mono_r 10 _ _ ltac:(lia) L) as B'.
  assert (Fc : from_chars (minus s ++ t) 10 = FcOk (if s then - natural t else natural t) []).
  { destruct D as [|c t Dc D']; [congruence|]. pose proof (scan_all (c :: t) (Forall_cons c Dc D')) as Sc.
    assert (Di : digit_in 10 c = Some (c - 48)) by (unfold digit in Dc; unfold digit_in, digit_value; replace ((48 <=? c) && (c <=? 57)) with true by lia; replace (c - 48 <? 10) with true by lia; reflexivity).
    unfold from_chars. set (v := natural (c :: t)) in *. destruct s; cbn [minus app].
    - cbn [Z.eqb Pos.eqb]. rewrite Di, Sc. replace ((- 2 ^ 63 <=? - v) && (- v <? 2 ^ 63)) with true by lia. reflexivity.
    - replace (c =? 45) with false by (unfold digit in Dc; lia). rewrite Di, Sc. replace ((- 2 ^ 63 <=? v) && (v <? 2 ^ 63)) with true by lia. reflexivity. }
  unfold make_real, make_rational, make_integer. rewrite Fc. set (v := natural t) in *.
  replace (is_int32 (if s then - v else v)) with true by (unfold is_int32, int32_min, int32_max; destruct s; lia). reflexivity.
Qed.
Lemma mag s m e : (Qabs (fval (S754_finite s m e)) == inject_Z (Zpos m) * p2 e)%Q.
Proof.
  pose proof (fval_abs s m e) as K. assert (P : (0 < inject_Z (Zpos m) * p2 e)%Q) by (apply Qmult_lt_0_compat; [reflexivity|apply p2_pos]).
  rewrite K. destruct s; [rewrite Qabs_opp|]; apply Qabs_pos; lra.
Qed.
Lemma min_normal : representable (p2 (-1022)).
Proof. exists 1, (-1022). split; [rewrite Qmult_1_l; reflexivity|lia]. Qed.
Lemma nearer D x y : rounds_to D (Fin x) -> representable y -> (Qabs (D - x) <= Qabs (D - y))%Q.
Proof. intros (_ & (_ & C) & _) R. exact (C y R). Qed.

(** A flonum that is not too small, and not an integer below 10^6, is read as itself *)
Theorem C113_read_back_partial : forall f, vfloat f -> finite f = true -> (Qpower 2 (-1022) <= Qabs (fval f))%Q ->
  (forall z, (fval f == inject_Z z)%Q -> 10 ^ 6 <= Z.abs z) -> make_real (written f) 10 = Read (Flo f).
Proof.
  intros f V F Lo Ni. destruct f as [s|s| |s m e]; try discriminate; [exfalso; specialize (Ni 0 ltac:(reflexivity)); lia|].
  rewrite mag in Lo. set (x0 := (inject_Z (Zpos m) * p2 e)%Q) in *. change (Qpower 2 (-1022)) with (p2 (-1022)) in Lo.
  destruct (Qlt_le_dec (p2 (-1022)) x0) as [Gt|Le].
  - cbn [written]. destruct (written_text s m e V) as (c & k & t & E & C & R & _ & Alt). fold x0 in R, Alt. rewrite E. destruct Alt as [(A1 & A2 & A3 & A4 & A5)|(A1 & A2 & A3)].
    + exfalso. pose proof (natural_bound t A1) as B. pose proof (Z.pow_le_mono_r 10 _ _ ltac:(lia) A3) as B'.
      assert (Ev : (inject_Z c * p10 k == inject_Z (natural t))%Q) by (rewrite A5, inject_Z_mult, p10_Z by lia; reflexivity).
      assert (Rp : representable (inject_Z (natural t))) by (exists (natural t), 0; split; [rewrite Qmult_1_r; reflexivity|lia]).
      pose proof (nearer _ _ _ R (representable_comp _ _ (Qeq_sym _ _ Ev) Rp)) as Nr. setoid_replace (inject_Z c * p10 k - inject_Z c * p10 k)%Q with 0%Q in Nr by ring.
      assert (Ex : (x0 == inject_Z (natural t))%Q) by (rewrite <- Ev; revert Nr; change (Qabs 0) with 0%Q; destruct (Qabs_case' (inject_Z c * p10 k - x0)) as [[? ->]|[? ->]]; lra).
      specialize (Ni (if s then - natural t else natural t)). pose proof (fval_abs s m e) as K. fold x0 in K.
      assert (G : 10 ^ 6 <= Z.abs (if s then - natural t else natural t)) by (apply Ni; rewrite K; destruct s; cbn [signed]; [rewrite inject_Z_opp|]; rewrite Ex; reflexivity). clear - G B B'. destruct s; lia.
    + set (D := (inject_Z c * p10 k)%Q) in *.
      assert (D0 : (0 <= D)%Q) by (apply Qmult_le_0_compat; [change 0%Q with (inject_Z 0); rewrite <- inject_le; lia|pose proof (p10_pos k); lra]).
      assert (Dt : (p2 (-1022) <= D)%Q) by (pose proof (nearer _ _ _ R min_normal) as Nr; revert Nr; destruct (Qabs_case' (D - x0)) as [[? ->]|[? ->]]; destruct (Qabs_case' (D - p2 (-1022))) as [[? ->]|[? ->]]; lra).
      assert (Lm : (D < limit)%Q) by (destruct R as [R _]; rewrite Qabs_pos in R by exact D0; exact R).
      destruct (C112_decimal_partial _ _ _ A1 A2) as (g & G1 & G2 & G3 & G4).
      * rewrite (signed_abs' s D D0). exact Lm.
      * right. rewrite (signed_abs' s D D0). apply Qle_trans with (p2 (-1022)); [|exact Dt]. pose proof (p2_pos (-1076)). unfold p2 in *. lra.
      * rewrite G1. f_equal. f_equal.
        assert (Rs : rounds_to (signed s D) (fext (S754_finite s m e))).
        { pose proof (fval_abs s m e) as K. fold x0 in K. destruct s; cbn [signed].
          - apply rounds_to_neg in R. cbn [neg] in R. eapply rounds_to_value; [|exact R]. symmetry. exact K.
          - eapply rounds_to_value; [|exact R]. symmetry. exact K. }
        pose proof (C108_unique _ _ _ G4 Rs) as Sm.
        assert (Fg : finite g = true) by (apply (rounds_finite _ _ G2 G4); rewrite (signed_abs' s D D0); exact Lm).
        rewrite (fext_finite g Fg) in Sm. destruct (vfloat_inj g _ G2 V Fg eq_refl Sm) as [|(? & ? & _ & H)]; [assumption|discriminate].
  - (* 2^-1022 *)
    assert (Ex : (fval (S754_finite false m e) == fval (S754_finite false 4503599627370496 (-1074)))%Q).
    { rewrite (fval_abs false m e). fold x0. apply Qle_antisym; [eapply Qle_trans; [exact Le|]|eapply Qle_trans; [|exact Lo]]; vm_compute; discriminate. }
    assert (V' : vfloat (S754_finite false m e)) by exact V. assert (V2 : vfloat (S754_finite false 4503599627370496 (-1074))) by (vm_compute; reflexivity).
    destruct (vfloat_inj _ _ V' V2 eq_refl eq_refl Ex) as [H|(? & ? & H & _)]; [|discriminate]. injection H as -> ->. destruct s; vm_compute; reflexivity.
Qed.
Print Assumptions C113_read_back_partial.
Example C113_example : written (of_q (1 # 2)) = Writer.codes "0.5" /\ written (S754_finite false 7205759403792794 (-56)) = Writer.codes "0.1" /\
  written (of_q (inject_Z (10 ^ 22))) = Writer.codes "1e+22" /\ written (of_q (inject_Z (2 ^ 53))) = Writer.codes "9.007199254740992e+15" /\
  make_real (Writer.codes "9.007199254740992e+15") 10 = Read (Flo (of_q (inject_Z (2 ^ 53)))).
Proof. repeat split; vm_compute; reflexivity. Qed.
(** But an integer below 10^6 is written without a point, and read as the exact integer *)
Theorem C113_integer_refuted : forall f z, vfloat f -> finite f = true -> (fval f == inject_Z z)%Q -> Z.abs z < 10 ^ 6 ->
  make_real (written f) 10 = Read (Exact (Small z)).
Proof.
  intros f z V F E L. destruct f as [s|s| |s m e]; try discriminate.
  - cbn [written to_chars]. change (if s then [45] else []) with (minus s). rewrite (read_integer s [48]); [|constructor; [unfold digit; lia|constructor]|discriminate|cbn; lia].
    f_equal. f_equal. f_equal. cbn [fval] in E. unfold Qeq in E. cbn in E. destruct s; cbn; lia.
  - cbn [written]. destruct (written_text s m e V) as (c & k & t & Et & C & R & _ & Alt). set (x0 := (inject_Z (Zpos m) * p2 e)%Q) in *. pose proof (fval_abs s m e) as K. fold x0 in K. rewrite Et.
    assert (Ez : (x0 == inject_Z (if s then - z else z))%Q) by (rewrite K in E; destruct s; [rewrite inject_Z_opp|]; lra).
    destruct Alt as [(A1 & A2 & A3 & A4 & A5)|(A1 & A2 & A3)].
    + rewrite (read_integer s t A1 A2 A3). f_equal. f_equal. f_equal.
      pose proof (natural_bound t A1) as B. pose proof (Z.pow_le_mono_r 10 _ _ ltac:(lia) A3) as B'.
      assert (Ev : (inject_Z c * p10 k == inject_Z (natural t))%Q) by (rewrite A5, inject_Z_mult, p10_Z by lia; reflexivity).
      assert (Rp : representable (inject_Z (natural t))) by (exists (natural t), 0; split; [rewrite Qmult_1_r; reflexivity|lia]).
      pose proof (nearer _ _ _ R (representable_comp _ _ (Qeq_sym _ _ Ev) Rp)) as Nr. setoid_replace (inject_Z c * p10 k - inject_Z c * p10 k)%Q with 0%Q in Nr by ring.
      assert (Ex : (x0 == inject_Z (natural t))%Q) by (rewrite <- Ev; revert Nr; change (Qabs 0) with 0%Q; destruct (Qabs_case' (inject_Z c * p10 k - x0)) as [[? ->]|[? ->]]; lra).
      rewrite Ez in Ex. unfold Qeq in Ex. cbn in Ex. destruct s; lia.
    + exfalso. specialize (A3 _ Ez). destruct s; lia.
Qed.
Print Assumptions C113_integer_refuted.
Example C113_example_integer : written (of_q 1) = Writer.codes "1" /\ make_real (Writer.codes "1") 10 = Read (Exact (Small 1)) /\ written (S754_zero true) = Writer.codes "-0".
Proof. repeat split; vm_compute; reflexivity. Qed.
(** And a number below 2^-1022 cannot be read again *)
Theorem C113_small_refuted : forall f, vfloat f -> finite f = true -> (0 < Qabs (fval f))%Q -> (Qabs (fval f) < Qpower 2 (-1022))%Q -> make_real (written f) 10 = Out_of_range.
Proof.
  intros f V F P L. destruct f as [s|s| |s m e]; try discriminate; try (exfalso; exact (Qlt_irrefl _ P)). rewrite mag in L. clear P. set (x0 := (inject_Z (Zpos m) * p2 e)%Q) in *. change (Qpower 2 (-1022)) with (p2 (-1022)) in L.
  cbn [written]. destruct (written_text s m e V) as (c & k & t & E & C & R & _ & Alt). fold x0 in R, Alt. rewrite E. set (D := (inject_Z c * p10 k)%Q) in *.
  assert (Rx : representable x0) by exact (proj1 (proj1 (proj2 R))).
  destruct (multiple x0 (-1074) Rx (or_introl eq_refl)) as [z Ez].
  assert (P22 : (p2 (-1022) == inject_Z (2 ^ 52) * p2 (-1074))%Q) by (rewrite <- (p2_Z 52), <- p2_add by lia; reflexivity). pose proof (p2_pos (-1074)) as P74.
  assert (Z1 : z < 2 ^ 52) by (rewrite inject_lt; rewrite Ez, P22 in L; apply Qmult_lt_r in L; [exact L|exact P74]).
  assert (X1 : (x0 + p2 (-1074) <= p2 (-1022))%Q).
  { rewrite Ez, P22. setoid_replace (inject_Z z * p2 (-1074) + p2 (-1074))%Q with (inject_Z (z + 1) * p2 (-1074))%Q by (rewrite inject_Z_plus; ring). apply scale_le. rewrite <- inject_le. lia. }
  assert (D0 : (0 < D)%Q) by (apply Qmult_lt_0_compat; [change 0%Q with (inject_Z 0); rewrite <- inject_lt; lia|apply p10_pos]).
  assert (P75 : (p2 (-1074) == 2 * p2 (-1075))%Q) by reflexivity. assert (P76 : (p2 (-1075) == 2 * p2 (-1076))%Q) by reflexivity. pose proof (p2_pos (-1076)) as P76'.
  assert (Dt : (D < p2 (-1022) - p2 (-1076))%Q).
  { pose proof (nearer _ _ _ R min_normal) as Nr. revert Nr. destruct (Qabs_case' (D - x0)) as [[? ->]|[? ->]]; destruct (Qabs_case' (D - p2 (-1022))) as [[? ->]|[? ->]]; lra. }
  assert (D24 : (D < p10 (-24))%Q) by (eapply Qlt_trans; [exact Dt|]; vm_compute; reflexivity).
  assert (K0 : k < 0).
  { destruct (Z_lt_ge_dec k 0) as [|G]; [assumption|exfalso]. assert (1 <= D)%Q; [|assert (p10 (-24) < 1)%Q by reflexivity; lra].
    unfold D. rewrite p10_Z, <- inject_Z_mult by lia. change 1%Q with (inject_Z 1). rewrite <- inject_le. pose proof (Z.pow_pos_nonneg 10 k). nia. }
  destruct Alt as [(_ & _ & _ & A4 & _)|(A1 & A2 & _)]; [lia|].
  apply (C112_out_of_range _ _ _ A1 A2). right. assert (Ab : (Qabs (signed s D) == D)%Q) by (apply signed_abs'; lra). split; [|rewrite Ab; exact Dt].
  intros Rp. assert (Rd : representable D) by (apply representable_opp in Rp as Rp'; destruct s; cbn [signed] in *; [apply representable_comp with (- - D)%Q; [ring|exact Rp']|exact Rp]).
  pose proof (nearer _ _ _ R Rd) as Nr. setoid_replace (D - D)%Q with 0%Q in Nr by ring. change (Qabs 0) with 0%Q in Nr.
  assert (Ex : (D == inject_Z z * p2 (-1074))%Q) by (rewrite <- Ez; revert Nr; destruct (Qabs_case' (D - x0)) as [[? ->]|[? ->]]; lra).
  (* c 2^1074 = z 10^-k, so that 5^-k divides c *)
  set (i := - k) in *. assert (Eq : c * 2 ^ 1074 = z * 10 ^ i).
  { assert (K : (inject_Z (c * 2 ^ 1074) == inject_Z (z * 10 ^ i))%Q).
    { rewrite !inject_Z_mult, <- (p2_Z 1074), <- (p10_Z i) by lia. apply Qmult_inj_r with (p2 (-1074) * p10 k)%Q; [pose proof (p10_pos k) as Pk; pose proof (Qmult_lt_0_compat _ _ P74 Pk); lra|].
      setoid_replace (inject_Z c * p2 1074 * (p2 (-1074) * p10 k))%Q with (D * (p2 1074 * p2 (-1074)))%Q by (unfold D; ring).
      setoid_replace (inject_Z z * p10 i * (p2 (-1074) * p10 k))%Q with (inject_Z z * p2 (-1074) * (p10 i * p10 k))%Q by ring.
      rewrite <- p2_add, <- p10_add, Ex. replace (i + k) with 0 by lia. change (p2 (1074 + -1074)) with 1%Q. change (p10 0) with 1%Q. reflexivity. }
    unfold Qeq in K. cbn [Qnum Qden inject_Z] in K. lia. }
  assert (Dv : (5 ^ i | c)).
  { apply Gauss with (2 ^ 1074).
    - rewrite (Z.mul_comm (2 ^ 1074) c), Eq. exists (z * 2 ^ i). change 10 with (2 * 5). rewrite Z.pow_mul_l. ring.
    - apply rel_prime_Zpower; [lia|lia|]. apply Zgcd_1_rel_prime. reflexivity. }
  apply Z.divide_pos_le in Dv; [|lia].
  assert (I24 : i <= 24).
  { destruct (Z_le_gt_dec i 24) as [|G]; [assumption|exfalso]. pose proof (Z.pow_le_mono_r 5 25 i ltac:(lia) ltac:(lia)). lia. }
  assert (p10 (-24) <= D)%Q; [|lra]. apply Qle_trans with (p10 k); [apply p10_le; lia|]. unfold D. rewrite <- (Qmult_1_l (p10 k)) at 1. apply Qmult_le_compat_r; [change 1%Q with (inject_Z 1); rewrite <- inject_le; lia|pose proof (p10_pos k); lra].
Qed.
Print Assumptions C113_small_refuted.
Example C113_example_small : written (S754_finite false 1 (-1074)) = Writer.codes "5e-324" /\ make_real (Writer.codes "5e-324") 10 = Out_of_range.
Proof. split; vm_compute; reflexivity. Qed.
Theorem C113_special : (forall s, make_real (written (S754_infinity s)) 10 = Read (Flo (S754_infinity s))) /\ make_real (written S754_nan) 10 = Read (Flo S754_nan).
Proof. split; [intros []|]; vm_compute; reflexivity. Qed.
Print Assumptions C113_special.
(** number->string gives the same text for finite flonums, but inf, -inf and nan for others, which are not literals *)
Theorem C113_number_to_string : forall f, finite f = true -> flonum_to_string f = written f.
Proof. intros []; intros F; try discriminate; reflexivity. Qed.
Print Assumptions C113_number_to_string.
Theorem C113_number_to_string_refuted : forall f, finite f = false -> make_real (flonum_to_string f) 10 = Not_real /\
  Reader.rectangular (flonum_to_string f) = None /\ Reader.polar (flonum_to_string f) = None.
Proof. intros [|[]| |]; intros F; try discriminate; repeat split; vm_compute; reflexivity. Qed.
Print Assumptions C113_number_to_string_refuted.
(** The digits written for a flonum are as few as possible (R7RS 6.2.7): any decimal number that is rounded to it has as many *)
Theorem C113_shortest : forall f, vfloat f -> finite f = true -> (0 < Qabs (fval f))%Q -> exists c k, 0 < c /\
  denotes (written f) (sign_of f) (signed (sign_of f) (inject_Z c * Qpower 10 k)) /\ rounds_to (signed (sign_of f) (inject_Z c * Qpower 10 k)) (fext f) /\
  forall c' k' n, 0 < c' < 10 ^ n -> rounds_to (signed (sign_of f) (inject_Z c' * Qpower 10 k')) (fext f) -> c < 10 ^ n.
Proof.
  intros f V F P. destruct f as [s|s| |s m e]; try discriminate; try (exfalso; exact (Qlt_irrefl _ P)). cbn [written sign_of].
  assert (Sg : forall q, rounds_to (signed s q) (fext (S754_finite s m e)) <-> rounds_to q (Fin (inject_Z (Zpos m) * p2 e))).
  { intros q. pose proof (fval_abs s m e) as K. destruct s; cbn [signed] in *.
    - split; intros R.
      + apply rounds_to_neg in R. cbn [neg fext] in R. eapply rounds_to_comp; [|eapply rounds_to_value; [|exact R]]; [ring|rewrite K; ring].
      + apply rounds_to_neg in R. cbn [neg fext] in R. eapply rounds_to_value; [|exact R]. symmetry. exact K.
    - split; intros R; (eapply rounds_to_value; [|exact R]); [|symmetry]; exact K. }
  destruct (written_text s m e V) as (c & k & t & E & C & R & Mn & Alt). exists c, k. split; [lia|]. split; [|split].
  - rewrite E. destruct Alt as [(A1 & A2 & A3 & A4 & A5)|(A1 & _)]; [|exact A1].
    exists (minus s), t, t, [], [], 0. rewrite app_nil_r. split; [reflexivity|]. split; [apply minus_sign|]. split; [apply mantissa_integer; assumption|]. split; [constructor|].
    rewrite A5, inject_Z_mult. cbn [length]. change (Qpower 10 (0 - Z.of_nat 0)) with 1%Q. pose proof (p10_Z k A4) as Pk. unfold p10 in Pk.
    destruct s; cbn [signed with_sign]; rewrite Pk; ring.
  - apply Sg. exact R.
  - intros c' k' n Cn Rn. apply (Mn c' k' n Cn). apply Sg, Rn.
Qed.
Print Assumptions C113_shortest.
Example C113_example_shortest : written (S754_finite false 5404319552844595 (-54)) = Writer.codes "0.3" /\
  written (S754_finite false 5404319552844594 (-54)) = Writer.codes "0.29999999999999993" /\ written (S754_finite false 7205759403792793 (-56)) = Writer.codes "0.09999999999999999".
Proof. repeat split; vm_compute; reflexivity. Qed.
