(** Proofs about rounding exact rationals through binary64. *)
From Coq Require Import ZArith QArith Qreduction Qround Qabs List Bool Lia.
From Verif Require Import Number NumberProofs.
Import ListNotations.
Open Scope Z_scope.

Lemma pow_pos' k : 0 <= k -> 0 < 2^k.
Proof. intros. apply Z.pow_pos_nonneg; lia. Qed.

Definition ge_pow (n d e : Z) : Prop := if 0 <=? e then d * 2^e <= n else d <= n * 2^(-e).

Lemma scaled_ge n d e : 0 < n -> scaled n d e <> 0 -> ge_pow n (Zpos d) e.
Proof.
  intros Hn. unfold scaled, ge_pow. destruct (0 <=? e) eqn:E.
  - pose proof (pow_pos' e ltac:(lia)). intros H0.
    destruct (Z_le_gt_dec (Zpos d * 2^e) n); [assumption|]. exfalso. apply H0. apply Z.div_small. lia.
  - pose proof (pow_pos' (-e) ltac:(lia)). intros H0.
    destruct (Z_le_gt_dec (Zpos d) (n * 2^(-e))); [assumption|]. exfalso. apply H0. apply Z.div_small. split; [nia|lia].
Qed.

Lemma ilog2_ge n d : 0 < n -> ge_pow n (Zpos d) (ilog2 n d).
Proof.
  intros Hn. unfold ilog2. set (k := Z.log2 n - Z.log2 (Zpos d)).
  destruct (scaled n d k =? 0) eqn:E; [|apply scaled_ge; [exact Hn|lia]].
  pose proof (Z.log2_spec n Hn) as [A1 A2]. pose proof (Z.log2_spec (Zpos d) ltac:(lia)) as [B1 B2].
  pose proof (Z.log2_nonneg n) as La. pose proof (Z.log2_nonneg (Zpos d)) as Lb.
  set (a := Z.log2 n) in *. set (b := Z.log2 (Zpos d)) in *.
  unfold ge_pow. destruct (0 <=? k - 1) eqn:E1.
  - assert (H : 2^(Z.succ b) * 2^(k - 1) = 2^a) by (rewrite <- Z.pow_add_r by lia; f_equal; lia).
    assert (0 < 2^(k-1)) by (apply pow_pos'; lia). nia.
  - assert (H : 2^a * 2^(- (k - 1)) = 2^(Z.succ b)) by (rewrite <- Z.pow_add_r by lia; f_equal; lia).
    assert (0 < 2^(-(k-1))) by (apply pow_pos'; lia). nia.
Qed.

Lemma scaled_neg n d e : e <= 0 -> scaled n d e = (n * 2^(-e)) / Zpos d.
Proof.
  intros He. unfold scaled. destruct (0 <=? e) eqn:E; [|reflexivity].
  replace e with 0 by lia. rewrite Z.pow_0_r, Z.opp_0, Z.pow_0_r, !Z.mul_1_r. reflexivity.
Qed.

Section Pos.
  Variables (n : Z) (d : positive) (e : Z).
  Hypothesis He : e <= 0.
  Let K := 2^(-e).
  Let m := scaled n d e.
  Lemma HK : 0 < K. Proof. apply pow_pos'. lia. Qed.
  Lemma m_eq : m = (n * K) / Zpos d. Proof. apply scaled_neg. exact He. Qed.

  Lemma trunc_pos : m / K = n / Zpos d.
  Proof.
    pose proof HK. rewrite m_eq, Z.div_div by lia. apply Z.div_mul_cancel_r; lia.
  Qed.

  Lemma ceil_pos : Zpos d <= K -> - ((- m) / K) = - ((- n) / Zpos d).
  Proof.
    intros HdK. pose proof HK. rewrite m_eq.
    pose proof (Z.div_mod n (Zpos d) ltac:(lia)) as E1. pose proof (Z.mod_pos_bound n (Zpos d) ltac:(lia)) as B1.
    set (f := n / Zpos d) in *. set (r := n mod Zpos d) in *.
    assert (Em : (n * K) / Zpos d = f * K + (r * K) / Zpos d).
    { rewrite E1. replace ((Zpos d * f + r) * K) with (r * K + (f * K) * Zpos d) by ring.
      rewrite Z.div_add by lia. lia. }
    rewrite Em. destruct (Z.eq_dec r 0) as [Hr|Hr].
    - rewrite Hr, Z.mul_0_l, Z.div_0_l, Z.add_0_r by lia.
      rewrite <- Z.mul_opp_l, Z.div_mul by lia.
      rewrite E1, Hr, Z.add_0_r, Z.mul_comm, <- Z.mul_opp_l, Z.div_mul by lia. reflexivity.
    - assert (H1 : 1 <= (r * K) / Zpos d).
      { apply Z.div_le_lower_bound; nia. }
      assert (H2 : (r * K) / Zpos d < K).
      { apply Z.div_lt_upper_bound; nia. }
      set (t := (r * K) / Zpos d) in *.
      assert (A : (- (f * K + t)) / K = - f - 1).
      { replace (- (f * K + t)) with ((K - t) + (- f - 1) * K) by ring. rewrite Z.div_add by lia.
        rewrite Z.div_small by lia. lia. }
      assert (B : (- n) / Zpos d = - f - 1).
      { rewrite E1. replace (- (Zpos d * f + r)) with ((Zpos d - r) + (- f - 1) * Zpos d) by ring.
        rewrite Z.div_add by lia. rewrite Z.div_small by lia. lia. }
      rewrite A, B. reflexivity.
  Qed.

  Lemma round_pos : e < 0 -> (2 * m + K) / (2 * K) = (2 * n + Zpos d) / (2 * Zpos d).
  Proof.
    intros He'. pose proof HK.
    assert (HK2 : exists h, K = 2 * h /\ 0 < h).
    { exists (2^(-e - 1)). split; [|apply pow_pos'; lia].
      unfold K. rewrite <- Z.pow_succ_r by lia. f_equal. lia. }
    destruct HK2 as [h [Hh Hh0]]. rewrite Hh at 1. replace (2 * m + 2 * h) with (2 * (m + h)) by ring.
    rewrite Z.div_mul_cancel_l by lia.
    rewrite m_eq. rewrite <- Z.div_add by lia. rewrite Z.div_div by lia.
    replace (n * K + h * Zpos d) with ((2 * n + Zpos d) * h) by (rewrite Hh; ring).
    replace (Zpos d * K) with ((2 * Zpos d) * h) by (rewrite Hh; ring).
    apply Z.div_mul_cancel_r; lia.
  Qed.
End Pos.

Lemma trunc_abs_eq x : d_e x <= 0 -> d_trunc_abs x = d_m x / 2^(- d_e x).
Proof.
  intros H. unfold d_trunc_abs. destruct (0 <=? d_e x) eqn:E; [|reflexivity].
  replace (d_e x) with 0 by lia. rewrite Z.opp_0, Z.pow_0_r, Z.mul_1_r, Z.div_1_r. reflexivity.
Qed.
Lemma ceil_abs_eq x : d_e x <= 0 -> d_ceil_abs x = - ((- d_m x) / 2^(- d_e x)).
Proof.
  intros H. unfold d_ceil_abs. destruct (0 <=? d_e x) eqn:E; [|reflexivity].
  replace (d_e x) with 0 by lia. rewrite Z.opp_0, Z.pow_0_r, Z.mul_1_r, Z.div_1_r. lia.
Qed.

(** All facts about the double obtained from a rational below 2^53. *)
Lemma get_d_facts q : Z.abs (Qnum q) < 2^53 * Zpos (Qden q) ->
  exists x, get_d q = Some x /\ d_neg x = (Qnum q <? 0) /\ d_e x <= 0 /\
    d_m x = scaled (Z.abs (Qnum q)) (Qden q) (d_e x) /\
    (Z.abs (Qnum q) < 2^52 * Zpos (Qden q) -> d_e x < 0 \/ Qnum q = 0) /\
    (Z.abs (Qnum q) <= 2^52 -> Zpos (Qden q) <= 2^52 -> Zpos (Qden q) <= 2^(- d_e x) \/ Qnum q = 0).
Proof.
  intros Hlt. unfold get_d. destruct (Z.abs (Qnum q) =? 0) eqn:E0.
  { eexists. split; [reflexivity|]. cbn [d_neg d_e d_m]. split; [lia|]. split; [lia|].
    split; [|split; intros; right; lia]. replace (Z.abs (Qnum q)) with 0 by lia. unfold scaled. cbn [Z.leb Z.compare].
    rewrite Z.div_0_l by lia. reflexivity. }
  set (n := Z.abs (Qnum q)) in *. set (l := ilog2 n (Qden q)).
  pose proof (ilog2_ge n (Qden q) ltac:(lia)) as Hge. fold l in Hge. unfold ge_pow in Hge.
  assert (Hl : forall b, 0 <= b -> n < 2^b * Zpos (Qden q) -> l < b).
  { intros b Hb H. destruct (Z_lt_ge_dec l b); [assumption|]. exfalso.
    destruct (0 <=? l) eqn:El; [|lia].
    assert (2^b <= 2^l) by (apply Z.pow_le_mono_r; lia). nia. }
  pose proof (Hl 53 ltac:(lia) Hlt) as H53.
  destruct (1024 <=? l) eqn:E1; [lia|].
  eexists. split; [reflexivity|]. cbn [d_neg d_e d_m]. split; [reflexivity|]. split; [lia|]. split; [reflexivity|].
  split.
  - intros H. left. pose proof (Hl 52 ltac:(lia) H). lia.
  - intros H1 H2. left. destruct (0 <=? l) eqn:El.
    + assert (Hp : 2^l * 2^(52 - l) = 2^52) by (rewrite <- Z.pow_add_r by lia; f_equal; lia).
      assert (0 < 2^l) by (apply pow_pos'; lia). assert (0 < 2^(52-l)) by (apply pow_pos'; lia).
      replace (- Z.max (-1074) (l - 52)) with (52 - l) by lia. nia.
    + apply Z.le_trans with (2^52); [exact H2|]. apply Z.pow_le_mono_r; lia.
Qed.

Lemma truncate_ratio q : Z.abs (Qnum q) < 2^53 * Zpos (Qden q) ->
  n_truncate (Ratio q) = Ok (Large (Z.quot (Qnum q) (Zpos (Qden q)))).
Proof.
  intros H. destruct (get_d_facts q H) as [x [E [Hs [He [Hm _]]]]].
  unfold n_truncate, nearest. rewrite E. unfold canon_large. do 2 f_equal. unfold d_trunc, signed.
  rewrite trunc_abs_eq by exact He. rewrite Hm, trunc_pos by lia. rewrite Hs.
  destruct (Qnum q <? 0) eqn:En.
  - rewrite Z.abs_neq by lia. rewrite <- Z.quot_div_nonneg by lia. rewrite Z.quot_opp_l by lia. lia.
  - rewrite Z.abs_eq by lia. rewrite <- Z.quot_div_nonneg by lia. reflexivity.
Qed.

Lemma floor_ratio q : Z.abs (Qnum q) <= 2^52 -> Zpos (Qden q) <= 2^52 ->
  n_floor (Ratio q) = Ok (Large (Qfloor q)) /\ n_ceiling (Ratio q) = Ok (Large (Qceiling q)).
Proof.
  intros H1 H2. destruct (get_d_facts q ltac:(nia)) as [x [E [Hs [He [Hm [_ HdK]]]]]].
  specialize (HdK H1 H2).
  unfold n_floor, n_ceiling, nearest. rewrite E. unfold canon_large, d_floor, d_ceil, signed.
  rewrite trunc_abs_eq, ceil_abs_eq by exact He. rewrite Hm. rewrite trunc_pos by lia.
  assert (Hc : - (- scaled (Z.abs (Qnum q)) (Qden q) (d_e x) / 2 ^ (- d_e x)) = - ((- Z.abs (Qnum q)) / Zpos (Qden q))).
  { destruct HdK as [HdK|H0].
    - apply (ceil_pos _ _ _ He HdK).
    - rewrite H0. rewrite scaled_neg by exact He. change (Z.abs 0) with 0. rewrite Z.mul_0_l, Z.div_0_l by lia.
      pose proof (pow_pos' (- d_e x) ltac:(lia)). change (- 0) with 0. rewrite !Z.div_0_l by lia. reflexivity. }
  rewrite Hc, Hs. destruct q as [n d]. cbn [Qnum Qden Qfloor] in *.
  unfold Qceiling, Qfloor, Qopp. cbn [Qnum Qden].
  destruct (n <? 0) eqn:En.
  - rewrite Z.abs_neq by lia. rewrite !Z.opp_involutive. split; reflexivity.
  - rewrite Z.abs_eq by lia. split; reflexivity.
Qed.

(** std::round: to nearest, ties away from zero. *)
Lemma round_ratio q : Z.abs (Qnum q) < 2^52 * Zpos (Qden q) ->
  n_round (Ratio q) = Ok (Large (Z.sgn (Qnum q) * ((2 * Z.abs (Qnum q) + Zpos (Qden q)) / (2 * Zpos (Qden q))))).
Proof.
  intros H. destruct (get_d_facts q ltac:(lia)) as [x [E [Hs [He [Hm [Hneg _]]]]]].
  specialize (Hneg H). unfold n_round, nearest. rewrite E. unfold canon_large, d_round, signed, d_round_abs. do 2 f_equal.
  destruct Hneg as [Hneg|H0].
  - replace (0 <=? d_e x) with false by lia. rewrite Hm. rewrite round_pos by lia. rewrite Hs.
    destruct (Qnum q <? 0) eqn:En.
    + rewrite Z.sgn_neg by lia. lia.
    + destruct (Z.eq_dec (Qnum q) 0) as [H0|H0].
      * rewrite H0. cbn [Z.abs Z.sgn]. rewrite Z.mul_0_r, Z.add_0_l. rewrite Z.div_small by lia. reflexivity.
      * rewrite Z.sgn_pos by lia. lia.
  - rewrite H0 in *. cbn [Z.abs Z.sgn Z.ltb Z.compare] in *. rewrite Hs.
    assert (M0 : d_m x = 0). { rewrite Hm, scaled_neg by exact He. rewrite Z.mul_0_l. apply Z.div_0_l. lia. }
    rewrite M0. destruct (0 <=? d_e x) eqn:El; [reflexivity|].
    pose proof (pow_pos' (- d_e x) ltac:(lia)). rewrite Z.div_small; lia.
Qed.

(** ** Specification of rounding to the nearest integer, ties to even *)
Definition rounds_to (q : Q) (z : Z) : Prop :=
  (Qabs (q - inject_Z z) <= 1 # 2)%Q /\ (Qabs (q - inject_Z z) == 1 # 2 -> Z.Even z).
Definition tie (q : Q) : Prop := exists z, q == inject_Z z + (1 # 2).

Lemma tie_num q : tie q <-> exists z, 2 * Qnum q = (2 * z + 1) * Zpos (Qden q).
Proof.
  unfold tie, Qeq, inject_Z, Qplus. cbn [Qnum Qden].
  split; intros [z H]; exists z; lia.
Qed.

Lemma nearest_unique_abs n d z : 0 < d -> (forall k, 2 * n <> (2 * k + 1) * d) ->
  z = Z.sgn n * ((2 * Z.abs n + d) / (2 * d)) -> - d < 2 * (n - z * d) < d.
Proof.
  intros Hd Ht ->. set (t := (2 * Z.abs n + d) / (2 * d)).
  pose proof (Z.div_mod (2 * Z.abs n + d) (2 * d) ltac:(lia)) as E.
  pose proof (Z.mod_pos_bound (2 * Z.abs n + d) (2 * d) ltac:(lia)) as B. fold t in E.
  set (r := (2 * Z.abs n + d) mod (2 * d)) in *.
  assert (Hr : r <> 0).
  { intros H0. destruct (Z_le_gt_dec 0 n).
    - apply (Ht (t - 1)). rewrite Z.abs_eq in E by lia. nia.
    - apply (Ht (- t)). rewrite Z.abs_neq in E by lia. nia. }
  destruct (Z.lt_trichotomy n 0) as [Hn|[Hn|Hn]].
  - rewrite Z.sgn_neg by lia. rewrite Z.abs_neq in E by lia. nia.
  - subst n. cbn [Z.sgn]. lia.
  - rewrite Z.sgn_pos by lia. rewrite Z.abs_eq in E by lia. nia.
Qed.

Lemma round_no_tie q : ~ tie q -> Z.abs (Qnum q) < 2^52 * Zpos (Qden q) ->
  exists z, n_round (Ratio q) = Ok (Large z) /\ rounds_to q z.
Proof.
  intros Ht Hlt. eexists. split; [apply round_ratio; exact Hlt|].
  set (z := Z.sgn (Qnum q) * _).
  assert (Hb := nearest_unique_abs (Qnum q) (Zpos (Qden q)) z ltac:(lia)).
  assert (Hnt : forall k, 2 * Qnum q <> (2 * k + 1) * Zpos (Qden q)).
  { intros k Hk. apply Ht. apply tie_num. exists k. exact Hk. }
  specialize (Hb Hnt eq_refl). destruct q as [n d]. cbn [Qnum Qden] in *.
  unfold rounds_to, Qminus, Qplus, Qopp, Qabs, inject_Z, Qle, Qeq. cbn [Qnum Qden]. rewrite !Pos2Z.inj_mul.
  split; [lia|]. intros He. exfalso. lia.
Qed.

(** ** Quotient *)
Lemma quot_canonical q n d : d <> 0 -> q == inject_Z n / inject_Z d ->
  Z.quot (Qnum q) (Zpos (Qden q)) = Z.quot n d.
Proof.
  intros Hd Hq.
  assert (E : Qnum q * d = n * Zpos (Qden q)).
  { unfold Qdiv, Qinv, Qmult, Qeq, inject_Z in Hq. cbn [Qnum Qden] in Hq.
    destruct d as [|p|p]; [contradiction| |]; cbn [Qnum Qden] in Hq; rewrite ?Pos2Z.inj_mul in Hq; nia. }
  rewrite <- (Z.quot_mul_cancel_r (Qnum q) (Zpos (Qden q)) d) by lia.
  rewrite E, (Z.mul_comm (Zpos (Qden q)) d). apply Z.quot_mul_cancel_r; lia.
Qed.

Lemma quotient_int x y n d : is_int x n -> is_int y d -> d <> 0 -> Z.abs n < 2^53 * Z.abs d ->
  exists r, n_quotient x y = Ok r /\ is_int r (Z.quot n d).
Proof.
  intros Hx Hy Hd Hlt. unfold n_quotient.
  assert (Hvy : ~ value y == 0).
  { rewrite (is_int_value y d Hy). unfold Qeq, inject_Z. cbn [Qnum Qden]. lia. }
  destruct (div_ok x y Hvy) as [r [E [V W]]]. rewrite E. cbn [obind].
  rewrite (is_int_value x n Hx), (is_int_value y d Hy) in W.
  destruct r as [z|z|q].
  - eexists. split; [reflexivity|]. assert (Hz : Z.quot n d = z).
    { rewrite <- (quot_canonical (inject_Z z) n d Hd W). cbn [inject_Z Qnum Qden]. apply Z.quot_1_r. }
    rewrite Hz. apply canon_wide_ok.
  - eexists. split; [reflexivity|]. assert (Hz : Z.quot n d = z).
    { rewrite <- (quot_canonical (inject_Z z) n d Hd W). cbn [inject_Z Qnum Qden]. apply Z.quot_1_r. }
    rewrite Hz. right. reflexivity.
  - eexists. split.
    + apply truncate_ratio.
      assert (E' : Qnum q * d = n * Zpos (Qden q)).
      { cbn [value] in W. unfold Qdiv, Qinv, Qmult, Qeq, inject_Z in W. cbn [Qnum Qden] in W.
        destruct d as [|p|p]; [contradiction| |]; cbn [Qnum Qden] in W; rewrite ?Pos2Z.inj_mul in W; nia. }
      nia.
    + cbn [value] in W. rewrite (quot_canonical q n d Hd W). right. reflexivity.
Qed.

Lemma quotient_divisible x y n d k : is_int x n -> is_int y d -> d <> 0 -> n = k * d -> valid x -> valid y ->
  exists r, n_quotient x y = Ok r /\ is_int r (Z.quot n d).
Proof.
  intros Hx Hy Hd Hk Vx Vy.
  destruct (Z_lt_ge_dec (Z.abs n) (2^53 * Z.abs d)) as [H|H]; [apply quotient_int; assumption|].
  unfold n_quotient. rewrite (div_int x y k).
  - cbn [obind]. eexists. split; [reflexivity|]. rewrite Hk, Z.quot_mul by exact Hd. right. reflexivity.
  - rewrite (is_int_value y d Hy). unfold Qeq, inject_Z. cbn [Qnum Qden]. lia.
  - intros [a [b [-> ->]]]. destruct Hx as [[= <-]|[=]]. destruct Hy as [[= <-]|[=]]. cbn [valid] in *. nia.
  - rewrite (is_int_value x n Hx), (is_int_value y d Hy), Hk, inject_Z_mult. field.
    unfold Qeq, inject_Z. cbn [Qnum Qden]. lia.
Qed.
