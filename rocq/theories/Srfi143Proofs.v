(** Lemmas on balanced/ for numerators of more than 52 bits: floor and ceiling of a ratio go through a double, which is truncated,
    and may be one off; balanced/ does not mind. *)
From Coq Require Import ZArith QArith Qround Qcanon List Bool Lia ZifyBool.
From Verif Require Import Number NumberProofs NumberRounding NumberGcd NumberMore Srfi141.
Import ListNotations.
Open Scope Z_scope.

(** m is n K / d truncated; the ceiling of m / K is that of n / d, or one less if n / d is little above *)
Lemma ceil_near n d K m c : 0 <= n -> 0 < d -> 2 <= K -> m = n * K / d -> c = - ((- m) / K) -> - d < c * d - n + d /\ 2 * (n - c * d) < d /\ c * d - n < d.
Proof.
  intros Hn Hd HK Em Ec. pose proof (Z.div_mod (n * K) d ltac:(lia)) as A. pose proof (Z.mod_pos_bound (n * K) d Hd) as B. rewrite <- Em in A.
  pose proof (Z.div_mod (- m) K ltac:(lia)) as C. pose proof (Z.mod_pos_bound (- m) K ltac:(lia)) as D. set (t := (- m) / K) in *.
  assert (c = - t) by lia. subst c. set (r := (n * K) mod d) in *. set (u := (- m) mod K) in *.
  (* n K = d m + r, - m = K t + u: n K = - d K t - d u + r *)
  assert (E : (n + d * t) * K = r - d * u) by nia.
  assert (E1 : 2 * (n + d * t) < d).
  { destruct (Z_lt_ge_dec (2 * (n + d * t)) d) as [L|G]; [exact L|exfalso]. assert (d * K <= 2 * (n + d * t) * K) by nia. nia. }
  assert (E2 : - (n + d * t) < d).
  { destruct (Z_lt_ge_dec (- (n + d * t)) d) as [L|G]; [exact L|exfalso]. assert (d * K <= - (n + d * t) * K) by nia. nia. }
  split; [nia|]. split; nia.
Qed.
Lemma floor_near q : Z.abs (Qnum q) < 2 ^ 52 * Zpos (Qden q) -> exists z, n_floor (Ratio q) = Ok (Large z) /\
  - Zpos (Qden q) < 2 * (Qnum q - z * Zpos (Qden q)) /\ Qnum q - z * Zpos (Qden q) < Zpos (Qden q) /\ (0 <= Qnum q -> z = Qnum q / Zpos (Qden q)).
Proof.
  intros H. destruct (get_d_facts q ltac:(lia)) as (x & E & Hs & He & Hm & Hneg & _). specialize (Hneg H).
  unfold n_floor, nearest. rewrite E. unfold canon_large, d_floor, signed. rewrite Hs. eexists. split; [reflexivity|].
  rewrite scaled_neg in Hm by exact He. destruct (Qnum q <? 0) eqn:En.
  - rewrite ceil_abs_eq by exact He. destruct Hneg as [Hneg|]; [|lia].
    pose proof (Z.pow_le_mono_r 2 1 (- d_e x) ltac:(lia) ltac:(lia)) as P. change (2 ^ 1) with 2 in P.
    pose proof (ceil_near _ _ _ _ _ (Z.abs_nonneg (Qnum q)) (Pos2Z.is_pos (Qden q)) P Hm eq_refl) as (_ & A & B). split; [lia|]. split; [lia|]. lia.
  - rewrite trunc_abs_eq by exact He. pose proof (pow_pos' (- d_e x) ltac:(lia)) as P.
    assert (T : d_m x / 2 ^ (- d_e x) = Qnum q / Zpos (Qden q)).
    { rewrite Hm, Z.div_div by lia. replace (Z.abs (Qnum q)) with (Qnum q) by lia. apply Z.div_mul_cancel_r; lia. }
    rewrite T. pose proof (Z.div_mod (Qnum q) (Zpos (Qden q)) ltac:(lia)). pose proof (Z.mod_pos_bound (Qnum q) (Zpos (Qden q)) ltac:(lia)). split; [lia|]. split; [lia|]. reflexivity.
Qed.
Lemma ceiling_near q : Z.abs (Qnum q) < 2 ^ 52 * Zpos (Qden q) -> exists z, n_ceiling (Ratio q) = Ok (Large z) /\
  - Zpos (Qden q) < Qnum q - z * Zpos (Qden q) /\ 2 * (Qnum q - z * Zpos (Qden q)) < Zpos (Qden q) /\ (Qnum q <= 0 -> z = - (- Qnum q / Zpos (Qden q))).
Proof.
  intros H. destruct (get_d_facts q ltac:(lia)) as (x & E & Hs & He & Hm & Hneg & _). specialize (Hneg H).
  unfold n_ceiling, nearest. rewrite E. unfold canon_large, d_ceil, signed. rewrite Hs. eexists. split; [reflexivity|].
  rewrite scaled_neg in Hm by exact He. pose proof (pow_pos' (- d_e x) ltac:(lia)) as P. destruct (Qnum q <? 0) eqn:En.
  - rewrite trunc_abs_eq by exact He.
    assert (T : d_m x / 2 ^ (- d_e x) = - Qnum q / Zpos (Qden q)).
    { rewrite Hm, Z.div_div by lia. replace (Z.abs (Qnum q)) with (- Qnum q) by lia. apply Z.div_mul_cancel_r; lia. }
    rewrite T. pose proof (Z.div_mod (- Qnum q) (Zpos (Qden q)) ltac:(lia)). pose proof (Z.mod_pos_bound (- Qnum q) (Zpos (Qden q)) ltac:(lia)). split; [lia|]. split; [lia|]. reflexivity.
  - rewrite ceil_abs_eq by exact He. destruct Hneg as [Hneg|Z0].
    + pose proof (Z.pow_le_mono_r 2 1 (- d_e x) ltac:(lia) ltac:(lia)) as P2. change (2 ^ 1) with 2 in P2.
      pose proof (ceil_near _ _ _ _ _ (Z.abs_nonneg (Qnum q)) (Pos2Z.is_pos (Qden q)) P2 Hm eq_refl) as (_ & A & B). split; [lia|]. split; [lia|].
      intros L. assert (Qn : Qnum q = 0) by lia. rewrite Hm, Qn. cbn [Z.abs Z.opp Z.mul]. repeat (first [rewrite Z.div_0_l by lia|progress cbn [Z.opp]]). reflexivity.
    + assert (M0 : d_m x = 0) by (rewrite Hm, Z0; cbn [Z.abs]; rewrite Z.mul_0_l; apply Z.div_0_l; lia). rewrite M0, Z0. change (- 0) with 0. rewrite !Z.div_0_l by lia. lia.
Qed.

Section Int.
  Variables (x y : num) (n d : Z).
  Hypotheses (Hx : is_int x n) (Hy : is_int y d) (Hd : d <> 0) (B : Z.abs n < 2 ^ 52 * Z.abs d).
  Lemma bound_q q : q == inject_Z n / inject_Z d -> Z.abs (Qnum q) < 2 ^ 52 * Zpos (Qden q) /\ Qnum q * d = n * Zpos (Qden q).
  Proof.
    intros W. apply ratio_int_eq in W; [|exact Hd]. split; [|exact W].
    assert (E : Z.abs (Qnum q) * Z.abs d = Z.abs n * Zpos (Qden q)) by (rewrite <- Z.abs_mul, W, Z.abs_mul; lia).
    apply (Z.mul_lt_mono_pos_r (Z.abs d)); [lia|]. nia.
  Qed.
  Lemma floor_quotient_near : 0 < d -> exists o z, floor_quotient x y = Ok o /\ is_int o z /\ - d < 2 * (n - d * z) /\ n - d * z < d /\ (0 <= n -> z = n / d).
  Proof.
    intros Pd. unfold floor_quotient. destruct (div_cases x y n d Hx Hy Hd) as (r & -> & [(z & Hz & E)|(q & -> & C & W)]); cbn [obind].
    - destruct (integer_rounding d_floor r z Hz) as (o & Eo & Ho). exists o, z. split; [exact Eo|]. split; [exact Ho|]. split; [lia|]. split; [lia|]. intros _. rewrite E, Z.div_mul by exact Hd. reflexivity.
    - destruct (bound_q q W) as [Bq Wq]. destruct (floor_near q Bq) as (z & -> & F1 & F2 & F3). exists (Large z), z. split; [reflexivity|]. split; [right; reflexivity|].
      set (D := Zpos (Qden q)) in *. set (N := Qnum q) in *. assert (PD : 0 < D) by (unfold D; lia). assert (K : (n - d * z) * D = (N - z * D) * d) by lia.
      split; [apply (Z.mul_lt_mono_pos_r D); nia|]. split; [apply (Z.mul_lt_mono_pos_r D); nia|].
      intros Pn. rewrite F3 by nia. rewrite <- (Z.div_mul_cancel_r N D d), Wq, (Z.mul_comm D d) by lia. apply Z.div_mul_cancel_r; lia.
  Qed.
  Lemma ceiling_quotient_near : d < 0 -> exists o z, ceiling_quotient x y = Ok o /\ is_int o z /\ d < 2 * (n - d * z) /\ n - d * z < - d /\ (0 <= n -> z = - (- n / d)).
  Proof.
    intros Pd. unfold ceiling_quotient. destruct (div_cases x y n d Hx Hy Hd) as (r & -> & [(z & Hz & E)|(q & -> & C & W)]); cbn [obind].
    - destruct (integer_rounding d_ceil r z Hz) as (o & Eo & Ho). exists o, z. split; [exact Eo|]. split; [exact Ho|]. split; [lia|]. split; [lia|]. intros _. rewrite E, <- Z.mul_opp_l, Z.div_mul by exact Hd. lia.
    - destruct (bound_q q W) as [Bq Wq]. destruct (ceiling_near q Bq) as (z & -> & F1 & F2 & F3). exists (Large z), z. split; [reflexivity|]. split; [right; reflexivity|].
      set (D := Zpos (Qden q)) in *. set (N := Qnum q) in *. assert (PD : 0 < D) by (unfold D; lia). assert (K : (n - d * z) * D = (N - z * D) * d) by lia.
      split; [apply (Z.mul_lt_mono_pos_r D); nia|]. split; [apply (Z.mul_lt_mono_pos_r D); nia|].
      intros Pn. rewrite F3 by nia. f_equal. rewrite <- (Z.div_mul_cancel_r (- N) D d) by lia. replace (- N * d) with (- n * D) by lia. rewrite (Z.mul_comm D d). apply Z.div_mul_cancel_r; lia.
  Qed.
  Lemma euclidean_near : exists o z, euclidean_quotient x y = Ok o /\ is_int o z /\ - Z.abs d < 2 * (n - d * z) /\ n - d * z < Z.abs d /\ (0 <= n -> 0 <= n - d * z).
  Proof.
    unfold euclidean_quotient. pose proof (n_lt_ok (Small 0) y) as L. rewrite (is_int_value y d Hy) in L. unfold Qlt, inject_Z in L. cbn [value Qnum Qden inject_Z] in L. destruct (n_lt (Small 0) y).
    - assert (Pd : 0 < d) by (pose proof (proj1 L eq_refl); lia). destruct (floor_quotient_near Pd) as (o & z & E & Ho & A & A' & G). exists o, z. rewrite Z.abs_eq by lia.
      repeat (split; [assumption|]). intros Pn. rewrite (G Pn). pose proof (Z.div_mod n d Hd). pose proof (Z.mod_pos_bound n d Pd). lia.
    - assert (Pd : d < 0) by (destruct (Z_lt_ge_dec d 0); [assumption|]; assert (false = true) by (apply L; lia); discriminate).
      destruct (ceiling_quotient_near Pd) as (o & z & E & Ho & A & A' & G). exists o, z. rewrite Z.abs_neq by lia. rewrite Z.opp_involutive.
      repeat (split; [assumption|]). intros Pn. rewrite (G Pn). pose proof (Z.div_mod (- n) d Hd). pose proof (Z.mod_neg_bound (- n) d Pd). lia.
  Qed.
  Lemma balanced_wide : valid y -> divides_with (balanced_div x y) n d (fun _ r => - Z.abs d <= 2 * r < Z.abs d).
  Proof.
    intros Vy.
    assert (R : exists o r, balanced_remainder x y = Ok o /\ is_int o r /\ (d | n - r) /\ - Z.abs d <= 2 * r < Z.abs d).
    { unfold balanced_remainder, euclidean_remainder.
      destruct euclidean_near as (o & q & -> & Ho & R1 & R2 & _). cbn [obind].
      pose proof (back_ok x y n d Hx Hy o q Ho) as Hb. set (e := n_sub x (n_mul y o)) in *.
      assert (Hv : ~ value (Small 2) == 0) by (cbv; discriminate).
      destruct (div_ok y (Small 2) Hv) as [h [-> [Vh Wh]]]. cbn [obind].
      destruct (abs_value h Vh) as [_ Ah].
      assert (Hh : value (n_abs h) == Z.abs d # 2).
      { rewrite Ah, Wh, (is_int_value y d Hy). cbn [value]. unfold Qdiv, Qmult, Qinv, inject_Z, Qabs.Qabs, Qeq. cbn [Qnum Qden]. lia. }
      assert (Hs : value (n_sub (Small 0) (n_abs h)) == - Z.abs d # 2).
      { rewrite (proj2 (sub_ok _ _)), Hh. cbn [value]. unfold Qeq, Qminus, Qplus, Qopp, inject_Z. cbn [Qnum Qden]. lia. }
      destruct (n_lt e (n_sub (Small 0) (n_abs h))) eqn:E1.
      { exfalso. apply n_lt_ok in E1. rewrite (is_int_value e _ Hb), Hs in E1. unfold Qlt, inject_Z in E1. cbn [Qnum Qden] in E1. lia. }
      pose proof (n_le_ok (n_abs h) e) as L. rewrite (is_int_value e _ Hb), Hh in L. unfold Qle, inject_Z in L. cbn [Qnum Qden] in L.
      destruct (n_le (n_abs h) e) eqn:E2.
      - pose proof (proj1 L eq_refl). do 2 eexists. split; [reflexivity|]. split; [apply sub_int; [exact Hb|apply abs_int; exact Hy]|].
        split; [|lia]. exists (q + Z.sgn d). pose proof (Z.sgn_abs d). lia.
      - assert (~ (Z.abs d * 1 <= (n - d * q) * 2)) by (intros C; apply L in C; discriminate).
        do 2 eexists. split; [reflexivity|]. split; [exact Hb|]. split; [exists q; lia|lia]. }
    unfold balanced_div, balanced_quotient, values2. destruct R as [o [r [-> [Ho [[k Hk] R]]]]]. cbn [obind].
    destruct (quotient_divisible (n_sub x o) y (n - r) d k) as [p [-> Hp]]; try assumption; [apply sub_int; assumption|apply sub_ok|].
    cbn [obind]. do 4 eexists. split; [reflexivity|]. split; [exact Hp|]. split; [exact Ho|].
    rewrite Hk, Z.quot_mul by exact Hd. split; [lia|exact R].
  Qed.
  Lemma euclidean_wide : 0 <= n -> divides_with (euclidean_div x y) n d (fun _ r => 0 <= r < Z.abs d).
  Proof.
    intros Pn. unfold euclidean_div, euclidean_remainder, values2. destruct euclidean_near as (o & q & -> & Ho & _ & R2 & R3). cbn [obind].
    do 4 eexists. split; [reflexivity|]. split; [exact Ho|]. split; [apply back_ok; eassumption|]. split; [lia|]. specialize (R3 Pn). lia.
  Qed.
End Int.
