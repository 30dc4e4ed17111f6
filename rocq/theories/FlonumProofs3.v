(** Nearest integers, remainders, numerators and square roots of doubles (Flonum.v). *)
From Coq Require Import ZArith QArith Qreduction Qround Qabs Qpower Lia Lqa ZifyBool List Bool Floats.SpecFloat.
From Coq Require QArith.Qcanon ZArith.Zpow_facts.
From Verif Require Import Number NumberProofs NumberRounding Flonum FlonumProofs FlonumProofs2 FlonumSpec.
Open Scope Z_scope.

(** ** Nearest integers *)
Definition dval (d : dbl) : Q := fval (match d_m d with Zpos m => S754_finite (d_neg d) m (d_e d) | _ => S754_zero false end).
Lemma floor_neg k e : e < 0 -> Qfloor (inject_Z k * p2 e) = k / 2 ^ (- e).
Proof.
  intros H. pose proof (scaled_floor k 1 (- e)) as X. unfold scaled in X.
  destruct (0 <=? - e) eqn:E; [|lia]. rewrite Z.mul_1_l, Z.opp_involutive in X. symmetry. exact X.
Qed.
Lemma floor_pos k e : 0 <= e -> Qfloor (inject_Z k * p2 e) = k * 2 ^ e.
Proof. intros H. rewrite p2_Z, <- inject_Z_mult by lia. apply Qfloor_Z. Qed.
Lemma qceil_opp q : Qceiling (- q) = - Qfloor q.
Proof. unfold Qceiling. rewrite Qopp_involutive. reflexivity. Qed.
Section One.
  Variables (s : bool) (m : positive) (e : Z).
  Let d := {| d_neg := s; d_m := Zpos m; d_e := e |}.
  Let q := fval (S754_finite s m e).
  Let a := (inject_Z (Zpos m) * p2 e)%Q.
  Lemma qa : (q == if s then - a else a)%Q. Proof. apply fval_abs. Qed.
  Lemma trunc_floor : d_trunc_abs d = Qfloor a.
  Proof.
    unfold d_trunc_abs, a. cbn [d d_e d_m]. destruct (0 <=? e) eqn:E; [rewrite floor_pos by lia; reflexivity|].
    rewrite floor_neg by lia. reflexivity.
  Qed.
  Lemma ceil_ceiling : d_ceil_abs d = Qceiling a.
  Proof.
    unfold d_ceil_abs, a. cbn [d d_e d_m]. unfold Qceiling.
    assert (X : (- (inject_Z (Zpos m) * p2 e) == inject_Z (- Zpos m) * p2 e)%Q) by (rewrite inject_Z_opp; ring).
    rewrite X. destruct (0 <=? e) eqn:E; [rewrite floor_pos by lia; lia|]. rewrite floor_neg by lia. reflexivity.
  Qed.
  Lemma d_floor_ok : d_floor d = Qfloor q.
  Proof.
    unfold d_floor, signed. cbn [d d_neg]. rewrite trunc_floor, ceil_ceiling, qa. destruct s; [|reflexivity].
    unfold Qceiling. lia.
  Qed.
  Lemma d_ceil_ok : d_ceil d = Qceiling q.
  Proof.
    unfold d_ceil, signed. cbn [d d_neg]. rewrite trunc_floor, ceil_ceiling, qa. destruct s; [|reflexivity].
    rewrite qceil_opp. reflexivity.
  Qed.
  Lemma a_pos : (0 < a)%Q. Proof. apply Qmult_lt_0_compat; [reflexivity|apply p2_pos]. Qed.
  Lemma d_trunc_ok : d_trunc d = if s then Qceiling q else Qfloor q.
  Proof.
    unfold d_trunc, signed. cbn [d d_neg]. rewrite trunc_floor, qa. destruct s; [|reflexivity].
    rewrite qceil_opp. reflexivity.
  Qed.
  Lemma d_round_near : (Qabs (q - inject_Z (d_round d)) <= 1 # 2)%Q.
  Proof.
    assert (X : (Qabs (q - inject_Z (d_round d)) == Qabs (a - inject_Z (d_round_abs d)))%Q).
    { unfold d_round, signed. cbn [d d_neg]. rewrite qa. destruct s; [|reflexivity].
      rewrite inject_Z_opp, <- Qabs_opp. apply Qabs_wd. ring. }
    rewrite X. unfold d_round_abs, a. cbn [d d_e d_m]. destruct (0 <=? e) eqn:E.
    - rewrite inject_Z_mult, <- p2_Z by lia.
      setoid_replace (inject_Z (Zpos m) * p2 e - inject_Z (Zpos m) * p2 e)%Q with 0%Q by ring. discriminate.
    - set (K := 2 ^ (- e)). assert (HK : 0 < K) by (apply pow_pos'; lia).
      set (z := (2 * Zpos m + K) / (2 * K)).
      pose proof (Z.div_mod (2 * Zpos m + K) (2 * K) ltac:(lia)) as E1.
      pose proof (Z.mod_pos_bound (2 * Zpos m + K) (2 * K) ltac:(lia)) as B1. fold z in E1.
      assert (PK : (p2 e * inject_Z K == 1)%Q) by (unfold K; rewrite <- p2_Z by lia; apply p2_opp).
      assert (A1 : (- inject_Z K <= 2 * (inject_Z (Zpos m) - inject_Z K * inject_Z z))%Q).
      { rewrite <- inject_Z_mult, <- inject_Z_opp. unfold Qminus. rewrite <- inject_Z_opp, <- inject_Z_plus.
        change 2%Q with (inject_Z 2). rewrite <- inject_Z_mult, <- inject_le. nia. }
      assert (A2 : (2 * (inject_Z (Zpos m) - inject_Z K * inject_Z z) <= inject_Z K)%Q).
      { rewrite <- inject_Z_mult. unfold Qminus. rewrite <- inject_Z_opp, <- inject_Z_plus.
        change 2%Q with (inject_Z 2). rewrite <- inject_Z_mult, <- inject_le. nia. }
      pose proof (p2_pos e) as P.
      assert (Y : (inject_Z (Zpos m) * p2 e - inject_Z z == p2 e * (inject_Z (Zpos m) - inject_Z K * inject_Z z))%Q).
      { setoid_replace (p2 e * (inject_Z (Zpos m) - inject_Z K * inject_Z z))%Q
          with (inject_Z (Zpos m) * p2 e - (p2 e * inject_Z K) * inject_Z z)%Q by ring. rewrite PK. ring. }
      apply Qabs_Qle_condition. rewrite Y. split; nra.
  Qed.
  Hypothesis V : vfloat (S754_finite s m e).
  (** an integer within 1 of a double is itself a double *)
  Lemma near_exact z : (Qabs (q - inject_Z z) < 1)%Q -> (Qfloor q <= z <= Qceiling q) ->
    finite (of_q (inject_Z z)) = true /\ (fval (of_q (inject_Z z)) == inject_Z z)%Q.
  Proof.
    intros N B. apply vfloat_iff in V. destruct V as (V1 & V2 & V3).
    destruct (Z_lt_ge_dec e 0) as [H|H].
    - apply of_Z_exact.
      assert (A : (a < inject_Z (2 ^ 53))%Q).
      { apply Qle_lt_trans with (inject_Z (Zpos m)); [|rewrite <- inject_lt; exact V1].
        unfold a. rewrite <- (Qmult_1_r (inject_Z (Zpos m))) at 2. apply Qmult_le_l; [reflexivity|].
        change 1%Q with (p2 0). apply p2_le. lia. }
      pose proof a_pos as A0.
      assert (Qabs (inject_Z z) < inject_Z (2 ^ 53 + 1))%Q.
      { rewrite inject_Z_plus. apply Qabs_Qlt_condition. apply Qabs_Qlt_condition in N. rewrite qa in N.
        change (inject_Z 1) with 1%Q. destruct s; lra. }
      change (Qabs (inject_Z z)) with (inject_Z (Z.abs z)) in H0. rewrite <- inject_lt in H0. lia.
    - assert (Z0 : (q == inject_Z z)%Q).
      { assert (I : (q == inject_Z (cond_Zopp s (Zpos m) * 2 ^ e))%Q).
        { unfold q, fval. rewrite inject_Z_mult, <- p2_Z by lia. reflexivity. }
        rewrite I in B. rewrite Qfloor_Z in B. unfold Qceiling in B. rewrite <- inject_Z_opp, Qfloor_Z in B.
        rewrite I. replace z with (cond_Zopp s (Zpos m) * 2 ^ e) by lia. reflexivity. }
      apply (of_q_exact _ (cond_Zopp s (Zpos m)) e); [rewrite <- Z0; reflexivity|destruct s; cbn; lia|lia].
  Qed.
End One.

(** the number that a zero, infinity or NaN stands for is kept, and otherwise it is the
    integer *)
Lemma rounded_ok f g : vfloat f ->
  (forall s m e, let q := fval (S754_finite s m e) in let z := g {| d_neg := s; d_m := Zpos m; d_e := e |} in
     (Qabs (q - inject_Z z) < 1)%Q /\ Qfloor q <= z <= Qceiling q) ->
  vfloat (rounded g f) /\
  match f with
  | S754_finite s m e => exists v, fext (rounded g f) = Fin v /\ (v == inject_Z (g {| d_neg := s; d_m := Zpos m; d_e := e |}))%Q
  | _ => rounded g f = f
  end.
Proof.
  intros V H. destruct f as [s|s| |s m e]; try (split; reflexivity).
  cbn [rounded]. destruct (H s m e) as [A B]. set (z := g _) in *.
  destruct (z =? 0) eqn:E.
  - split; [reflexivity|]. exists 0%Q. split; [reflexivity|]. replace z with 0 by lia. reflexivity.
  - destruct (near_exact s m e V z A B) as [F W]. split; [apply of_q_valid|].
    rewrite fext_finite by exact F. eauto.
Qed.
Lemma floor_bounds q : (Qabs (q - inject_Z (Qfloor q)) < 1)%Q /\ Qfloor q <= Qfloor q <= Qceiling q.
Proof.
  pose proof (Qfloor_le q). pose proof (Qlt_floor q) as L. rewrite inject_Z_plus in L. change (inject_Z 1) with 1%Q in L.
  split; [apply Qabs_Qlt_condition; split; lra|]. split; [lia|]. rewrite inject_le. pose proof (Qle_ceiling q). lra.
Qed.
Lemma ceil_bounds q : (Qabs (q - inject_Z (Qceiling q)) < 1)%Q /\ Qfloor q <= Qceiling q <= Qceiling q.
Proof.
  pose proof (Qle_ceiling q). pose proof (Qceiling_lt q) as L. unfold Z.sub in L. rewrite inject_Z_plus, inject_Z_opp in L. change (inject_Z 1) with 1%Q in L.
  split; [apply Qabs_Qlt_condition; split; lra|]. pose proof (floor_bounds q). lia.
Qed.
Lemma near_bounds q z : (Qabs (q - inject_Z z) <= 1 # 2)%Q -> Qfloor q <= z <= Qceiling q.
Proof.
  intros H. apply Qabs_Qle_condition in H. pose proof (Qfloor_le q). pose proof (Qle_ceiling q).
  split.
  - assert (inject_Z (Qfloor q) < inject_Z (z + 1))%Q by (rewrite inject_Z_plus; change (inject_Z 1) with 1%Q; lra).
    rewrite <- inject_lt in H2. lia.
  - assert (inject_Z z < inject_Z (Qceiling q + 1))%Q by (rewrite inject_Z_plus; change (inject_Z 1) with 1%Q; lra).
    rewrite <- inject_lt in H2. lia.
Qed.
Lemma rounded_floor f : vfloat f -> vfloat (rounded d_floor f) /\
  if finite f then exists v, fext (rounded d_floor f) = Fin v /\ (v == inject_Z (Qfloor (fval f)))%Q else rounded d_floor f = f.
Proof.
  intros V. destruct (rounded_ok f d_floor V) as [A B].
  { intros s m e. cbv zeta. rewrite d_floor_ok. apply floor_bounds. }
  split; [exact A|]. destruct f as [s|s| |s m e]; cbn [finite]; try exact B.
  - rewrite B. exists 0%Q. split; reflexivity.
  - rewrite d_floor_ok in B. exact B.
Qed.
Lemma rounded_ceil f : vfloat f -> vfloat (rounded d_ceil f) /\
  if finite f then exists v, fext (rounded d_ceil f) = Fin v /\ (v == inject_Z (Qceiling (fval f)))%Q else rounded d_ceil f = f.
Proof.
  intros V. destruct (rounded_ok f d_ceil V) as [A B].
  { intros s m e. cbv zeta. rewrite d_ceil_ok. apply ceil_bounds. }
  split; [exact A|]. destruct f as [s|s| |s m e]; cbn [finite]; try exact B.
  - rewrite B. exists 0%Q. split; reflexivity.
  - rewrite d_ceil_ok in B. exact B.
Qed.
Definition trunc_z (q : Q) : Z := if Qnum q <? 0 then Qceiling q else Qfloor q.
Lemma fval_sign s m e : (Qnum (fval (S754_finite s m e)) <? 0) = s.
Proof.
  pose proof (a_pos m e) as P. pose proof (fval_abs s m e) as X. set (q := fval _) in *.
  clearbody q. destruct s; [assert (H : (q < 0)%Q) by (rewrite X; lra)|assert (H : (0 < q)%Q) by (rewrite X; lra)]; unfold Qlt in H; cbn in H; lia.
Qed.
Lemma rounded_trunc f : vfloat f -> vfloat (rounded d_trunc f) /\
  if finite f then exists v, fext (rounded d_trunc f) = Fin v /\ (v == inject_Z (trunc_z (fval f)))%Q else rounded d_trunc f = f.
Proof.
  intros V. destruct (rounded_ok f d_trunc V) as [A B].
  { intros s m e. cbv zeta. rewrite d_trunc_ok. destruct s; [apply ceil_bounds|apply floor_bounds]. }
  split; [exact A|]. destruct f as [s|s| |s m e]; cbn [finite]; try exact B.
  - rewrite B. exists 0%Q. split; reflexivity.
  - rewrite d_trunc_ok in B. unfold trunc_z. rewrite fval_sign. exact B.
Qed.
Lemma rounded_round f : vfloat f -> vfloat (rounded d_round f) /\
  if finite f then exists v z, fext (rounded d_round f) = Fin v /\ (v == inject_Z z)%Q /\ (Qabs (fval f - inject_Z z) <= 1 # 2)%Q
  else rounded d_round f = f.
Proof.
  intros V. destruct (rounded_ok f d_round V) as [A B].
  { intros s m e. cbv zeta. pose proof (d_round_near s m e) as H.
    split; [|apply near_bounds; exact H]. eapply Qle_lt_trans; [exact H|reflexivity]. }
  split; [exact A|]. destruct f as [s|s| |s m e]; cbn [finite]; try exact B.
  - rewrite B. exists 0%Q, 0. repeat split. discriminate.
  - destruct B as (v & E & W). exists v, (d_round {| d_neg := s; d_m := Zpos m; d_e := e |}).
    repeat split; try assumption. apply d_round_near.
Qed.
Lemma trunc_z_int q z : (q == inject_Z z)%Q -> trunc_z q = z.
Proof.
  intros H. unfold trunc_z. destruct (_ <? _); rewrite H; [|apply Qfloor_Z].
  unfold Qceiling. rewrite <- inject_Z_opp, Qfloor_Z. lia.
Qed.

(** ** Remainders *)
Lemma quot_trunc q : quot_q q = trunc_z q.
Proof.
  unfold quot_q, trunc_z. destruct q as [n d]. cbn [Qnum Qden]. destruct (n <? 0) eqn:E.
  - unfold Qceiling, Qopp, Qfloor. cbn [Qnum Qden]. rewrite <- (Z.opp_involutive n) at 1.
    rewrite Z.quot_opp_l, Z.quot_div_nonneg by lia. reflexivity.
  - rewrite Z.quot_div_nonneg by lia. reflexivity.
Qed.
Lemma trunc_z_spec q : (Qabs (q - inject_Z (trunc_z q)) < 1)%Q /\ (0 <= (q - inject_Z (trunc_z q)) * q)%Q
  /\ (Qabs (q - inject_Z (trunc_z q)) <= Qabs q)%Q.
Proof.
  unfold trunc_z. destruct (Qnum q <? 0) eqn:E.
  - assert (N : (q < 0)%Q) by (unfold Qlt; cbn; lia). destruct (ceil_bounds q) as [A _].
    pose proof (Qle_ceiling q) as C. split; [exact A|].
    assert (C0 : (inject_Z (Qceiling q) <= 0)%Q).
    { change 0%Q with (inject_Z 0). rewrite <- inject_le. unfold Qceiling.
      assert (0 <= Qfloor (- q)); [|lia]. change 0 with (Qfloor 0). apply Qfloor_resp_le. lra. }
    split.
    + setoid_replace ((q - inject_Z (Qceiling q)) * q)%Q with ((inject_Z (Qceiling q) - q) * (- q))%Q by ring.
      apply Qmult_le_0_compat; lra.
    + rewrite !Qabs_neg by lra. lra.
  - assert (N : (0 <= q)%Q) by (unfold Qle; cbn; lia). destruct (floor_bounds q) as [A _].
    pose proof (Qfloor_le q) as C. split; [exact A|].
    assert (C0 : (0 <= inject_Z (Qfloor q))%Q).
    { change 0%Q with (inject_Z 0). rewrite <- inject_le. change 0 with (Qfloor 0). apply Qfloor_resp_le. lra. }
    split; [apply Qmult_le_0_compat; lra|]. rewrite !Qabs_pos by lra. lra.
Qed.

Lemma fmod_ok x y : vfloat x -> vfloat y -> finite x = true -> finite y = true -> ~ (fval y == 0)%Q ->
  vfloat (fmod x y) /\ finite (fmod x y) = true /\ truncate_remainder (fval x) (fval y) (fval (fmod x y)).
Proof.
  intros V1 V2 F1 F2 N.
  assert (E : fmod x y = minus_multiple x (quot_q (fval x / fval y)%Q) y).
  { unfold fmod, remainder_by. destruct x, y; try discriminate; try reflexivity; exfalso; apply N; reflexivity. }
  rewrite E. clear E. rewrite quot_trunc. set (n := trunc_z (fval x / fval y)).
  destruct (trunc_z_spec (fval x / fval y)) as (A & B & C). fold n in A, B, C.
  set (r := (fval x - inject_Z n * fval y)%Q).
  assert (R : (r == (fval x / fval y - inject_Z n) * fval y)%Q) by (unfold r; field; exact N).
  assert (Y : (0 < Qabs (fval y))%Q).
  { destruct (Qlt_le_dec 0 (Qabs (fval y))) as [L|L]; [exact L|]. exfalso. apply N.
    pose proof (Qabs_nonneg (fval y)). assert (Z0 : (Qabs (fval y) == 0)%Q) by lra.
    apply Qabs_Qle_condition in L. lra. }
  assert (R1 : (Qabs r < Qabs (fval y))%Q).
  { rewrite R, Qabs_Qmult. rewrite <- (Qmult_1_l (Qabs (fval y))) at 2. apply Qmult_lt_r; [exact Y|exact A]. }
  assert (R2 : (Qabs r <= Qabs (fval x))%Q).
  { assert (X : (fval x == (fval x / fval y) * fval y)%Q) by (field; exact N).
    rewrite R. rewrite X at 2. rewrite !Qabs_Qmult. apply Qmult_le_r; [exact Y|exact C]. }
  assert (R3 : (0 <= r * fval x)%Q).
  { setoid_replace (r * fval x)%Q with (((fval x / fval y - inject_Z n) * (fval x / fval y)) * (fval y * fval y))%Q
      by (rewrite R; field; exact N).
    apply Qmult_le_0_compat; [exact B|]. nra. }
  assert (Rep : representable r).
  { destruct (fval_den x V1 F1) as (a & e1 & X1 & X2 & X3). destruct (fval_den y V2 F2) as (b & e2 & Y1 & Y2 & Y3).
    assert (K : forall k e, (r == inject_Z k * p2 e)%Q -> forall c, (Qabs r <= inject_Z (Z.abs c) * p2 e)%Q -> Z.abs k <= Z.abs c).
    { intros k e H c L. rewrite H, Qabs_Qmult, (Qabs_pos (p2 e)) in L by (apply Qlt_le_weak, p2_pos).
      apply Qmult_le_r in L; [|apply p2_pos]. change (Qabs (inject_Z k)) with (inject_Z (Z.abs k)) in L.
      rewrite <- inject_le in L. exact L. }
    assert (Ab : forall c e, (Qabs (inject_Z c * p2 e) == inject_Z (Z.abs c) * p2 e)%Q).
    { intros. rewrite Qabs_Qmult, (Qabs_pos (p2 e)) by (apply Qlt_le_weak, p2_pos). reflexivity. }
    destruct (Z_le_gt_dec e1 e2) as [L|G].
    - assert (H : (r == inject_Z (a - n * (b * 2 ^ (e2 - e1))) * p2 e1)%Q).
      { unfold r. rewrite X1, Y1. unfold Z.sub at 1. rewrite inject_Z_plus, inject_Z_opp, !inject_Z_mult.
        rewrite <- (p2_Z (e2 - e1)) by lia. replace e2 with (e2 - e1 + e1) at 1 by lia. rewrite p2_add. ring. }
      exists (a - n * (b * 2 ^ (e2 - e1))), e1. split; [exact H|]. split; [|lia].
      assert (Z.abs (a - n * (b * 2 ^ (e2 - e1))) <= Z.abs a); [|lia]. apply (K _ e1 H). rewrite <- Ab, <- X1. exact R2.
    - assert (H : (r == inject_Z (a * 2 ^ (e1 - e2) - n * b) * p2 e2)%Q).
      { unfold r. rewrite X1, Y1. unfold Z.sub at 1. rewrite inject_Z_plus, inject_Z_opp, !inject_Z_mult.
        rewrite <- (p2_Z (e1 - e2)) by lia. replace e1 with (e1 - e2 + e2) at 1 by lia. rewrite p2_add. ring. }
      exists (a * 2 ^ (e1 - e2) - n * b), e2. split; [exact H|]. split; [|lia].
      assert (Z.abs (a * 2 ^ (e1 - e2) - n * b) <= Z.abs b); [|lia]. apply (K _ e2 H). rewrite <- Ab, <- Y1.
      apply Qlt_le_weak. exact R1. }
  assert (Done : forall g, vfloat g -> finite g = true -> (fval g == r)%Q ->
    vfloat g /\ finite g = true /\ truncate_remainder (fval x) (fval y) (fval g)).
  { intros g G1 G2 G3. split; [exact G1|]. split; [exact G2|]. exists n. rewrite !G3. split; [unfold r; ring|]. auto. }
  unfold minus_multiple. fold r. destruct (Qnum (Qred r) =? 0) eqn:E.
  - apply Done; try reflexivity. rewrite <- (Qred_correct r). destruct (Qred r) as [u v]. cbn in E. cbn [fval].
    replace u with 0 by lia. reflexivity.
  - rewrite (of_q_comp _ _ (Qred_correct r)). destruct (of_q_representable r Rep). apply Done; [apply of_q_valid|assumption..].
Qed.

(** ** The square roots of squares *)
Lemma sqrtrem_square a : 0 <= a -> Z.sqrtrem (a * a) = (a, 0).
Proof.
  intros H. pose proof (Z.sqrtrem_spec (a * a) ltac:(nia)) as X. destruct (Z.sqrtrem (a * a)) as [s r].
  destruct X as [E B]. assert (s = a) by nia. subst. f_equal. lia.
Qed.
(** rounding keeps a mantissa of 53 bits *)
Lemma round_53 a e : 2 ^ 52 <= Zpos a < 2 ^ 53 -> -1074 <= e <= 971 ->
  binary_round_aux prec emax false (Zpos a) e loc_Exact = S754_finite false a e.
Proof.
  intros A B.
  assert (D : Zdigits2 (Zpos a) = 53).
  { cbn [Zdigits2]. rewrite digits2_log2. rewrite (Z.log2_unique (Zpos a) 52) by (change (2 ^ Z.succ 52) with (2 ^ 53); lia). reflexivity. }
  assert (N : fexp prec emax (53 + e) - e = 0) by (unfold fexp, emin, prec, emax; lia).
  assert (S1 : shr_fexp prec emax (Zpos a) e loc_Exact = ({| shr_m := Zpos a; shr_r := false; shr_s := false |}, e)).
  { unfold shr_fexp. rewrite D, N. reflexivity. }
  unfold binary_round_aux. rewrite S1. cbn [shr_m loc_of_shr_record round_nearest_even]. rewrite S1. cbn [shr_m].
  destruct (Zle_bool e (emax - prec)) eqn:E; [reflexivity|]. change (emax - prec) with 971 in E. change (Zle_bool e 971) with (e <=? 971) in E. lia.
Qed.
Lemma sqrt_square k : 0 < k < 2 ^ 17 ->
  exists a e, SFsqrt prec emax (to_double (Small (k * k))) = S754_finite false a e /\ (fval (S754_finite false a e) == inject_Z k)%Q.
Proof.
  intros K. assert (K1 : 1 <= k * k < 2 ^ 34) by nia. unfold to_double, to_q, ratio_of.
  destruct (of_Z_exact (k * k) ltac:(nia)) as [F W]. pose proof (of_q_valid (inject_Z (k * k))) as V.
  destruct (of_q (inject_Z (k * k))) as [s|s| |s m e]; try discriminate.
  { cbn [fval] in W. change 0%Q with (inject_Z 0) in W. apply -> inject_Z_injective in W. lia. }
  pose proof (a_pos m e) as P. rewrite fval_abs in W.
  assert (KK : (0 < inject_Z (k * k))%Q) by (change 0%Q with (inject_Z 0); rewrite <- inject_lt; lia).
  destruct s; [lra|]. apply vfloat_iff in V. destruct V as (V1 & V2 & V3).
  assert (L : -53 < e).
  { apply p2_lt_inv. assert (X : (1 <= inject_Z (k * k))%Q) by (change 1%Q with (inject_Z 1); rewrite <- inject_le; lia).
    rewrite <- W in X. destruct (Qlt_le_dec (p2 (-53)) (p2 e)) as [Y|Y]; [exact Y|exfalso].
    assert (inject_Z (Zpos m) * p2 e < inject_Z (2 ^ 53) * p2 (-53))%Q.
    { apply Qle_lt_trans with (inject_Z (Zpos m) * p2 (-53))%Q; [apply Qmult_le_l; [reflexivity|exact Y]|].
      apply Qmult_lt_r; [apply p2_pos|]. rewrite <- inject_lt. exact V1. }
    assert (Z0 : (inject_Z (2 ^ 53) * p2 (-53) == 1)%Q) by reflexivity. lra. }
  assert (M : 2 ^ 52 <= Zpos m) by lia.
  assert (U : e < -17).
  { apply p2_lt_inv. assert (X : (inject_Z (k * k) < inject_Z (2 ^ 34))%Q) by (rewrite <- inject_lt; lia).
    rewrite <- W in X. destruct (Qlt_le_dec (p2 e) (p2 (-17))) as [Y|Y]; [exact Y|exfalso].
    assert (inject_Z (2 ^ 52) * p2 (-17) <= inject_Z (Zpos m) * p2 e)%Q.
    { apply Qle_trans with (inject_Z (2 ^ 52) * p2 e)%Q; [apply Qmult_le_l; [reflexivity|exact Y]|].
      apply Qmult_le_r; [apply p2_pos|]. rewrite <- inject_le. exact M. }
    assert (Z0 : (inject_Z (2 ^ 34) < inject_Z (2 ^ 52) * p2 (-17))%Q) by reflexivity. lra. }
  assert (Em : Zpos m = k * k * 2 ^ (- e)).
  { apply -> inject_Z_injective. rewrite (inject_Z_mult (k * k)), <- p2_Z by lia. rewrite <- W, <- Qmult_assoc, p2_opp. ring. }
  assert (D : Zdigits2 (Zpos m) = 53).
  { cbn [Zdigits2]. rewrite digits2_log2, (Z.log2_unique (Zpos m) 52) by (change (2 ^ Z.succ 52) with (2 ^ 53); lia). reflexivity. }
  pose (h := (54 + e) / 2). pose (e' := h - 53). pose (t := e - 2 * e').
  pose proof (Z.div_mod (54 + e) 2 ltac:(lia)) as H1. pose proof (Z.mod_pos_bound (54 + e) 2 ltac:(lia)) as H2. fold h in H1.
  assert (T : t = 52 \/ t = 53) by (unfold t, e'; lia).
  assert (E' : -53 < e' < 0) by (unfold e'; lia).
  pose (a := k * 2 ^ (- e')). pose proof (pow_pos' (- e') ltac:(lia)) as P2.
  assert (Ha : Zpos m * 2 ^ t = a * a).
  { rewrite Em. unfold a. replace (k * 2 ^ (- e') * (k * 2 ^ (- e'))) with (k * k * (2 ^ (- e') * 2 ^ (- e'))) by ring.
    rewrite <- Z.pow_add_r, <- Z.mul_assoc, <- Z.pow_add_r by lia. f_equal. f_equal. unfold t. lia. }
  assert (A0 : 0 < a) by (unfold a; nia).
  assert (A1 : 2 ^ 52 <= a < 2 ^ 53).
  { assert (2 ^ 104 <= a * a < 2 ^ 106).
    { rewrite <- Ha. destruct T as [T|T]; rewrite T; lia. }
    split; [destruct (Z_le_gt_dec (2 ^ 52) a)|destruct (Z_lt_ge_dec a (2 ^ 53))]; try assumption; exfalso; nia. }
  assert (C : SFsqrt_core_binary prec emax (Zpos m) e = (a, e', loc_Exact)).
  { unfold SFsqrt_core_binary. rewrite D.
    replace (Z.min (fexp prec emax (Z.div2 (53 + e + 1))) (Z.div2 e)) with e'.
    2:{ rewrite !Z.div2_div. replace (53 + e + 1) with (54 + e) by lia. fold h. unfold fexp, emin, prec, emax.
        pose proof (Z.div_mod e 2 ltac:(lia)). pose proof (Z.mod_pos_bound e 2 ltac:(lia)). unfold e'. lia. }
    fold t. assert (X : match t with Zpos _ => Z.shiftl (Zpos m) t | Z0 => Zpos m | Zneg _ => 0 end = a * a).
    { destruct t as [|p|p] eqn:Et; try lia. rewrite Z.shiftl_mul_pow2 by lia. exact Ha. }
    rewrite X, sqrtrem_square by lia. reflexivity. }
  cbn [SFsqrt]. rewrite C. destruct a as [|a'|a'] eqn:Ea; try lia.
  rewrite round_53 by lia. exists a', e'. split; [reflexivity|].
  rewrite fval_abs, <- Ea. unfold a. rewrite inject_Z_mult, <- p2_Z by lia. rewrite <- Qmult_assoc, (Qmult_comm (p2 (- e'))), p2_opp. ring.
Qed.
Lemma quot_q_int q z : (q == inject_Z z)%Q -> quot_q q = z.
Proof. intros H. rewrite quot_trunc. apply trunc_z_int, H. Qed.
Lemma root_square k : 0 <= k < 2 ^ 17 -> quot_q (fval (SFsqrt prec emax (to_double (Small (k * k))))) = k.
Proof.
  intros K. destruct (Z.eq_dec k 0) as [->|N]; [reflexivity|].
  destruct (sqrt_square k ltac:(lia)) as (a & e & -> & V). apply quot_q_int, V.
Qed.

(** ** Which doubles there are *)
Lemma of_q_maximal q y : (Qabs q < p2 1024)%Q -> representable y -> (Qabs y <= Qabs q)%Q -> (Qabs y <= Qabs (fval (of_q q)))%Q.
Proof.
  intros Hlt (k & e2 & Ey & B & C) L.
  destruct (Qeq_dec q 0) as [Z|N].
  { rewrite of_q_zero by exact Z. cbn [fval]. rewrite Z in L. exact L. }
  destruct (of_q_shape q N Hlt) as (l & A1 & A2 & H). cbv zeta in H. set (e := Z.max (-1074) (l - 52)) in *.
  set (m := Qfloor (Qabs q * p2 (- e))) in *. destruct H as (M1 & M2 & M3 & E).
  assert (Fv : (Qabs (fval (of_q q)) == inject_Z m * p2 e)%Q).
  { rewrite E. destruct m as [|p|p]; [reflexivity| |lia]. rewrite fval_abs. pose proof (a_pos p e).
    destruct (_ <? _); [rewrite Qabs_opp|]; rewrite Qabs_pos by lra; reflexivity. }
  rewrite Fv.
  assert (Ay : (Qabs y == inject_Z (Z.abs k) * p2 e2)%Q).
  { rewrite Ey, Qabs_Qmult. unfold p2. rewrite (Qabs_pos (Qpower 2 e2)) by (apply Qlt_le_weak, (p2_pos e2)). reflexivity. }
  destruct (Z_le_gt_dec e e2) as [G|G].
  - assert (I : (Qabs y == inject_Z (Z.abs k * 2 ^ (e2 - e)) * p2 e)%Q).
    { rewrite Ay, inject_Z_mult, <- p2_Z, <- Qmult_assoc, <- p2_add by lia. replace (e2 - e + e) with e2 by lia. reflexivity. }
    rewrite I. apply Qmult_le_r; [apply p2_pos|]. rewrite <- inject_le.
    rewrite <- (Qfloor_Z (Z.abs k * 2 ^ (e2 - e))). apply Qfloor_resp_le.
    assert (J : (inject_Z (Z.abs k * 2 ^ (e2 - e)) == Qabs y * p2 (- e))%Q).
    { rewrite I, <- Qmult_assoc, p2_opp. ring. }
    rewrite J. apply Qmult_le_r; [apply p2_pos|exact L].
  - rewrite Ay. apply Qle_trans with (p2 53 * p2 e2)%Q.
    + apply Qmult_le_r; [apply p2_pos|]. rewrite p2_Z, <- inject_le by lia. lia.
    + apply Qle_trans with (p2 52 * p2 e)%Q; [rewrite <- !p2_add; apply p2_le; lia|].
      apply Qmult_le_r; [apply p2_pos|]. rewrite p2_Z, <- inject_le by lia. lia.
Qed.
(** an odd integer above 2^53 is no double *)
Lemma double_integer f : vfloat f -> finite f = true -> forall z, quot_q (fval f) = z -> 2 ^ 53 <= z -> (fval f == inject_Z z)%Q.
Proof.
  intros V F z E B. rewrite quot_trunc in E. destruct (trunc_z_spec (fval f)) as (A & _ & A').
  rewrite E in A, A'. destruct f as [s|s| |s m e]; try discriminate.
  { exfalso. cbn [fval] in E. change (trunc_z 0) with 0 in E. lia. }
  apply vfloat_iff in V. destruct (Z_lt_ge_dec e 0) as [L|G].
  - exfalso. rewrite fval_abs in A. pose proof (a_pos m e) as P.
    assert (inject_Z (Zpos m) * p2 e <= inject_Z (Zpos m) * (1 # 2))%Q.
    { apply Qmult_le_l; [reflexivity|]. change (1 # 2) with (p2 (-1)). apply p2_le. lia. }
    assert (inject_Z (Zpos m) < inject_Z (2 ^ 53))%Q by (rewrite <- inject_lt; lia).
    assert (inject_Z (2 ^ 53) <= inject_Z z)%Q by (rewrite <- inject_le; lia).
    assert (2 <= inject_Z (2 ^ 53))%Q by (vm_compute; discriminate).
    apply Qabs_Qlt_condition in A. destruct s; lra.
  - assert (I : (fval (S754_finite s m e) == inject_Z (cond_Zopp s (Zpos m) * 2 ^ e))%Q).
    { unfold fval. rewrite inject_Z_mult, <- p2_Z by lia. reflexivity. }
    rewrite (trunc_z_int _ _ I) in E. rewrite <- E. exact I.
Qed.
Lemma no_wide_integer f : vfloat f -> finite f = true -> forall z, quot_q (fval f) = z -> 2 ^ 53 < z -> Z.odd z = true -> False.
Proof.
  intros V F z E B O. pose proof (double_integer f V F z E ltac:(lia)) as D.
  destruct (fval_den f V F) as (m & e & A & M & C). rewrite A in D.
  destruct (Z_lt_ge_dec 0 e) as [G|G].
  - rewrite p2_Z, <- inject_Z_mult in D by lia. apply -> inject_Z_injective in D. subst z.
    rewrite D in O || rewrite <- D in O. replace e with (Z.succ (e - 1)) in O by lia.
    rewrite Z.pow_succ_r, Z.odd_mul, Z.odd_mul in O by lia. cbn in O. rewrite andb_comm in O. discriminate.
  - assert (inject_Z m * p2 e < inject_Z z)%Q; [|lra].
    apply Qle_lt_trans with (inject_Z (Z.abs m) * p2 e)%Q; [apply Qmult_le_r; [apply p2_pos|rewrite <- inject_le; lia]|].
    apply Qle_lt_trans with (inject_Z (Z.abs m) * p2 0)%Q.
    + setoid_replace (inject_Z (Z.abs m) * p2 e)%Q with (p2 e * inject_Z (Z.abs m))%Q by ring.
      setoid_replace (inject_Z (Z.abs m) * p2 0)%Q with (p2 0 * inject_Z (Z.abs m))%Q by ring.
      apply Qmult_le_compat_r; [apply p2_le; lia|]. change 0%Q with (inject_Z 0). rewrite <- inject_le. lia.
    + change (p2 0) with 1%Q. rewrite Qmult_1_r, <- inject_lt. lia.
Qed.
Lemma no_huge_integer f : vfloat f -> finite f = true -> forall z, quot_q (fval f) = z -> 2 ^ 1024 <= z -> False.
Proof.
  intros V F z E B. pose proof (double_integer f V F z E ltac:(lia)) as D.
  destruct (fval_den f V F) as (m & e & A & M & C). rewrite A in D.
  assert (inject_Z m * p2 e < p2 1024)%Q.
  { apply Qlt_le_trans with (p2 53 * p2 e)%Q; [apply Qmult_lt_r; [apply p2_pos|rewrite p2_Z, <- inject_lt by lia; lia]|].
    rewrite <- p2_add. apply p2_le. lia. }
  rewrite D, p2_Z, <- inject_lt in H by lia. lia.
Qed.

(** ** Nearest and truncated integers, for the specification *)
Lemma trunc_z_abs q : (Qabs (inject_Z (trunc_z q)) <= Qabs q)%Q /\ (Qabs (q - inject_Z (trunc_z q)) < 1)%Q.
Proof.
  split; [|apply trunc_z_spec]. unfold trunc_z. destruct (Qnum q <? 0) eqn:E.
  - assert (N : (q < 0)%Q) by (unfold Qlt; cbn; lia). pose proof (Qle_ceiling q).
    assert (C0 : (inject_Z (Qceiling q) <= 0)%Q).
    { change 0%Q with (inject_Z 0). rewrite <- inject_le. unfold Qceiling.
      assert (0 <= Qfloor (- q)); [|lia]. change 0 with (Qfloor 0). apply Qfloor_resp_le. lra. }
    rewrite !Qabs_neg by lra. lra.
  - assert (N : (0 <= q)%Q) by (unfold Qle; cbn; lia). pose proof (Qfloor_le q).
    assert (C0 : (0 <= inject_Z (Qfloor q))%Q).
    { change 0%Q with (inject_Z 0). rewrite <- inject_le. change 0 with (Qfloor 0). apply Qfloor_resp_le. lra. }
    rewrite !Qabs_pos by lra. lra.
Qed.
Lemma int_gap z z' : z' <> z -> (1 <= Qabs (inject_Z z - inject_Z z'))%Q.
Proof.
  intros H. unfold Qminus. rewrite <- inject_Z_opp, <- inject_Z_plus.
  change (Qabs (inject_Z (z + - z'))) with (inject_Z (Z.abs (z + - z'))). change 1%Q with (inject_Z 1). rewrite <- inject_le. lia.
Qed.
Lemma nearest_spec q z : (Qabs (q - inject_Z z) <= 1 # 2)%Q ->
  (forall z', Qabs (q - inject_Z z) <= Qabs (q - inject_Z z'))%Q /\ (~ (exists k, q == inject_Z k + (1 # 2))%Q -> rounds_even q z).
Proof.
  intros H.
  assert (T : forall z', z' <> z -> (1 <= Qabs (q - inject_Z z) + Qabs (q - inject_Z z'))%Q).
  { intros z' N. eapply Qle_trans; [apply (int_gap z z' N)|].
    setoid_replace (inject_Z z - inject_Z z')%Q with (- (q - inject_Z z) + (q - inject_Z z'))%Q by ring.
    rewrite <- (Qabs_opp (q - inject_Z z)). apply Qabs_triangle. }
  assert (A : forall z', (Qabs (q - inject_Z z) <= Qabs (q - inject_Z z'))%Q).
  { intros z'. destruct (Z.eq_dec z' z) as [->|N]; [apply Qle_refl|]. specialize (T z' N). lra. }
  split; [exact A|]. intros NT. split; [exact A|].
  intros z' E. destruct (Z.eq_dec z' z) as [->|N]; [left; reflexivity|]. exfalso. specialize (T z' N).
  assert (X : (Qabs (q - inject_Z z) == 1 # 2)%Q) by lra.
  apply NT. destruct (Qlt_le_dec (q - inject_Z z) 0) as [L|L].
  - rewrite Qabs_neg in X by lra. exists (z - 1). unfold Z.sub. rewrite inject_Z_plus, inject_Z_opp. change (inject_Z 1) with 1%Q. lra.
  - rewrite Qabs_pos in X by lra. exists z. lra.
Qed.

(** ** Numerator and denominator *)
Lemma fval_parts f : vfloat f -> finite f = true ->
  representable (inject_Z (Qnum (Qred (fval f)))) /\ exists j, 0 <= j <= 1074 /\ Zpos (Qden (Qred (fval f))) = 2 ^ j.
Proof.
  intros V F. destruct (fval_den f V F) as (m & e & A & M & C).
  set (q := Qred (fval f)). assert (Hq : (q == inject_Z m * p2 e)%Q) by (unfold q; rewrite Qred_correct; exact A).
  assert (Cop : Z.gcd (Qnum q) (Zpos (Qden q)) = 1) by (apply Qcanon.Qred_iff; unfold q; apply valid_q).
  destruct (Z_lt_ge_dec e 0) as [L|G].
  - pose proof (pow_pos' (- e) ltac:(lia)) as P.
    assert (E : Qnum q * 2 ^ (- e) = m * Zpos (Qden q)).
    { assert (X : (q * inject_Z (2 ^ (- e)) == inject_Z m)%Q) by (rewrite Hq, <- p2_Z, <- Qmult_assoc, p2_opp by lia; ring).
      unfold Qeq, Qmult, inject_Z in X. cbn [Qnum Qden] in X. rewrite Pos.mul_1_r in X. lia. }
    split.
    + exists (Qnum q), 0. split; [change (Qpower 2 0) with 1%Q; ring|]. split; [|lia].
      assert (D : (Qnum q | m)).
      { apply Z.gauss with (Zpos (Qden q)); [exists (2 ^ (- e)); lia|exact Cop]. }
      destruct (Z.eq_dec m 0) as [->|N]; [destruct D as [k D]; nia|].
      pose proof (Znumtheory.Zdivide_bounds _ _ D N). lia.
    + assert (D : (Zpos (Qden q) | 2 ^ (- e))).
      { apply Z.gauss with (Qnum q); [exists m; lia|rewrite Z.gcd_comm; exact Cop]. }
      destruct (Zpow_facts.Zdivide_power_2 (Zpos (Qden q)) 2 (- e)) as (j & Hj); [lia|lia|apply Znumtheory.prime_2|exact D|].
      assert (J0 : 0 <= j) by (destruct (Z_lt_ge_dec j 0) as [X|]; [rewrite Z.pow_neg_r in Hj by exact X; lia|lia]).
      exists j. split; [|exact Hj]. split; [exact J0|].
      apply Z.divide_pos_le in D; [|exact P]. rewrite Hj in D. apply Z.pow_le_mono_r_iff in D; lia.
  - rewrite p2_Z, <- inject_Z_mult in Hq by lia.
    assert (D1 : Zpos (Qden q) = 1 /\ Qnum q = m * 2 ^ e).
    { unfold Qeq, inject_Z in Hq. cbn [Qnum Qden] in Hq.
      assert (D : (Zpos (Qden q) | Qnum q)) by (exists (m * 2 ^ e); lia).
      apply Z.divide_gcd_iff in D; [|lia]. rewrite Z.gcd_comm, Cop in D. split; [lia|]. nia. }
    destruct D1 as [D1 D2]. split.
    + exists m, e. split; [rewrite D2, inject_Z_mult, <- p2_Z by lia; reflexivity|lia].
    + exists 0. split; [lia|exact D1].
Qed.
