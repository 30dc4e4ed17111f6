(** Lemmas on the values of doubles and their truncating conversion (Flonum.v). *)
From Coq Require Import ZArith QArith Qreduction Qround Qabs Qpower Lia Lqa ZifyBool List Bool Floats.SpecFloat.
From Verif Require Import Number NumberProofs NumberRounding Flonum.
Open Scope Z_scope.

(** ** Powers of two *)
Definition p2 (e : Z) : Q := Qpower 2 e.
Lemma p2_pos e : (0 < p2 e)%Q.
Proof. apply Qpower_0_lt. reflexivity. Qed.
Lemma p2_add a b : (p2 (a + b) == p2 a * p2 b)%Q.
Proof. apply Qpower_plus. discriminate. Qed.
Lemma p2_Z e : 0 <= e -> (p2 e == inject_Z (2 ^ e))%Q.
Proof. intros H. unfold p2. rewrite Zpower_Qpower by exact H. reflexivity. Qed.
Lemma p2_opp e : (p2 e * p2 (- e) == 1)%Q.
Proof. rewrite <- p2_add. replace (e + - e) with 0 by lia. reflexivity. Qed.
Lemma p2_inv e : (p2 (- e) == / p2 e)%Q.
Proof. unfold p2. rewrite Qpower_opp. reflexivity. Qed.
Lemma p2_le a b : a <= b -> (p2 a <= p2 b)%Q.
Proof.
  intros H. replace b with (a + (b - a)) by lia. rewrite p2_add, (p2_Z (b - a)) by lia.
  rewrite <- (Qmult_1_r (p2 a)) at 1. apply Qmult_le_l; [apply p2_pos|].
  change 1%Q with (inject_Z 1). rewrite <- Zle_Qle. pose proof (pow_pos' (b - a) ltac:(lia)). lia.
Qed.
Lemma p2_lt_inv a b : (p2 a < p2 b)%Q -> a < b.
Proof. intros H. destruct (Z_lt_ge_dec a b) as [L|G]; [exact L|]. pose proof (p2_le b a ltac:(lia)). lra. Qed.
Lemma p2_lt a b : a < b -> (p2 a < p2 b)%Q.
Proof.
  intros H. apply Qlt_le_trans with (p2 (a + 1)); [|apply p2_le; lia].
  rewrite p2_add. change (p2 1) with 2%Q. pose proof (p2_pos a). lra.
Qed.

Lemma inject_lt a b : a < b <-> (inject_Z a < inject_Z b)%Q. Proof. rewrite Zlt_Qlt. reflexivity. Qed.
Lemma inject_le a b : a <= b <-> (inject_Z a <= inject_Z b)%Q. Proof. rewrite Zle_Qle. reflexivity. Qed.

(** ** scaled is a floor, ilog2 is the logarithm *)
Lemma scaled_floor n d e : scaled n d e = Qfloor ((n # d) * p2 (- e)).
Proof.
  unfold scaled. destruct (0 <=? e) eqn:E.
  - assert (P := pow_pos' e ltac:(lia)).
    assert (H : ((n # d) * p2 (- e) == n # (d * Z.to_pos (2 ^ e)))%Q).
    { rewrite p2_inv, p2_Z by lia. destruct (2 ^ e) eqn:X; try lia.
      unfold Qeq, Qmult, Qinv, inject_Z. cbn [Qnum Qden Z.to_pos]. cbn. lia. }
    rewrite H. unfold Qfloor. f_equal. rewrite Pos2Z.inj_mul, Z2Pos.id by lia. reflexivity.
  - assert (P := pow_pos' (- e) ltac:(lia)).
    assert (H : ((n # d) * p2 (- e) == (n * 2 ^ (- e)) # d)%Q).
    { rewrite p2_Z by lia. unfold Qeq, Qmult, inject_Z. cbn [Qnum Qden]. rewrite Pos.mul_1_r. reflexivity. }
    rewrite H. reflexivity.
Qed.
Lemma ge_pow_q n d e : ge_pow n (Zpos d) e <-> (p2 e <= n # d)%Q.
Proof.
  unfold ge_pow. destruct (0 <=? e) eqn:E.
  - rewrite p2_Z by lia. unfold Qle, inject_Z. cbn [Qnum Qden]. rewrite Z.mul_1_r. lia.
  - assert (P := pow_pos' (- e) ltac:(lia)).
    replace (p2 e) with (p2 (- - e)) by (f_equal; lia). rewrite p2_inv, p2_Z by lia.
    destruct (2 ^ (- e)) eqn:X; try lia. unfold Qle, Qinv, inject_Z. cbn [Qnum Qden]. lia.
Qed.
Lemma ilog2_lower n d : 0 < n -> (p2 (ilog2 n d) <= n # d)%Q.
Proof. intros H. apply ge_pow_q, ilog2_ge, H. Qed.
Lemma ilog2_upper n d : 0 < n -> (n # d < p2 (ilog2 n d + 1))%Q.
Proof.
  intros Hn. unfold ilog2. set (k := Z.log2 n - Z.log2 (Zpos d)).
  destruct (scaled n d k =? 0) eqn:E.
  - replace (k - 1 + 1) with k by lia. apply Z.eqb_eq in E. rewrite scaled_floor in E.
    pose proof (Qlt_floor ((n # d) * p2 (- k))) as F. rewrite E in F. change (inject_Z (0 + 1)) with 1%Q in F.
    assert (G : ((n # d) * p2 (- k) * p2 k < 1 * p2 k)%Q) by (apply Qmult_lt_r; [apply p2_pos|exact F]).
    assert (X : ((n # d) * p2 (- k) * p2 k == n # d)%Q).
    { rewrite <- Qmult_assoc, (Qmult_comm (p2 (- k))), p2_opp. ring. }
    rewrite X in G. lra.
  - pose proof (Z.log2_spec n Hn) as [_ A2]. pose proof (Z.log2_spec (Zpos d) ltac:(lia)) as [B1 _].
    pose proof (Z.log2_nonneg n). pose proof (Z.log2_nonneg (Zpos d)).
    assert (A : (inject_Z n < p2 (Z.log2 n + 1))%Q) by (rewrite p2_Z, <- inject_lt by lia; exact A2).
    assert (B : (p2 (Z.log2 (Zpos d)) <= inject_Z (Zpos d))%Q) by (rewrite p2_Z, <- inject_le by lia; exact B1).
    replace (k + 1) with (Z.log2 n + 1 + - Z.log2 (Zpos d)) by lia.
    rewrite p2_add, p2_inv.
    assert (X : (n # d == inject_Z n / inject_Z (Zpos d))%Q) by apply Qmake_Qdiv.
    rewrite X. assert (0 < inject_Z (Zpos d))%Q by reflexivity.
    apply Qlt_shift_div_r; [assumption|].
    apply Qlt_le_trans with (p2 (Z.log2 n + 1)); [exact A|].
    setoid_replace (p2 (Z.log2 n + 1) * / p2 (Z.log2 (Zpos d)) * inject_Z (Zpos d))%Q
      with (p2 (Z.log2 n + 1) * (inject_Z (Zpos d) / p2 (Z.log2 (Zpos d))))%Q by (unfold Qdiv; ring).
    rewrite <- (Qmult_1_r (p2 (Z.log2 n + 1))) at 1. apply Qmult_le_l; [apply p2_pos|].
    apply Qle_shift_div_l; [apply p2_pos|]. lra.
Qed.

(** ** Valid doubles *)
Definition vfloat (f : double) : Prop := valid_binary prec emax f = true.
Lemma digits2_log2 m : Zpos (digits2_pos m) = Z.log2 (Zpos m) + 1.
Proof.
  induction m as [m IH|m IH|]; cbn [digits2_pos]; [| |reflexivity].
  - rewrite Pos2Z.inj_succ, IH. rewrite (Pos2Z.inj_xI m), Z.log2_succ_double by lia. lia.
  - rewrite Pos2Z.inj_succ, IH. rewrite (Pos2Z.inj_xO m), Z.log2_double by lia. lia.
Qed.
Lemma vfloat_iff s m e : vfloat (S754_finite s m e) <->
  Zpos m < 2 ^ 53 /\ -1074 <= e <= 971 /\ (e = -1074 \/ 2 ^ 52 <= Zpos m).
Proof.
  unfold vfloat, valid_binary, bounded, canonical_mantissa, fexp, emin, prec, emax.
  rewrite andb_true_iff, <- Zeq_is_eq_bool, digits2_log2. change (3 - 1024 - 53) with (-1074).
  change (1024 - 53) with 971. rewrite <- Zle_is_le_bool.
  pose proof (Z.log2_spec (Zpos m) ltac:(lia)) as [A B]. pose proof (Z.log2_nonneg (Zpos m)).
  assert (L1 : Z.log2 (Zpos m) < 53 <-> Zpos m < 2 ^ 53).
  { symmetry. apply Z.log2_lt_pow2. lia. }
  assert (L2 : 52 <= Z.log2 (Zpos m) <-> 2 ^ 52 <= Zpos m).
  { symmetry. apply Z.log2_le_pow2. lia. }
  lia.
Qed.

Lemma fval_abs s m e : fval (S754_finite s m e) == (if s then - (inject_Z (Zpos m) * p2 e) else inject_Z (Zpos m) * p2 e).
Proof. unfold fval, p2. destruct s; cbn [cond_Zopp]; [|reflexivity]. rewrite inject_Z_opp. ring. Qed.

(** ** The truncating conversion *)
Definition qabs_nd (q : Q) : (Qabs q == Z.abs (Qnum q) # Qden q)%Q. Proof. destruct q. reflexivity. Qed.

(** what of_q gives for a number below 2^1024: sign, mantissa and exponent *)
Lemma of_q_shape q : ~ q == 0 -> (Qabs q < p2 1024)%Q ->
  exists l, (p2 l <= Qabs q)%Q /\ (Qabs q < p2 (l + 1))%Q /\
    let e := Z.max (-1074) (l - 52) in
    let m := Qfloor (Qabs q * p2 (- e)) in
    0 <= m < 2 ^ 53 /\ (e = -1074 \/ 2 ^ 52 <= m) /\ -1074 <= e <= 971 /\
    of_q q = match m with Zpos p => S754_finite (Qnum q <? 0) p e | _ => S754_zero false end.
Proof.
  intros Hq Hlt. assert (Hn : 0 < Z.abs (Qnum q)).
  { destruct (Z.eq_dec (Qnum q) 0) as [E|E]; [|lia]. exfalso. apply Hq. destruct q as [a b]. cbn in E. subst. reflexivity. }
  pose proof (ilog2_lower (Z.abs (Qnum q)) (Qden q) Hn) as L. pose proof (ilog2_upper (Z.abs (Qnum q)) (Qden q) Hn) as U.
  rewrite <- qabs_nd in L, U.
  set (l := ilog2 (Z.abs (Qnum q)) (Qden q)) in *. exists l. split; [exact L|]. split; [exact U|].
  assert (Hl : l < 1024) by (apply p2_lt_inv; lra).
  cbv zeta. set (e := Z.max (-1074) (l - 52)). set (m := Qfloor (Qabs q * p2 (- e))).
  assert (Hm0 : 0 <= m).
  { unfold m. change 0 with (Qfloor 0). apply Qfloor_resp_le. apply Qmult_le_0_compat; [apply Qabs_nonneg|].
    apply Qlt_le_weak, p2_pos. }
  assert (Hm1 : m < 2 ^ 53).
  { rewrite inject_lt, <- p2_Z by lia. unfold m. apply Qle_lt_trans with (Qabs q * p2 (- e))%Q; [apply Qfloor_le|].
    apply Qlt_le_trans with (p2 (l + 1) * p2 (- e))%Q; [apply Qmult_lt_r; [apply p2_pos|exact U]|].
    rewrite <- p2_add. apply p2_le. lia. }
  assert (Hm2 : e = -1074 \/ 2 ^ 52 <= m).
  { destruct (Z.eq_dec e (-1074)) as [|Ne]; [left; assumption|right].
    assert (e = l - 52) by lia. unfold m. rewrite <- (Qfloor_Z (2 ^ 52)). apply Qfloor_resp_le.
    rewrite <- p2_Z by lia. apply Qle_trans with (p2 l * p2 (- e))%Q.
    - rewrite <- p2_add. apply p2_le. lia.
    - apply Qmult_le_r; [apply p2_pos|exact L]. }
  split; [lia|]. split; [exact Hm2|]. split; [lia|].
  unfold of_q, get_d. destruct (Z.abs (Qnum q) =? 0) eqn:E0; [lia|]. fold l.
  destruct (1024 <=? l) eqn:E1; [lia|]. fold e. cbn [d_m d_neg d_e].
  rewrite scaled_floor, <- (Qfloor_comp _ _ (Qmult_comp _ _ (qabs_nd q) _ _ (Qeq_refl (p2 (- e))))). fold m. reflexivity.
Qed.
Lemma of_q_zero q : q == 0 -> of_q q = S754_zero false.
Proof.
  intros H. unfold of_q, get_d. assert (Qnum q = 0) as ->; [|reflexivity].
  unfold Qeq in H. cbn in H. lia.
Qed.
Lemma of_q_huge q : (p2 1024 <= Qabs q)%Q -> of_q q = S754_infinity (Qnum q <? 0).
Proof.
  intros H. unfold of_q, get_d. pose proof (p2_pos 1024).
  assert (Hn : 0 < Z.abs (Qnum q)).
  { destruct (Z.eq_dec (Qnum q) 0) as [E|E]; [|lia]. exfalso. destruct q as [a b]. cbn in E. subst.
    assert (X : (Qabs (0 # b) == 0)%Q) by reflexivity. rewrite X in H. lra. }
  destruct (Z.abs (Qnum q) =? 0) eqn:E0; [lia|].
  pose proof (ilog2_upper (Z.abs (Qnum q)) (Qden q) Hn) as U. rewrite <- qabs_nd in U.
  assert (1024 < ilog2 (Z.abs (Qnum q)) (Qden q) + 1) by (apply p2_lt_inv; lra).
  destruct (1024 <=? ilog2 _ _) eqn:E1; [reflexivity|lia].
Qed.
Lemma of_q_valid q : vfloat (of_q q).
Proof.
  destruct (Qeq_dec q 0) as [Z|N]; [rewrite of_q_zero by exact Z; reflexivity|].
  destruct (Qlt_le_dec (Qabs q) (p2 1024)) as [L|G]; [|rewrite of_q_huge by exact G; reflexivity].
  destruct (of_q_shape q N L) as (l & _ & _ & H). cbv zeta in H. destruct H as (A & B & C & ->).
  destruct (Qfloor _); try reflexivity. apply vfloat_iff. lia.
Qed.

Lemma sign_abs q : q == if Qnum q <? 0 then - Qabs q else Qabs q.
Proof.
  destruct (Qnum q <? 0) eqn:E.
  - rewrite Qabs_neg; [ring|]. unfold Qle. cbn. lia.
  - rewrite Qabs_pos; [reflexivity|]. unfold Qle. cbn. lia.
Qed.

(** conversion is exact for every number with at most 53 bits and a small exponent *)
Lemma of_q_exact q m e : q == inject_Z m * p2 e -> Z.abs m < 2 ^ 53 -> -1074 <= e <= 971 ->
  finite (of_q q) = true /\ fval (of_q q) == q.
Proof.
  intros Hq Hm He.
  destruct (Qeq_dec q 0) as [Z|N]; [rewrite of_q_zero by exact Z; split; [reflexivity|symmetry; exact Z]|].
  assert (Ha : Qabs q == inject_Z (Z.abs m) * p2 e).
  { rewrite Hq, Qabs_Qmult, (Qabs_pos (p2 e)) by (apply Qlt_le_weak, p2_pos). reflexivity. }
  assert (Hlt : (Qabs q < p2 (53 + e))%Q).
  { rewrite Ha, p2_add. apply Qmult_lt_r; [apply p2_pos|]. rewrite p2_Z, <- inject_lt by lia. exact Hm. }
  assert (Hlt' : (Qabs q < p2 1024)%Q) by (eapply Qlt_le_trans; [exact Hlt|apply p2_le; lia]).
  destruct (of_q_shape q N Hlt') as (l & L & U & H). cbv zeta in H. destruct H as (A & B & C & E). rewrite E.
  set (e' := Z.max (-1074) (l - 52)) in *.
  assert (Hl : l < 53 + e) by (apply p2_lt_inv; eapply Qle_lt_trans; eassumption).
  assert (F : Qabs q * p2 (- e') == inject_Z (Z.abs m * 2 ^ (e - e'))).
  { rewrite inject_Z_mult, <- p2_Z by lia. rewrite Ha, <- Qmult_assoc, <- p2_add. reflexivity. }
  rewrite (Qfloor_comp _ _ F), Qfloor_Z.
  assert (Hm' : 0 < Z.abs m).
  { destruct (Z.eq_dec m 0) as [->|]; [|lia]. exfalso. apply N. rewrite Hq. ring. }
  pose proof (pow_pos' (e - e') ltac:(lia)).
  destruct (Z.abs m * 2 ^ (e - e')) as [|p|p] eqn:X; try nia. split; [reflexivity|].
  assert (Y : inject_Z (Zpos p) * p2 e' == Qabs q).
  { rewrite <- X, inject_Z_mult, <- p2_Z by lia.
    rewrite <- Qmult_assoc, <- p2_add, Ha. replace (e - e' + e') with e by lia. reflexivity. }
  rewrite fval_abs. pose proof (sign_abs q) as S0. destruct (Qnum q <? 0); rewrite Y; symmetry; exact S0.
Qed.
Lemma of_Z_exact z : Z.abs z <= 2 ^ 53 -> finite (of_q (inject_Z z)) = true /\ fval (of_q (inject_Z z)) == inject_Z z.
Proof.
  intros H. destruct (Z.eq_dec (Z.abs z) (2 ^ 53)) as [E|E].
  - assert (z = 2 ^ 53 \/ z = - 2 ^ 53) as [-> | ->] by lia; split; vm_compute; reflexivity.
  - apply (of_q_exact _ z 0); [change (p2 0) with 1%Q; ring|lia|lia].
Qed.

(** truncation: the result is the number itself up to less than one unit in the last place *)
Lemma of_q_truncates q : (Qabs q < p2 1024)%Q ->
  finite (of_q q) = true /\ (Qabs (fval (of_q q)) <= Qabs q)%Q /\ (0 <= fval (of_q q) * q)%Q.
Proof.
  intros Hlt.
  destruct (Qeq_dec q 0) as [Z|N].
  { rewrite of_q_zero by exact Z. cbn [finite fval]. repeat split; [apply Qabs_nonneg|]. rewrite Qmult_0_l. apply Qle_refl. }
  destruct (of_q_shape q N Hlt) as (l & L & U & H). cbv zeta in H. destruct H as (A & B & C & E). rewrite E.
  set (e := Z.max (-1074) (l - 52)) in *.
  destruct (Qfloor (Qabs q * p2 (- e))) as [|p|p] eqn:F; [| |lia].
  { cbn [finite fval]. repeat split; [apply Qabs_nonneg|]. rewrite Qmult_0_l. apply Qle_refl. }
  assert (G : (inject_Z (Zpos p) * p2 e <= Qabs q)%Q).
  { pose proof (Qfloor_le (Qabs q * p2 (- e))) as G. rewrite F in G.
    apply Qle_trans with (Qabs q * p2 (- e) * p2 e)%Q; [apply Qmult_le_r; [apply p2_pos|exact G]|].
    rewrite <- Qmult_assoc, (Qmult_comm (p2 (- e))), p2_opp, Qmult_1_r. apply Qle_refl. }
  pose proof (p2_pos e) as P.
  assert (P' : (0 < inject_Z (Zpos p) * p2 e)%Q) by (apply Qmult_lt_0_compat; [reflexivity|exact P]).
  split; [reflexivity|]. rewrite fval_abs. destruct (Qnum q <? 0) eqn:S0.
  - assert (q < 0)%Q by (unfold Qlt; cbn; lia). rewrite Qabs_opp, (Qabs_pos (_ * _)) by lra. split; [exact G|].
    setoid_replace (- (inject_Z (Zpos p) * p2 e) * q)%Q with ((inject_Z (Zpos p) * p2 e) * (- q))%Q by ring.
    apply Qmult_le_0_compat; lra.
  - assert (0 <= q)%Q by (unfold Qle; cbn; lia). rewrite (Qabs_pos (_ * _)) by lra. split; [exact G|].
    apply Qmult_le_0_compat; lra.
Qed.

(** ** Comparison of doubles *)
Lemma mag_lt m1 e1 m2 e2 s1 s2 : vfloat (S754_finite s1 m1 e1) -> vfloat (S754_finite s2 m2 e2) -> e1 < e2 ->
  (inject_Z (Zpos m1) * p2 e1 < inject_Z (Zpos m2) * p2 e2)%Q.
Proof.
  intros V1 V2 H. apply vfloat_iff in V1, V2.
  apply Qlt_le_trans with (p2 53 * p2 e1)%Q.
  - apply Qmult_lt_r; [apply p2_pos|]. rewrite p2_Z, <- inject_lt by lia. lia.
  - apply Qle_trans with (p2 52 * p2 e2)%Q; [rewrite <- !p2_add; apply p2_le; lia|].
    apply Qmult_le_r; [apply p2_pos|]. rewrite p2_Z, <- inject_le by lia. lia.
Qed.
Definition mag_cmp m1 e1 m2 e2 : comparison :=
  match Z.compare e1 e2 with Lt => Lt | Gt => Gt | Eq => Pcompare m1 m2 Eq end.
Lemma mag_cmp_ok m1 e1 m2 e2 s1 s2 : vfloat (S754_finite s1 m1 e1) -> vfloat (S754_finite s2 m2 e2) ->
  mag_cmp m1 e1 m2 e2 = Qcompare (inject_Z (Zpos m1) * p2 e1) (inject_Z (Zpos m2) * p2 e2).
Proof.
  intros V1 V2. unfold mag_cmp. symmetry. destruct (Z.compare_spec e1 e2) as [->|H|H].
  - change (Pcompare m1 m2 Eq) with (Pos.compare m1 m2).
    destruct (Pos.compare_spec m1 m2) as [->|H|H].
    + apply -> Qeq_alt. reflexivity.
    + apply -> Qlt_alt; apply Qmult_lt_r; [apply p2_pos|]. rewrite <- inject_lt. lia.
    + apply -> Qgt_alt; apply Qmult_lt_r; [apply p2_pos|]. rewrite <- inject_lt. lia.
  - apply -> Qlt_alt. eapply mag_lt; eassumption.
  - apply -> Qgt_alt. eapply mag_lt; eassumption.
Qed.
Lemma Qcompare_opp a b : Qcompare (- a) (- b) = CompOpp (Qcompare a b).
Proof.
  destruct (Qcompare_spec a b) as [H|H|H]; cbn [CompOpp].
  - apply -> Qeq_alt. rewrite H. reflexivity.
  - apply -> Qgt_alt. apply Qopp_lt_compat. exact H.
  - apply -> Qlt_alt. apply Qopp_lt_compat. exact H.
Qed.
Lemma SFcompare_finite f g : vfloat f -> vfloat g -> finite f = true -> finite g = true ->
  SFcompare f g = Some (Qcompare (fval f) (fval g)).
Proof.
  intros V1 V2 F1 F2.
  assert (P : forall m e, (0 < inject_Z (Zpos m) * p2 e)%Q) by (intros; apply Qmult_lt_0_compat; [reflexivity|apply p2_pos]).
  destruct f as [s1|s1| |s1 m1 e1], g as [s2|s2| |s2 m2 e2]; try discriminate; cbn [SFcompare].
  - reflexivity.
  - f_equal. symmetry. rewrite fval_abs. specialize (P m2 e2). destruct s2; [apply -> Qgt_alt|apply -> Qlt_alt]; cbn [fval]; lra.
  - f_equal. symmetry. rewrite fval_abs. specialize (P m1 e1). destruct s1; [apply -> Qlt_alt|apply -> Qgt_alt]; cbn [fval]; lra.
  - pose proof (mag_cmp_ok _ _ _ _ _ _ V1 V2) as M. unfold mag_cmp in M. rewrite !fval_abs.
    pose proof (P m1 e1). pose proof (P m2 e2).
    destruct s1, s2.
    + rewrite Qcompare_opp, <- M. destruct (e1 ?= e2); reflexivity.
    + f_equal. symmetry. apply -> Qlt_alt. lra.
    + f_equal. symmetry. apply -> Qgt_alt. lra.
    + rewrite <- M. destruct (e1 ?= e2); reflexivity.
Qed.
