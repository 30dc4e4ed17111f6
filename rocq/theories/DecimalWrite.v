(** Lemmas on the writing of flonums: 17 digits suffice, and what is written denotes a number that is rounded to the flonum. *)
From Coq Require Import String ZArith QArith Qreduction Qround Qabs Qpower Lia Lqa ZifyBool List Bool Floats.SpecFloat.
From Verif Require Import Number NumberProofs NumberRounding Flonum FlonumProofs FlonumSpec FlonumProofs2 FlonumProofs3 RoundingSpec FlonumRound.
From Verif Require Import FlonumArith PropertiesFlonumArith NumberText DecimalSpec Decimal DecimalProofs.
From Verif Require Reader Writer.
Import ListNotations.
Open Scope Z_scope.

Definition p10 (k : Z) : Q := Qpower 10 k.
Lemma p10_pos k : (0 < p10 k)%Q. Proof. apply Qpower_0_lt. reflexivity. Qed.
Lemma p10_add a b : (p10 (a + b) == p10 a * p10 b)%Q. Proof. apply Qpower_plus. discriminate. Qed.
Lemma p10_Z k : 0 <= k -> (p10 k == inject_Z (10 ^ k))%Q. Proof. intros H. unfold p10. rewrite Zpower_Qpower by exact H. reflexivity. Qed.
Lemma p10_le a b : a <= b -> (p10 a <= p10 b)%Q.
Proof.
  intros H. replace b with (a + (b - a)) by lia. rewrite p10_add, (p10_Z (b - a)) by lia.
  rewrite <- (Qmult_1_r (p10 a)) at 1. apply Qmult_le_l; [apply p10_pos|]. change 1%Q with (inject_Z 1). rewrite <- inject_le. pose proof (Z.pow_pos_nonneg 10 (b - a)). lia.
Qed.
Lemma p10_lt_inv a b : (p10 a < p10 b)%Q -> a < b.
Proof. intros H. destruct (Z_lt_ge_dec a b) as [L|G]; [exact L|]. pose proof (p10_le b a ltac:(lia)). lra. Qed.
Lemma unscale10 x k : (x * p10 (- k) * p10 k == x)%Q.
Proof. rewrite <- Qmult_assoc, <- p10_add. replace (- k + k) with 0 by lia. change (p10 0) with 1%Q. ring. Qed.

(** ** The first digit *)
Lemma decade_up_ok fuel : forall p q, (p10 p <= q)%Q -> (q < p10 (p + Z.of_nat fuel))%Q -> let r := decade_up fuel p q in (p10 r <= q /\ q < p10 (r + 1))%Q.
Proof.
  induction fuel as [|fuel IH]; intros p q A B; cbv zeta; cbn [decade_up].
  - exfalso. change (Z.of_nat 0) with 0 in B. rewrite Z.add_0_r in B. lra.
  - destruct (Qle_bool (Qpower 10 (p + 1)) q) eqn:E.
    + apply Qle_bool_iff in E. apply IH; [exact E|]. replace (p + 1 + Z.of_nat fuel) with (p + Z.of_nat (S fuel)) by lia. exact B.
    + split; [exact A|]. destruct (Qlt_le_dec q (p10 (p + 1))) as [L|G]; [exact L|]. apply Qle_bool_iff in G. unfold p10 in G. congruence.
Qed.
Lemma decade_down_ok fuel : forall p q, (q < p10 (p + 1))%Q -> (p10 (p - Z.of_nat fuel) <= q)%Q -> let r := decade_down fuel p q in (p10 r <= q /\ q < p10 (r + 1))%Q.
Proof.
  induction fuel as [|fuel IH]; intros p q A B; cbv zeta; cbn [decade_down].
  - change (Z.of_nat 0) with 0 in B. rewrite Z.sub_0_r in B. auto.
  - destruct (Qle_bool (Qpower 10 p) q) eqn:E.
    + apply Qle_bool_iff in E. auto.
    + apply IH; [|replace (p - 1 - Z.of_nat fuel) with (p - Z.of_nat (S fuel)) by lia; exact B]. replace (p - 1 + 1) with p by lia.
      destruct (Qlt_le_dec q (p10 p)) as [L|G]; [exact L|]. apply Qle_bool_iff in G. unfold p10 in G. congruence.
Qed.
Lemma decade_ok m e : vfloat (S754_finite false m e) -> let q := fval (S754_finite false m e) in (p10 (decade q) <= q /\ q < p10 (decade q + 1))%Q.
Proof.
  intros V. set (q := fval (S754_finite false m e)). cbv zeta. destruct (digits_valid false m e V) as (A & _ & B).
  destruct (zdigits (Zpos m) ltac:(lia)) as (_ & C & _).
  assert (Lo : (p2 (-1074) <= q)%Q).
  { unfold q. rewrite (fval_abs false m e). apply Qle_trans with (p2 e); [apply p2_le; lia|]. rewrite <- (Qmult_1_l (p2 e)) at 1. apply scale_le. change 1%Q with (inject_Z 1). rewrite <- inject_le. lia. }
  assert (Hi : (q < p2 1024)%Q).
  { unfold q. rewrite (fval_abs false m e). apply Qlt_le_trans with (inject_Z (2 ^ 53) * p2 e)%Q; [apply scale_lt; rewrite <- inject_lt; pose proof (Z.pow_le_mono_r 2 (Zdigits2 (Zpos m)) 53); lia|].
    rewrite <- (p2_Z 53), <- p2_add by lia. apply p2_le. lia. }
  unfold decade. destruct (Qle_bool 1 q) eqn:E.
  - apply Qle_bool_iff in E. apply decade_up_ok; [exact E|]. apply Qlt_le_trans with (p2 1024); [exact Hi|]. vm_compute. discriminate.
  - assert (q < 1)%Q by (destruct (Qlt_le_dec q 1) as [L|G]; [exact L|]; apply Qle_bool_iff in G; congruence).
    apply decade_down_ok; [exact H|]. apply Qle_trans with (p2 (-1074)); [vm_compute; discriminate|exact Lo].
Qed.

(** ** What stands for a number *)
Lemma stands_iff m e c k : let f := S754_finite false m e in vfloat f ->
  stands_for f c k = true <-> 0 < c /\ rounds_to (inject_Z c * p10 k) (fext f).
Proof.
  intros f V. unfold stands_for. change (Qpower 10 k) with (p10 k). set (q := (inject_Z c * p10 k)%Q).
  assert (Sg : 0 < c <-> exists n, Qnum q = Zpos n).
  { assert (P : (0 < q)%Q <-> 0 < Qnum q) by (unfold Qlt; cbn [Qnum Qden]; lia).
    assert (P' : 0 < c <-> (0 < q)%Q).
    { rewrite inject_lt. change (inject_Z 0) with 0%Q. unfold q. pose proof (p10_pos k) as K. split; intros H; [apply Qmult_lt_0_compat; assumption|].
      apply Qmult_lt_r with (p10 k); [exact K|]. rewrite Qmult_0_l. exact H. }
    rewrite P', P. destruct (Qnum q) eqn:E; split; intros H; try lia; try (destruct H; discriminate); eauto. }
  destruct (Qnum q) as [|n|n] eqn:E.
  - split; [discriminate|]. intros [H _]. apply Sg in H. destruct H. discriminate.
  - assert (Qe : q = (Zpos n # Qden q)%Q) by (rewrite <- E; destruct q; reflexivity).
    destruct (nearest_ok false n (Qden q)) as (Vg & _ & R). cbn [signed] in R. rewrite <- Qe in R. set (g := nearest false n (Qden q)) in *.
    rewrite (eqb_iff g f Vg V). split.
    + intros H. split; [apply Sg; eauto|]. unfold f in *. cbn [fext] in H |- *. destruct (fext g) as [v| | |]; try contradiction. cbn [same] in H. eapply rounds_to_value; [exact H|exact R].
    + intros [_ H]. exact (C108_unique q _ _ R H).
  - split; [discriminate|]. intros [H _]. apply Sg in H. destruct H. discriminate.
Qed.

(** The distance to other representable numbers *)
Lemma gap_17 m e E y : vfloat (S754_finite false m e) -> let x := (inject_Z (Zpos m) * p2 e)%Q in
  (inject_Z (10 ^ 16) * E <= x)%Q -> (0 < E)%Q -> representable y -> ~ (y == x)%Q -> (E < Qabs (y - x))%Q.
Proof.
  intros V x H PE R N. destruct (digits_valid false m e V) as (A & B & B'). destruct (zdigits (Zpos m) ltac:(lia)) as (_ & C & C').
  assert (M : Zpos m < 2 ^ 53) by (pose proof (Z.pow_le_mono_r 2 (Zdigits2 (Zpos m)) 53); lia).
  pose proof (p2_pos e) as Pe.
  assert (Ee : (E < p2 e)%Q).
  { apply Qmult_lt_l with (inject_Z (10 ^ 16)); [reflexivity|]. apply Qle_lt_trans with x; [exact H|]. unfold x. apply scale_lt. rewrite <- inject_lt. lia. }
  destruct (Z.eq_dec e (-1074)) as [Me|Me]; [|destruct (Qlt_le_dec (Qabs y) (p2 (e + 52))) as [L|L]].
  1,3: assert (Z0 : exists z, (y == inject_Z z * p2 e)%Q) by (apply multiple; [exact R|tauto]); destruct Z0 as [z Ez];
    assert (Nz : z <> Zpos m) by (intros ->; apply N; exact Ez);
    setoid_replace (y - x)%Q with (inject_Z (z - Zpos m) * p2 e)%Q by (unfold x, Z.sub; rewrite Ez, inject_Z_plus, inject_Z_opp; ring);
    rewrite abs_scaled; apply Qlt_le_trans with (p2 e); [exact Ee|]; rewrite <- (Qmult_1_l (p2 e)) at 1; apply scale_le; change 1%Q with (inject_Z 1); rewrite <- inject_le; lia.
  assert (M2 : 2 ^ 52 <= Zpos m) by (destruct (C' ltac:(lia)) as [K _]; destruct B as [B|B]; [lia|rewrite B in K; exact K]).
  assert (X0 : (p2 (e + 52) <= x)%Q) by (rewrite Z.add_comm, p2_add, (p2_Z 52) by lia; apply scale_le; rewrite <- inject_le; lia).
  apply Qabs_Qlt_condition in L. rewrite Qabs_neg by lra. destruct (Z.eq_dec (Zpos m) (2 ^ 52)) as [E2|E2].
  - assert (Xe : (x == p2 (e + 52))%Q) by (unfold x; rewrite E2, Z.add_comm, p2_add, (p2_Z 52) by lia; reflexivity).
    pose proof (p2_pos (e - 1)) as Pe1.
    assert (Ee1 : (E < p2 (e - 1))%Q).
    { apply Qmult_lt_l with (inject_Z (10 ^ 16)); [reflexivity|]. apply Qle_lt_trans with x; [exact H|]. rewrite Xe. replace (e + 52) with (53 + (e - 1)) by lia. rewrite p2_add, (p2_Z 53) by lia.
      apply scale_lt. rewrite <- inject_lt. lia. }
    destruct (Qlt_le_dec (Qabs y) (p2 (e + 51))) as [L'|L'].
    + apply Qabs_Qlt_condition in L'. assert (D : (p2 (e + 52) == 2 * p2 (e + 51))%Q) by (replace (e + 52) with (1 + (e + 51)) by lia; rewrite p2_add; reflexivity).
      pose proof (p2_le (e - 1) (e + 51) ltac:(lia)). rewrite Xe, D. lra.
    + assert (Z0 : exists z, (y == inject_Z z * p2 (e - 1))%Q) by (apply multiple; [exact R|right; replace (e - 1 + 52) with (e + 51) by lia; exact L']).
      destruct Z0 as [z Ez]. assert (Xe' : (x == inject_Z (2 ^ 53) * p2 (e - 1))%Q) by (rewrite Xe; replace (e + 52) with (53 + (e - 1)) by lia; rewrite p2_add, (p2_Z 53) by lia; reflexivity).
      assert (Lz : (inject_Z z * p2 (e - 1) < inject_Z (2 ^ 53) * p2 (e - 1))%Q) by (rewrite <- Ez, <- Xe', Xe; lra).
      apply Qmult_lt_r in Lz; [|exact Pe1]. rewrite <- inject_lt in Lz.
      assert (G : (1 * p2 (e - 1) <= inject_Z (2 ^ 53 - z) * p2 (e - 1))%Q) by (apply scale_le; change 1%Q with (inject_Z 1); rewrite <- inject_le; lia).
      assert (Ex : (- (y - x) == inject_Z (2 ^ 53 - z) * p2 (e - 1))%Q) by (assert (K : (inject_Z (2 ^ 53 - z) == inject_Z (2 ^ 53) - inject_Z z)%Q) by (unfold Z.sub; rewrite inject_Z_plus, inject_Z_opp; reflexivity); rewrite K, Ez, Xe'; ring).
      rewrite Ex. lra.
  - assert (X1 : (p2 (e + 52) + p2 e <= x)%Q).
    { rewrite Z.add_comm, p2_add, (p2_Z 52) by lia. unfold x. setoid_replace (inject_Z (2 ^ 52) * p2 e + p2 e)%Q with (inject_Z (2 ^ 52 + 1) * p2 e)%Q by (rewrite inject_Z_plus; ring).
      apply scale_le. rewrite <- inject_le. lia. }
    lra.
Qed.
(** A decimal number near enough is rounded to it *)
Lemma near_rounds m e E D : vfloat (S754_finite false m e) -> let x := (inject_Z (Zpos m) * p2 e)%Q in
  (inject_Z (10 ^ 16) * E <= x)%Q -> (0 < E)%Q -> (2 * Qabs (D - x) <= E)%Q -> rounds_to D (fext (S754_finite false m e)).
Proof.
  intros V x H PE Nr. pose proof (digits_valid false m e V) as (A & B & B'). destruct (zdigits (Zpos m) ltac:(lia)) as (_ & C & _).
  assert (M : Zpos m < 2 ^ 53) by (pose proof (Z.pow_le_mono_r 2 (Zdigits2 (Zpos m)) 53); lia).
  assert (R : representable x) by (exists (Zpos m), e; split; [reflexivity|lia]).
  assert (Ee : (E < p2 e)%Q).
  { apply Qmult_lt_l with (inject_Z (10 ^ 16)); [reflexivity|]. apply Qle_lt_trans with x; [exact H|]. unfold x. apply scale_lt. rewrite <- inject_lt. lia. }
  apply rounds_to_value with x; [reflexivity|]. cbn [rounds_to].
  assert (Far : forall y, representable y -> ~ (y == x)%Q -> (Qabs (D - x) < Qabs (D - y))%Q).
  { intros y Ry Ny. pose proof (gap_17 m e E y V H PE Ry Ny) as G. revert G Nr. fold x.
    destruct (Qabs_case' (y - x)) as [[? ->]|[? ->]]; destruct (Qabs_case' (D - x)) as [[? ->]|[? ->]]; destruct (Qabs_case' (D - y)) as [[? ->]|[? ->]]; lra. }
  split; [|split; [split; [exact R|]|]].
  - assert (X1 : (x + p2 e <= inject_Z (2 ^ 53) * p2 e)%Q).
    { unfold x. setoid_replace (inject_Z (Zpos m) * p2 e + p2 e)%Q with (inject_Z (Zpos m + 1) * p2 e)%Q by (rewrite inject_Z_plus; ring). apply scale_le. rewrite <- inject_le. lia. }
    assert (X0 : (0 < x)%Q) by (apply Qmult_lt_0_compat; [reflexivity|apply p2_pos]).
    assert (Lim : ((inject_Z (2 ^ 53) - (1 # 2)) * p2 e <= limit)%Q).
    { rewrite limit_p2. rewrite !(Qmult_comm (inject_Z (2 ^ 53) - (1 # 2))). apply Qmult_le_compat_r; [apply p2_le; lia|vm_compute; discriminate]. }
    assert (16 * E <= x)%Q by (apply Qle_trans with (inject_Z (10 ^ 16) * E)%Q; [apply Qmult_le_compat_r; [vm_compute; discriminate|lra]|exact H]).
    apply Qabs_Qlt_condition. revert Nr. destruct (Qabs_case' (D - x)) as [[? ->]|[? ->]]; split; lra.
  - intros y Ry. destruct (Qeq_dec y x) as [->|Ny]; [apply Qle_refl|]. apply Qlt_le_weak, Far; assumption.
  - intros y [Ry Cy]. left. destruct (Qeq_dec y x) as [|Ny]; [assumption|exfalso]. specialize (Cy x R). specialize (Far y Ry Ny). lra.
Qed.
Lemma floor_le q : (inject_Z (Qfloor q) <= q)%Q. Proof. apply Qfloor_le. Qed.
Lemma floor_lt q : (q < inject_Z (Qfloor q) + 1)%Q. Proof. pose proof (Qlt_floor q) as H. rewrite inject_succ in H. exact H. Qed.
Lemma seventeen m e p : let f := S754_finite false m e in vfloat f -> (p10 p <= fval f)%Q ->
  let k := p - 16 in let c := Qfloor (fval f * p10 (- k)) in stands_for f c k = true \/ stands_for f (c + 1) k = true.
Proof.
  intros f V Lo k c. set (x := fval f) in *. assert (Xe : (x == inject_Z (Zpos m) * p2 e)%Q) by apply (fval_abs false m e).
  pose proof (floor_le (x * p10 (- k))) as F1. pose proof (floor_lt (x * p10 (- k))) as F2. fold c in F1, F2. pose proof (p10_pos k) as Pk.
  assert (H : (inject_Z (10 ^ 16) * p10 k <= inject_Z (Zpos m) * p2 e)%Q) by (rewrite <- (p10_Z 16), <- p10_add, <- Xe by lia; replace (16 + k) with p by (unfold k; lia); exact Lo).
  assert (C1 : 10 ^ 16 <= c).
  { assert (K : (inject_Z (10 ^ 16) < inject_Z (c + 1))%Q); [|rewrite <- inject_lt in K; lia]. rewrite inject_succ. apply Qle_lt_trans with (x * p10 (- k))%Q; [|exact F2].
    apply Qmult_le_r with (p10 k); [exact Pk|]. rewrite unscale10, Xe. exact H. }
  assert (T : forall d, 0 < d -> (2 * Qabs (inject_Z d - x * p10 (- k)) <= 1)%Q -> stands_for f d k = true).
  { intros d Pd Nd. apply (stands_iff m e d k V). split; [exact Pd|]. apply (near_rounds m e (p10 k)); [exact V|exact H|exact Pk|]. rewrite <- Xe.
    setoid_replace (inject_Z d * p10 k - x)%Q with ((inject_Z d - x * p10 (- k)) * p10 k)%Q by (rewrite <- (unscale10 x k) at 1; ring).
    rewrite Qabs_Qmult, (Qabs_pos (p10 k)) by lra. rewrite Qmult_assoc. rewrite <- (Qmult_1_l (p10 k)) at 2. apply Qmult_le_r; [exact Pk|exact Nd]. }
  destruct (Qlt_le_dec (x * p10 (- k) - inject_Z c) (1 # 2)) as [L|L].
  - left. apply T; [lia|]. rewrite Qabs_neg by lra. lra.
  - right. apply T; [lia|]. rewrite inject_succ. rewrite Qabs_pos by lra. lra.
Qed.

(** ** The search *)
Lemma shortest_found f p fuel : forall n i, (i < fuel)%nat ->
  let at_ n := Qfloor (fval f * p10 (- (p - n + 1))) in
  stands_for f (at_ (n + Z.of_nat i)) (p - (n + Z.of_nat i) + 1) = true \/ stands_for f (at_ (n + Z.of_nat i) + 1) (p - (n + Z.of_nat i) + 1) = true ->
  let '(c, k) := shortest fuel f p n in
  stands_for f c k = true /\ exists n', n <= n' <= n + Z.of_nat i /\ k = p - n' + 1 /\ (c = at_ n' \/ c = at_ n' + 1).
Proof.
  induction fuel as [|fuel IH]; intros n i Hi at_ G; [lia|]. cbn [shortest]. change (Qpower 10 (- (p - n + 1))) with (p10 (- (p - n + 1))). fold (at_ n).
  destruct (stands_for f (at_ n) (p - n + 1)) eqn:E1, (stands_for f (at_ n + 1) (p - n + 1)) eqn:E2.
  - destruct (Qle_bool _ _); (split; [assumption|]); exists n; (split; [lia|]); auto.
  - split; [assumption|]. exists n. split; [lia|]. auto.
  - split; [assumption|]. exists n. split; [lia|]. auto.
  - destruct i as [|i].
    + exfalso. cbn [Z.of_nat] in G. rewrite Z.add_0_r in G. destruct G; congruence.
    + replace (n + Z.of_nat (S i)) with (n + 1 + Z.of_nat i) in G |- * by lia. specialize (IH (n + 1) i ltac:(lia) G).
      destruct (shortest fuel f p (n + 1)) as [c k]. destruct IH as [A (n' & B & C & D)]. split; [exact A|]. exists n'. split; [lia|]. auto.
Qed.
Lemma strip_ok fuel : forall c k, 0 < c -> let '(c', k') := strip fuel c k in
  0 < c' <= c /\ k <= k' /\ (inject_Z c' * p10 k' == inject_Z c * p10 k)%Q.
Proof.
  induction fuel as [|fuel IH]; intros c k P; cbn [strip]; [split; [lia|]; split; [lia|reflexivity]|].
  destruct (c mod 10 =? 0) eqn:E; [|split; [lia|]; split; [lia|reflexivity]].
  assert (D : c = 10 * (c / 10)) by (pose proof (Z.div_mod c 10 ltac:(lia)); lia). specialize (IH (c / 10) (k + 1) ltac:(lia)).
  destruct (strip fuel (c / 10) (k + 1)) as [c' k']. destruct IH as (A & B & C). split; [lia|]. split; [lia|]. rewrite C, p10_add. rewrite D at 2. rewrite inject_Z_mult.
  change (p10 1) with (inject_Z 10). ring.
Qed.
Lemma at_bound f p n : 0 <= n -> (fval f < p10 (p + 1))%Q -> Qfloor (fval f * p10 (- (p - n + 1))) + 1 <= 10 ^ n.
Proof.
  intros N H. set (k := p - n + 1). assert (K : (inject_Z (Qfloor (fval f * p10 (- k))) < inject_Z (10 ^ n))%Q); [|rewrite <- inject_lt in K; lia].
  eapply Qle_lt_trans; [apply floor_le|]. apply Qmult_lt_r with (p10 k); [apply p10_pos|]. rewrite unscale10, <- p10_Z, <- p10_add by exact N. replace (n + k) with (p + 1) by (unfold k; lia). exact H.
Qed.

(** ** Digits *)
Lemma scan_natural ds : Forall digit ds -> forall acc rest, scan 10 acc (ds ++ rest) = scan 10 (acc * 10 ^ Z.of_nat (length ds) + natural ds) rest.
Proof.
  induction 1 as [|c ds D _ IH]; intros acc rest; cbn [app length natural]; [f_equal; change (10 ^ Z.of_nat 0) with 1; lia|].
  cbn [scan]. assert (digit_in 10 c = Some (c - 48)) as ->.
  { unfold digit in D. unfold digit_in, digit_value. replace ((48 <=? c) && (c <=? 57)) with true by lia. replace (c - 48 <? 10) with true by lia. reflexivity. }
  rewrite IH, Nat2Z.inj_succ, Z.pow_succ_r by lia. f_equal. ring.
Qed.
Lemma scan_all ds : Forall digit ds -> scan 10 0 ds = (natural ds, []).
Proof. intros D. pose proof (scan_natural ds D 0 []) as H. rewrite app_nil_r in H. rewrite H. cbn [scan]. f_equal. Qed.
Lemma natural_bound ds : Forall digit ds -> 0 <= natural ds < 10 ^ Z.of_nat (length ds).
Proof.
  induction 1 as [|c ds D _ IH]; cbn [natural length]; [cbn; lia|]. rewrite Nat2Z.inj_succ, Z.pow_succ_r by lia. unfold digit in D. nia.
Qed.
Lemma natural_app a b : natural (a ++ b) = natural a * 10 ^ Z.of_nat (length b) + natural b.
Proof.
  induction a as [|c a IH]; cbn [app natural]; [lia|]. rewrite IH, app_length, Nat2Z.inj_add, Z.pow_add_r by lia. ring.
Qed.
Lemma zeros_ok n : Forall digit (zeros n) /\ natural (zeros n) = 0 /\ (0 <= n -> Z.of_nat (length (zeros n)) = n).
Proof.
  unfold zeros. split; [apply Forall_forall; intros c H; apply repeat_spec in H; unfold digit; lia|]. split; [|intros H; rewrite repeat_length; lia].
  induction (Z.to_nat n) as [|i IH]; [reflexivity|]. cbn [repeat natural]. rewrite IH. lia.
Qed.
Lemma digits_ok c : 0 <= c -> Forall digit (digits 10 c) /\ natural (digits 10 c) = c /\ digits 10 c <> [].
Proof.
  intros P. destruct (digits_spec 10 ltac:(lia) c P) as (d & ds & E & _ & D & _ & S0 & _).
  assert (D' : Forall digit (digits 10 c)).
  { revert D. apply Forall_imp. intros x (y & Hy & ->). unfold digit, digit_char. replace (y <? 10) with true by lia. lia. }
  split; [exact D'|]. split; [|rewrite E; discriminate]. specialize (S0 []). rewrite app_nil_r, (scan_all _ D') in S0. cbn [scan] in S0. congruence.
Qed.
Lemma digits_f_length fuel : forall n, 0 < n < 2 ^ Z.of_nat fuel -> 10 ^ (Z.of_nat (length (digits_f fuel 10 n [])) - 1) <= n.
Proof.
  induction fuel as [|fuel IH]; intros n H; [cbn in H; lia|]. cbn [digits_f]. destruct (n <? 10) eqn:E; [cbn [length]; cbn; lia|].
  rewrite digits_f_app, app_length, Nat2Z.inj_add. change (Z.of_nat (length [digit_char (n mod 10)])) with 1.
  assert (B : 0 < n / 10 < 2 ^ Z.of_nat fuel).
  { split; [apply Z.div_str_pos; lia|]. rewrite Nat2Z.inj_succ, Z.pow_succ_r in H by lia. apply Z.div_lt_upper_bound; lia. }
  specialize (IH _ B). pose proof (Z.div_mod n 10 ltac:(lia)) as M. pose proof (Z.mod_pos_bound n 10 ltac:(lia)). set (L := Z.of_nat (length (digits_f fuel 10 (n / 10) []))) in *.
  destruct (Z.eq_dec L 0) as [L0|L0]; [rewrite L0; cbn; lia|]. assert (0 <= L) by (unfold L; lia).
  replace (L + 1 - 1) with (1 + (L - 1)) by lia. rewrite Z.pow_add_r by lia. lia.
Qed.
Lemma digits_length c : 0 < c -> 10 ^ (Z.of_nat (length (digits 10 c)) - 1) <= c.
Proof.
  intros P. unfold digits. apply digits_f_length. split; [exact P|]. rewrite Nat2Z.inj_succ, Z2Nat.id by apply Z.log2_nonneg. apply Z.log2_spec, P.
Qed.

(** ** Layouts *)
Lemma fixed_integer ds k : Forall digit ds -> ds <> [] -> 0 <= k ->
  Forall digit (fixed ds k) /\ fixed ds k <> [] /\ natural (fixed ds k) = natural ds * 10 ^ k /\ Z.of_nat (length (fixed ds k)) = Z.of_nat (length ds) + k.
Proof.
  intros D N K. unfold fixed. replace (0 <=? k) with true by lia. destruct (zeros_ok k) as (A & B & C). specialize (C K).
  split; [apply Forall_app; auto|]. split; [intros H; apply app_eq_nil in H; tauto|]. split; [rewrite natural_app, B, C; lia|rewrite app_length, Nat2Z.inj_add, C; lia].
Qed.
Lemma fixed_point ds k : Forall digit ds -> ds <> [] -> k < 0 ->
  exists ip fp, mantissa (fixed ds k) ip fp /\ natural (ip ++ fp) = natural ds /\ Z.of_nat (length fp) = - k /\ In 46 (fixed ds k).
Proof.
  intros D N K. unfold fixed. replace (0 <=? k) with false by lia. set (n := Z.of_nat (length ds)). destruct (0 <? n + k) eqn:E.
  - exists (firstn (Z.to_nat (n + k)) ds), (skipn (Z.to_nat (n + k)) ds). rewrite <- (firstn_skipn (Z.to_nat (n + k)) ds) in D. apply Forall_app in D. destruct D as [D1 D2].
    split; [apply mantissa_point; [exact D1|exact D2|rewrite firstn_skipn; exact N]|]. rewrite firstn_skipn. split; [reflexivity|]. split; [rewrite skipn_length; lia|].
    apply in_or_app. right. left. reflexivity.
  - destruct (zeros_ok (- (n + k))) as (A & B & C). exists [48], (zeros (- (n + k)) ++ ds).
    split; [|split; [|split; [rewrite app_length, Nat2Z.inj_add, C by lia; fold n; lia|right; left; reflexivity]]].
    + apply (mantissa_point [48] (zeros (- (n + k)) ++ ds)); [repeat constructor; unfold digit; lia|apply Forall_app; auto|discriminate].
    + cbn [app natural]. rewrite natural_app, B. lia.
Qed.
Lemma scientific_ok ds x : Forall digit ds -> ds <> [] ->
  exists m ip fp ex, scientific ds x = m ++ ex /\ mantissa m ip fp /\ suffix ex x /\ ip ++ fp = ds /\ Z.of_nat (length fp) = Z.of_nat (length ds) - 1 /\ In 101 (scientific ds x).
Proof.
  intros D N. destruct D as [|d t D0 Dt]; [congruence|]. cbn [scientific].
  set (ex := 101 :: (if x <? 0 then 45 else 43) :: (if Z.abs x <? 10 then [48] else []) ++ digits 10 (Z.abs x)).
  assert (X : suffix ex x).
  { destruct (digits_ok (Z.abs x) ltac:(lia)) as (A & B & C). set (ys := (if Z.abs x <? 10 then [48] else []) ++ digits 10 (Z.abs x)) in *.
    assert (Dy : Forall digit ys) by (unfold ys; apply Forall_app; split; [destruct (Z.abs x <? 10); repeat constructor; unfold digit; lia|exact A]).
    assert (Ny : natural ys = Z.abs x) by (unfold ys; rewrite natural_app; destruct (Z.abs x <? 10); cbn [natural]; lia).
    assert (Ey : ys <> []) by (intros H; unfold ys in H; apply app_eq_nil in H; tauto).
    destruct (x <? 0) eqn:E.
    - replace x with (if true then - natural ys else natural ys) at 1 by (rewrite Ny; lia). apply (suffix_exponent 101 [45] true ys); [left; reflexivity|constructor|exact Ey|exact Dy].
    - replace x with (if false then - natural ys else natural ys) at 1 by (rewrite Ny; lia). apply (suffix_exponent 101 [43] false ys); [left; reflexivity|constructor|exact Ey|exact Dy]. }
  destruct t as [|d' t].
  - exists [d], [d], [], ex. split; [reflexivity|]. split; [apply mantissa_integer; [constructor; [exact D0|constructor]|discriminate]|]. split; [exact X|]. split; [reflexivity|]. split; [reflexivity|]. right. left. reflexivity.
  - exists (d :: 46 :: d' :: t), [d], (d' :: t), ex. split; [reflexivity|]. split; [apply (mantissa_point [d] (d' :: t)); [constructor; [exact D0|constructor]|exact Dt|discriminate]|]. split; [exact X|]. split; [reflexivity|]. split; [cbn [length]; lia|].
    right. apply in_or_app. right. left. reflexivity.
Qed.

(** ** What is written *)
(** ** No shorter digits stand for the flonum *)
Lemma between_rounds D D' x : rounds_to D' (Fin x) -> (Qabs x < limit)%Q -> (x <= D /\ D <= D' \/ D' <= D /\ D <= x)%Q -> rounds_to D (Fin x).
Proof.
  intros (L & (Rx & C) & T) Lx B. apply Qabs_Qlt_condition in L, Lx.
  destruct (Qeq_dec D D') as [Eq|Ne]; [apply rounds_to_comp with D'; [symmetry; exact Eq|]; split; [apply Qabs_Qlt_condition; lra|split; [split|]; assumption]|].
  assert (K : forall y, representable y -> (Qabs (D - x) <= Qabs (D - y))%Q /\ (~ (y == x)%Q -> (Qabs (D - x) < Qabs (D - y))%Q)).
  { intros y Ry. specialize (C y Ry). revert C.
    destruct (Qabs_case' (D' - x)) as [[? ->]|[? ->]]; destruct (Qabs_case' (D' - y)) as [[? ->]|[? ->]]; destruct (Qabs_case' (D - x)) as [[? ->]|[? ->]]; destruct (Qabs_case' (D - y)) as [[? ->]|[? ->]];
      intros C; (split; [destruct B; lra|]); intros Ny; destruct (Q_dec y x) as [[G|G]|G]; try contradiction; destruct (Q_dec D D') as [[G'|G']|G']; try contradiction; destruct B; lra. }
  split; [apply Qabs_Qlt_condition; destruct B; lra|]. split; [split; [exact Rx|intros y Ry; apply K, Ry]|].
  intros y (Ry & Cy). left. destruct (Qeq_dec y x) as [|Ny]; [assumption|]. pose proof (proj2 (K y Ry) Ny). specialize (Cy x Rx). lra.
Qed.
Lemma strip_power fuel : forall i k, (i < fuel)%nat -> fst (strip fuel (10 ^ Z.of_nat i) k) = 1.
Proof.
  induction fuel as [|fuel IH]; intros i k H; [lia|]. cbn [strip]. destruct i as [|i]; [reflexivity|].
  rewrite Nat2Z.inj_succ, Z.pow_succ_r, Z.mul_comm, Z.mod_mul, Z.div_mul by lia. apply IH. lia.
Qed.
(** c' 10^k' with n digits lies beyond one of the two neighbours with n digits *)
Lemma neighbours x p n c' k' : (p10 p <= x)%Q -> (x < p10 (p + 1))%Q -> 1 <= n -> 0 < c' < 10 ^ n ->
  let k := p - n + 1 in let c := Qfloor (x * p10 (- k)) in let D' := (inject_Z c' * p10 k')%Q in
  0 < c /\ ((D' <= inject_Z c * p10 k /\ inject_Z c * p10 k <= x) \/ (x <= inject_Z (c + 1) * p10 k /\ inject_Z (c + 1) * p10 k <= D'))%Q.
Proof.
  intros Lo Hi N C k c D'. pose proof (p10_pos k) as Pk. pose proof (floor_le (x * p10 (- k))) as F1. pose proof (floor_lt (x * p10 (- k))) as F2. fold c in F1, F2.
  assert (G1 : (inject_Z c * p10 k <= x)%Q) by (rewrite <- (unscale10 x k); apply Qmult_le_compat_r; [exact F1|lra]).
  assert (G2 : (x < inject_Z (c + 1) * p10 k)%Q) by (rewrite <- (unscale10 x k) at 1; apply Qmult_lt_r; [exact Pk|rewrite inject_Z_plus; exact F2]).
  assert (G3 : 10 ^ (n - 1) <= c).
  { unfold c. rewrite <- (Qfloor_Z (10 ^ (n - 1))). apply Qfloor_resp_le. rewrite <- p10_Z by lia. apply Qmult_le_r with (p10 k); [exact Pk|]. rewrite unscale10, <- p10_add. replace (n - 1 + k) with p by (unfold k; lia). exact Lo. }
  pose proof (Z.pow_pos_nonneg 10 (n - 1)) as P1. split; [lia|].
  assert (G4 : (p10 p <= inject_Z c * p10 k)%Q).
  { replace p with (n - 1 + k) at 1 by (unfold k; lia). rewrite p10_add, p10_Z by lia. apply Qmult_le_compat_r; [rewrite <- inject_le; exact G3|lra]. }
  destruct (Qlt_le_dec D' (p10 p)) as [A|A]; [left; lra|].
  assert (Kk : k <= k').
  { assert (L : (p10 p < p10 (n + k'))%Q).
    { eapply Qle_lt_trans; [exact A|]. rewrite p10_add, p10_Z by lia. apply Qmult_lt_r; [apply p10_pos|]. rewrite <- inject_lt. lia. }
    apply p10_lt_inv in L. unfold k. lia. }
  assert (Ed : (D' == inject_Z (c' * 10 ^ (k' - k)) * p10 k)%Q).
  { unfold D'. rewrite inject_Z_mult, <- (p10_Z (k' - k)), <- Qmult_assoc, <- p10_add by lia. replace (k' - k + k) with k' by lia. reflexivity. }
  set (d := c' * 10 ^ (k' - k)) in *. rewrite Ed. destruct (Z_le_gt_dec d c) as [L|G]; [left|right].
  - split; [apply Qmult_le_compat_r; [rewrite <- inject_le; exact L|lra]|exact G1].
  - split; [lra|apply Qmult_le_compat_r; [rewrite <- inject_le; lia|lra]].
Qed.
Definition minus (s : bool) : list Z := if s then [45] else [].
Lemma minus_sign s : sign (minus s) s. Proof. destruct s; constructor. Qed.
Lemma written_text s m e : let f := S754_finite s m e in vfloat f ->
  exists c k t, to_chars f = minus s ++ t /\ 0 < c <= 10 ^ 17 /\ rounds_to (inject_Z c * p10 k) (Fin (inject_Z (Zpos m) * p2 e)) /\
    (forall c' k' n, 0 < c' < 10 ^ n -> rounds_to (inject_Z c' * p10 k') (Fin (inject_Z (Zpos m) * p2 e)) -> c < 10 ^ n) /\
    (Forall digit t /\ t <> [] /\ Z.of_nat (length t) <= 6 /\ 0 <= k /\ natural t = c * 10 ^ k \/
     denotes (minus s ++ t) s (signed s (inject_Z c * p10 k)) /\ inexact_literal (minus s ++ t) /\
       forall z, (inject_Z (Zpos m) * p2 e == inject_Z z)%Q -> 10 ^ 6 <= z).
Proof.
  intros f V. assert (Vg : vfloat (S754_finite false m e)) by exact V. set (g := S754_finite false m e) in *.
  set (x0 := (inject_Z (Zpos m) * p2 e)%Q). assert (Xg : (fval g == x0)%Q) by apply (fval_abs false m e).
  destruct (decade_ok m e Vg) as [P1 P2]. fold g in P1, P2. set (p := decade (fval g)) in *.
  unfold to_chars, f. change (SFabs (S754_finite s m e)) with g. fold p.
  pose proof (shortest_found g p 17 1 16 ltac:(lia)) as Sf. cbv zeta in Sf.
  pose proof (seventeen m e p Vg P1) as S17. cbv zeta in S17. replace (p - 16) with (p - (1 + Z.of_nat 16) + 1) in S17 by (rewrite (eq_refl : Z.of_nat 16 = 16); lia). specialize (Sf S17).
  assert (Small_n : forall z, (x0 == inject_Z z)%Q -> z < 10 ^ 6 -> exists c k n', shortest 17 g p 1 = (c, k) /\ 0 <= k /\ k = p - n' + 1 /\ 1 <= n' /\ p <= 5 /\
    (c = Qfloor (fval g * p10 (- k)) \/ c = Qfloor (fval g * p10 (- k)) + 1)).
  { intros z Ez Lz. rewrite Xg, Ez in P1, P2.
    assert (Pz : 0 < z) by (rewrite inject_lt; change (inject_Z 0) with 0%Q; pose proof (p10_pos p); lra).
    assert (P0 : 0 <= p).
    { assert (K : (p10 0 < p10 (p + 1))%Q) by (apply Qle_lt_trans with (inject_Z z); [change (p10 0) with (inject_Z 1); rewrite <- inject_le; lia|exact P2]). apply p10_lt_inv in K. lia. }
    assert (P5 : p <= 5).
    { assert (K : (p10 p < p10 6)%Q) by (apply Qle_lt_trans with (inject_Z z); [exact P1|rewrite (p10_Z 6), <- inject_lt by lia; exact Lz]). apply p10_lt_inv in K. lia. }
    pose proof (shortest_found g p 17 1 (Z.to_nat p) ltac:(lia)) as Sh. cbv zeta in Sh. rewrite Z2Nat.id in Sh by exact P0. replace (p - (1 + p) + 1) with 0 in Sh by lia.
    assert (St : stands_for g (Qfloor (fval g * p10 (- 0))) 0 = true).
    { assert (Fl : Qfloor (fval g * p10 (- 0)) = z).
      { assert (Ev : (fval g * p10 (- 0) == inject_Z z)%Q) by (change (p10 (- 0)) with 1%Q; rewrite Xg, Ez; ring). rewrite Ev. apply Qfloor_Z. }
      rewrite Fl. apply (stands_iff m e z 0 Vg). split; [exact Pz|]. eapply rounds_to_comp; [|apply rounds_valid; [exact Vg|reflexivity]]. change (p10 0) with 1%Q. fold g. rewrite Xg, Ez. ring. }
    specialize (Sh (or_introl St)). destruct (shortest 17 g p 1) as [c k]. destruct Sh as [_ (n' & A & B & C)]. exists c, k, n'. rewrite B. split; [reflexivity|]. split; [lia|]. split; [lia|]. split; [lia|]. split; [exact P5|exact C]. }
  destruct (shortest 17 g p 1) as [c0 k0] eqn:Es. destruct Sf as [St (n' & Hn & Hk & Hc)].
  apply (stands_iff m e c0 k0 Vg) in St. destruct St as [Pc St]. pose proof (at_bound g p n' ltac:(lia) P2) as Bd. rewrite <- Hk in *.
  pose proof (Z.pow_le_mono_r 10 n' 17 ltac:(lia) ltac:(lia)) as M17.
  pose proof (strip_ok 20 c0 k0 Pc) as Sp. assert (S1 : forall i, (i < 20)%nat -> c0 = 10 ^ Z.of_nat i -> fst (strip 20 c0 k0) = 1) by (intros i Hi ->; apply strip_power, Hi).
  destruct (strip 20 c0 k0) as [c k]. cbn [fst] in S1. destruct Sp as (C1 & K1 & V1).
  destruct (digits_ok c ltac:(lia)) as (D & Nd & Ne). pose proof (digits_length c ltac:(lia)) as Lg. set (ds := digits 10 c) in *. set (x := k + Z.of_nat (length ds) - 1).
  assert (Rd : rounds_to (inject_Z c * p10 k) (Fin x0)) by (eapply rounds_to_comp; [symmetry; exact V1|]; eapply rounds_to_value; [|exact St]; exact Xg).
  exists c, k. eexists. split; [reflexivity|]. split; [lia|]. split; [exact Rd|]. split.
  { intros c' k' n Cn Rn. destruct (Z_lt_ge_dec n 1) as [N1|N1]; [exfalso; pose proof (Z.pow_le_mono_r 10 n 0 ltac:(lia) ltac:(lia)) as M; rewrite Z.pow_0_r in M; lia|].
    destruct (Z_lt_ge_dec 17 n) as [N17|N17]; [pose proof (Z.pow_lt_mono_r 10 17 n ltac:(lia) ltac:(lia) ltac:(lia)); lia|].
    assert (Lx : (Qabs x0 < limit)%Q) by (rewrite <- Xg; apply representable_limit, (fval_representable g Vg eq_refl)).
    pose proof (shortest_found g p 17 1 (Z.to_nat (n - 1)) ltac:(lia)) as Sh. cbv zeta in Sh. rewrite Z2Nat.id in Sh by lia. replace (1 + (n - 1)) with n in Sh by lia.
    destruct (neighbours (fval g) p n c' k' P1 P2 ltac:(lia) Cn) as [Pf Nb]. cbv zeta in Pf, Nb. rewrite Es in Sh.
    destruct Sh as [_ (n1 & H1 & H2 & _)].
    - destruct Nb as [Nb|Nb]; [left|right]; apply (stands_iff m e _ _ Vg); (split; [lia|]); fold g; (eapply rounds_to_value; [|apply (between_rounds _ (inject_Z c' * p10 k') x0 Rn Lx)]; [symmetry; exact Xg|]); clear - Nb Xg; destruct Nb as [Na Nb]; [right|left]; (split; [try exact Na; rewrite <- Xg; exact Na|try exact Nb; rewrite <- Xg; exact Nb]).
    - pose proof (Z.pow_le_mono_r 10 n' n ltac:(lia) ltac:(lia)). assert (Bc : c0 <= 10 ^ n') by lia. destruct (Z.eq_dec c0 (10 ^ n')) as [Eq|Nq]; [|lia].
      assert (c = 1) by (apply (S1 (Z.to_nat n')); [lia|rewrite Z2Nat.id by lia; exact Eq]). pose proof (Z.pow_le_mono_r 10 1 n ltac:(lia) ltac:(lia)). lia. }
  assert (Int : forall z, (x0 == inject_Z z)%Q -> z < 10 ^ 6 -> 0 <= k /\ 0 <= x < 6).
  { intros z Ez Lz. destruct (Small_n z Ez Lz) as (c1 & k1 & n1 & E1 & E2 & E3 & E4 & E5 & E6). injection E1 as <- <-.
    assert (Pz : 0 < z) by (rewrite inject_lt; change (inject_Z 0) with 0%Q; rewrite <- Ez; apply Qmult_lt_0_compat; [reflexivity|apply p2_pos]).
    assert (Lc : c0 * 10 ^ k0 <= 10 ^ 6).
    { apply Z.le_trans with (10 ^ n' * 10 ^ k0); [apply Z.mul_le_mono_nonneg_r; [apply Z.pow_nonneg; lia|lia]|]. rewrite <- Z.pow_add_r by lia. apply Z.pow_le_mono_r; lia. }
    assert (Ev : (inject_Z c0 * p10 k0 == inject_Z (c0 * 10 ^ k0))%Q) by (rewrite inject_Z_mult, p10_Z by lia; reflexivity).
    assert (Rp : representable (inject_Z (c0 * 10 ^ k0))) by (exists (c0 * 10 ^ k0), 0; split; [rewrite Qmult_1_r; reflexivity|]; split; [|lia]; pose proof (Z.pow_nonneg 10 k0); lia).
    pose proof (rounds_exact (inject_Z (c0 * 10 ^ k0)) g eq_refl) as Rx. rewrite Xg, Ez in Rx. specialize (Rx (rounds_to_comp _ _ _ Ev St) Rp).
    assert (Ezz : z = c * 10 ^ k).
    { assert (K : (inject_Z z == inject_Z (c * 10 ^ k))%Q) by (rewrite Rx, <- Ev, <- V1, p10_Z, inject_Z_mult by lia; reflexivity). unfold Qeq in K. cbn in K. lia. }
    split; [lia|]. unfold x. assert (1 <= Z.of_nat (length ds)) by (destruct ds; [congruence|cbn [length]; lia]). split; [lia|].
    assert (K : 10 ^ (k + Z.of_nat (length ds) - 1) < 10 ^ 6); [|apply Z.pow_lt_mono_r_iff in K; lia].
    apply Z.le_lt_trans with z; [|exact Lz]. rewrite Ezz. replace (k + Z.of_nat (length ds) - 1) with (Z.of_nat (length ds) - 1 + k) by lia. rewrite Z.pow_add_r by lia.
    apply Z.mul_le_mono_nonneg_r; [apply Z.pow_nonneg; lia|exact Lg]. }
  destruct ((-4 <=? x) && (x <? 6)) eqn:Ex; [destruct (Z_lt_ge_dec k 0) as [Kn|Kp]|].
  - right. destruct (fixed_point ds k D Ne Kn) as (ip & fp & A & B & C & I46). split; [|split].
    + exists (minus s), (fixed ds k), ip, fp, [], 0. rewrite app_nil_r. split; [reflexivity|]. split; [apply minus_sign|]. split; [exact A|]. split; [constructor|].
      rewrite B, Nd, C. replace (0 - - k) with k by lia. reflexivity.
    + left. apply in_or_app. right. exact I46.
    + intros z Ez. destruct (Z_lt_ge_dec z (10 ^ 6)) as [L|G]; [destruct (Int z Ez L); lia|lia].
  - left. destruct (fixed_integer ds k D Ne ltac:(lia)) as (A & B & C & E). split; [exact A|]. split; [exact B|]. split; [rewrite E; unfold x in Ex; lia|]. split; [lia|]. rewrite C, Nd. reflexivity.
  - right. destruct (scientific_ok ds x D Ne) as (mm & ip & fp & ex & A & B & C & E & F & G). split; [|split].
    + exists (minus s), mm, ip, fp, ex, x. split; [rewrite A; reflexivity|]. split; [apply minus_sign|]. split; [exact B|]. split; [exact C|].
      rewrite E, Nd, F. replace (x - (Z.of_nat (length ds) - 1)) with k by (unfold x; lia). reflexivity.
    + right. left. apply in_or_app. right. exact G.
    + intros z Ez. destruct (Z_lt_ge_dec z (10 ^ 6)) as [L|G0]; [destruct (Int z Ez L); lia|lia].
Qed.
