(** Lemmas: the square root of Floats.SpecFloat rounds as RootSpec.v says. *)
From Coq Require Import ZArith QArith Qreduction Qround Qabs Qpower Lia Lqa ZifyBool List Bool Floats.SpecFloat.
From Verif Require Import Number NumberProofs NumberRounding Flonum FlonumProofs FlonumSpec FlonumProofs2 FlonumProofs3 RoundingSpec FlonumRound RootSpec.
Open Scope Z_scope.

Lemma sq_lt a b : (0 <= a -> a < b -> a * a < b * b)%Q.
Proof. nra. Qed.
Lemma sq_le a b : (0 <= a -> a <= b -> a * a <= b * b)%Q.
Proof. nra. Qed.
(** a square that is divisible by 4^k *)
Lemma square_even k : 0 <= k -> forall q c, q * q = c * 2 ^ (2 * k) -> exists a, q = a * 2 ^ k.
Proof.
  intros K. pattern k. apply natlike_ind; [| |exact K].
  - intros q c _. exists q. rewrite Z.pow_0_r. lia.
  - clear k K. intros k K IH q c H. replace (2 * Z.succ k) with (2 + 2 * k) in H by lia. rewrite Z.pow_add_r in H by lia. change (2 ^ 2) with 4 in H.
    destruct (Z.Even_or_Odd q) as [[h E]|[h E]].
    + destruct (IH h c) as [a Ha]; [nia|]. exists a. rewrite Z.pow_succ_r by lia. lia.
    + exfalso. set (p := 2 ^ (2 * k)) in *. clearbody p. assert (q * q = 4 * (h * h + h) + 1) by (rewrite E; ring). lia.
Qed.

(** [x] is in the same place as the root of [Qv], between the same multiples of [h] *)
Definition beside (Qv x h : Q) (k : Z) : Prop :=
  (x == inject_Z k * h /\ Qv == x * x \/
   inject_Z k * h < x /\ x < inject_Z (k + 1) * h /\ inject_Z k * h * (inject_Z k * h) < Qv /\ Qv < inject_Z (k + 1) * h * (inject_Z (k + 1) * h))%Q.
Lemma beside_above Qv x h k z : (0 < h)%Q -> 0 <= k -> beside Qv x h k -> (x < inject_Z z * h)%Q -> (Qv < inject_Z z * h * (inject_Z z * h))%Q.
Proof.
  intros H K B L. assert (A0 : (0 <= inject_Z k * h)%Q) by (apply Qmult_le_0_compat; [change 0%Q with (inject_Z 0); rewrite <- inject_le; lia|lra]).
  destruct B as [[B1 B2]|(B1 & B2 & B3 & B4)].
  - rewrite B2. apply sq_lt; [rewrite B1; exact A0|exact L].
  - assert (k < z) by (assert (T := Qlt_trans _ _ _ B1 L); apply Qmult_lt_r in T; [|exact H]; rewrite <- inject_lt in T; exact T).
    eapply Qlt_le_trans; [exact B4|]. apply sq_le; [apply Qmult_le_0_compat; [change 0%Q with (inject_Z 0); rewrite <- inject_le; lia|lra]|].
    apply Qmult_le_compat_r; [rewrite <- inject_le; lia|lra].
Qed.
Lemma beside_below Qv x h k z : (0 < h)%Q -> 0 <= z -> beside Qv x h k -> (inject_Z z * h < x)%Q -> (inject_Z z * h * (inject_Z z * h) < Qv)%Q.
Proof.
  intros H K B L. assert (A0 : (0 <= inject_Z z * h)%Q) by (apply Qmult_le_0_compat; [change 0%Q with (inject_Z 0); rewrite <- inject_le; lia|lra]).
  destruct B as [[B1 B2]|(B1 & B2 & B3 & B4)].
  - rewrite B2. apply sq_lt; assumption.
  - assert (z < k + 1) by (assert (T := Qlt_trans _ _ _ L B2); apply Qmult_lt_r in T; [|exact H]; rewrite <- inject_lt in T; exact T).
    eapply Qle_lt_trans; [|exact B3]. apply sq_le; [exact A0|]. apply Qmult_le_compat_r; [rewrite <- inject_le; lia|lra].
Qed.
(** in the exact case the middle may be met only if x is not representable *)
Lemma beside_meets Qv x h k z : (0 < h)%Q -> beside Qv x h k -> (x == inject_Z z * h)%Q -> (x == inject_Z k * h /\ Qv == x * x)%Q.
Proof.
  intros H [B|(B1 & B2 & _)] E; [exact B|exfalso]. rewrite E in B1, B2. apply Qmult_lt_r in B1; [|exact H]. apply Qmult_lt_r in B2; [|exact H].
  rewrite <- inject_lt in B1, B2. lia.
Qed.

Lemma root_of_surrogate Qv x t k v : -1074 <= t <= 971 -> 2 ^ 53 <= k -> beside Qv x (p2 (t - 1)) k -> (inject_Z (2 ^ 53) * p2 (t - 1) <= x)%Q ->
  ((x == inject_Z k * p2 (t - 1) /\ Qv == x * x)%Q -> representable x) -> closest x v -> root_rounds Qv v.
Proof.
  intros T K B X0 Re [Rv Cv]. set (h := p2 (t - 1)) in *. assert (H : (0 < h)%Q) by apply p2_pos.
  set (b := (inject_Z (2 ^ 53) * h)%Q) in *. assert (Pt : (p2 t == 2 * h)%Q) by (unfold h; replace t with (1 + (t - 1)) at 1 by lia; rewrite p2_add; reflexivity).
  assert (Bt : (b == inject_Z (2 ^ 52) * p2 t)%Q) by (unfold b; rewrite Pt; change (inject_Z (2 ^ 53)) with (2 * inject_Z (2 ^ 52))%Q; ring).
  assert (Bt' : (b == p2 (t + 52))%Q) by (rewrite Bt, Z.add_comm, p2_add, (p2_Z 52) by lia; reflexivity).
  assert (Rb : representable b) by (exists (2 ^ 52), t; split; [exact Bt|lia]).
  assert (Bpos : (0 < b)%Q) by (rewrite Bt'; apply p2_pos).
  assert (V0 : (b <= v)%Q).
  { destruct (Qlt_le_dec v b) as [L|L]; [exfalso|exact L]. specialize (Cv b Rb). rewrite !Qabs_pos in Cv by lra. lra. }
  assert (Mul : forall y, representable y -> (b <= y)%Q -> exists z, (y == inject_Z z * p2 t)%Q).
  { intros y Ry Ly. apply multiple; [exact Ry|]. right. rewrite <- Bt', Qabs_pos by lra. exact Ly. }
  destruct (Mul v Rv V0) as [zv Ev].
  assert (Mid : forall y, representable y -> (b <= y)%Q -> exists z, ((v + y) / 2 == inject_Z z * h)%Q).
  { intros y Ry Ly. destruct (Mul y Ry Ly) as [zy Ey]. exists (zv + zy). rewrite Ev, Ey, Pt, inject_Z_plus. field. }
  assert (Up : forall y, representable y -> (v < y)%Q -> (x <= (v + y) / 2)%Q).
  { intros y Ry L. specialize (Cv y Ry). apply Qle_shift_div_l; [reflexivity|]. destruct (Qlt_le_dec x v) as [L1|L1]; [lra|].
    destruct (Qlt_le_dec y x) as [L2|L2]; [rewrite !Qabs_pos in Cv by lra; lra|]. rewrite (Qabs_pos (x - v)), (Qabs_neg (x - y)) in Cv by lra. lra. }
  assert (Down : forall y, representable y -> (y < v)%Q -> ((v + y) / 2 <= x)%Q).
  { intros y Ry L. specialize (Cv y Ry). apply Qle_shift_div_r; [reflexivity|]. destruct (Qlt_le_dec v x) as [L1|L1]; [lra|].
    destruct (Qlt_le_dec x y) as [L2|L2]; [rewrite !Qabs_neg in Cv by lra; lra|]. rewrite (Qabs_neg (x - v)), (Qabs_pos (x - y)) in Cv by lra. lra. }
  assert (Xv : representable x -> (x == v)%Q).
  { intros Rx. specialize (Cv x Rx). assert (Z0 : (Qabs (x - x) == 0)%Q) by (setoid_replace (x - x)%Q with 0%Q by ring; reflexivity). rewrite Z0 in Cv.
    apply Qabs_Qle_condition in Cv. lra. }
  split; [exact Rv|]. split; [lra|]. intros y Ry Y0. cbv zeta.
  assert (DownB : (b <= y)%Q -> (y < v)%Q -> ((v + y) / 2 * ((v + y) / 2) < Qv)%Q).
  { intros Ly L. destruct (Mid y Ry Ly) as [z Ez]. pose proof (Down y Ry L) as D.
    destruct (Qlt_le_dec ((v + y) / 2) x) as [L1|L1].
    - rewrite Ez in L1 |- *. apply (beside_below Qv x h k z H); [|exact B|exact L1].
      assert (P : (0 < inject_Z z * h)%Q) by (rewrite <- Ez; apply Qlt_shift_div_l; [reflexivity|lra]).
      destruct (Z_le_gt_dec 0 z) as [|G]; [assumption|exfalso]. assert (inject_Z z <= 0)%Q by (change 0%Q with (inject_Z 0); rewrite <- inject_le; lia). nra.
    - exfalso. assert (E : (x == (v + y) / 2)%Q) by (apply Qle_antisym; assumption).
      assert (Q2 : (x == inject_Z k * h /\ Qv == x * x)%Q) by (apply (beside_meets Qv x h k z H B); rewrite E; exact Ez).
      pose proof (Xv (Re Q2)) as XV. rewrite XV in E. assert ((v + y) / 2 < v)%Q by (apply Qlt_shift_div_r; [reflexivity|lra]). lra. }
  split; intros L.
  - destruct (Mid y Ry ltac:(lra)) as [z Ez]. pose proof (Up y Ry L) as D. destruct (Qlt_le_dec x ((v + y) / 2)) as [L1|L1].
    + rewrite Ez in L1 |- *. apply (beside_above Qv x h k z H); [lia|exact B|exact L1].
    + exfalso. assert (E : (x == (v + y) / 2)%Q) by (apply Qle_antisym; assumption).
      assert (Q2 : (x == inject_Z k * h /\ Qv == x * x)%Q) by (apply (beside_meets Qv x h k z H B); rewrite E; exact Ez).
      pose proof (Xv (Re Q2)) as XV. rewrite XV in E. assert (v < (v + y) / 2)%Q by (apply Qlt_shift_div_l; [reflexivity|lra]). lra.
  - destruct (Qlt_le_dec y b) as [Ly|Ly]; [|exact (DownB Ly L)].
    (* y is below b: compare with the middle of v and b *)
    assert (M0 : (0 <= (v + y) / 2)%Q) by (apply Qle_shift_div_l; [reflexivity|lra]).
    assert (M1 : ((v + y) / 2 < (v + b) / 2)%Q) by (apply Qmult_lt_r; [reflexivity|lra]).
    assert (Vx : ((v + b) / 2 <= x)%Q).
    { destruct (Qlt_le_dec b v) as [L1|L1]; [exact (Down b Rb L1)|]. apply Qle_shift_div_r; [reflexivity|lra]. }
    destruct (Mid b Rb ltac:(lra)) as [z Ez].
    assert (Qb : ((v + b) / 2 * ((v + b) / 2) <= Qv)%Q).
    { destruct (Qlt_le_dec ((v + b) / 2) x) as [L1|L1].
      - rewrite Ez in L1 |- *. apply Qlt_le_weak, (beside_below Qv x h k z H); [|exact B|exact L1].
        assert (P : (0 < inject_Z z * h)%Q) by (rewrite <- Ez; apply Qlt_shift_div_l; [reflexivity|lra]).
        destruct (Z_le_gt_dec 0 z) as [|G]; [assumption|exfalso]. assert (inject_Z z <= 0)%Q by (change 0%Q with (inject_Z 0); rewrite <- inject_le; lia). nra.
      - assert (E : (x == (v + b) / 2)%Q) by (apply Qle_antisym; assumption).
        assert (Q2 : (x == inject_Z k * h /\ Qv == x * x)%Q) by (apply (beside_meets Qv x h k z H B); rewrite E; exact Ez). destruct Q2 as [_ Q2]. rewrite Q2, E. apply Qle_refl. }
    eapply Qlt_le_trans; [apply sq_lt; [exact M0|exact M1]|exact Qb].
Qed.

Lemma sqrt_finite m e : vfloat (S754_finite false m e) ->
  let f := SFsqrt prec emax (S754_finite false m e) in
  vfloat f /\ finite f = true /\ root_rounds (fval (S754_finite false m e)) (fval f).
Proof.
  intros V. cbv zeta. cbn [SFsqrt]. unfold SFsqrt_core_binary. set (d := Zdigits2 (Zpos m)). set (t := Z.min (fexp prec emax (Z.div2 (d + e + 1))) (Z.div2 e)). cbv zeta.
  destruct (zdigits (Zpos m) ltac:(lia)) as (D0 & D1 & D2). destruct (D2 ltac:(lia)) as [D3 D4]. fold d in D0, D1, D3, D4. clear D2.
  pose proof V as V'. apply vfloat_iff in V'. destruct V' as (V1 & V2 & V3).
  assert (Dd : d <= 53).
  { destruct (Z_le_gt_dec d 53) as [|G]; [assumption|exfalso]. pose proof (Z.pow_le_mono_r 2 53 (d - 1) ltac:(lia) ltac:(lia)). lia. }
  assert (T1 : 2 * t <= e /\ 2 * t <= d + e + 1 - 106 /\ -1074 <= t /\ t <= 971).
  { unfold t. rewrite !Z.div2_div. unfold fexp, emin, prec, emax. pose proof (Z.div_mod e 2 ltac:(lia)). pose proof (Z.mod_pos_bound e 2 ltac:(lia)).
    pose proof (Z.div_mod (d + e + 1) 2 ltac:(lia)). pose proof (Z.mod_pos_bound (d + e + 1) 2 ltac:(lia)). lia. }
  destruct T1 as (T1 & T2 & T3 & T4).
  assert (M : match e - 2 * t with 0 => Zpos m | Zpos _ => Z.shiftl (Zpos m) (e - 2 * t) | Zneg _ => 0 end = Zpos m * 2 ^ (e - 2 * t)).
  { assert (0 <= e - 2 * t) by lia. destruct (e - 2 * t); [lia|apply Z.shiftl_mul_pow2; lia|lia]. }
  rewrite M. clear M. set (n := Zpos m * 2 ^ (e - 2 * t)). pose proof (pow_pos' (e - 2 * t) ltac:(lia)) as PP.
  assert (Nn : 2 ^ 104 <= n).
  { unfold n. apply Z.le_trans with (2 ^ (d - 1) * 2 ^ (e - 2 * t)); [|nia]. rewrite <- Z.pow_add_r by lia. apply Z.pow_le_mono_r; lia. }
  pose proof (Z.sqrtrem_spec n ltac:(lia)) as S. destruct (Z.sqrtrem n) as [q r]. destruct S as [S1 S2].
  assert (Q0 : 2 ^ 52 <= q) by nia.
  set (Qv := fval (S754_finite false m e)). set (h := p2 (t - 1)). assert (H : (0 < h)%Q) by apply p2_pos.
  assert (Pt : (p2 t == 2 * h)%Q) by (unfold h; replace t with (1 + (t - 1)) at 1 by lia; rewrite p2_add; reflexivity).
  assert (EQ : (Qv == inject_Z n * (p2 t * p2 t))%Q).
  { unfold Qv, n. rewrite fval_abs, inject_Z_mult, <- p2_Z, <- p2_add, <- Qmult_assoc, <- p2_add by lia. replace (e - 2 * t + (t + t)) with e by lia. reflexivity. }
  assert (EQ' : (Qv == inject_Z (4 * n) * (h * h))%Q) by (rewrite EQ, Pt, inject_Z_mult; change (inject_Z 4) with 4%Q; ring).
  assert (Sq : forall z, (inject_Z z * h * (inject_Z z * h) == inject_Z (z * z) * (h * h))%Q) by (intros z; rewrite inject_Z_mult; ring).
  assert (HH : (0 < h * h)%Q) by (apply Qmult_lt_0_compat; exact H).
  set (l := if Zeq_bool r 0 then loc_Exact else loc_Inexact (if r <=? q then Lt else Gt)).
  assert (Sur : exists X k, located q l X /\ (inject_Z (2 ^ 52) <= X)%Q /\ 2 ^ 53 <= k /\ beside Qv (X * p2 t) h k /\ (X <= inject_Z (q + 1))%Q /\ (r = 0 /\ X = inject_Z q \/ ~ (X * p2 t == inject_Z k * h)%Q)).
  { unfold l. assert (Q1 : (inject_Z (2 ^ 52) <= inject_Z q)%Q) by (rewrite <- inject_le; exact Q0).
    destruct (Zeq_bool r 0) eqn:R0.
    - apply Zeq_bool_eq in R0. exists (inject_Z q), (2 * q). split; [reflexivity|]. split; [exact Q1|]. split; [lia|]. split; [|split; [rewrite <- inject_le; lia|left; split; [exact R0|reflexivity]]].
      left. split; [rewrite Pt, inject_Z_mult; change (inject_Z 2) with 2%Q; ring|]. rewrite EQ, S1, R0, Z.add_0_r, inject_Z_mult. ring.
    - apply Zeq_bool_neq in R0. destruct (r <=? q) eqn:Rq.
      + exists (inject_Z q + (1 # 4))%Q, (2 * q). cbn [located]. rewrite inject_succ. split; [split; [lra|]; split; [lra|]; apply -> Qlt_alt; lra|]. split; [lra|]. split; [lia|].
        assert (Lt1 : (inject_Z (2 * q) * h < (inject_Z q + (1 # 4)) * p2 t)%Q) by (rewrite Pt, inject_double; setoid_replace ((inject_Z q + (1 # 4)) * (2 * h))%Q with (2 * inject_Z q * h + (1 # 2) * h)%Q by ring; lra).
        split; [|split; [lra|right; lra]]. right. rewrite !Sq, EQ', Pt. rewrite Pt in Lt1. rewrite inject_succ, inject_double in *. split; [|split; [|split]].
        * setoid_replace ((inject_Z q + (1 # 4)) * (2 * h))%Q with (2 * inject_Z q * h + (1 # 2) * h)%Q by ring. lra.
        * setoid_replace ((inject_Z q + (1 # 4)) * (2 * h))%Q with (2 * inject_Z q * h + (1 # 2) * h)%Q by ring. setoid_replace ((2 * inject_Z q + 1) * h)%Q with (2 * inject_Z q * h + h)%Q by ring. lra.
        * apply Qmult_lt_r; [exact HH|]. rewrite <- inject_lt. nia.
        * apply Qmult_lt_r; [exact HH|]. rewrite <- inject_lt. nia.
      + exists (inject_Z q + (3 # 4))%Q, (2 * q + 1). cbn [located]. rewrite inject_succ. split; [split; [lra|]; split; [lra|]; apply -> Qgt_alt; lra|]. split; [lra|]. split; [lia|].
        assert (Lt1 : (inject_Z (2 * q + 1) * h < (inject_Z q + (3 # 4)) * p2 t)%Q) by (rewrite Pt, inject_succ, inject_double; setoid_replace ((inject_Z q + (3 # 4)) * (2 * h))%Q with (2 * inject_Z q * h + (3 # 2) * h)%Q by ring; setoid_replace ((2 * inject_Z q + 1) * h)%Q with (2 * inject_Z q * h + h)%Q by ring; lra).
        split; [|split; [lra|right; lra]]. right. rewrite !Sq, EQ', Pt. rewrite Pt in Lt1. rewrite !inject_succ, inject_double. split; [|split; [|split]].
        * setoid_replace ((inject_Z q + (3 # 4)) * (2 * h))%Q with (2 * inject_Z q * h + (3 # 2) * h)%Q by ring. setoid_replace ((2 * inject_Z q + 1) * h)%Q with (2 * inject_Z q * h + h)%Q by ring. lra.
        * setoid_replace ((inject_Z q + (3 # 4)) * (2 * h))%Q with (2 * inject_Z q * h + (3 # 2) * h)%Q by ring. setoid_replace ((2 * inject_Z q + 1 + 1) * h)%Q with (2 * inject_Z q * h + 2 * h)%Q by ring. lra.
        * apply Qmult_lt_r; [exact HH|]. rewrite <- inject_lt. nia.
        * apply Qmult_lt_r; [exact HH|]. rewrite <- inject_lt. nia. }
  destruct Sur as (X & k & Lo & X52 & K53 & Be & Xq & Ex).
  destruct (round_aux_ok false q t l X ltac:(lia) Lo) as (A & _ & C).
  { destruct (zdigits q ltac:(lia)) as (_ & K1 & _). assert (53 <= Zdigits2 q).
    { destruct (Z_le_gt_dec 53 (Zdigits2 q)) as [|G]; [assumption|exfalso]. pose proof (Z.pow_le_mono_r 2 (Zdigits2 q) 52 ltac:(lia) ltac:(lia)). lia. }
    unfold fexp, emin, prec, emax. lia. }
  cbn [signed] in C. split; [exact A|]. set (f := binary_round_aux prec emax false q t l) in *.
  assert (X0 : (0 <= X * p2 t)%Q) by (apply Qmult_le_0_compat; [eapply Qle_trans; [|exact X52]; discriminate|apply Qlt_le_weak, p2_pos]).
  assert (Small : (X * p2 t < limit)%Q).
  { destruct (Qlt_le_dec (X * p2 t) limit) as [L|L]; [exact L|exfalso].
    assert (W : (inject_Z (q * q) * (p2 t * p2 t) <= Qv)%Q) by (rewrite EQ; apply Qmult_le_compat_r; [rewrite <- inject_le; lia|apply Qmult_le_0_compat; apply Qlt_le_weak, p2_pos]).
    assert (W1 : (X * p2 t <= 2 * (inject_Z q * p2 t))%Q).
    { rewrite Qmult_assoc. apply scale_le. eapply Qle_trans; [exact Xq|]. rewrite <- inject_double, <- inject_le. lia. }
    assert (W2 : (limit * (1 # 2) <= inject_Z q * p2 t)%Q) by lra.
    pose proof (sq_le (limit * (1 # 2)) _ ltac:(vm_compute; discriminate) W2) as W3.
    assert (W4 : (Qv < limit)%Q).
    { eapply Qle_lt_trans; [apply Qle_Qabs|]. apply representable_limit, fval_representable; [exact V|reflexivity]. }
    assert (W5 : (limit < limit * (1 # 2) * (limit * (1 # 2)))%Q) by (vm_compute; reflexivity).
    rewrite inject_Z_mult in W. setoid_replace (inject_Z q * inject_Z q * (p2 t * p2 t))%Q with (inject_Z q * p2 t * (inject_Z q * p2 t))%Q in W by ring. lra. }
  assert (Ff : finite f = true).
  { destruct f as [s|[]| |s m' e']; try reflexivity; cbn [fext rounds_to] in C; exfalso; [|lra|exact C].
    assert (0 < limit)%Q by reflexivity. lra. }
  split; [exact Ff|]. rewrite (fext_finite f Ff) in C. destruct C as (_ & C & _).
  apply (root_of_surrogate Qv (X * p2 t) t k); [lia|exact K53|exact Be| | |exact C].
  - fold h. setoid_replace (inject_Z (2 ^ 53) * h)%Q with (inject_Z (2 ^ 52) * p2 t)%Q by (rewrite Pt; change (inject_Z (2 ^ 53)) with (2 * inject_Z (2 ^ 52))%Q; ring). apply scale_le, X52.
  - (* an exact root has few digits *)
    intros [E _]. destruct Ex as [[R0 ->]|Ex]; [|contradiction]. rewrite R0, Z.add_0_r in S1. unfold n in S1.
    set (u := (e - 2 * t) / 2). pose proof (Z.div_mod (e - 2 * t) 2 ltac:(lia)) as DM. fold u in DM. pose proof (Z.mod_pos_bound (e - 2 * t) 2 ltac:(lia)) as DM'.
    assert (U0 : 0 <= u) by lia. set (w := (e - 2 * t) mod 2) in *.
    assert (Eq : q * q = Zpos m * 2 ^ w * 2 ^ (2 * u)) by (rewrite <- S1, DM, Z.pow_add_r by lia; ring).
    destruct (square_even u U0 q (Zpos m * 2 ^ w) Eq) as [a Ea].
    assert (Pu := pow_pos' (2 * u) ltac:(lia)). assert (Aa : a * a = Zpos m * 2 ^ w).
    { rewrite Ea in Eq. replace (a * 2 ^ u * (a * 2 ^ u)) with (a * a * (2 ^ u * 2 ^ u)) in Eq by ring. rewrite <- Z.pow_add_r in Eq by lia. replace (u + u) with (2 * u) in Eq by lia. nia. }
    assert (W2 : 2 ^ w <= 2) by (assert (w = 0 \/ w = 1) as [-> | ->] by lia; cbn; lia).
    assert (Ab : Z.abs a < 2 ^ 53) by nia.
    exists a, (u + t). split; [rewrite Ea, inject_Z_mult, <- p2_Z, <- Qmult_assoc, <- p2_add by lia; reflexivity|]. split; [exact Ab|].
    unfold u in *. lia.
Qed.
