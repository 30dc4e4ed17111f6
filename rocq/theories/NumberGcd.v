(** gcd, lcm, max, min and parity. *)
From Coq Require Import ZArith QArith Qreduction List Bool Lia.
From Verif Require Import Number NumberProofs NumberRounding.
Import ListNotations.
Open Scope Z_scope.

Lemma is_zero_int x z : is_int x z -> is_zero x = (z =? 0).
Proof. intros [->| ->]; unfold is_zero, n_eq, cmp; rewrite Z.eqb_compare; reflexivity. Qed.
Lemma abs_int x z : is_int x z -> is_int (n_abs x) (Z.abs z).
Proof. intros [->| ->]; cbn [n_abs]; [apply canon_wide_ok|right; reflexivity]. Qed.

Lemma gcd_rem a b : b <> 0 -> Z.gcd b (Z.rem a b) = Z.gcd a b.
Proof.
  intros Hb. pose proof (Z.quot_rem' a b) as E.
  rewrite (Z.gcd_comm a b). replace (Z.rem a b) with (a + (- Z.quot a b) * b) by lia.
  rewrite Z.gcd_add_mult_diag_r. reflexivity.
Qed.

Lemma gcd_f_int fuel : forall x y a b, is_int x a -> is_int y b -> (Z.to_nat (Z.abs b) < fuel)%nat ->
  exists r, n_gcd_f fuel x y = Some (Ok r) /\ is_int r (Z.gcd a b).
Proof.
  induction fuel as [|f IH]; intros x y a b Hx Hy Hf; [lia|]. cbn [n_gcd_f].
  rewrite (is_zero_int y b Hy). destruct (Z.eqb_spec b 0) as [->|Hb].
  - exists (n_abs x). split; [reflexivity|]. rewrite Z.gcd_0_r. apply abs_int. exact Hx.
  - unfold n_remainder. destruct (rem_int x y a b Hx Hy Hb) as [r [E Hr]]. rewrite E.
    pose proof (Z.rem_bound_abs a b Hb).
    destruct (IH y r b (Z.rem a b) Hy Hr ltac:(lia)) as [g [E' Hg]]. exists g. split; [exact E'|].
    rewrite <- (gcd_rem a b Hb). exact Hg.
Qed.

Lemma gcd_int x y a b : is_int x a -> is_int y b -> exists r, n_gcd x y = Some (Ok r) /\ is_int r (Z.gcd a b).
Proof.
  intros Hx Hy. unfold n_gcd. apply gcd_f_int; [exact Hx|exact Hy|]. unfold gcd_fuel, mag.
  destruct Hy as [->| ->]; lia.
Qed.

Lemma lcm_quot a b : Z.gcd a b <> 0 -> Z.abs (Z.quot (a * b) (Z.gcd a b)) = Z.lcm a b.
Proof.
  intros Hg. unfold Z.lcm. destruct (Z.gcd_divide_r a b) as [k Hk].
  set (g := Z.gcd a b) in *. rewrite Hk. rewrite Z.mul_assoc, Z.quot_mul by exact Hg. rewrite Z.div_mul by exact Hg. reflexivity.
Qed.

Lemma lcm_int x y a b : valid x -> valid y -> is_int x a -> is_int y b -> (a <> 0 \/ b <> 0) ->
  exists r, n_lcm x y = Some (Ok r) /\ is_int r (Z.lcm a b).
Proof.
  intros Vx Vy Hx Hy H0. unfold n_lcm. destruct (gcd_int x y a b Hx Hy) as [g [E Hg]]. rewrite E.
  assert (Hg0 : Z.gcd a b <> 0) by (intros H; pose proof (Z.gcd_eq_0_l _ _ H); pose proof (Z.gcd_eq_0_r _ _ H); lia).
  pose proof (mul_int x y a b Hx Hy) as Hm.
  destruct (Z.gcd_divide_r a b) as [k Hk].
  assert (Hq : exists r, n_quotient (n_mul x y) g = Ok r /\ is_int r (Z.quot (a * b) (Z.gcd a b))).
  { destruct (Z_lt_ge_dec (Z.abs (a * b)) (2^53 * Z.abs (Z.gcd a b))) as [Hl|Hl].
    - apply quotient_int; assumption.
    - unfold n_quotient. rewrite (div_int (n_mul x y) g (a * k)).
      + cbn [obind]. eexists. split; [reflexivity|]. rewrite Hk at 1. rewrite Z.mul_assoc, Z.quot_mul by exact Hg0. right. reflexivity.
      + rewrite (is_int_value g _ Hg). unfold Qeq, inject_Z. cbn [Qnum Qden]. lia.
      + intros [p [q [E1 E2]]]. pose proof (proj1 (mul_ok x y)) as V. rewrite E1 in V, Hm. cbn [valid] in V.
        destruct Hm as [[= ->]|[=]].
        assert (1 <= Z.gcd a b) by (pose proof (Z.gcd_nonneg a b); lia). nia.
      + rewrite (is_int_value _ _ Hm), (is_int_value g _ Hg). rewrite Hk at 1. rewrite Z.mul_assoc, inject_Z_mult. field.
        unfold Qeq, inject_Z. cbn [Qnum Qden]. lia. }
  destruct Hq as [r [E1 Hr]]. rewrite E1. cbn [obind]. eexists. split; [reflexivity|].
  rewrite <- (lcm_quot a b Hg0). apply abs_int. exact Hr.
Qed.

(** n-ary gcd of two or more arguments *)
Lemma gcd_fold_int xs : forall zs x z, is_int x z -> Forall2 is_int xs zs ->
  exists r, fold_left (fun o y => match o with Some (Ok a) => n_gcd a y | _ => o end) xs (Some (Ok x)) = Some (Ok r) /\
    is_int r (fold_left Z.gcd zs z).
Proof.
  induction xs as [|y xs IH]; intros zs x z Hx Hf; inversion Hf as [|? b ? zs' Hy Hf']; subst; cbn [fold_left].
  - exists x. auto.
  - destruct (gcd_int x y z b Hx Hy) as [r [E Hr]]. rewrite E. apply IH; assumption.
Qed.

(** ** max and min *)
Lemma max_from_ok xs : forall b, (In (max_from b xs) (b :: xs)) /\
  (forall x, In x (b :: xs) -> (value x <= value (max_from b xs))%Q).
Proof.
  induction xs as [|y xs IH]; intros b; cbn [max_from].
  - split; [left; reflexivity|]. intros x [->|[]]. apply Qle_refl.
  - destruct (n_lt b y) eqn:E.
    + destruct (IH y) as [H1 H2]. split; [right; exact H1|].
      intros x [->|Hx]; [|apply H2; exact Hx]. apply n_lt_ok in E.
      apply Qle_trans with (value y); [apply Qlt_le_weak; exact E|apply H2; left; reflexivity].
    + destruct (IH b) as [H1 H2]. split; [destruct H1 as [H1|H1]; [left; exact H1|right; right; exact H1]|].
      assert (Hb : (value y <= value b)%Q) by (apply n_ge_ok; unfold n_ge; rewrite E; reflexivity).
      intros x [->|[->|Hx]].
      * apply H2. left. reflexivity.
      * apply Qle_trans with (value b); [exact Hb|apply H2; left; reflexivity].
      * apply H2. right. exact Hx.
Qed.
Lemma min_from_ok xs : forall b, (In (min_from b xs) (b :: xs)) /\
  (forall x, In x (b :: xs) -> (value (min_from b xs) <= value x)%Q).
Proof.
  induction xs as [|y xs IH]; intros b; cbn [min_from].
  - split; [left; reflexivity|]. intros x [->|[]]. apply Qle_refl.
  - destruct (n_lt y b) eqn:E.
    + destruct (IH y) as [H1 H2]. split; [right; exact H1|].
      intros x [->|Hx]; [|apply H2; exact Hx]. apply n_lt_ok in E.
      apply Qle_trans with (value y); [apply H2; left; reflexivity|apply Qlt_le_weak; exact E].
    + destruct (IH b) as [H1 H2]. split; [destruct H1 as [H1|H1]; [left; exact H1|right; right; exact H1]|].
      assert (Hb : (value b <= value y)%Q) by (apply n_ge_ok; unfold n_ge; rewrite E; reflexivity).
      intros x [->|[->|Hx]].
      * apply H2. left. reflexivity.
      * apply Qle_trans with (value b); [apply H2; left; reflexivity|exact Hb].
      * apply H2. right. exact Hx.
Qed.

(** ** parity *)
Lemma even_int x z : is_int x z -> is_even x = Ok (Z.even z) /\ is_odd x = Ok (Z.odd z).
Proof.
  intros Hx. unfold is_odd, is_even. destruct (rem_int x (Small 2) z 2 Hx (or_introl eq_refl) ltac:(lia)) as [r [E Hr]].
  rewrite E. cbn [obind]. rewrite (is_zero_int r _ Hr).
  assert (Hz : (Z.rem z 2 =? 0) = Z.even z).
  { pose proof (Z.quot_rem' z 2). pose proof (Z.rem_bound_abs z 2 ltac:(lia)).
    destruct (Z.even z) eqn:Ev.
    - apply Z.even_spec in Ev as [k Hk]. apply Z.eqb_eq. lia.
    - assert (Ho : Z.odd z = true) by (rewrite <- Z.negb_even, Ev; reflexivity).
      apply Z.odd_spec in Ho as [k Hk]. apply Z.eqb_neq. lia. }
  rewrite Hz, <- Z.negb_even. auto.
Qed.

Lemma abs_value x : valid x -> valid (n_abs x) /\ value (n_abs x) == Qabs.Qabs (value x).
Proof.
  destruct x as [z|z|q]; cbn [n_abs valid value].
  - intros _. split; [apply canon_wide_ok|]. rewrite (is_int_value _ _ (proj2 (canon_wide_ok _))). reflexivity.
  - intros _. split; [exact Logic.I|]. reflexivity.
  - intros V. unfold ratio_of. destruct (q ?= inject_Z 0)%Q eqn:E.
    + split; [apply canon_ratio_valid; exact V|]. rewrite canon_ratio_value. apply Qeq_alt in E. rewrite Qabs.Qabs_pos; [reflexivity|].
      rewrite E. discriminate.
    + split; [apply canon_ratio_valid, valid_q|]. rewrite canon_ratio_value. unfold mpq_sub. rewrite Qred_correct.
      apply Qlt_alt in E. rewrite Qabs.Qabs_neg by (apply Qlt_le_weak; exact E). unfold inject_Z. ring.
    + split; [apply canon_ratio_valid; exact V|]. rewrite canon_ratio_value. apply Qgt_alt in E.
      rewrite Qabs.Qabs_pos; [reflexivity|]. apply Qlt_le_weak. exact E.
Qed.

Lemma isqrt_ok x z : is_int x z -> 0 <= z -> exists s r, n_isqrt x = Ok (Large s, Large r) /\
  0 <= s /\ s * s + r = z /\ s * s <= z < (s + 1) * (s + 1).
Proof.
  intros Hx Hz. exists (Z.sqrt z), (z - Z.sqrt z * Z.sqrt z).
  assert (E : n_isqrt x = Ok (Large (Z.sqrt z), Large (z - Z.sqrt z * Z.sqrt z))).
  { destruct Hx as [->| ->]; cbn [n_isqrt]; replace (z <? 0) with false by lia; reflexivity. }
  split; [exact E|]. pose proof (Z.sqrt_spec z Hz). pose proof (Z.sqrt_nonneg z). unfold Z.succ in *. lia.
Qed.
