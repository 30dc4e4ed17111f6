(** Proofs about the bitwise procedures. *)
From Coq Require Import ZArith QArith List Bool Lia ZifyBool.
From Verif Require Import Number NumberProofs NumberGcd Bitwise.
Import ListNotations.
Open Scope Z_scope.

(** Specification: the outcome is an exact integer object denoting z. *)
Definition gives (o : outcome num) (z : Z) : Prop := exists r, o = Ok r /\ is_int r z.

Lemma gives_bind {o z} {f : num -> outcome num} {z'} :
  gives o z -> (forall r, is_int r z -> gives (f r) z') -> gives (obind o f) z'.
Proof. intros [r [-> H]] Hf. cbn [obind]. auto. Qed.
Lemma gives_bindb {o z} {f : num -> outcome bool} {b} :
  gives o z -> (forall r, is_int r z -> f r = Ok b) -> obind o f = Ok b.
Proof. intros [r [-> H]] Hf. cbn [obind]. auto. Qed.
Lemma gives_ok x z : is_int x z -> gives (Ok x) z.
Proof. intros H. exists x. auto. Qed.

Lemma not_ok x a : is_int x a -> gives (b_not x) (Z.lnot a).
Proof.
  intros [->| ->]; cbn [b_not]; eexists; (split; [reflexivity|]); [apply canon_wide_ok|right; reflexivity].
Qed.
Lemma op2_ok f x y a b : is_int x a -> is_int y b -> gives (b_op2 f x y) (f a b).
Proof.
  intros [->| ->] [->| ->]; cbn [b_op2]; eexists; (split; [reflexivity|]); try (right; reflexivity). apply canon_wide_ok.
Qed.
Definition and_ok := op2_ok Z.land.
Definition ior_ok := op2_ok Z.lor.
Definition xor_ok := op2_ok Z.lxor.

Lemma ofold_ok f g xs : (forall x y a b, is_int x a -> is_int y b -> gives (f x y) (g a b)) ->
  forall zs x a, is_int x a -> Forall2 is_int xs zs -> gives (ofold f xs x) (fold_left g zs a).
Proof.
  intros Hf. unfold ofold. induction xs as [|y xs IH]; intros zs x a Hx Hz; inversion Hz as [|? b ? zs' Hy Hz']; subst; cbn [fold_left].
  - apply gives_ok. exact Hx.
  - destruct (Hf x y a b Hx Hy) as [r [E Hr]]. cbn [obind]. rewrite E. apply IH; assumption.
Qed.

Lemma fold_land zs : forall a i, Z.testbit (fold_left Z.land zs a) i = Z.testbit a i && forallb (fun z => Z.testbit z i) zs.
Proof.
  induction zs as [|z zs IH]; intros a i; cbn [fold_left forallb]; [rewrite andb_true_r; reflexivity|].
  rewrite IH, Z.land_spec, andb_assoc. reflexivity.
Qed.
Lemma fold_lor zs : forall a i, Z.testbit (fold_left Z.lor zs a) i = Z.testbit a i || existsb (fun z => Z.testbit z i) zs.
Proof.
  induction zs as [|z zs IH]; intros a i; cbn [fold_left existsb]; [rewrite orb_false_r; reflexivity|].
  rewrite IH, Z.lor_spec, orb_assoc. reflexivity.
Qed.
Definition xorl (bs : list bool) : bool := fold_right xorb false bs.
Lemma fold_lxor zs : forall a i, Z.testbit (fold_left Z.lxor zs a) i = xorb (Z.testbit a i) (xorl (map (fun z => Z.testbit z i) zs)).
Proof.
  induction zs as [|z zs IH]; intros a i; cbn [fold_left map xorl fold_right]; [rewrite xorb_false_r; reflexivity|].
  rewrite IH, Z.lxor_spec, xorb_assoc. reflexivity.
Qed.

(** ** Shifts *)
Lemma wrap64_id z : -2^63 <= z < 2^63 -> wrap64 z = z.
Proof. intros H. unfold wrap64. rewrite Z.mod_small; lia. Qed.
Lemma wrap32_id z : -2^31 <= z < 2^31 -> wrap32 z = z.
Proof. intros H. unfold wrap32. rewrite Z.mod_small; lia. Qed.

Lemma get_si_id z : -2^63 <= z < 2^63 -> mpz_get_si z = z.
Proof.
  intros H. unfold mpz_get_si. destruct (z <? 0) eqn:E.
  - rewrite Z.abs_neq by lia. rewrite (Z.mod_small (- z) (2^64)) by lia. rewrite Z.mod_small by lia. lia.
  - apply Z.mod_small. lia.
Qed.
Lemma cast_ok c k : is_int c k -> -2^31 <= k < 2^31 -> cast_small c = Ok k.
Proof.
  intros [->| ->] H; cbn [cast_small]; [reflexivity|]. rewrite get_si_id by lia. rewrite wrap32_id by exact H. reflexivity.
Qed.

(** Right shifts of small integers are defined below 64 only; right shifts of
    large integers below 2^31. *)
Definition shift_ok (x : num) (k : Z) : Prop := -2^31 < k < 2^31 /\ (-64 < k \/ exists z, x = Large z).

Lemma shiftl_small_fits z c : 0 < c < 64 -> (z <? Z.shiftr (-2^63) c) = false -> (Z.shiftr (2^63 - 1) c <? z) = false ->
  -2^63 <= Z.shiftl z c < 2^63.
Proof.
  intros Hc H1 H2. rewrite Z.shiftl_mul_pow2 by lia. rewrite Z.shiftr_div_pow2 in H1, H2 by lia.
  assert (P : 0 < 2^c) by (apply Z.pow_pos_nonneg; lia).
  pose proof (Z.div_mod (-2^63) (2^c) ltac:(lia)). pose proof (Z.mod_pos_bound (-2^63) (2^c) P).
  pose proof (Z.div_mod (2^63-1) (2^c) ltac:(lia)). pose proof (Z.mod_pos_bound (2^63-1) (2^c) P).
  assert (E : (-2^63) mod 2^c = 0).
  { apply Z.mod_divide; [lia|]. exists (- 2^(63-c)). rewrite Z.mul_opp_l, <- Z.pow_add_r by lia. f_equal. f_equal. lia. }
  nia.
Qed.

Lemma shift_spec x n k : is_int x n -> shift_ok x k -> gives (bit_shift x k) (Z.shiftl n k).
Proof.
  intros Hx [Hk Hs]. destruct Hx as [->| ->]; cbn [bit_shift].
  - destruct Hs as [Hs|[z Hs]]; [|discriminate Hs].
    destruct (k <? 0) eqn:E1.
    + replace (k =? -2^31) with false by lia. replace (-k <? 64) with true by lia.
      eexists. split; [reflexivity|]. replace (Z.shiftl n k) with (Z.shiftr n (-k)) by (rewrite <- Z.shiftl_opp_r; f_equal; lia).
      apply canon_wide_ok.
    + destruct (Z.eqb_spec k 0) as [->|E2].
      { eexists. split; [reflexivity|]. rewrite Z.shiftl_0_r. apply canon_wide_ok. }
      destruct ((64 <=? k) || (n <? Z.shiftr (-2 ^ 63) k) || (Z.shiftr (2 ^ 63 - 1) k <? n)) eqn:E3.
      * eexists. split; [reflexivity|]. right. rewrite Z.shiftl_mul_pow2 by lia. reflexivity.
      * apply orb_false_iff in E3 as [E3 E4]. apply orb_false_iff in E3 as [E3 E5].
        rewrite wrap64_id by (apply shiftl_small_fits; try assumption; lia).
        eexists. split; [reflexivity|]. apply canon_wide_ok.
  - destruct (k <? 0) eqn:E1.
    + replace (k =? -2^31) with false by lia. eexists. split; [reflexivity|]. right. f_equal.
      replace (Z.shiftl n k) with (Z.shiftr n (-k)) by (rewrite <- Z.shiftl_opp_r; f_equal; lia).
      rewrite Z.shiftr_div_pow2 by lia. reflexivity.
    + destruct (Z.eqb_spec k 0) as [->|E2].
      { eexists. split; [reflexivity|]. rewrite Z.shiftl_0_r. right. reflexivity. }
      eexists. split; [reflexivity|]. right. rewrite Z.shiftl_mul_pow2 by lia. reflexivity.
Qed.
Lemma shift_int x c n k : is_int x n -> is_int c k -> shift_ok x k -> gives (b_shift x c) (Z.shiftl n k).
Proof.
  intros Hx Hc Hk. unfold b_shift. rewrite (cast_ok c k Hc) by (destruct Hk; lia). cbn [obind]. apply shift_spec; assumption.
Qed.
Lemma shl_int x c n k : is_int x n -> is_int c k -> 0 <= k < 2^31 -> gives (b_shift x c) (Z.shiftl n k).
Proof. intros Hx Hc Hk. apply shift_int; try assumption. split; [lia|left; lia]. Qed.

(** ** Counting *)
(** Specification: how many of the bits 0 .. w-1 of z are set. *)
Fixpoint ones_below (z : Z) (w : nat) : Z :=
  match w with O => 0 | S w' => ones_below z w' + (if Z.testbit z (Z.of_nat w') then 1 else 0) end.

Lemma ones_below_shift z w : ones_below z (S w) = (if Z.odd z then 1 else 0) + ones_below (Z.div2 z) w.
Proof.
  induction w as [|w IH].
  - cbn [ones_below]. change (Z.of_nat 0) with 0. rewrite Z.bit0_odd. lia.
  - change (ones_below z (S (S w))) with (ones_below z (S w) + (if Z.testbit z (Z.of_nat (S w)) then 1 else 0)).
    rewrite IH. cbn [ones_below]. rewrite Z.div2_spec, Z.shiftr_spec by lia.
    replace (Z.of_nat w + 1) with (Z.of_nat (S w)) by lia. lia.
Qed.
Lemma popcount_ones p : forall w, Zpos p < 2^(Z.of_nat w) -> pos_popcount p = ones_below (Zpos p) w.
Proof.
  induction p as [p IH|p IH|]; intros w Hw; destruct w as [|w]; try (change (2^Z.of_nat 0) with 1 in Hw; lia);
    rewrite ones_below_shift; rewrite Nat2Z.inj_succ, Z.pow_succ_r in Hw by lia; cbn [pos_popcount Z.odd Z.div2 Pos.div2].
  - rewrite <- IH by lia. reflexivity.
  - rewrite <- IH by lia. reflexivity.
  - clear. induction w as [|w IH]; [reflexivity|]. cbn [ones_below]. rewrite Z.testbit_0_l. lia.
Qed.
Lemma popcount_spec z w : 0 <= z < 2^(Z.of_nat w) -> popcount z = ones_below z w.
Proof.
  intros H. destruct z as [|p|p]; [|apply popcount_ones; lia|lia].
  cbn [popcount]. clear. induction w as [|w IH]; [reflexivity|]. cbn [ones_below]. rewrite Z.testbit_0_l. lia.
Qed.
Lemma ones_below_bound z w : 0 <= ones_below z w <= Z.of_nat w.
Proof. induction w as [|w IH]; cbn [ones_below]; [lia|]. destruct (Z.testbit z (Z.of_nat w)); lia. Qed.

(** The bits that differ from the sign. *)
Definition magnitude_bits (z : Z) : Z := if z <? 0 then Z.lnot z else z.
Lemma magnitude_nonneg z : 0 <= magnitude_bits z.
Proof. unfold magnitude_bits. destruct (z <? 0) eqn:E; unfold Z.lnot; lia. Qed.
Lemma magnitude_bit z i : 0 <= i -> Z.testbit (magnitude_bits z) i = xorb (z <? 0) (Z.testbit z i).
Proof.
  intros Hi. unfold magnitude_bits. destruct (z <? 0) eqn:E; [rewrite Z.lnot_spec by exact Hi|]; destruct (Z.testbit z i); reflexivity.
Qed.

Lemma count_int x z w : valid x -> is_int x z -> magnitude_bits z < 2^(Z.of_nat w) -> Z.of_nat w < 2^31 ->
  gives (b_count x) (ones_below (magnitude_bits z) w).
Proof.
  intros V Hx Hz Hw. pose proof (magnitude_nonneg z). pose proof (ones_below_bound (magnitude_bits z) w).
  destruct Hx as [->| ->]; cbn [b_count valid] in *; eexists; (split; [reflexivity|]); left; f_equal.
  - fold (magnitude_bits z). rewrite Z.mod_small.
    + rewrite (popcount_spec _ w) by lia. apply wrap32_id. lia.
    + split; [lia|]. unfold magnitude_bits, Z.lnot. destruct (z <? 0); lia.
  - fold (magnitude_bits z). rewrite (popcount_spec _ w) by lia. apply wrap32_id. lia.
Qed.

Lemma width_int x z : is_int x z -> x <> Large (-1) ->
  exists w, gives (b_width x) w /\ 0 <= w /\ magnitude_bits z < 2^w /\ (forall v, 0 <= v < w -> 2^v <= magnitude_bits z).
Proof.
  intros Hx Hne.
  assert (L : forall m, 0 < m -> 0 <= Z.log2 m + 1 /\ m < 2^(Z.log2 m + 1) /\ forall v, 0 <= v < Z.log2 m + 1 -> 2^v <= m).
  { intros m Hm. pose proof (Z.log2_nonneg m). pose proof (Z.log2_spec m Hm) as [A B]. unfold Z.succ in B.
    split; [lia|]. split; [exact B|]. intros v Hv. etransitivity; [|exact A]. apply Z.pow_le_mono_r; lia. }
  assert (Z0 : 0 <= 0 /\ 0 < 2^0 /\ forall v, 0 <= v < 0 -> 2^v <= 0) by (split; [lia|]; split; [lia|]; intros; lia).
  destruct Hx as [->| ->]; cbn [b_width]; eexists; (split; [eexists; split; [reflexivity|]; apply canon_wide_ok|]); unfold magnitude_bits.
  - destruct (z <? 0) eqn:E.
    + unfold width64. destruct (Z.eqb_spec (Z.lnot z) 0) as [E0|E0]; [rewrite E0; exact Z0|apply L; unfold Z.lnot in *; lia].
    + destruct (Z.eqb_spec z 0) as [->|E0]; [exact Z0|]. unfold width64. replace (z =? 0) with false by lia. apply L. lia.
  - destruct (z <? 0) eqn:E.
    + assert (0 < Z.lnot z). { unfold Z.lnot. assert (z <> -1) by congruence. lia. }
      unfold sizeinbase2. destruct (Z.lnot z) eqn:El; [lia| |lia]. rewrite Z.abs_eq by lia. apply L. lia.
    + destruct (Z.eqb_spec z 0) as [->|E0]; [exact Z0|]. unfold sizeinbase2. destruct z as [|p|p]; [lia| |lia].
      rewrite Z.abs_eq by lia. apply L. lia.
Qed.
