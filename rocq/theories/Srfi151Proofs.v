(** Proofs about library/srfi-151.ss: every procedure is characterised by the
    bits of its result. *)
From Coq Require Import ZArith QArith List Bool Lia ZifyBool.
From Verif Require Import Number NumberProofs NumberGcd Bitwise BitwiseProofs.
Import ListNotations.
Open Scope Z_scope.

Definition bits_are (o : outcome num) (f : Z -> bool) : Prop :=
  exists z, gives o z /\ forall i, 0 <= i -> Z.testbit z i = f i.

Lemma is_small z : is_int (Small z) z.
Proof. left. reflexivity. Qed.
Lemma neg_int x a : is_int x a -> is_int (neg x) (- a).
Proof. intros H. unfold neg. replace (-a) with (0 - a) by lia. apply sub_int; [apply is_small|exact H]. Qed.

Ltac ints := first [eassumption | apply is_small | apply neg_int; ints | apply sub_int; ints | apply add_int; ints].
Ltac step := eapply gives_bind; [first [apply and_ok; ints | apply ior_ok; ints | apply xor_ok; ints | apply not_ok; ints]|intros ? ?].
Ltac last_step := first [apply and_ok; ints | apply ior_ok; ints | apply xor_ok; ints | apply not_ok; ints].

Lemma nand_ok x y a b : is_int x a -> is_int y b -> bits_are (bitwise_nand x y) (fun i => negb (Z.testbit a i && Z.testbit b i)).
Proof.
  intros Hx Hy. eexists. split; [unfold bitwise_nand; step; last_step|]. intros i Hi. rewrite Z.lnot_spec, Z.land_spec by exact Hi. reflexivity.
Qed.
Lemma nor_ok x y a b : is_int x a -> is_int y b -> bits_are (bitwise_nor x y) (fun i => negb (Z.testbit a i || Z.testbit b i)).
Proof.
  intros Hx Hy. eexists. split; [unfold bitwise_nor; step; last_step|]. intros i Hi. rewrite Z.lnot_spec, Z.lor_spec by exact Hi. reflexivity.
Qed.
Lemma andc1_ok x y a b : is_int x a -> is_int y b -> bits_are (bitwise_andc1 x y) (fun i => negb (Z.testbit a i) && Z.testbit b i).
Proof.
  intros Hx Hy. eexists. split; [unfold bitwise_andc1; step; last_step|]. intros i Hi. rewrite Z.land_spec, Z.lnot_spec by exact Hi. reflexivity.
Qed.
Lemma andc2_ok x y a b : is_int x a -> is_int y b -> bits_are (bitwise_andc2 x y) (fun i => Z.testbit a i && negb (Z.testbit b i)).
Proof.
  intros Hx Hy. eexists. split; [unfold bitwise_andc2; step; last_step|]. intros i Hi. rewrite Z.land_spec, Z.lnot_spec by exact Hi. reflexivity.
Qed.
Lemma orc1_ok x y a b : is_int x a -> is_int y b -> bits_are (bitwise_orc1 x y) (fun i => negb (Z.testbit a i) || Z.testbit b i).
Proof.
  intros Hx Hy. eexists. split; [unfold bitwise_orc1; step; last_step|]. intros i Hi. rewrite Z.lor_spec, Z.lnot_spec by exact Hi. reflexivity.
Qed.
Lemma orc2_ok x y a b : is_int x a -> is_int y b -> bits_are (bitwise_orc2 x y) (fun i => Z.testbit a i || negb (Z.testbit b i)).
Proof.
  intros Hx Hy. eexists. split; [unfold bitwise_orc2; step; last_step|]. intros i Hi. rewrite Z.lor_spec, Z.lnot_spec by exact Hi. reflexivity.
Qed.

(** SRFI 151: with an odd number of arguments eqv is not the complement of xor. *)
Lemma eqv_fold zs : forall a i, 0 <= i ->
  Z.testbit (fold_left (fun a z => Z.lnot (Z.lxor a z)) zs a) i = fold_left eqb (map (fun z => Z.testbit z i) zs) (Z.testbit a i).
Proof.
  induction zs as [|z zs IH]; intros a i Hi; cbn [fold_left map]; [reflexivity|].
  rewrite IH by exact Hi. rewrite Z.lnot_spec, Z.lxor_spec by exact Hi. f_equal. destruct (Z.testbit a i), (Z.testbit z i); reflexivity.
Qed.
Lemma eqv_ok xs zs : Forall2 is_int xs zs ->
  bits_are (bitwise_eqv xs) (fun i => fold_left eqb (map (fun z => Z.testbit z i) zs) true).
Proof.
  intros H. eexists. split.
  - unfold bitwise_eqv. apply (ofold_ok _ (fun a z => Z.lnot (Z.lxor a z))); [|apply is_small|exact H].
    intros x y a b Hx Hy. step. last_step.
  - intros i Hi. rewrite eqv_fold by exact Hi. rewrite Z.bits_m1 by exact Hi. reflexivity.
Qed.
Lemma if_ok m x y k a b : is_int m k -> is_int x a -> is_int y b ->
  bits_are (bitwise_if m x y) (fun i => if Z.testbit k i then Z.testbit a i else Z.testbit b i).
Proof.
  intros Hm Hx Hy. eexists. split; [unfold bitwise_if; step; step; step; last_step|]. intros i Hi.
  rewrite Z.lor_spec, !Z.land_spec, Z.lnot_spec by exact Hi.
  destruct (Z.testbit k i), (Z.testbit a i), (Z.testbit b i); reflexivity.
Qed.

(** ** Single bits *)
Lemma pow2_bit k i : 0 <= k -> 0 <= i -> Z.testbit (Z.shiftl 1 k) i = (i =? k).
Proof.
  intros Hk Hi. rewrite Z.shiftl_1_l. destruct (Z.eqb_spec i k) as [->|H].
  - apply Z.pow2_bits_true. exact Hk.
  - apply Z.pow2_bits_false. congruence.
Qed.
Lemma zero_bits z : z = 0 <-> forall i, 0 <= i -> Z.testbit z i = false.
Proof. split; [intros -> i _; apply Z.testbit_0_l|intros H; apply Z.bits_inj'; intros i Hi; rewrite H by exact Hi; symmetry; apply Z.testbit_0_l]. Qed.

Lemma land_pow2_zero k n : 0 <= k -> (Z.land (Z.shiftl 1 k) n =? 0) = negb (Z.testbit n k).
Proof.
  intros Hk. destruct (Z.testbit n k) eqn:E; cbn [negb].
  - apply Z.eqb_neq. intros H. rewrite zero_bits in H. specialize (H k Hk).
    rewrite Z.land_spec, pow2_bit, Z.eqb_refl, E in H by exact Hk. discriminate.
  - apply Z.eqb_eq. apply zero_bits. intros i Hi. rewrite Z.land_spec, pow2_bit by assumption.
    destruct (Z.eqb_spec i k) as [->|]; [rewrite E|]; reflexivity.
Qed.
Lemma bit_set_ok idx x k n : is_int idx k -> is_int x n -> 0 <= k < 2^31 -> bit_set idx x = Ok (Z.testbit n k).
Proof.
  intros Hk Hx Hr. unfold bit_set.
  eapply gives_bindb; [apply shl_int; [apply is_small|exact Hk|exact Hr]|]. intros a Ha.
  eapply gives_bindb; [apply and_ok; eassumption|]. intros b Hb.
  rewrite (is_zero_int b _ Hb), land_pow2_zero by lia. rewrite negb_involutive. reflexivity.
Qed.
Lemma any_bit_set_ok t x m n : is_int t m -> is_int x n ->
  exists b, any_bit_set t x = Ok b /\ (b = true <-> exists i, 0 <= i /\ Z.testbit m i = true /\ Z.testbit n i = true).
Proof.
  intros Ht Hx. exists (negb (Z.land m n =? 0)). split.
  - unfold any_bit_set. eapply gives_bindb; [apply and_ok; eassumption|]. intros b Hb. rewrite (is_zero_int b _ Hb). reflexivity.
  - rewrite negb_true_iff, Z.eqb_neq. split.
    + intros H. destruct (Z_lt_ge_dec (Z.land m n) 0) as [Hl|Hl].
      * exists (Z.log2 (Z.abs m) + Z.log2 (Z.abs n) + 1).
        assert (Hm : m < 0 /\ n < 0).
        { rewrite Z.land_neg in Hl. lia. }
        pose proof (Z.log2_nonneg (Z.abs m)). pose proof (Z.log2_nonneg (Z.abs n)).
        assert (B : forall z, z < 0 -> forall i, Z.log2 (Z.abs z) < i -> Z.testbit z i = true).
        { intros z Hz i Hi. apply Z.bits_above_log2_neg; [exact Hz|].
          eapply Z.le_lt_trans; [|exact Hi]. apply Z.log2_le_mono. lia. }
        split; [lia|]. split; apply B; lia.
      * exists (Z.log2 (Z.land m n)). pose proof (Z.log2_nonneg (Z.land m n)).
        assert (T : Z.testbit (Z.land m n) (Z.log2 (Z.land m n)) = true) by (apply Z.bit_log2; lia).
        rewrite Z.land_spec, andb_true_iff in T. split; [lia|exact T].
    + intros [i [Hi [Ha Hb]]] H. rewrite zero_bits in H. specialize (H i Hi). rewrite Z.land_spec, Ha, Hb in H. discriminate.
Qed.
Lemma copy_bit_ok idx x k n b : is_int idx k -> is_int x n -> 0 <= k < 2^31 ->
  bits_are (copy_bit idx x b) (fun i => if i =? k then b else Z.testbit n i).
Proof.
  intros Hk Hx Hr. unfold copy_bit. destruct b.
  - eexists. split.
    + eapply gives_bind; [apply shl_int; [apply is_small|exact Hk|exact Hr]|]. intros. last_step.
    + intros i Hi. rewrite Z.lor_spec, pow2_bit by lia. destruct (i =? k), (Z.testbit n i); reflexivity.
  - eexists. split.
    + eapply gives_bind; [apply shl_int; [apply is_small|exact Hk|exact Hr]|]. intros. step. last_step.
    + intros i Hi. rewrite Z.land_spec, Z.lnot_spec, pow2_bit by lia. destruct (i =? k), (Z.testbit n i); reflexivity.
Qed.
Lemma bit_swap_ok p q x j k n : is_int p j -> is_int q k -> is_int x n -> 0 <= j < 2^31 -> 0 <= k < 2^31 ->
  bits_are (bit_swap p q x) (fun i => if i =? j then Z.testbit n k else if i =? k then Z.testbit n j else Z.testbit n i).
Proof.
  intros Hp Hq Hx Hj Hk. unfold bit_swap.
  rewrite (bit_set_ok p x j n), (bit_set_ok q x k n) by assumption. cbn [obind].
  destruct (copy_bit_ok p x j n (Z.testbit n k) Hp Hx Hj) as [m [[y [E Hy]] Hm]]. rewrite E. cbn [obind].
  destruct (copy_bit_ok q y k m (Z.testbit n j) Hq Hy Hk) as [r [Gr Hr]]. exists r. split; [exact Gr|].
  intros i Hi. rewrite Hr by exact Hi. rewrite Hm by exact Hi.
  destruct (Z.eqb_spec i k) as [E1|E1]; destruct (Z.eqb_spec i j) as [E2|E2]; subst; reflexivity.
Qed.

(** ** Fields *)
(** [field_ok x s e]: the field is in range and the right shift by s is defined. *)
Definition field_ok (s e : Z) : Prop := 0 <= s /\ s <= e /\ e < 2^31.
Definition low_shift_ok (x : num) (s : Z) : Prop := s < 64 \/ exists z, x = Large z.

Lemma mask_ok st en s e : is_int st s -> is_int en e -> 0 <= e - s < 2^31 -> gives (mask st en) (Z.ones (e - s)).
Proof.
  intros Hs He Hr. unfold mask. eapply gives_bind; [apply shl_int; [apply is_small|apply sub_int; eassumption|exact Hr]|].
  intros r Hr'. replace (Z.ones (e - s)) with (Z.lnot (Z.shiftl (-1) (e - s))); [last_step|].
  rewrite Z.ones_equiv, Z.shiftl_mul_pow2 by lia. unfold Z.lnot. lia.
Qed.
Lemma ones_bit w i : 0 <= w -> 0 <= i -> Z.testbit (Z.ones w) i = (i <? w).
Proof.
  intros Hw Hi. destruct (i <? w) eqn:E; [apply Z.ones_spec_low; lia|apply Z.ones_spec_high; lia].
Qed.
Lemma ones_shift_bit w s i : 0 <= w -> 0 <= s -> 0 <= i -> Z.testbit (Z.shiftl (Z.ones w) s) i = (s <=? i) && (i <? s + w).
Proof.
  intros Hw Hs Hi. rewrite Z.shiftl_spec by exact Hi. destruct (Z_lt_ge_dec i s).
  - rewrite Z.testbit_neg_r by lia. lia.
  - rewrite ones_bit by lia. lia.
Qed.
Lemma shr_bit n s i : 0 <= s -> 0 <= i -> Z.testbit (Z.shiftl n (- s)) i = Z.testbit n (i + s).
Proof. intros Hs Hi. rewrite Z.shiftl_spec by exact Hi. f_equal. lia. Qed.
Lemma shr_int x st n s e : is_int x n -> is_int st s -> field_ok s e -> low_shift_ok x s ->
  gives (b_shift x (neg st)) (Z.shiftl n (- s)).
Proof.
  intros Hx Hs [H1 [H2 H3]] Hl. apply shift_int; [exact Hx|apply neg_int; exact Hs|]. split; [lia|].
  destruct Hl; [left; lia|right; assumption].
Qed.

Section Field.
  Variables (x st en : num) (n s e : Z).
  Hypotheses (Hx : is_int x n) (Hs : is_int st s) (He : is_int en e) (F : field_ok s e).

  Lemma bit_field_ok : low_shift_ok x s ->
    bits_are (bit_field x st en) (fun i => (i <? e - s) && Z.testbit n (i + s)).
  Proof.
    intros L. eexists. split.
    - unfold bit_field. eapply gives_bind; [apply mask_ok; [exact Hs|exact He|unfold field_ok in F; lia]|]. intros m Hm.
      eapply gives_bind; [eapply shr_int; eassumption|]. intros r Hr. last_step.
    - intros i Hi. destruct F as [F1 [F2 F3]]. rewrite Z.land_spec, ones_bit, shr_bit by lia. reflexivity.
  Qed.

  Lemma field_land i : 0 <= i ->
    Z.testbit (Z.land (Z.shiftl n (- s)) (Z.ones (e - s))) i = (i <? e - s) && Z.testbit n (i + s).
  Proof. intros Hi. destruct F as [F1 [F2 F3]]. rewrite Z.land_spec, ones_bit, shr_bit by lia. apply andb_comm. Qed.

  Lemma bit_field_any_ok : low_shift_ok x s ->
    exists b, bit_field_any x st en = Ok b /\ (b = true <-> exists i, s <= i < e /\ Z.testbit n i = true).
  Proof.
    intros L. exists (negb (Z.land (Z.shiftl n (- s)) (Z.ones (e - s)) =? 0)). split.
    - unfold bit_field_any. eapply gives_bindb; [eapply shr_int; eassumption|]. intros r Hr.
      eapply gives_bindb; [apply mask_ok; [exact Hs|exact He|unfold field_ok in F; lia]|]. intros m Hm.
      eapply gives_bindb; [apply and_ok; eassumption|]. intros b Hb. rewrite (is_zero_int b _ Hb). reflexivity.
    - pose proof F as [F1 [F2 F3]]. rewrite negb_true_iff, Z.eqb_neq. split.
      + intros H. set (z := Z.land _ _) in *.
        assert (Hz : 0 <= z) by (unfold z; rewrite Z.land_nonneg; right; rewrite Z.ones_equiv; pose proof (Z.pow_pos_nonneg 2 (e-s)); lia).
        pose proof (Z.log2_nonneg z). assert (T : Z.testbit z (Z.log2 z) = true) by (apply Z.bit_log2; lia).
        unfold z in T at 1. rewrite field_land, andb_true_iff in T by lia. exists (Z.log2 z + s). split; [lia|apply T].
      + intros [i [Hi T]] H. rewrite zero_bits in H. specialize (H (i - s) ltac:(lia)). rewrite field_land in H by lia.
        replace (i - s + s) with i in H by lia. rewrite T, andb_true_r in H. lia.
  Qed.

  Lemma bit_field_every_ok : low_shift_ok x s ->
    exists b, bit_field_every x st en = Ok b /\ (b = true <-> forall i, s <= i < e -> Z.testbit n i = true).
  Proof.
    intros L. exists (Z.ones (e - s) =? Z.land (Z.shiftl n (- s)) (Z.ones (e - s))). split.
    - unfold bit_field_every. eapply gives_bindb; [apply mask_ok; [exact Hs|exact He|unfold field_ok in F; lia]|]. intros m Hm.
      eapply gives_bindb; [eapply shr_int; eassumption|]. intros r Hr.
      eapply gives_bindb; [apply and_ok; eassumption|]. intros b Hb.
      destruct Hm as [->| ->], Hb as [->| ->]; reflexivity.
    - pose proof F as [F1 [F2 F3]]. rewrite Z.eqb_eq. split.
      + intros H i Hi. assert (T : Z.testbit (Z.ones (e - s)) (i - s) = true) by (rewrite ones_bit by lia; lia).
        rewrite H, field_land, andb_true_iff in T by lia. replace (i - s + s) with i in T by lia. apply T.
      + intros H. apply Z.bits_inj'. intros i Hi. rewrite field_land, ones_bit by lia.
        destruct (i <? e - s) eqn:E; [|reflexivity]. rewrite H by lia. reflexivity.
  Qed.

  Definition inside (i : Z) : bool := (s <=? i) && (i <? e).

  Lemma bit_field_replace_ok y m : is_int y m ->
    bits_are (bit_field_replace x y st en) (fun i => if inside i then Z.testbit m (i - s) else Z.testbit n i).
  Proof.
    intros Hy. pose proof F as [F1 [F2 F3]]. eexists. split.
    - unfold bit_field_replace. eapply gives_bind; [apply mask_ok; [exact Hs|exact He|lia]|]. intros k Hk.
      eapply gives_bind; [apply shl_int; [exact Hk|exact Hs|lia]|]. intros. step. step. step.
      eapply gives_bind; [apply shl_int; [eassumption|exact Hs|lia]|]. intros. last_step.
    - intros i Hi. rewrite Z.lor_spec, Z.land_spec, Z.lnot_spec, ones_shift_bit by lia.
      rewrite Z.shiftl_spec by exact Hi. unfold inside. replace (s + (e - s)) with e by lia.
      destruct (Z_lt_ge_dec i s).
      + rewrite (Z.testbit_neg_r _ (i - s)) by lia. replace (s <=? i) with false by lia. cbn [andb negb]. rewrite andb_true_r, orb_false_r. reflexivity.
      + rewrite Z.land_spec, ones_bit by lia. replace (s <=? i) with true by lia.
        destruct (i <? e) eqn:E; cbn [andb negb].
        * replace (i - s <? e - s) with true by lia. rewrite andb_false_r, andb_true_r. reflexivity.
        * replace (i - s <? e - s) with false by lia. rewrite andb_true_r, andb_false_r, orb_false_r. reflexivity.
  Qed.
  Lemma bit_field_clear_ok : bits_are (bit_field_clear x st en) (fun i => if inside i then false else Z.testbit n i).
  Proof.
    destruct (bit_field_replace_ok (Small 0) 0 (is_small 0)) as [z [G B]]. exists z. split; [exact G|].
    intros i Hi. rewrite B by exact Hi. rewrite Z.testbit_0_l. reflexivity.
  Qed.
  Lemma bit_field_set_ok : bits_are (bit_field_set x st en) (fun i => if inside i then true else Z.testbit n i).
  Proof.
    destruct (bit_field_replace_ok (Small (-1)) (-1) (is_small (-1))) as [z [G B]]. exists z. split; [exact G|].
    intros i Hi. rewrite B by exact Hi. unfold inside. destruct ((s <=? i) && (i <? e)) eqn:E; [|reflexivity]. apply Z.bits_m1. lia.
  Qed.
  Lemma bit_field_replace_same_ok y m : is_int y m ->
    bits_are (bit_field_replace_same x y st en) (fun i => if inside i then Z.testbit m i else Z.testbit n i).
  Proof.
    intros Hy. pose proof F as [F1 [F2 F3]]. unfold bit_field_replace_same.
    destruct (mask_ok st en s e Hs He ltac:(lia)) as [k [-> Hk]]. cbn [obind].
    destruct (shl_int k st _ s Hk Hs ltac:(lia)) as [h [-> Hh]]. cbn [obind].
    destruct (if_ok h y x _ m n Hh Hy Hx) as [z [G B]]. exists z. split; [exact G|].
    intros i Hi. rewrite B, ones_shift_bit by lia. unfold inside. replace (s + (e - s)) with e by lia. reflexivity.
  Qed.

  Lemma mask_alt : forall k : num -> outcome num, (let! a := b_shift (Small (-1)) (n_sub en st) in let! m := b_not a in k m) = (let! m := mask st en in k m).
  Proof. intros k. unfold mask. destruct (b_shift (Small (-1)) (n_sub en st)); reflexivity. Qed.
  Lemma mask_large : 64 <= e - s -> exists z, mask st en = Ok (Large z).
  Proof.
    intros Hw. pose proof F as [F1 [F2 F3]]. unfold mask, b_shift.
    rewrite (cast_ok _ (e - s)) by (first [lia|apply sub_int; assumption]). cbn [obind].
    cbn [bit_shift]. replace (e - s <? 0) with false by lia. replace (e - s =? 0) with false by lia.
    replace (64 <=? e - s) with true by lia. cbn [orb obind b_not]. eexists. reflexivity.
  Qed.

  Lemma rotate_ok cnt c : low_shift_ok x s -> is_int cnt c -> s < e ->
    bits_are (bit_field_rotate x cnt st en)
      (fun i => if inside i then Z.testbit n (s + (i - s - c) mod (e - s)) else Z.testbit n i).
  Proof.
    intros L Hc Hlt. pose proof F as [F1 [F2 F3]]. unfold bit_field_rotate. cbv zeta.
    destruct (modulo_int cnt (n_sub en st) c (e - s) Hc (sub_int _ _ _ _ He Hs) ltac:(lia)) as [c' [-> Hc']]. cbn [obind].
    rewrite (mask_alt (fun m => _)).
    destruct (mask_ok st en s e Hs He ltac:(lia)) as [m [Em Hm]]. rewrite Em. cbn [obind].
    destruct (shr_int x st n s e Hx Hs F L) as [r [-> Hr]]. cbn [obind].
    destruct (and_ok m r _ _ Hm Hr) as [zn [Ezn Hzn]]. fold b_and in Ezn. rewrite Ezn. cbn [obind].
    set (w := e - s) in *. assert (Hcm : 0 <= c mod w < w) by (apply Z.mod_pos_bound; lia). set (k := c mod w) in *.
    assert (Hsh : shift_ok zn (k - w)).
    { split; [lia|]. destruct (Z_lt_ge_dec w 64); [left; lia|right].
      destruct (mask_large ltac:(lia)) as [z Ez]. rewrite Ez in Em. injection Em as <-.
      unfold b_and in Ezn. cbn [b_op2] in Ezn. destruct r as [r|r|r]; [| |discriminate]; injection Ezn as <-; eexists; reflexivity. }
    eexists. split.
    - eapply gives_bind; [apply shl_int; [exact Hzn|exact Hc'|lia]|]. intros l Hl.
      step. eapply gives_bind; [apply shift_int; [exact Hzn|apply sub_int; [exact Hc'|apply sub_int; eassumption]|exact Hsh]|]. intros.
      step. eapply gives_bind; [apply shl_int; [eassumption|exact Hs|lia]|]. intros.
      eapply gives_bind; [apply shl_int; [exact Hm|exact Hs|lia]|]. intros.
      step. step. last_step.
    - intros i Hi. fold w.
      assert (Z0 : forall j, 0 <= j -> Z.testbit (Z.land (Z.ones w) (Z.shiftl n (- s))) j = (j <? w) && Z.testbit n (j + s)).
      { intros j Hj. rewrite Z.land_spec, ones_bit, shr_bit by lia. reflexivity. }
      set (zz := Z.land (Z.ones w) (Z.shiftl n (- s))) in *.
      rewrite Z.lor_spec, Z.land_spec, Z.lnot_spec, ones_shift_bit by lia.
      replace (s + w) with e by lia. unfold inside.
      rewrite Z.shiftl_spec by exact Hi.
      destruct (Z_lt_ge_dec i s).
      { rewrite (Z.testbit_neg_r _ (i - s)) by lia. replace (s <=? i) with false by lia. reflexivity. }
      rewrite Z.lor_spec, Z.land_spec, ones_bit by lia. rewrite !Z.shiftl_spec by lia.
      replace (s <=? i) with true by lia. cbn [andb].
      destruct (Z_lt_ge_dec i e).
      + replace (i <? e) with true by lia. replace (i - s <? w) with true by lia. cbn [andb negb].
        rewrite orb_false_r. rewrite (Z0 (i - s - (k - w))) by lia.
        destruct (Z_lt_ge_dec (i - s) k).
        * rewrite (Z.testbit_neg_r _ (i - s - k)) by lia. replace (i - s - (k - w) <? w) with true by lia. cbn [andb orb]. f_equal.
          replace ((i - s - c) mod w) with (i - s - (k - w)); [lia|].
          apply Z.mod_unique_pos with (q := - (c / w) - 1); [lia|].
          pose proof (Z.div_mod c w ltac:(lia)). unfold k. nia.
        * rewrite Z0 by lia. replace (i - s - k <? w) with true by lia. replace (i - s - (k - w) <? w) with false by lia.
          cbn [andb]. rewrite orb_false_r. f_equal.
          replace ((i - s - c) mod w) with (i - s - k); [lia|].
          apply Z.mod_unique_pos with (q := - (c / w)); [lia|].
          pose proof (Z.div_mod c w ltac:(lia)). unfold k. nia.
      + replace (i <? e) with false by lia. replace (i - s <? w) with false by lia. cbn [andb negb orb].
        rewrite Z0 by lia. replace (i - s - (k - w) <? w) with false by lia. reflexivity.
  Qed.
End Field.

(** ** bit-field-reverse *)
Lemma reverse_loop_ok k : forall m r n c j,
  is_int m n -> is_int r c -> 0 <= j ->
  exists z, gives (bit_reverse_loop k m r) z /\ 
    forall i, 0 <= i -> Z.testbit z i = if i <? Z.of_nat k then Z.testbit n (Z.of_nat k - 1 - i) else Z.testbit c (i - Z.of_nat k).
Proof.
  induction k as [|k IH]; intros m r n c j Hm Hr Hj; cbn [bit_reverse_loop].
  - exists c. split; [apply gives_ok; exact Hr|]. intros i Hi. replace (i <? Z.of_nat 0) with false by lia. f_equal. lia.
  - destruct (shift_int m (Small (-1)) n (-1) Hm (is_small _) ltac:(split; [lia|left; lia])) as [m' [-> Hm']]. cbn [obind].
    destruct (shift_int r (Small 1) c 1 Hr (is_small _) ltac:(split; [lia|left; lia])) as [r2 [-> Hr2]]. cbn [obind].
    destruct (and_ok (Small 1) m _ _ (is_small 1) Hm) as [b [Eb Hb]]. unfold b_and. rewrite Eb. cbn [obind].
    destruct (ior_ok r2 b _ _ Hr2 Hb) as [r' [Er Hr']]. unfold b_ior. rewrite Er. cbn [obind].
    destruct (IH m' r' _ _ (j + 1) Hm' Hr' ltac:(lia)) as [z [G B]]. exists z. split; [exact G|].
    intros i Hi. rewrite B by exact Hi. destruct (i <? Z.of_nat k) eqn:E.
    + replace (i <? Z.of_nat (S k)) with true by lia. rewrite Z.shiftl_spec by lia. f_equal. lia.
    + rewrite Z.lor_spec, Z.shiftl_spec by lia. rewrite Z.land_spec.
      destruct (Z.eq_dec i (Z.of_nat k)) as [->|Hn].
      * replace (Z.of_nat k <? Z.of_nat (S k)) with true by lia. rewrite (Z.testbit_neg_r c) by lia.
        replace (Z.of_nat k - Z.of_nat k) with 0 by lia. replace (Z.of_nat (S k) - 1 - Z.of_nat k) with 0 by lia. reflexivity.
      * replace (i <? Z.of_nat (S k)) with false by lia.
        replace (Z.testbit 1 (i - Z.of_nat k)) with false by (symmetry; apply (Z.pow2_bits_false 0); lia).
        cbn [andb]. rewrite orb_false_r. f_equal. lia.
Qed.

Lemma bit_field_reverse_ok x st en n s e : is_int x n -> is_int st s -> is_int en e -> field_ok s e -> low_shift_ok x s ->
  bits_are (bit_field_reverse x st en) (fun i => if inside s e i then Z.testbit n (s + e - 1 - i) else Z.testbit n i).
Proof.
  intros Hx Hs He F L. pose proof F as [F1 [F2 F3]]. unfold bit_field_reverse. cbv zeta.
  rewrite (mask_alt st en (fun m => _)).
  destruct (mask_ok st en s e Hs He ltac:(lia)) as [m [Em Hm]]. rewrite Em. cbn [obind].
  destruct (shr_int x st n s e Hx Hs F L) as [r [-> Hr]]. cbn [obind].
  destruct (and_ok m r _ _ Hm Hr) as [zn [Ezn Hzn]]. fold b_and in Ezn. rewrite Ezn. cbn [obind].
  assert (Z0 : forall j, 0 <= j -> Z.testbit (Z.land (Z.ones (e - s)) (Z.shiftl n (- s))) j = (j <? e - s) && Z.testbit n (j + s)).
  { intros j Hj. rewrite Z.land_spec, ones_bit, shr_bit by lia. reflexivity. }
  assert (Hnn : 0 <= Z.land (Z.ones (e - s)) (Z.shiftl n (- s))).
  { rewrite Z.land_nonneg. left. rewrite Z.ones_equiv. pose proof (Z.pow_pos_nonneg 2 (e-s)). lia. }
  set (zz := Z.land (Z.ones (e - s)) (Z.shiftl n (- s))) in *.
  assert (Hneg : is_negative zn = false).
  { unfold is_negative. destruct (n_lt zn (Small 0)) eqn:E; [|reflexivity]. apply n_lt_ok in E. rewrite (is_int_value zn _ Hzn) in E.
    unfold Qlt in E. cbn in E. lia. }
  unfold bit_reverse. rewrite Hneg. cbn [obind].
  assert (Hw : int_of (n_sub en st) = e - s).
  { destruct (sub_int en st e s He Hs) as [->| ->]; reflexivity. }
  rewrite Hw.
  destruct (reverse_loop_ok (Z.to_nat (e - s)) zn (Small 0) zz 0 0 Hzn (is_small 0) ltac:(lia)) as [v [[rv [-> Hrv]] Bv]]. cbn [obind].
  eexists. split.
  - eapply gives_bind; [apply shl_int; [exact Hrv|exact Hs|lia]|]. intros.
    eapply gives_bind; [apply shl_int; [exact Hm|exact Hs|lia]|]. intros.
    step. step. last_step.
  - intros i Hi. rewrite Z.lor_spec, Z.land_spec, Z.lnot_spec, ones_shift_bit by lia.
    replace (s + (e - s)) with e by lia. unfold inside. rewrite Z.shiftl_spec by exact Hi.
    destruct (Z_lt_ge_dec i s).
    { rewrite (Z.testbit_neg_r _ (i - s)) by lia. replace (s <=? i) with false by lia. reflexivity. }
    rewrite Bv by lia. rewrite Z2Nat.id by lia. rewrite Z.testbit_0_l. replace (s <=? i) with true by lia. cbn [andb].
    destruct (Z_lt_ge_dec i e).
    + replace (i <? e) with true by lia. replace (i - s <? e - s) with true by lia. cbn [negb andb]. rewrite orb_false_r.
      rewrite Z0 by lia. replace (e - s - 1 - (i - s) <? e - s) with true by lia. cbn [andb]. f_equal. lia.
    + replace (i <? e) with false by lia. replace (i - s <? e - s) with false by lia. reflexivity.
Qed.

(** ** first-set-bit *)
Lemma op2_valid f x y r : b_op2 f x y = Ok r -> valid r.
Proof.
  destruct x, y; cbn [b_op2]; intros H; inversion H; try exact Logic.I. apply canon_wide_ok.
Qed.
Lemma split_bits a b p i : 0 <= p -> 0 <= b < 2^p -> 0 <= i ->
  Z.testbit (a * 2^p + b) i = if i <? p then Z.testbit b i else Z.testbit a (i - p).
Proof.
  intros Hp Hb Hi. destruct (i <? p) eqn:E.
  - rewrite <- (Z.mod_pow2_bits_low (a * 2^p + b) p i) by lia. f_equal.
    rewrite Z.add_comm, Z.mod_add by lia. apply Z.mod_small. exact Hb.
  - replace i with (i - p + p) at 1 by lia. rewrite <- Z.div_pow2_bits by lia. f_equal.
    rewrite Z.add_comm, Z.div_add by lia. rewrite Z.div_small by exact Hb. lia.
Qed.
Lemma first_set_xor n r : 0 <= r -> Z.testbit n r = true -> (forall j, 0 <= j < r -> Z.testbit n j = false) ->
  Z.lxor n (n - 1) = Z.ones (r + 1).
Proof.
  intros Hr H1 H0. assert (P : 0 < 2^r) by (apply Z.pow_pos_nonneg; lia).
  assert (P1 : 2^(r+1) = 2 * 2^r) by (rewrite Z.pow_add_r by lia; lia).
  assert (E : n = (n / 2^(r+1)) * 2^(r+1) + 2^r).
  { apply Z.bits_inj'. intros i Hi. rewrite split_bits by lia. destruct (i <? r + 1) eqn:Ei.
    - rewrite Z.pow2_bits_eqb by lia. destruct (Z.eqb_spec r i) as [<-|]; [exact H1|]. apply H0. lia.
    - rewrite Z.div_pow2_bits by lia. f_equal. lia. }
  set (a := n / 2^(r+1)) in *.
  apply Z.bits_inj'. intros i Hi. rewrite Z.lxor_spec, ones_bit by lia.
  replace (n - 1) with (a * 2^(r+1) + (2^r - 1)) by lia. rewrite E.
  rewrite !split_bits by lia. destruct (i <? r + 1) eqn:Ei; [|apply xorb_nilpotent].
  rewrite Z.pow2_bits_eqb by lia. replace (2^r - 1) with (Z.ones r) by (rewrite Z.ones_equiv; lia).
  rewrite ones_bit by lia. destruct (Z.eqb_spec r i) as [->|]; [replace (i <? i) with false by lia; reflexivity|].
  replace (i <? r) with true by lia. reflexivity.
Qed.
Lemma ones_below_all z w : (forall i, 0 <= i < Z.of_nat w -> Z.testbit z i = true) -> ones_below z w = Z.of_nat w.
Proof.
  induction w as [|w IH]; intros H; [reflexivity|]. cbn [ones_below]. rewrite IH by (intros; apply H; lia).
  rewrite H by lia. lia.
Qed.
Lemma first_set_bit_ok x n r : is_int x n -> 0 <= r < 2^31 - 1 -> Z.testbit n r = true ->
  (forall j, 0 <= j < r -> Z.testbit n j = false) -> gives (first_set_bit x) r.
Proof.
  intros Hx Hr H1 H0. unfold first_set_bit.
  destruct (xor_ok x (n_sub x (Small 1)) n (n - 1) Hx (sub_int _ _ _ _ Hx (is_small 1))) as [a [Ea Ha]].
  unfold b_xor. rewrite Ea. cbn [obind]. rewrite (first_set_xor n r ltac:(lia) H1 H0) in Ha.
  assert (Hm : magnitude_bits (Z.ones (r + 1)) = Z.ones (r + 1)).
  { unfold magnitude_bits. rewrite Z.ones_equiv. pose proof (Z.pow_pos_nonneg 2 (r+1)). replace (Z.pred (2 ^ (r + 1)) <? 0) with false by lia. reflexivity. }
  eapply gives_bind.
  - apply (count_int a (Z.ones (r+1)) (Z.to_nat (r + 1))); [eapply op2_valid; exact Ea|exact Ha| |lia].
    rewrite Hm, Z2Nat.id, Z.ones_equiv by lia. lia.
  - intros c Hc. rewrite Hm in Hc. rewrite ones_below_all in Hc by (intros; rewrite ones_bit by lia; lia).
    apply gives_ok. replace r with (Z.of_nat (Z.to_nat (r + 1)) - 1) by lia. apply sub_int; [exact Hc|apply is_small].
Qed.
Lemma first_set_bit_zero x : is_int x 0 -> gives (first_set_bit x) (-1).
Proof. intros [->| ->]; eexists; (split; [vm_compute; reflexivity|left; reflexivity]). Qed.

(** ** Lists of bits *)
(** Specification: the number whose bits, lowest first, are bs. *)
Fixpoint of_bits (bs : list bool) : Z := match bs with [] => 0 | b :: bs' => (if b then 1 else 0) + 2 * of_bits bs' end.

Lemma list_to_bits_ok bs : is_int (list_to_bits bs) (of_bits bs).
Proof.
  unfold list_to_bits. rewrite fold_left_rev_right || rewrite <- fold_left_rev_right. rewrite rev_involutive.
  induction bs as [|b bs IH]; cbn [fold_right of_bits]; [apply is_small|].
  replace ((if b then 1 else 0) + 2 * of_bits bs) with (of_bits bs + of_bits bs + (if b then 1 else 0)) by lia.
  apply add_int; [apply add_int; exact IH|apply is_small].
Qed.
Lemma bits_to_list_len_ok len : forall x n, is_int x n ->
  exists l, bits_to_list_len len x = Ok l /\ length l = len /\ forall i, (i < len)%nat -> nth i l false = Z.testbit n (Z.of_nat i).
Proof.
  induction len as [|len IH]; intros x n Hx; cbn [bits_to_list_len].
  - exists []. split; [reflexivity|]. split; [reflexivity|]. intros; lia.
  - rewrite (proj2 (even_int x n Hx)). cbn [obind].
    destruct (shift_int x (Small (-1)) n (-1) Hx (is_small _) ltac:(split; [lia|left; lia])) as [x' [-> Hx']]. cbn [obind].
    destruct (IH x' _ Hx') as [l [-> [Hl B]]]. cbn [obind]. eexists. split; [reflexivity|]. split; [cbn [length]; lia|].
    intros [|i] Hi; cbn [nth]; [symmetry; apply Z.bit0_odd|]. rewrite B by lia. rewrite Z.shiftl_spec by lia. f_equal. lia.
Qed.
Lemma n_le_int x n : is_int x n -> n_le x (Small 0) = (n <=? 0).
Proof.
  intros Hx. pose proof (n_le_ok x (Small 0)) as H. rewrite (is_int_value x n Hx) in H. cbn [value] in H.
  unfold Qle, inject_Z in H. cbn [Qnum Qden] in H. destruct (n_le x (Small 0)) eqn:E, (n <=? 0) eqn:E'; try reflexivity; exfalso.
  - pose proof (proj1 H eq_refl). lia.
  - assert (false = true) by (apply H; lia). discriminate.
Qed.
Lemma bits_list_loop_ok fuel : forall x n, is_int x n -> n < 2^(Z.of_nat fuel) ->
  exists l, bits_list_loop (S fuel) x = Ok l /\ of_bits l = Z.max 0 n /\ (l = [] \/ last l false = true).
Proof.
  induction fuel as [|f IH]; intros x n Hx Hn; cbn [bits_list_loop]; rewrite (n_le_int x n Hx).
  - change (2^Z.of_nat 0) with 1 in Hn. replace (n <=? 0) with true by lia. exists []. split; [reflexivity|]. split; [cbn [of_bits]; lia|left; reflexivity].
  - destruct (n <=? 0) eqn:E; [exists []; split; [reflexivity|]; split; [cbn [of_bits]; lia|left; reflexivity]|].
    rewrite (proj2 (even_int x n Hx)). cbn [obind].
    destruct (shift_int x (Small (-1)) n (-1) Hx (is_small _) ltac:(split; [lia|left; lia])) as [x' [-> Hx']]. cbn [obind].
    assert (Hd : Z.shiftl n (-1) = Z.div2 n) by (rewrite Z.div2_spec; reflexivity).
    rewrite Hd in Hx'. rewrite Nat2Z.inj_succ, Z.pow_succ_r in Hn by lia.
    pose proof (Z.div2_odd n) as Ho. destruct (IH x' (Z.div2 n) Hx' ltac:(destruct (Z.odd n); cbn [Z.b2z] in Ho; lia)) as [l [El [Vl Ll]]].
    cbn [bits_list_loop] in El. rewrite El. cbn [obind]. eexists. split; [reflexivity|]. split.
    + cbn [of_bits]. rewrite Vl. destruct (Z.odd n); cbn [Z.b2z] in Ho; lia.
    + right. destruct Ll as [->|Ll].
      * cbn [of_bits] in Vl. cbn [last]. destruct (Z.odd n); [reflexivity|]. cbn [Z.b2z] in Ho. lia.
      * destruct l as [|b l']; [discriminate Ll|]. exact Ll.
Qed.
Lemma bits_to_list_ok x n : is_int x n -> 0 <= n ->
  exists l, bits_to_list x = Ok l /\ of_bits l = n /\ (l = [] \/ last l false = true).
Proof.
  intros Hx Hn. unfold bits_to_list.
  assert (Hm : mag x = n) by (destruct Hx as [->| ->]; cbn [mag]; lia). rewrite Hm.
  destruct (bits_list_loop_ok (S (Z.to_nat (Z.log2 n))) x n Hx) as [l [E [V L]]].
  - rewrite Nat2Z.inj_succ, Z2Nat.id by apply Z.log2_nonneg. destruct (Z.eq_dec n 0) as [->|]; [reflexivity|].
    apply Z.log2_spec. lia.
  - exists l. split; [exact E|]. split; [rewrite V; lia|exact L].
Qed.

(** ** bitwise-fold *)
Lemma fold_loop_ok {A} (proc : bool -> A -> A) x n : is_int x n -> forall todo i k r, is_int i (Z.of_nat k) -> Z.of_nat (k + todo) <= 2^31 ->
  bitwise_fold_loop proc x todo i r = Ok (fold_left (fun r j => proc (Z.testbit n (Z.of_nat j)) r) (seq k todo) r).
Proof.
  intros Hx. induction todo as [|t IH]; intros i k r Hi Hb; cbn [bitwise_fold_loop seq fold_left]; [reflexivity|].
  rewrite (bit_set_ok i x (Z.of_nat k) n Hi Hx) by lia. cbn [obind]. apply IH; [|lia].
  rewrite Nat2Z.inj_succ. unfold Z.succ. apply add_int; [exact Hi|apply is_small].
Qed.
Lemma bitwise_fold_ok {A} (proc : bool -> A -> A) seed x n w : is_int x n -> gives (b_width x) w -> 0 <= w <= 2^31 ->
  bitwise_fold proc seed x = Ok (fold_left (fun r j => proc (Z.testbit n (Z.of_nat j)) r) (seq 0 (Z.to_nat w)) seed).
Proof.
  intros Hx [r [E Hr]] Hw. unfold bitwise_fold. rewrite E. cbn [obind].
  assert (Hm : mag r = w) by (destruct Hr as [->| ->]; cbn [mag]; lia). rewrite Hm.
  apply fold_loop_ok; [exact Hx|apply is_small|lia].
Qed.
