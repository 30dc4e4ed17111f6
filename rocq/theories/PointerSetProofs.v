(** Proofs about PointerSet.v: every level is a finite ordered set. *)
From Coq Require Import NArith ZArith List Bool Lia Sorted ZifyBool ZifyNat ZifyN.
From Verif Require Import PointerSet.
Import ListNotations.
Open Scope N_scope.
Ltac Zify.zify_post_hook ::= Z.div_mod_to_equations.

(** ** Least / greatest element specifications *)
Definition is_least_ge (P : N -> bool) (i : N) (o : option N) : Prop :=
  match o with
  | Some k => P k = true /\ i <= k /\ forall m, i <= m -> m < k -> P m = false
  | None => forall m, i <= m -> P m = false
  end.
Definition is_greatest_lt (P : N -> bool) (i : N) (o : option N) : Prop :=
  match o with
  | Some k => P k = true /\ k < i /\ forall m, k < m -> m < i -> P m = false
  | None => forall m, m < i -> P m = false
  end.

(** ** Bit tricks *)
Lemma pos_ctz_spec p : Pos.testbit p (pos_ctz p) = true /\ forall m, m < pos_ctz p -> Pos.testbit p m = false.
Proof.
  induction p as [p IH|p IH|]; cbn [pos_ctz].
  - split; [reflexivity | lia].
  - destruct IH as [IH1 IH2]. split.
    + destruct (N.succ (pos_ctz p)) as [|q] eqn:E; [lia|].
      cbn. rewrite <- IH1. f_equal. lia.
    + intros m Hm. destruct m as [|q]; [reflexivity|]. cbn. apply IH2. lia.
  - split; [reflexivity | lia].
Qed.

Lemma countr_zero_spec w : w <> 0 ->
  N.testbit w (countr_zero w) = true /\ forall m, m < countr_zero w -> N.testbit w m = false.
Proof. destruct w as [|p]; [congruence|]. intros _. exact (pos_ctz_spec p). Qed.

Lemma testbit_high w m : w < 2^64 -> 64 <= m -> N.testbit w m = false.
Proof.
  intros Hw Hm. destruct (N.eq_dec w 0) as [->|H0]; [apply N.bits_0|].
  apply N.bits_above_log2. apply N.log2_lt_pow2 in Hw; lia.
Qed.

Lemma countr_zero_lt w : w <> 0 -> w < 2^64 -> countr_zero w < 64.
Proof.
  intros H0 Hw. destruct (countr_zero_spec w H0) as [H _].
  destruct (N.lt_ge_cases (countr_zero w) 64) as [L|L]; [exact L|].
  rewrite testbit_high in H by assumption. discriminate.
Qed.

Lemma log2_lt w : w <> 0 -> w < 2^64 -> N.log2 w < 64.
Proof. intros H0 Hw. apply N.log2_lt_pow2; lia. Qed.

Lemma mask_ge_spec r m : m < 64 -> N.testbit (mask_ge r) m = (r <=? m).
Proof.
  intros Hm. unfold mask_ge. rewrite N.land_spec, (N.ones_spec_low 64 m) by lia.
  rewrite andb_true_r. destruct (N.leb_spec r m).
  - rewrite N.shiftl_spec_high' by lia. apply N.ones_spec_low. lia.
  - apply N.shiftl_spec_low. lia.
Qed.

Lemma mask_le_spec r m : r < 64 -> N.testbit (mask_le r) m = (m <=? r).
Proof.
  intros Hr. unfold mask_le. rewrite N.shiftr_spec'.
  destruct (N.leb_spec m r).
  - apply N.ones_spec_low. lia.
  - apply N.ones_spec_high. lia.
Qed.

Lemma land_lt w x : w < 2^64 -> N.land w x < 2^64.
Proof.
  intros Hw. destruct (N.eq_dec (N.land w x) 0) as [->|H0]; [reflexivity|].
  apply N.log2_lt_pow2; [lia|].
  destruct (N.eq_dec w 0) as [->|Hw0]; [rewrite N.land_0_l in H0; congruence|].
  apply N.log2_lt_pow2 in Hw; [|lia].
  eapply N.le_lt_trans; [apply N.log2_land|]. lia.
Qed.

(** ** Scanning *)
Section Scan.
  Variable Q : N.
  Variable ws : N -> N.

  Definition bit (k : N) : bool := (k <? 64 * Q) && N.testbit (ws (k / 64)) (k mod 64).

  Lemma bit_in q m : q < Q -> m < 64 -> bit (q * 64 + m) = N.testbit (ws q) m.
  Proof.
    intros Hq Hm. unfold bit.
    replace ((q * 64 + m) / 64) with q by lia.
    replace ((q * 64 + m) mod 64) with m by lia.
    replace (q * 64 + m <? 64 * Q) with true by lia. reflexivity.
  Qed.

  Lemma bit_split k : k < 64 * Q -> exists q m, q < Q /\ m < 64 /\ k = q * 64 + m.
  Proof. intros H. exists (k / 64), (k mod 64). lia. Qed.

  Lemma bit_out k : 64 * Q <= k -> bit k = false.
  Proof. intros H. unfold bit. replace (k <? 64 * Q) with false by lia. reflexivity. Qed.

  Variable rd : N -> option N.
  Hypothesis Hrd : forall q, q < Q -> rd q = Some (ws q).
  Hypothesis Hws : forall q, q < Q -> ws q < 2^64.

  Lemma words_up_spec fuel : forall q, (N.to_nat (Q - q) < fuel)%nat ->
    exists o, words_up Q rd fuel q = Some o /\
      (match o with Some k => k < 64 * Q | None => True end) /\
      is_least_ge bit (64 * (q + 1)) o.
  Proof.
    induction fuel as [|fuel IH]; intros q Hf; [lia|].
    cbn [words_up]. cbv zeta.
    destruct (N.ltb_spec (q + 1) Q) as [Hq|Hq].
    - rewrite Hrd by exact Hq. cbn [bind].
      destruct (N.eqb_spec (ws (q + 1)) 0) as [H0|H0].
      + destruct (IH (q + 1)) as [o [Ho [Hlt Hl]]]; [lia|].
        exists o. split; [exact Ho|]. split; [exact Hlt|].
        assert (Hz : forall m, 64 * (q + 1) <= m -> m < 64 * (q + 1 + 1) -> bit m = false).
        { intros m H1 H2. replace m with ((q + 1) * 64 + (m - (q + 1) * 64)) by lia.
          rewrite bit_in by lia. rewrite H0. apply N.bits_0. }
        destruct o as [k|]; cbn [is_least_ge] in Hl |- *.
        * destruct Hl as [Hb [Hle Hmin]]. split; [exact Hb|]. split; [lia|].
          intros m H1 H2. destruct (N.lt_ge_cases m (64 * (q + 1 + 1))); [apply Hz; lia | apply Hmin; lia].
        * intros m H1. destruct (N.lt_ge_cases m (64 * (q + 1 + 1))); [apply Hz; lia | apply Hl; lia].
      + exists (Some ((q + 1) * 64 + countr_zero (ws (q + 1)))).
        assert (Hc := countr_zero_lt _ H0 (Hws _ Hq)).
        destruct (countr_zero_spec _ H0) as [Hc1 Hc2].
        split; [reflexivity|]. split; [lia|]. cbn [is_least_ge is_greatest_lt]. split; [|split].
        * rewrite bit_in by lia. exact Hc1.
        * lia.
        * intros m H1 H2. replace m with ((q + 1) * 64 + (m - (q + 1) * 64)) by lia.
          rewrite bit_in by lia. apply Hc2. lia.
    - exists None. split; [reflexivity|]. split; [exact Logic.I|]. cbn [is_least_ge is_greatest_lt].
      intros m H1. apply bit_out. lia.
  Qed.

  Definition found (limit : N) (k : N) : option N := if k <? limit then Some k else None.

  Lemma seek_up_spec i : i < 64 * Q ->
    exists k, seek_up Q rd (64 * Q) i = Some k /\ is_least_ge bit i (found (64 * Q) k) /\ k <= 64 * Q.
  Proof.
    intros Hi. unfold seek_up. cbv zeta.
    assert (Hq : i / 64 < Q) by lia.
    rewrite Hrd by exact Hq. cbn [bind].
    set (w := N.land (ws (i / 64)) (mask_ge (i mod 64))).
    assert (Hw : w < 2^64) by (apply land_lt, Hws, Hq).
    assert (Hwb : forall m, m < 64 -> N.testbit w m = N.testbit (ws (i / 64)) m && (i mod 64 <=? m)).
    { intros m Hm. unfold w. rewrite N.land_spec, mask_ge_spec by exact Hm. reflexivity. }
    destruct (N.eqb_spec w 0) as [H0|H0].
    - destruct (words_up_spec (S (N.to_nat Q)) (i / 64)) as [o [Ho [Hlt Hl]]]; [lia|].
      rewrite Ho. cbn [bind].
      assert (Hz : forall m, i <= m -> m < 64 * (i / 64 + 1) -> bit m = false).
      { intros m H1 H2. replace m with ((i / 64) * 64 + (m - (i / 64) * 64)) by lia.
        rewrite bit_in by lia.
        assert (Hm := Hwb (m - (i / 64) * 64) ltac:(lia)). rewrite H0, N.bits_0 in Hm.
        replace (i mod 64 <=? m - i / 64 * 64) with true in Hm by lia.
        rewrite andb_true_r in Hm. symmetry. exact Hm. }
      destruct o as [k|].
      + exists k. split; [reflexivity|]. split; [|lia]. unfold found. replace (k <? 64 * Q) with true by lia.
        cbn [is_least_ge] in Hl |- *. destruct Hl as [Hb [Hle Hmin]]. split; [exact Hb|]. split; [lia|].
        intros m H1 H2. destruct (N.lt_ge_cases m (64 * (i / 64 + 1))); [apply Hz; lia | apply Hmin; lia].
      + exists (64 * Q). split; [reflexivity|]. split; [|lia]. unfold found. rewrite N.ltb_irrefl.
        cbn [is_least_ge] in Hl |- *. intros m H1.
        destruct (N.lt_ge_cases m (64 * (i / 64 + 1))); [apply Hz; lia | apply Hl; lia].
    - assert (Hc := countr_zero_lt _ H0 Hw).
      destruct (countr_zero_spec _ H0) as [Hc1 Hc2].
      exists (i / 64 * 64 + countr_zero w). split; [reflexivity|]. split; [|lia].
      unfold found. replace (i / 64 * 64 + countr_zero w <? 64 * Q) with true by lia. cbn [is_least_ge is_greatest_lt].
      rewrite Hwb in Hc1 by exact Hc. apply andb_prop in Hc1 as [Hc1 Hc3].
      split; [|split].
      + rewrite bit_in by lia. exact Hc1.
      + lia.
      + intros m H1 H2. replace m with ((i / 64) * 64 + (m - (i / 64) * 64)) by lia.
        rewrite bit_in by lia.
        assert (Hm := Hwb (m - (i / 64) * 64) ltac:(lia)).
        rewrite Hc2 in Hm by lia.
        replace (i mod 64 <=? m - i / 64 * 64) with true in Hm by lia.
        rewrite andb_true_r in Hm. symmetry. exact Hm.
  Qed.

  Lemma words_down_spec q : N.of_nat q <= Q ->
    exists o, words_down Q rd q = Some o /\
      (match o with Some k => k < 64 * Q | None => True end) /\
      is_greatest_lt bit (64 * N.of_nat q) o.
  Proof.
    induction q as [|q IH]; intros Hq.
    - exists None. split; [reflexivity|]. split; [exact Logic.I|]. cbn [is_least_ge is_greatest_lt]. intros m Hm. lia.
    - cbn [words_down]. cbv zeta.
      assert (Hq' : N.of_nat q < Q) by lia.
      replace (N.of_nat q <? Q) with true by lia.
      rewrite Hrd by exact Hq'. cbn [bind].
      destruct (N.eqb_spec (ws (N.of_nat q)) 0) as [H0|H0].
      + destruct IH as [o [Ho [Hlt Hl]]]; [lia|].
        exists o. split; [exact Ho|]. split; [exact Hlt|].
        assert (Hz : forall m, 64 * N.of_nat q <= m -> m < 64 * N.of_nat (S q) -> bit m = false).
        { intros m H1 H2. replace m with (N.of_nat q * 64 + (m - N.of_nat q * 64)) by lia.
          rewrite bit_in by lia. rewrite H0. apply N.bits_0. }
        destruct o as [k|]; cbn [is_greatest_lt] in Hl |- *.
        * destruct Hl as [Hb [Hle Hmin]]. split; [exact Hb|]. split; [lia|].
          intros m H1 H2. destruct (N.lt_ge_cases m (64 * N.of_nat q)); [apply Hmin; lia | apply Hz; lia].
        * intros m H1. destruct (N.lt_ge_cases m (64 * N.of_nat q)); [apply Hl; lia | apply Hz; lia].
      + assert (Hc := log2_lt _ H0 (Hws _ Hq')).
        exists (Some (N.of_nat q * 64 + N.log2 (ws (N.of_nat q)))).
        split; [reflexivity|]. split; [lia|]. cbn [is_greatest_lt]. split; [|split].
        * rewrite bit_in by lia. apply N.bit_log2. exact H0.
        * lia.
        * intros m H1 H2. replace m with (N.of_nat q * 64 + (m - N.of_nat q * 64)) by lia.
          rewrite bit_in by lia. apply N.bits_above_log2. lia.
  Qed.

  Lemma seek_down_spec i : i < 64 * Q ->
    exists k, seek_down Q rd (64 * Q) i = Some k /\ is_greatest_lt bit (i + 1) (found (64 * Q) k) /\ k <= 64 * Q.
  Proof.
    intros Hi. unfold seek_down. cbv zeta.
    assert (Hq : i / 64 < Q) by lia.
    rewrite Hrd by exact Hq. cbn [bind].
    set (w := N.land (ws (i / 64)) (mask_le (i mod 64))).
    assert (Hw : w < 2^64) by (apply land_lt, Hws, Hq).
    assert (Hwb : forall m, N.testbit w m = N.testbit (ws (i / 64)) m && (m <=? i mod 64)).
    { intros m. unfold w. rewrite N.land_spec, mask_le_spec by lia. reflexivity. }
    destruct (N.eqb_spec w 0) as [H0|H0].
    - destruct (words_down_spec (N.to_nat (i / 64))) as [o [Ho [Hlt Hl]]]; [lia|].
      rewrite Ho. cbn [bind].
      rewrite N2Nat.id in Hl.
      assert (Hz : forall m, 64 * (i / 64) <= m -> m < i + 1 -> bit m = false).
      { intros m H1 H2. replace m with ((i / 64) * 64 + (m - (i / 64) * 64)) by lia.
        rewrite bit_in by lia.
        assert (Hm := Hwb (m - (i / 64) * 64)). rewrite H0, N.bits_0 in Hm.
        replace (m - i / 64 * 64 <=? i mod 64) with true in Hm by lia.
        rewrite andb_true_r in Hm. symmetry. exact Hm. }
      destruct o as [k|].
      + exists k. split; [reflexivity|]. split; [|lia]. unfold found. replace (k <? 64 * Q) with true by lia.
        cbn [is_greatest_lt] in Hl |- *. destruct Hl as [Hb [Hle Hmin]]. split; [exact Hb|]. split; [lia|].
        intros m H1 H2. destruct (N.lt_ge_cases m (64 * (i / 64))); [apply Hmin; lia | apply Hz; lia].
      + exists (64 * Q). split; [reflexivity|]. split; [|lia]. unfold found. rewrite N.ltb_irrefl.
        cbn [is_greatest_lt] in Hl |- *. intros m H1.
        destruct (N.lt_ge_cases m (64 * (i / 64))); [apply Hl; lia | apply Hz; lia].
    - assert (Hc := log2_lt _ H0 Hw).
      assert (Hc1 := N.bit_log2 _ H0).
      exists (i / 64 * 64 + N.log2 w). split; [reflexivity|]. split; [|lia].
      unfold found. replace (i / 64 * 64 + N.log2 w <? 64 * Q) with true by lia. cbn [is_greatest_lt].
      rewrite Hwb in Hc1. apply andb_prop in Hc1 as [Hc1 Hc3].
      split; [|split].
      + rewrite bit_in by lia. exact Hc1.
      + lia.
      + intros m H1 H2. replace m with ((i / 64) * 64 + (m - (i / 64) * 64)) by lia.
        rewrite bit_in by lia.
        assert (Hm := Hwb (m - (i / 64) * 64)).
        rewrite N.bits_above_log2 in Hm by lia.
        replace (m - i / 64 * 64 <=? i mod 64) with true in Hm by lia.
        rewrite andb_true_r in Hm. symmetry. exact Hm.
  Qed.
End Scan.
