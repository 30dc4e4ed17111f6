(** Each level of the radix tree satisfies the interface of a finite ordered
    set of numbers below a bound. *)
From Coq Require Import NArith ZArith List Bool Lia Sorted ZifyBool ZifyNat ZifyN.
From Verif Require Import PointerSet PointerSetProofs.
Import ListNotations.
Open Scope N_scope.
Ltac Zify.zify_post_hook ::= Z.div_mod_to_equations.

(** [n] is the number of elements of [P]. *)
Definition card (P : N -> bool) (n : N) : Prop :=
  exists l, NoDup l /\ (forall x, In x l <-> P x = true) /\ N.of_nat (length l) = n.

Lemma card_zero P n : card P n -> (n = 0 <-> forall x, P x = false).
Proof.
  intros [l [Hn [Hl Hlen]]]. split.
  - intros ->. destruct l; [|cbn in Hlen; lia]. intros x.
    destruct (P x) eqn:E; [|reflexivity]. apply Hl in E. destruct E.
  - intros H. destruct l as [|x l]; [cbn in Hlen; lia|].
    assert (P x = true) by (apply Hl; left; reflexivity). rewrite H in *. discriminate.
Qed.

Lemma card_add P P' n j : card P n -> P j = false ->
  (forall x, P' x = (x =? j) || P x) -> card P' (n + 1).
Proof.
  intros [l [Hn [Hl Hlen]]] Hj HP. exists (j :: l). split; [|split].
  - constructor; [|exact Hn]. rewrite Hl. congruence.
  - intros x. rewrite HP. cbn [In]. rewrite orb_true_iff, N.eqb_eq, <- Hl. split; intros [H|H]; auto.
  - cbn [length]. lia.
Qed.

Lemma card_remove P P' n j : card P n -> P j = true ->
  (forall x, P' x = negb (x =? j) && P x) -> n <> 0 /\ card P' (n - 1).
Proof.
  intros [l [Hn [Hl Hlen]]] Hj HP.
  assert (Hin : In j l) by (apply Hl; exact Hj).
  apply in_split in Hin as [l1 [l2 ->]].
  assert (Hn' := NoDup_remove_1 _ _ _ Hn). assert (Hnj := NoDup_remove_2 _ _ _ Hn).
  rewrite app_length in Hlen. cbn [length] in Hlen. split; [lia|].
  exists (l1 ++ l2). split; [exact Hn'|]. split.
  - intros x. rewrite HP, andb_true_iff, negb_true_iff, N.eqb_neq, <- Hl, !in_app_iff. cbn [In].
    split.
    + intros H. split; [|tauto]. intros ->. apply Hnj. apply in_app_iff. exact H.
    + intros [H1 H2]. destruct H2 as [H2|[H2|H2]]; auto. congruence.
  - rewrite app_length. lia.
Qed.

Lemma card_ext P P' n : card P n -> (forall x, P' x = P x) -> card P' n.
Proof.
  intros [l [Hn [Hl Hlen]]] HP. exists l. split; [exact Hn|]. split; [|exact Hlen].
  intros x. rewrite HP. apply Hl.
Qed.

(** ** The specification every level satisfies *)
Record set_spec {S I} (o : set_ops S I) (M : N) := {
  ss_inv : S -> Prop;
  ss_mem : S -> N -> bool;
  (* [ss_cur s it c]: the iterator points to [c] ([None]: falsy) *)
  ss_cur : S -> I -> option N -> Prop;

  ss_mem_lt : forall s j, ss_inv s -> ss_mem s j = true -> j < M;
  ss_new_inv : ss_inv (so_new o);
  ss_new_mem : forall j, ss_mem (so_new o) j = false;
  ss_deref : forall s it c, ss_cur s it c -> so_deref o it = c;
  ss_cur_lt : forall s it j, ss_cur s it (Some j) -> j < M;
  ss_empty : forall s, ss_inv s -> (so_empty o s = true <-> forall j, ss_mem s j = false);
  ss_contains : forall s j, ss_inv s -> j < M -> so_contains o s j = Some (ss_mem s j);
  ss_insert : forall s j, ss_inv s -> j < M -> ss_mem s j = false ->
    exists s', so_insert o s j = Some s' /\ ss_inv s' /\
      (forall k, ss_mem s' k = (k =? j) || ss_mem s k) /\
      (forall it c, ss_cur s it c -> ss_cur s' it c);
  ss_erase : forall s j, ss_inv s -> j < M -> ss_mem s j = true ->
    exists s', so_erase o s j = Some s' /\ ss_inv s' /\
      (forall k, ss_mem s' k = negb (k =? j) && ss_mem s k) /\
      (forall it c, ss_cur s it c -> ss_cur s' it c);
  ss_begin : forall s, ss_inv s -> exists it c, so_begin o s = Some it /\
      is_least_ge (ss_mem s) 0 c /\ ss_cur s it c;
  ss_last : forall s, ss_inv s -> exists it c, so_last o s = Some it /\
      is_greatest_lt (ss_mem s) M c /\ ss_cur s it c;
  ss_lower : forall s j, ss_inv s -> j < M -> exists it c, so_lower o s j = Some it /\
      is_least_ge (ss_mem s) j c /\ ss_cur s it c;
  ss_next : forall s it j, ss_inv s -> ss_cur s it (Some j) -> exists it' c, so_next o s it = Some it' /\
      is_least_ge (ss_mem s) (j + 1) c /\ ss_cur s it' c;
  ss_prev : forall s it j, ss_inv s -> ss_cur s it (Some j) -> exists it' c, so_prev o s it = Some it' /\
      is_greatest_lt (ss_mem s) j c /\ ss_cur s it' c;
  ss_eq : forall s a b c d, ss_cur s a c -> ss_cur s b d ->
      so_eq o a b = match c, d with Some x, Some y => x =? y | None, None => true | _, _ => false end
}.
Arguments ss_inv {S I o M}. Arguments ss_mem {S I o M}. Arguments ss_cur {S I o M}.

(** ** Innermost level *)
Section Leaf.
  Variable E : N.
  Hypothesis HE : 6 <= E < 64.

  Definition leaf_mem (s : leaf) (j : N) : bool := bit (leaf_Q E) (lf_data s) j.

  Lemma leaf_N_Q : leaf_N E = 64 * leaf_Q E.
  Proof.
    unfold leaf_Q, leaf_N. replace E with (6 + (E - 6)) by lia. rewrite N.pow_add_r.
    change (2^6) with 64. lia.
  Qed.

  Lemma leaf_N_lt : leaf_N E < 2^64.
  Proof. unfold leaf_N. apply N.pow_lt_mono_r; lia. Qed.
  Lemma leaf_N_pos : 0 < leaf_N E.
  Proof. unfold leaf_N. apply N.neq_0_lt_0, N.pow_nonzero. lia. Qed.

  Lemma leaf_rd_ok s q : q < leaf_Q E -> leaf_rd E s q = Some (lf_data s q).
  Proof. intros H. unfold leaf_rd. replace (q <? leaf_Q E) with true by lia. reflexivity. Qed.

  Definition leaf_inv (s : leaf) : Prop :=
    (forall q, q < leaf_Q E -> lf_data s q < 2^64) /\ card (leaf_mem s) (lf_n s).

  Definition leaf_cur (s : leaf) (it : leaf_iter) (c : option N) : Prop :=
    match c with Some j => it = j /\ j < leaf_N E | None => leaf_N E <= it end.

  Lemma leaf_index_small j : j < leaf_N E -> leaf_index E j = j.
  Proof. intros H. unfold leaf_index. rewrite N.land_ones. apply N.mod_small. exact H. Qed.

  Lemma leaf_mem_lt s j : leaf_mem s j = true -> j < leaf_N E.
  Proof.
    unfold leaf_mem, bit. rewrite andb_true_iff, N.ltb_lt, <- leaf_N_Q. tauto.
  Qed.

  Lemma leaf_inc_spec s i : leaf_inv s -> exists it c, leaf_inc E s i = Some it /\
      is_least_ge (leaf_mem s) i c /\ leaf_cur s it c.
  Proof.
    intros [Hw _]. unfold leaf_inc. destruct (N.ltb_spec i (leaf_N E)) as [Hi|Hi].
    - rewrite leaf_N_Q in *.
      destruct (seek_up_spec (leaf_Q E) (lf_data s) (leaf_rd E s) (leaf_rd_ok s) Hw i Hi) as [k [Hk [Hl Hle]]].
      exists k, (found (64 * leaf_Q E) k). split; [exact Hk|]. split; [exact Hl|].
      unfold found, leaf_cur. rewrite leaf_N_Q.
      destruct (N.ltb_spec k (64 * leaf_Q E)); [split; [reflexivity|lia] | lia].
    - exists (leaf_N E), None. split; [reflexivity|]. split.
      + intros m Hm. unfold leaf_mem. apply bit_out. rewrite <- leaf_N_Q. lia.
      + cbn. lia.
  Qed.

  Lemma leaf_dec_spec s i : leaf_inv s -> exists it c, leaf_dec E s i = Some it /\
      (i < leaf_N E -> is_greatest_lt (leaf_mem s) (i + 1) c) /\
      (leaf_N E <= i -> c = None) /\ leaf_cur s it c.
  Proof.
    intros [Hw _]. unfold leaf_dec. destruct (N.ltb_spec i (leaf_N E)) as [Hi|Hi].
    - rewrite leaf_N_Q in *.
      destruct (seek_down_spec (leaf_Q E) (lf_data s) (leaf_rd E s) (leaf_rd_ok s) Hw i Hi) as [k [Hk [Hl Hle]]].
      exists k, (found (64 * leaf_Q E) k). split; [exact Hk|]. split; [intros _; exact Hl|]. split; [lia|].
      unfold found, leaf_cur. rewrite leaf_N_Q.
      destruct (N.ltb_spec k (64 * leaf_Q E)); [split; [reflexivity|lia] | lia].
    - exists (leaf_N E), None. split; [reflexivity|]. split; [lia|]. split; [reflexivity|]. cbn. lia.
  Qed.

  Lemma leaf_bit_upd (f : N -> N) q w' k :
    bit (leaf_Q E) (upd f q w') k =
    (k <? 64 * leaf_Q E) && N.testbit (if k / 64 =? q then w' else f (k / 64)) (k mod 64).
  Proof. reflexivity. Qed.

  Lemma leaf_insert_spec s j : leaf_inv s -> j < leaf_N E -> leaf_mem s j = false ->
    exists s', leaf_insert E s j = Some s' /\ leaf_inv s' /\
      (forall k, leaf_mem s' k = (k =? j) || leaf_mem s k) /\
      (forall it c, leaf_cur s it c -> leaf_cur s' it c).
  Proof.
    intros [Hw Hc] Hj Hm. unfold leaf_insert. rewrite leaf_index_small by exact Hj. cbv zeta.
    assert (Hq : j / 64 < leaf_Q E) by (rewrite leaf_N_Q in Hj; lia).
    rewrite leaf_rd_ok by exact Hq. cbn [bind].
    eexists. split; [reflexivity|].
    set (s' := {| lf_n := _; lf_data := _ |}).
    assert (Hmem : forall k, leaf_mem s' k = (k =? j) || leaf_mem s k).
    { intros k. unfold leaf_mem. unfold s'. cbn [lf_data]. rewrite leaf_bit_upd. unfold bit.
      destruct (N.eqb_spec (k / 64) (j / 64)) as [H1|H1].
      - fold (N.setbit (lf_data s (j / 64)) (j mod 64)).
        rewrite N.setbit_eqb. rewrite <- H1.
        destruct (N.eqb_spec k j) as [->|Hk].
        + rewrite N.eqb_refl. rewrite leaf_N_Q in Hj. cbn [orb].
          replace (j <? 64 * leaf_Q E) with true by lia. reflexivity.
        + replace (j mod 64 =? k mod 64) with false by lia. reflexivity.
      - replace (k =? j) with false by (destruct (N.eqb_spec k j); [subst; congruence|reflexivity]).
        reflexivity. }
    split; [split|split].
    - intros q Hq'. unfold s', upd. cbn [lf_data]. destruct (N.eqb_spec q (j / 64)) as [->|]; [|apply Hw; exact Hq'].
      apply N.log2_lt_cancel. rewrite N.log2_lor, N.log2_pow2 by lia. apply N.max_lub_lt.
      + destruct (N.eq_dec (lf_data s (j / 64)) 0) as [H0|H0]; [rewrite H0; reflexivity|].
        apply N.log2_lt_pow2; [lia|apply Hw; exact Hq].
      + rewrite N.log2_shiftl by lia. cbn. lia.
    - eapply card_add; [exact Hc|exact Hm|exact Hmem].
    - exact Hmem.
    - intros it c H. exact H.
  Qed.

  Lemma leaf_erase_spec s j : leaf_inv s -> j < leaf_N E -> leaf_mem s j = true ->
    exists s', leaf_erase E s j = Some s' /\ leaf_inv s' /\
      (forall k, leaf_mem s' k = negb (k =? j) && leaf_mem s k) /\
      (forall it c, leaf_cur s it c -> leaf_cur s' it c).
  Proof.
    intros [Hw Hc] Hj Hm. unfold leaf_erase. rewrite leaf_index_small by exact Hj. cbv zeta.
    assert (Hq : j / 64 < leaf_Q E) by (rewrite leaf_N_Q in Hj; lia).
    rewrite leaf_rd_ok by exact Hq. cbn [bind].
    eexists. split; [reflexivity|].
    set (s' := {| lf_n := _; lf_data := _ |}).
    assert (Hmem : forall k, leaf_mem s' k = negb (k =? j) && leaf_mem s k).
    { intros k. unfold leaf_mem. unfold s'. cbn [lf_data]. rewrite leaf_bit_upd. unfold bit.
      destruct (N.eqb_spec (k / 64) (j / 64)) as [H1|H1].
      - fold (N.clearbit (lf_data s (j / 64)) (j mod 64)).
        rewrite N.clearbit_eqb. rewrite <- H1.
        destruct (N.eqb_spec k j) as [->|Hk].
        + rewrite N.eqb_refl. cbn. rewrite !andb_false_r. reflexivity.
        + replace (j mod 64 =? k mod 64) with false by lia. cbn [negb andb]. rewrite andb_true_r. reflexivity.
      - replace (k =? j) with false by (destruct (N.eqb_spec k j); [subst; congruence|reflexivity]).
        reflexivity. }
    destruct (card_remove _ _ _ _ Hc Hm Hmem) as [Hn0 Hc'].
    split; [split|split].
    - intros q Hq'. unfold s', upd. cbn [lf_data]. destruct (N.eqb_spec q (j / 64)) as [->|]; [|apply Hw; exact Hq'].
      eapply N.le_lt_trans; [|apply (Hw _ Hq)].
      rewrite <- (N.lor_ldiff_and (lf_data s (j / 64)) (N.shiftl 1 (j mod 64))) at 2.
      rewrite <- N.lxor_lor, <- N.add_nocarry_lxor.
      + lia.
      + apply N.bits_inj. intros x. rewrite !N.land_spec, N.ldiff_spec, N.bits_0.
        destruct (N.testbit (N.shiftl 1 (j mod 64)) x); rewrite ?andb_false_r; reflexivity.
      + apply N.bits_inj. intros x. rewrite !N.land_spec, N.ldiff_spec, N.bits_0.
        destruct (N.testbit (N.shiftl 1 (j mod 64)) x); rewrite ?andb_false_r; reflexivity.
    - unfold s' at 2. cbn [lf_n]. unfold pred64. replace (lf_n s =? 0) with false by lia. exact Hc'.
    - exact Hmem.
    - intros it c H. exact H.
  Qed.

  Definition leaf_spec : set_spec (leaf_ops E) (leaf_N E).
  Proof.
    refine (@Build_set_spec _ _ (leaf_ops E) (leaf_N E) leaf_inv leaf_mem leaf_cur
              _ _ _ _ _ _ _ leaf_insert_spec leaf_erase_spec _ _ _ _ _ _).
    - intros s j _. apply leaf_mem_lt.
    - split; [reflexivity|]. exists []. split; [constructor|]. split; [|reflexivity].
      intros x. unfold leaf_mem, bit, leaf_new, so_new, leaf_ops, lf_data.
      rewrite N.bits_0, andb_false_r. split; [intros []|discriminate].
    - intros j. unfold leaf_mem, bit, leaf_new, so_new, leaf_ops, lf_data.
      rewrite N.bits_0, andb_false_r. reflexivity.
    - intros s it c. cbn [so_deref leaf_ops]. unfold leaf_deref, leaf_cur. destruct c as [j|].
      + intros [-> Hj]. replace (j <? leaf_N E) with true by lia. reflexivity.
      + intros H. replace (it <? leaf_N E) with false by lia. reflexivity.
    - intros s it j [_ H]. exact H.
    - intros s [_ Hc]. cbn [so_empty leaf_ops]. unfold leaf_empty. rewrite N.eqb_eq.
      apply (card_zero _ _ Hc).
    - intros s j _ Hj. cbn [so_contains leaf_ops]. unfold leaf_contains.
      rewrite leaf_index_small by exact Hj. cbv zeta.
      assert (Hq : j / 64 < leaf_Q E) by (rewrite leaf_N_Q in Hj; lia).
      rewrite leaf_rd_ok by exact Hq. cbn [bind]. f_equal.
      unfold leaf_mem, bit. rewrite leaf_N_Q in Hj. replace (j <? 64 * leaf_Q E) with true by lia.
      cbn [andb]. set (w := lf_data s (j / 64)). set (r := j mod 64).
      destruct (N.testbit w r) eqn:Eb.
      + apply negb_true_iff, N.eqb_neq. intros H0.
        assert (Hb : N.testbit (N.land w (N.shiftl 1 r)) r = true).
        { rewrite N.land_spec, Eb, N.shiftl_spec_high' by lia. rewrite N.sub_diag. reflexivity. }
        rewrite H0, N.bits_0 in Hb. discriminate.
      + apply negb_false_iff, N.eqb_eq. apply N.bits_inj. intros x. rewrite N.land_spec, N.bits_0.
        destruct (N.lt_trichotomy x r) as [H|[->|H]].
        * rewrite N.shiftl_spec_low by lia. apply andb_false_r.
        * rewrite Eb. reflexivity.
        * rewrite N.shiftl_spec_high' by lia.
          change 1 with (2^0). rewrite N.pow2_bits_false by lia. apply andb_false_r.
    - intros s Hs. destruct (leaf_inc_spec s 0 Hs) as [it [c [H1 [H2 H3]]]].
      exists it, c. repeat split; assumption.
    - intros s Hs. destruct (leaf_dec_spec s (leaf_N E - 1) Hs) as [it [c [H1 [H2 [_ H3]]]]].
      assert (Hp := leaf_N_pos).
      exists it, c. split; [exact H1|]. split; [|exact H3].
      replace (leaf_N E) with (leaf_N E - 1 + 1) by lia. apply H2. lia.
    - intros s j Hs Hj. destruct (leaf_inc_spec s (leaf_index E j) Hs) as [it [c [H1 [H2 H3]]]].
      exists it, c. rewrite leaf_index_small in H2 by exact Hj. repeat split; assumption.
    - intros s it j Hs [-> Hj]. destruct (leaf_inc_spec s (j + 1) Hs) as [it' [c [H1 [H2 H3]]]].
      exists it', c. repeat split; assumption.
    - intros s it j Hs [-> Hj]. destruct (leaf_dec_spec s (pred64 j) Hs) as [it' [c [H1 [H2 [H4 H3]]]]].
      exists it', c. split; [exact H1|]. split; [|exact H3].
      assert (HN := leaf_N_lt).
      unfold pred64 in *. destruct (N.eqb_spec j 0) as [->|H0].
      + assert (c = None) as -> by (apply H4; lia). intros m Hm. lia.
      + replace j with (j - 1 + 1) at 1 by lia. apply H2. lia.
    - intros s a b c d Ha Hb. cbn [so_eq leaf_ops]. unfold leaf_eq, leaf_cur in *.
      destruct c as [x|], d as [y|]; try destruct Ha as [-> Ha]; try destruct Hb as [-> Hb].
      + replace (y <? leaf_N E) with true by lia. reflexivity.
      + replace (b <? leaf_N E) with false by lia. replace (x <? leaf_N E) with true by lia. reflexivity.
      + replace (y <? leaf_N E) with true by lia. lia.
      + replace (b <? leaf_N E) with false by lia. replace (a <? leaf_N E) with false by lia. reflexivity.
  Defined.
End Leaf.
