(** The inner levels of the radix tree are finite ordered sets if the level
    below is one. *)
From Coq Require Import NArith ZArith List Bool Lia ZifyBool ZifyNat ZifyN.
From Verif Require Import PointerSet PointerSetProofs PointerSetLevels.
Import ListNotations.
Open Scope N_scope.

Lemma div_eq x M i j : j < M -> x = i * M + j -> x / M = i /\ x mod M = j.
Proof.
  intros Hj ->. split.
  - rewrite N.add_comm, N.div_add by lia. rewrite N.div_small by exact Hj. reflexivity.
  - rewrite N.add_comm, N.mod_add by lia. apply N.mod_small. exact Hj.
Qed.

Lemma div_split x M : 0 < M -> x = (x / M) * M + x mod M /\ x mod M < M.
Proof.
  intros HM. split; [|apply N.mod_lt; lia].
  rewrite N.mul_comm. apply N.div_mod. lia.
Qed.

Section Node.
  Context {S I : Type}.
  Variable sub : set_ops S I.
  Variables NN M : N.
  Variable sp : set_spec sub M.
  Variable w_oob : N.
  Variable sub_null_ok : bool.
  Hypothesis HQ : NN = 64 * node_Q NN.
  Hypothesis HN0 : 0 < NN.
  Hypothesis HN64 : NN < 2^64.
  Hypothesis HM : 0 < M.

  Let oob := Some w_oob.
  Notation node := (node S).
  Notation node_iter := (node_iter I).

  Definition node_mem (s : node) (x : N) : bool :=
    (x <? NN * M) && match nd_data s (x / M) with Some t => ss_mem sp t (x mod M) | None => false end.

  Definition nonempty (s : node) (i : N) : Prop :=
    exists t j, nd_data s i = Some t /\ ss_mem sp t j = true.

  Record node_inv (s : node) : Prop := {
    ni_sub : forall i t, i < NN -> nd_data s i = Some t -> ss_inv sp t;
    ni_occ : forall q, q < node_Q NN -> nd_occ s q < 2^64;
    ni_bit : forall i, i < NN -> (bit (node_Q NN) (nd_occ s) i = true <-> nonempty s i);
    ni_win : forall i t, i < NN -> nd_data s i = Some t -> nd_imin s <= i <= nd_imax s;
    ni_max : nd_imax s < NN;
    ni_min : nd_imin s <= NN;
    ni_card : card (node_mem s) (nd_n s)
  }.

  Definition node_cur (s : node) (it : node_iter) (c : option N) : Prop :=
    match c with
    | Some x => x < NN * M /\ it_i it = x / M /\
        exists b t, it_sub it = Some (x / M, b) /\ nd_data s (x / M) = Some t /\
                    ss_inv sp t /\ ss_cur sp t b (Some (x mod M))
    | None => NN <= it_i it
    end.

  Lemma idx_lt x : x < NN * M -> x / M < NN.
  Proof. intros H. apply N.div_lt_upper_bound; [lia|]. rewrite N.mul_comm. exact H. Qed.

  Lemma pair_lt i j : i < NN -> j < M -> i * M + j < NN * M.
  Proof. intros Hi Hj. nia. Qed.

  Lemma node_mem_pair s i j : i < NN -> j < M ->
    node_mem s (i * M + j) = match nd_data s i with Some t => ss_mem sp t j | None => false end.
  Proof.
    intros Hi Hj. unfold node_mem.
    destruct (div_eq (i * M + j) M i j Hj eq_refl) as [-> ->].
    assert (H := pair_lt i j Hi Hj). replace (i * M + j <? NN * M) with true by lia. reflexivity.
  Qed.

  Lemma node_mem_split s x : node_mem s x = true -> node_inv s ->
    exists i j t, i < NN /\ j < M /\ x = i * M + j /\ nd_data s i = Some t /\ ss_mem sp t j = true.
  Proof.
    intros H Hs. unfold node_mem in H. apply andb_prop in H as [H1 H2].
    apply N.ltb_lt in H1. assert (Hi := idx_lt x H1).
    destruct (nd_data s (x / M)) as [t|] eqn:E; [|discriminate].
    destruct (div_split x M HM) as [Hx Hm].
    exists (x / M), (x mod M), t. repeat split; try assumption.
  Qed.

  Lemma rd_data_ok (s : node) i : i < NN -> rd_data NN s i = Some (nd_data s i).
  Proof. intros H. unfold rd_data. replace (i <? NN) with true by lia. reflexivity. Qed.

  Lemma rd_occ_ok (s : node) q : q < node_Q NN -> rd_occ oob NN s q = Some (nd_occ s q).
  Proof. intros H. unfold rd_occ. replace (q <? node_Q NN) with true by lia. reflexivity. Qed.

  Lemma nonempty_false s i : node_inv s -> i < NN -> bit (node_Q NN) (nd_occ s) i = false ->
    forall j, j < M -> node_mem s (i * M + j) = false.
  Proof.
    intros Hs Hi Hb j Hj. destruct (node_mem s (i * M + j)) eqn:E; [|reflexivity].
    rewrite node_mem_pair in E by assumption.
    destruct (nd_data s i) as [t|] eqn:Et; [|discriminate].
    assert (bit (node_Q NN) (nd_occ s) i = true) by (apply ni_bit; try assumption; exists t, j; auto).
    congruence.
  Qed.

  (** The heart: the forward scan *)
  Lemma inc_found s k fuel : node_inv s -> k < NN -> bit (node_Q NN) (nd_occ s) k = true ->
    exists it j t, inc_loop sub oob NN (Datatypes.S fuel) s k = Some it /\ nd_data s k = Some t /\ j < M /\
      ss_mem sp t j = true /\ (forall m, m < j -> ss_mem sp t m = false) /\
      node_cur s it (Some (k * M + j)).
  Proof.
    intros Hs Hk Hb. apply (ni_bit s Hs k Hk) in Hb. destruct Hb as [t [j0 [Et Hj0]]].
    cbn [inc_loop].
    assert (Hw := ni_win s Hs k t Hk Et). replace (k <=? nd_imax s) with true by lia.
    rewrite rd_data_ok by exact Hk. cbn [bind]. rewrite Et.
    assert (Hti := ni_sub s Hs k t Hk Et).
    destruct (ss_begin _ _ sp t Hti) as [b [c [Hbg [Hl Hcur]]]].
    rewrite Hbg. cbn [bind]. rewrite (ss_deref _ _ sp _ _ _ Hcur).
    destruct c as [j|].
    - assert (Hj := ss_cur_lt _ _ sp _ _ _ Hcur). destruct Hl as [Hl1 [_ Hl2]].
      eexists _, j, t. split; [reflexivity|]. repeat split; try assumption.
      + intros m Hm. apply Hl2; lia.
      + apply pair_lt; assumption.
      + cbn. destruct (div_eq (k * M + j) M k j Hj eq_refl) as [-> _]. reflexivity.
      + destruct (div_eq (k * M + j) M k j Hj eq_refl) as [-> ->]. exists b, t. auto.
    - cbn in Hl. rewrite Hl in Hj0 by lia. discriminate.
  Qed.

  Lemma node_inc_spec s i : node_inv s -> i <= NN -> exists it c,
    node_inc sub oob NN s i = Some it /\ is_least_ge (node_mem s) (i * M) c /\ node_cur s it c /\
    (c = None -> it = node_end NN).
  Proof.
    intros Hs Hi. unfold node_inc.
    destruct (N.eq_dec i NN) as [->|Hne].
    - (* reads one word past the array *)
      assert (Hseek : exists k, seek_up (node_Q NN) (rd_occ oob NN s) NN NN = Some k /\ NN <= k).
      { unfold seek_up. cbv zeta.
        assert (Hq : NN / 64 = node_Q NN) by (rewrite HQ at 1; rewrite N.mul_comm; apply N.div_mul; lia).
        rewrite Hq. unfold rd_occ at 1. rewrite N.ltb_irrefl, N.eqb_refl. unfold oob. cbn [bind].
        destruct (N.land w_oob (mask_ge (NN mod 64)) =? 0).
        - cbn [words_up]. cbv zeta. replace (node_Q NN + 1 <? node_Q NN) with false by lia.
          cbn [bind]. exists NN. split; [reflexivity|lia].
        - eexists. split; [reflexivity|]. lia. }
      destruct Hseek as [k [Hk Hle]]. rewrite Hk. cbn [bind inc_loop].
      assert (Hmax := ni_max s Hs). replace (k <=? nd_imax s) with false by lia.
      exists (node_end NN), None. split; [reflexivity|]. split; [|split; [cbn; lia|reflexivity]].
      intros m Hm. unfold node_mem. replace (m <? NN * M) with false by lia. reflexivity.
    - assert (Hi' : i < 64 * node_Q NN) by lia.
      destruct (seek_up_spec (node_Q NN) (nd_occ s) (rd_occ oob NN s) (rd_occ_ok s) (ni_occ s Hs) i Hi')
        as [k [Hk [Hl Hle]]].
      rewrite <- HQ in *. rewrite Hk. cbn [bind].
      unfold found in Hl. destruct (N.ltb_spec k NN) as [HkN|HkN].
      + destruct Hl as [Hl1 [Hl2 Hl3]].
        destruct (inc_found s k (N.to_nat NN) Hs HkN Hl1) as [it [j [t [H1 [Et [Hj [H2 [H3 H4]]]]]]]].
        exists it, (Some (k * M + j)). split; [exact H1|]. split; [|split; [exact H4|discriminate]].
        split; [|split].
        * rewrite node_mem_pair by assumption. rewrite Et. exact H2.
        * nia.
        * intros m Hm1 Hm2. destruct (div_split m M HM) as [Hm Hmm].
          destruct (N.lt_ge_cases (m / M) k) as [Hlt|Hge].
          -- rewrite Hm. apply nonempty_false; try assumption; [lia|].
             apply Hl3; [|exact Hlt]. apply N.div_le_lower_bound; [lia|]. nia.
          -- assert (m / M = k) as Hmk by (apply N.le_antisymm; [|exact Hge]; apply N.lt_succ_r, N.div_lt_upper_bound; [lia|]; nia).
             rewrite Hm, Hmk. rewrite node_mem_pair by assumption. rewrite Et. apply H3. nia.
      + cbn [inc_loop]. assert (Hmax := ni_max s Hs). replace (k <=? nd_imax s) with false by lia.
        exists (node_end NN), None. split; [reflexivity|]. split; [|split; [cbn; lia|reflexivity]].
        intros m Hm. destruct (node_mem s m) eqn:E; [|reflexivity].
        destruct (node_mem_split s m E Hs) as [i' [j [t [Hi1 [Hj [-> [Et Hmem]]]]]]].
        rewrite <- E. apply nonempty_false; try assumption. apply Hl. nia.
  Qed.

  Lemma dec_found s k fuel : node_inv s -> k < NN -> bit (node_Q NN) (nd_occ s) k = true ->
    exists it j t, dec_loop sub oob NN (Datatypes.S fuel) s k = Some it /\ nd_data s k = Some t /\ j < M /\
      ss_mem sp t j = true /\ (forall m, j < m -> ss_mem sp t m = false) /\
      node_cur s it (Some (k * M + j)).
  Proof.
    intros Hs Hk Hb. apply (ni_bit s Hs k Hk) in Hb. destruct Hb as [t [j0 [Et Hj0]]].
    cbn [dec_loop].
    assert (Hw := ni_win s Hs k t Hk Et). unfold in_window.
    replace (nd_imin s <=? k) with true by lia. replace (k <? NN) with true by lia. cbn [andb].
    rewrite rd_data_ok by exact Hk. cbn [bind]. rewrite Et.
    assert (Hti := ni_sub s Hs k t Hk Et).
    destruct (ss_last _ _ sp t Hti) as [b [c [Hbg [Hl Hcur]]]].
    rewrite Hbg. cbn [bind]. rewrite (ss_deref _ _ sp _ _ _ Hcur).
    destruct c as [j|].
    - assert (Hj := ss_cur_lt _ _ sp _ _ _ Hcur). destruct Hl as [Hl1 [_ Hl2]].
      eexists _, j, t. split; [reflexivity|]. repeat split; try assumption.
      + intros m Hm. destruct (ss_mem sp t m) eqn:E; [|reflexivity].
        assert (m < M) by (eapply ss_mem_lt; eauto). rewrite Hl2 in E by lia. discriminate.
      + apply pair_lt; assumption.
      + cbn. destruct (div_eq (k * M + j) M k j Hj eq_refl) as [-> _]. reflexivity.
      + destruct (div_eq (k * M + j) M k j Hj eq_refl) as [-> ->]. exists b, t. auto.
    - cbn in Hl. rewrite Hl in Hj0 by (eapply ss_mem_lt; eauto). discriminate.
  Qed.

  (** the scan backwards from index i (inclusive) *)
  Lemma node_dec_spec s i : node_inv s -> i < NN -> exists it c,
    node_dec sub oob NN s i = Some it /\ is_greatest_lt (node_mem s) ((i + 1) * M) c /\ node_cur s it c.
  Proof.
    intros Hs Hi. unfold node_dec.
    assert (Hi' : i < 64 * node_Q NN) by lia.
    rewrite N.min_l by lia.
    destruct (seek_down_spec (node_Q NN) (nd_occ s) (rd_occ oob NN s) (rd_occ_ok s) (ni_occ s Hs) i Hi')
      as [k [Hk [Hl Hle]]].
    rewrite <- HQ in *. rewrite Hk. cbn [bind].
    unfold found in Hl. destruct (N.ltb_spec k NN) as [HkN|HkN].
    - destruct Hl as [Hl1 [Hl2 Hl3]].
      destruct (dec_found s k (N.to_nat NN) Hs HkN Hl1) as [it [j [t [H1 [Et [Hj [H2 [H3 H4]]]]]]]].
      exists it, (Some (k * M + j)). split; [exact H1|]. split; [|exact H4].
      split; [|split].
      + rewrite node_mem_pair by assumption. rewrite Et. exact H2.
      + nia.
      + intros m Hm1 Hm2. destruct (div_split m M HM) as [Hm Hmm].
        destruct (N.lt_ge_cases k (m / M)) as [Hlt|Hge].
        * assert (m / M < i + 1) by (apply N.div_lt_upper_bound; [lia|]; nia).
          rewrite Hm. apply nonempty_false; try assumption; [lia|].
          apply Hl3; [exact Hlt|]. assumption.
        * assert (m / M = k) as Hmk by (apply N.le_antisymm; [exact Hge|]; apply N.div_le_lower_bound; [lia|]; nia).
          rewrite Hm, Hmk. rewrite node_mem_pair by assumption. rewrite Et. apply H3. nia.
    - cbn [dec_loop]. unfold in_window. replace (k <? NN) with false by lia. rewrite andb_false_r.
      exists (node_end NN), None. split; [reflexivity|]. split; [|cbn; lia].
      intros m Hm. destruct (node_mem s m) eqn:E; [|reflexivity].
      destruct (node_mem_split s m E Hs) as [i' [j [t [Hi1 [Hj [-> [Et Hmem]]]]]]].
      rewrite <- E. apply nonempty_false; try assumption. apply Hl. nia.
  Qed.

  (** weakening of the scan origin *)
  Lemma least_ge_tail s x c t : node_inv s -> x / M < NN -> nd_data s (x / M) = t ->
    (forall j, x mod M <= j -> match t with Some u => ss_mem sp u j = false | None => True end) ->
    is_least_ge (node_mem s) ((x / M + 1) * M) c -> is_least_ge (node_mem s) x c.
  Proof.
    intros Hs Hx Et Hnone Hl.
    destruct (div_split x M HM) as [Hd Hmod].
    assert (Hz : forall m, x <= m -> m < (x / M + 1) * M -> node_mem s m = false).
    { intros m H1 H2. destruct (div_split m M HM) as [Hm Hmm].
      assert (m / M = x / M) as Hq.
      { apply N.le_antisymm; [apply N.lt_succ_r, N.div_lt_upper_bound; [lia|]; nia | apply N.div_le_mono; lia]. }
      rewrite Hm, Hq, node_mem_pair by (try exact Hx; lia). rewrite Et. destruct t as [u|]; [|reflexivity].
      apply Hnone. nia. }
    destruct c as [k|]; cbn [is_least_ge] in *.
    - destruct Hl as [H1 [H2 H3]]. split; [exact H1|]. split; [nia|].
      intros m Ha Hb. destruct (N.lt_ge_cases m ((x / M + 1) * M)); [apply Hz; assumption | apply H3; assumption].
    - intros m Ha. destruct (N.lt_ge_cases m ((x / M + 1) * M)); [apply Hz; assumption | apply Hl; assumption].
  Qed.

  Lemma least_ge_head s i j0 j t : node_inv s -> i < NN -> nd_data s i = Some t ->
    j < M -> is_least_ge (ss_mem sp t) j0 (Some j) ->
    is_least_ge (node_mem s) (i * M + j0) (Some (i * M + j)).
  Proof.
    intros Hs Hi Et Hj [H1 [H2 H3]]. split; [|split].
    - rewrite node_mem_pair by assumption. rewrite Et. exact H1.
    - lia.
    - intros m Ha Hb. replace m with (i * M + (m - i * M)) by lia.
      rewrite node_mem_pair by (try assumption; lia). rewrite Et. apply H3; lia.
  Qed.

  Lemma greatest_lt_head s i j0 j t : node_inv s -> i < NN -> nd_data s i = Some t ->
    j0 < M -> is_greatest_lt (ss_mem sp t) j0 (Some j) ->
    is_greatest_lt (node_mem s) (i * M + j0) (Some (i * M + j)).
  Proof.
    intros Hs Hi Et Hj [H1 [H2 H3]]. split; [|split].
    - rewrite node_mem_pair by (try assumption; lia). rewrite Et. exact H1.
    - lia.
    - intros m Ha Hb. replace m with (i * M + (m - i * M)) by lia.
      rewrite node_mem_pair by (try assumption; lia). rewrite Et. apply H3; lia.
  Qed.

  Lemma node_begin_spec s : node_inv s -> exists it c, node_begin sub oob NN s = Some it /\
      is_least_ge (node_mem s) 0 c /\ node_cur s it c.
  Proof.
    intros Hs. destruct (node_inc_spec s (nd_imin s) Hs (ni_min s Hs)) as [it [c [H1 [H2 [H3 _]]]]].
    exists it, c. split; [exact H1|]. split; [|exact H3].
    assert (Hz : forall m, m < nd_imin s * M -> node_mem s m = false).
    { intros m Hm. destruct (node_mem s m) eqn:E; [|reflexivity].
      destruct (node_mem_split s m E Hs) as [i' [j [t [Hi1 [Hj [-> [Et Hmem]]]]]]].
      assert (H := ni_win s Hs i' t Hi1 Et). nia. }
    destruct c as [k|]; cbn [is_least_ge] in *.
    - destruct H2 as [Ha [Hb Hc]]. split; [exact Ha|]. split; [lia|].
      intros m _ Hm. destruct (N.lt_ge_cases m (nd_imin s * M)); auto.
    - intros m _. destruct (N.lt_ge_cases m (nd_imin s * M)); auto.
  Qed.

  Lemma node_last_spec s : node_inv s -> exists it c, node_last sub oob NN s = Some it /\
      is_greatest_lt (node_mem s) (NN * M) c /\ node_cur s it c.
  Proof.
    intros Hs. destruct (node_dec_spec s (nd_imax s) Hs (ni_max s Hs)) as [it [c [H1 [H2 H3]]]].
    exists it, c. split; [exact H1|]. split; [|exact H3].
    assert (Hz : forall m, (nd_imax s + 1) * M <= m -> node_mem s m = false).
    { intros m Hm. destruct (node_mem s m) eqn:E; [|reflexivity].
      destruct (node_mem_split s m E Hs) as [i' [j [t [Hi1 [Hj [-> [Et Hmem]]]]]]].
      assert (H := ni_win s Hs i' t Hi1 Et). nia. }
    destruct c as [k|]; cbn [is_greatest_lt] in *.
    - destruct H2 as [Ha [Hb Hc]]. split; [exact Ha|]. split.
      + destruct H3 as [H3 _]. exact H3.
      + intros m Hm _. destruct (N.lt_ge_cases m ((nd_imax s + 1) * M)); auto.
    - intros m _. destruct (N.lt_ge_cases m ((nd_imax s + 1) * M)); auto.
  Qed.

  Lemma node_lower_spec' s x : node_inv s -> x < NN * M -> exists it c,
      node_lower sub oob NN M s x = Some it /\
      is_least_ge (node_mem s) x c /\ node_cur s it c /\ (c = None -> it = node_end NN).
  Proof.
    intros Hs Hx. assert (Hi := idx_lt x Hx). destruct (div_split x M HM) as [Hd Hmod].
    unfold node_lower, node_hi, node_lo. cbv zeta.
    rewrite rd_data_ok by exact Hi. cbn [bind].
    destruct (node_inc_spec s (x / M + 1) Hs ltac:(lia)) as [it0 [c0 [I1 [I2 [I3 I4]]]]].
    destruct (nd_data s (x / M)) as [t|] eqn:Et.
    - assert (Hti := ni_sub s Hs _ t Hi Et).
      destruct (ss_lower _ _ sp t (x mod M) Hti Hmod) as [b [c [Hb [Hl Hcur]]]].
      rewrite Hb. cbn [bind]. rewrite (ss_deref _ _ sp _ _ _ Hcur).
      destruct c as [j|].
      + assert (Hj := ss_cur_lt _ _ sp _ _ _ Hcur).
        eexists _, (Some (x / M * M + j)). split; [reflexivity|]. split; [|split; [|discriminate]].
        * assert (H := least_ge_head s (x / M) (x mod M) j t Hs Hi Et Hj Hl). rewrite <- Hd in H. exact H.
        * destruct (div_eq (x / M * M + j) M (x / M) j Hj eq_refl) as [Hq Hr].
          split; [apply pair_lt; assumption|]. rewrite Hq, Hr. split; [reflexivity|]. exists b, t. auto.
      + exists it0, c0. split; [exact I1|]. split; [|split; assumption].
        apply (least_ge_tail s x c0 (Some t)); try assumption.
    - exists it0, c0. split; [exact I1|]. split; [|split; assumption].
      apply (least_ge_tail s x c0 None); try assumption. intros; exact Logic.I.
  Qed.

  Lemma node_next_spec s it x : node_inv s -> node_cur s it (Some x) -> exists it' c,
      node_next sub oob NN s it = Some it' /\ is_least_ge (node_mem s) (x + 1) c /\ node_cur s it' c.
  Proof.
    intros Hs [Hx [Hit [b [t [Hsub [Et [Hti Hcur]]]]]]].
    assert (Hi := idx_lt x Hx). destruct (div_split x M HM) as [Hd Hmod].
    unfold node_next. rewrite Hsub. rewrite rd_data_ok by exact Hi. cbn [bind]. rewrite Et.
    destruct (ss_next _ _ sp t b (x mod M) Hti Hcur) as [b' [c [Hb [Hl Hcur']]]].
    rewrite Hb. cbn [bind]. rewrite (ss_deref _ _ sp _ _ _ Hcur'). rewrite Hit.
    destruct c as [j|].
    - assert (Hj := ss_cur_lt _ _ sp _ _ _ Hcur').
      eexists _, (Some (x / M * M + j)). split; [reflexivity|]. split.
      + replace (x + 1) with (x / M * M + (x mod M + 1)) by lia.
        apply least_ge_head with (t := t); assumption.
      + destruct (div_eq (x / M * M + j) M (x / M) j Hj eq_refl) as [Hq Hr].
        split; [apply pair_lt; assumption|]. rewrite Hq, Hr. split; [reflexivity|]. exists b', t. auto.
    - destruct (node_inc_spec s (x / M + 1) Hs ltac:(lia)) as [it0 [c0 [I1 [I2 [I3 I4]]]]].
      exists it0, c0. split; [exact I1|]. split; [|exact I3].
      destruct (N.eq_dec (x mod M + 1) M) as [Hend|Hne].
      + replace (x + 1) with ((x / M + 1) * M) by lia. exact I2.
      + destruct (div_eq (x + 1) M (x / M) (x mod M + 1) ltac:(lia) ltac:(lia)) as [Hq Hr].
        apply (least_ge_tail s (x + 1) c0 (Some t)); rewrite ?Hq, ?Hr; try assumption.
  Qed.

  Lemma node_prev_spec s it x : node_inv s -> node_cur s it (Some x) -> exists it' c,
      node_prev sub oob sub_null_ok NN s it = Some it' /\ is_greatest_lt (node_mem s) x c /\ node_cur s it' c.
  Proof.
    intros Hs [Hx [Hit [b [t [Hsub [Et [Hti Hcur]]]]]]].
    assert (Hi := idx_lt x Hx). destruct (div_split x M HM) as [Hd Hmod].
    unfold node_prev. rewrite Hsub. rewrite rd_data_ok by exact Hi. cbn [bind]. rewrite Et.
    destruct (ss_prev _ _ sp t b (x mod M) Hti Hcur) as [b' [c [Hb [Hl Hcur']]]].
    rewrite Hb. cbn [bind]. rewrite (ss_deref _ _ sp _ _ _ Hcur'). rewrite Hit. cbv zeta.
    destruct c as [j|].
    - assert (Hj := ss_cur_lt _ _ sp _ _ _ Hcur').
      eexists _, (Some (x / M * M + j)). split; [reflexivity|]. split.
      + assert (H := greatest_lt_head s (x / M) (x mod M) j t Hs Hi Et Hmod Hl). rewrite <- Hd in H. exact H.
      + destruct (div_eq (x / M * M + j) M (x / M) j Hj eq_refl) as [Hq Hr].
        split; [apply pair_lt; assumption|]. rewrite Hq, Hr. split; [reflexivity|]. exists b', t. auto.
    - assert (Hz : forall m, x / M * M <= m -> m < x -> node_mem s m = false).
      { intros m H1 H2. replace m with (x / M * M + (m - x / M * M)) by lia.
        rewrite node_mem_pair by (try assumption; lia). rewrite Et. apply Hl. lia. }
      unfold pred64. destruct (N.eqb_spec (x / M) 0) as [H0|H0].
      + replace (2 ^ 64 - 1 <? NN) with false by lia.
        eexists _, None. split; [reflexivity|]. split; [|cbn; lia].
        intros m Hm. apply Hz; [rewrite H0; lia|exact Hm].
      + replace (x / M - 1 <? NN) with true by lia.
        destruct (node_dec_spec s (x / M - 1) Hs ltac:(lia)) as [it0 [c0 [I1 [I2 I3]]]].
        exists it0, c0. split; [exact I1|]. split; [|exact I3].
        replace (x / M - 1 + 1) with (x / M) in I2 by lia.
        destruct c0 as [k|]; cbn [is_greatest_lt] in *.
        * destruct I2 as [Ha [Hb' Hc]]. split; [exact Ha|]. split; [lia|].
          intros m Hm1 Hm2. destruct (N.lt_ge_cases m (x / M * M)); auto.
        * intros m Hm. destruct (N.lt_ge_cases m (x / M * M)); auto.
  Qed.

  (** [--end()], as used by the collector after lower_bound. *)
  Lemma node_prev_end_spec s : node_inv s -> sub_null_ok = true -> exists it' c,
      node_prev sub oob sub_null_ok NN s (node_end NN) = Some it' /\
      is_greatest_lt (node_mem s) (NN * M) c /\ node_cur s it' c.
  Proof.
    intros Hs Hok. unfold node_prev, node_end. cbn [it_sub it_i]. rewrite Hok. cbv zeta.
    unfold pred64. replace (NN =? 0) with false by lia. replace (NN - 1 <? NN) with true by lia.
    destruct (node_dec_spec s (NN - 1) Hs ltac:(lia)) as [it0 [c0 [I1 [I2 I3]]]].
    exists it0, c0. replace (NN - 1 + 1) with NN in I2 by lia. auto.
  Qed.

  Lemma bit_upd_set (f : N -> N) i k : i < NN -> k < NN ->
    bit (node_Q NN) (upd f (i / 64) (N.lor (f (i / 64)) (N.shiftl 1 (i mod 64)))) k =
    (k =? i) || bit (node_Q NN) f k.
  Proof.
    intros Hi Hk. unfold bit, upd. rewrite <- HQ.
    assert (Hd := N.div_mod k 64 ltac:(lia)). assert (Hd' := N.div_mod i 64 ltac:(lia)).
    destruct (N.eqb_spec (k / 64) (i / 64)) as [H1|H1].
    - fold (N.setbit (f (i / 64)) (i mod 64)). rewrite N.setbit_eqb, <- H1.
      replace (k <? NN) with true by lia. cbn [andb].
      destruct (N.eqb_spec (i mod 64) (k mod 64)) as [H2|H2].
      + replace (k =? i) with true by lia. reflexivity.
      + replace (k =? i) with false; [reflexivity|]. symmetry. apply N.eqb_neq. intros ->. congruence.
    - replace (k =? i) with false; [reflexivity|]. symmetry. apply N.eqb_neq. intros ->. congruence.
  Qed.

  Lemma bit_upd_clear (f : N -> N) i k : i < NN -> k < NN ->
    bit (node_Q NN) (upd f (i / 64) (N.ldiff (f (i / 64)) (N.shiftl 1 (i mod 64)))) k =
    negb (k =? i) && bit (node_Q NN) f k.
  Proof.
    intros Hi Hk. unfold bit, upd. rewrite <- HQ.
    assert (Hd := N.div_mod k 64 ltac:(lia)). assert (Hd' := N.div_mod i 64 ltac:(lia)).
    replace (k <? NN) with true by lia. cbn [andb].
    destruct (N.eqb_spec (k / 64) (i / 64)) as [H1|H1].
    - fold (N.clearbit (f (i / 64)) (i mod 64)). rewrite N.clearbit_eqb, <- H1.
      destruct (N.eqb_spec (i mod 64) (k mod 64)) as [H2|H2].
      + replace (k =? i) with true by lia. cbn. apply andb_false_r.
      + replace (k =? i) with false; [cbn; apply andb_true_r|]. symmetry. apply N.eqb_neq. intros ->. congruence.
    - replace (k =? i) with false; [reflexivity|]. symmetry. apply N.eqb_neq. intros ->. congruence.
  Qed.

  Lemma word_lor_lt w r : w < 2^64 -> r < 64 -> N.lor w (N.shiftl 1 r) < 2^64.
  Proof.
    intros Hw Hr. apply N.log2_lt_cancel. rewrite N.log2_lor, N.log2_pow2 by lia. apply N.max_lub_lt.
    - destruct (N.eq_dec w 0) as [->|H0]; [reflexivity|]. apply N.log2_lt_pow2; lia.
    - rewrite N.log2_shiftl by lia. cbn. lia.
  Qed.

  Lemma word_ldiff_lt w x : w < 2^64 -> N.ldiff w x < 2^64.
  Proof.
    intros Hw. destruct (N.eq_dec (N.ldiff w x) 0) as [->|H0]; [reflexivity|].
    apply N.log2_lt_pow2; [lia|].
    destruct (N.lt_ge_cases (N.log2 (N.ldiff w x)) 64) as [H|H]; [exact H|].
    assert (Hb := N.bit_log2 _ H0). rewrite N.ldiff_spec in Hb.
    rewrite testbit_high in Hb by assumption. discriminate.
  Qed.

  Lemma mem_replace s i t' occ n imin imax x : i < NN ->
    node_mem {| nd_data := upd (nd_data s) i (Some t'); nd_occ := occ; nd_n := n; nd_imin := imin; nd_imax := imax |} x =
    (x <? NN * M) && (if x / M =? i then ss_mem sp t' (x mod M) else
       match nd_data s (x / M) with Some t => ss_mem sp t (x mod M) | None => false end).
  Proof. intros Hi. unfold node_mem, upd. cbn [nd_data]. destruct (x / M =? i); reflexivity. Qed.

  Lemma node_insert_spec s x : node_inv s -> x < NN * M -> node_mem s x = false ->
    exists s', node_insert sub NN M s x = Some s' /\ node_inv s' /\
      (forall k, node_mem s' k = (k =? x) || node_mem s k) /\
      (forall it c, node_cur s it c -> node_cur s' it c).
  Proof.
    intros Hs Hx Hm. assert (Hi := idx_lt x Hx). destruct (div_split x M HM) as [Hd Hmod].
    unfold node_insert, node_hi, node_lo. cbv zeta. rewrite rd_data_ok by exact Hi. cbn [bind].
    set (i := x / M) in *. set (j := x mod M) in *.
    set (trip := match nd_data s i with
                 | Some t => (t, nd_imin s, nd_imax s)
                 | None => (so_new sub, N.min (nd_imin s) i, N.max (nd_imax s) i) end).
    destruct trip as [[t imin] imax] eqn:Etrip.
    assert (Hti : ss_inv sp t /\ ss_mem sp t j = false /\
                  (forall y, match nd_data s i with Some u => ss_mem sp u y | None => false end = ss_mem sp t y)).
    { unfold trip in Etrip. unfold node_mem in Hm. fold i in Hm. fold j in Hm.
      replace (x <? NN * M) with true in Hm by lia. cbn [andb] in Hm.
      destruct (nd_data s i) as [u|] eqn:Eu; injection Etrip as <- <- <-.
      - split; [eapply ni_sub; eauto|]. split; [exact Hm|]. reflexivity.
      - split; [apply ss_new_inv|]. split; [apply ss_new_mem|]. intros y. symmetry. apply ss_new_mem. }
    destruct Hti as [Hti [Htj Htm]].
    assert (Hwin : imin <= nd_imin s /\ imin <= i /\ nd_imax s <= imax /\ i <= imax /\ imax < NN /\ imin <= NN).
    { assert (H1 := ni_max s Hs). assert (H2 := ni_min s Hs). unfold trip in Etrip.
      destruct (nd_data s i) as [u|] eqn:Eu; injection Etrip as <- <- <-.
      - assert (H3 := ni_win s Hs i u Hi Eu). lia.
      - lia. }
    destruct (ss_insert _ _ sp t j Hti Hmod Htj) as [t' [Hins [Hti' [Hmem' Hcur']]]].
    rewrite Hins. cbn [bind]. eexists. split; [reflexivity|].
    set (occ' := if so_empty sub t then _ else _).
    set (s' := {| nd_data := _; nd_occ := _; nd_n := _; nd_imin := _; nd_imax := _ |}).
    assert (Hmem : forall k, node_mem s' k = (k =? x) || node_mem s k).
    { intros k. unfold s'. rewrite mem_replace by exact Hi. unfold node_mem.
      destruct (N.eqb_spec k x) as [->|Hk].
      - fold i. fold j. rewrite N.eqb_refl, Hmem', N.eqb_refl. replace (x <? NN * M) with true by lia. reflexivity.
      - cbn [orb]. f_equal. destruct (N.eqb_spec (k / M) i) as [Hki|]; [|reflexivity].
        rewrite Hmem', Hki, Htm.
        replace (k mod M =? j) with false; [reflexivity|]. symmetry. apply N.eqb_neq. intros E.
        apply Hk. destruct (div_split k M HM) as [Hkd _]. rewrite Hkd, Hki, E. symmetry. exact Hd. }
    split; [|split; [exact Hmem|]].
    - constructor.
      + intros i0 t0 Hi0. unfold s', upd. cbn [nd_data]. destruct (N.eqb_spec i0 i) as [->|].
        * intros [= <-]. exact Hti'.
        * intros E. eapply ni_sub; eauto.
      + intros q Hq. unfold s'. cbn [nd_occ]. unfold occ'. destruct (so_empty sub t); [|apply ni_occ; assumption].
        unfold upd. destruct (N.eqb_spec q (i / 64)) as [->|]; [|apply ni_occ; assumption].
        apply word_lor_lt; [apply ni_occ; assumption | apply N.mod_lt; lia].
      + intros k Hk.
        assert (Hne : nonempty s' k <-> k = i \/ nonempty s k).
        { unfold nonempty, s', upd. cbn [nd_data]. destruct (N.eqb_spec k i) as [->|Hki].
          - split; [auto|]. intros _. exists t', j. split; [reflexivity|]. rewrite Hmem', N.eqb_refl. reflexivity.
          - split; [auto|]. intros [?|H]; [contradiction|exact H]. }
        rewrite Hne. rewrite <- (ni_bit s Hs k Hk).
        unfold s'. cbn [nd_occ]. unfold occ'.
        destruct (so_empty sub t) eqn:Ee.
        * rewrite bit_upd_set by assumption. rewrite orb_true_iff, N.eqb_eq. reflexivity.
        * split; [auto|]. intros [->|H]; [|exact H].
          apply ni_bit; try assumption.
          assert (Hex : exists y, ss_mem sp t y = true).
          { assert (Hcard : ~ (forall y, ss_mem sp t y = false)) by (rewrite <- (ss_empty _ _ sp t Hti); congruence).
            destruct (ss_begin _ _ sp t Hti) as [b [c [_ [Hl _]]]]. destruct c as [y|].
            - exists y. apply Hl.
            - exfalso. apply Hcard. intros y. apply Hl. lia. }
          destruct Hex as [y Hy]. unfold nonempty. rewrite <- Htm in Hy.
          destruct (nd_data s i) as [u|]; [|discriminate]. exists u, y. auto.
      + intros k u Hk. unfold s', upd. cbn [nd_data nd_imin nd_imax]. destruct (N.eqb_spec k i) as [->|]; [lia|].
        intros E. assert (H := ni_win s Hs k u Hk E). lia.
      + unfold s'. cbn [nd_imax]. lia.
      + unfold s'. cbn [nd_imin]. lia.
      + eapply card_add; [apply ni_card; exact Hs|exact Hm|exact Hmem].
    - intros it c. destruct c as [y|]; [|intros H; exact H].
      intros [H1 [H2 [b [u [H3 [H4 [H5 H6]]]]]]]. split; [exact H1|]. split; [exact H2|].
      unfold s', upd. cbn [nd_data]. destruct (N.eqb_spec (y / M) i) as [Hyi|].
      + exists b, t'. repeat split; try assumption. apply Hcur'.
        unfold trip in Etrip. rewrite <- Hyi, H4 in Etrip. injection Etrip as <- _ _. exact H6.
      + exists b, u. auto.
  Qed.

  Lemma node_erase_spec s x : node_inv s -> x < NN * M -> node_mem s x = true ->
    exists s', node_erase sub NN M s x = Some s' /\ node_inv s' /\
      (forall k, node_mem s' k = negb (k =? x) && node_mem s k) /\
      (forall it c, node_cur s it c -> node_cur s' it c).
  Proof.
    intros Hs Hx Hm. assert (Hi := idx_lt x Hx). destruct (div_split x M HM) as [Hd Hmod].
    unfold node_erase, node_hi, node_lo. cbv zeta. rewrite rd_data_ok by exact Hi. cbn [bind].
    set (i := x / M) in *. set (j := x mod M) in *.
    assert (Hm' := Hm). unfold node_mem in Hm'. fold i in Hm'. fold j in Hm'.
    apply andb_prop in Hm' as [_ Hm'].
    destruct (nd_data s i) as [t|] eqn:Et; [|discriminate].
    assert (Hti := ni_sub s Hs i t Hi Et).
    destruct (ss_erase _ _ sp t j Hti Hmod Hm') as [t' [Her [Hti' [Hmem' Hcur']]]].
    rewrite Her. cbn [bind]. eexists. split; [reflexivity|].
    set (occ' := if so_empty sub t' then _ else _).
    set (s' := {| nd_data := _; nd_occ := _; nd_n := _; nd_imin := _; nd_imax := _ |}).
    assert (Hmem : forall k, node_mem s' k = negb (k =? x) && node_mem s k).
    { intros k. unfold s'. rewrite mem_replace by exact Hi. unfold node_mem.
      destruct (N.eqb_spec k x) as [->|Hk].
      - fold i. fold j. rewrite N.eqb_refl, Hmem', N.eqb_refl. cbn. apply andb_false_r.
      - cbn [negb andb]. f_equal. destruct (N.eqb_spec (k / M) i) as [Hki|]; [|reflexivity].
        rewrite Hmem', Hki, Et.
        replace (k mod M =? j) with false; [reflexivity|]. symmetry. apply N.eqb_neq. intros E.
        apply Hk. destruct (div_split k M HM) as [Hkd _]. rewrite Hkd, Hki, E. symmetry. exact Hd. }
    destruct (card_remove _ _ _ _ (ni_card s Hs) Hm Hmem) as [Hn0 Hc'].
    split; [|split; [exact Hmem|]].
    - constructor.
      + intros i0 t0 Hi0. unfold s', upd. cbn [nd_data]. destruct (N.eqb_spec i0 i) as [->|].
        * intros [= <-]. exact Hti'.
        * intros E. eapply ni_sub; eauto.
      + intros q Hq. unfold s'. cbn [nd_occ]. unfold occ'. destruct (so_empty sub t'); [|apply ni_occ; assumption].
        unfold upd. destruct (N.eqb_spec q (i / 64)) as [->|]; [|apply ni_occ; assumption].
        apply word_ldiff_lt, ni_occ; assumption.
      + intros k Hk. unfold s' at 1. cbn [nd_occ]. unfold occ'.
        assert (Hother : k <> i -> (nonempty s' k <-> nonempty s k)).
        { intros Hki. unfold nonempty, s', upd. cbn [nd_data]. destruct (N.eqb_spec k i); [contradiction|]. reflexivity. }
        assert (Hsame : nonempty s' i <-> exists y, ss_mem sp t' y = true).
        { unfold nonempty, s', upd. cbn [nd_data]. rewrite N.eqb_refl. split.
          - intros [u [y [[= <-] H]]]. exists y. exact H.
          - intros [y H]. exists t', y. auto. }
        destruct (so_empty sub t') eqn:Ee.
        * assert (Hall := proj1 (ss_empty _ _ sp t' Hti') Ee).
          rewrite bit_upd_clear by assumption. destruct (N.eqb_spec k i) as [->|Hki]; cbn [negb andb].
          -- split; [discriminate|]. intros H. apply Hsame in H as [y H]. rewrite Hall in H. discriminate.
          -- rewrite Hother by exact Hki. apply ni_bit; assumption.
        * destruct (N.eq_dec k i) as [->|Hki].
          -- split; intros _.
             ++ apply Hsame.
                assert (Hcard : ~ (forall y, ss_mem sp t' y = false)) by (rewrite <- (ss_empty _ _ sp t' Hti'); congruence).
                destruct (ss_begin _ _ sp t' Hti') as [b [c [_ [Hl _]]]]. destruct c as [y|].
                ** exists y. apply Hl.
                ** exfalso. apply Hcard. intros y. apply Hl. lia.
             ++ apply ni_bit; try assumption. exists t, j. auto.
          -- rewrite Hother by exact Hki. apply ni_bit; assumption.
      + intros k u Hk. unfold s', upd. cbn [nd_data nd_imin nd_imax]. destruct (N.eqb_spec k i) as [->|].
        * intros _. eapply ni_win; eauto.
        * intros E. eapply ni_win; eauto.
      + apply (ni_max s Hs).
      + apply (ni_min s Hs).
      + unfold s' at 2. cbn [nd_n]. unfold pred64. replace (nd_n s =? 0) with false by lia. exact Hc'.
    - intros it c. destruct c as [y|]; [|intros H; exact H].
      intros [H1 [H2 [b [u [H3 [H4 [H5 H6]]]]]]]. split; [exact H1|]. split; [exact H2|].
      unfold s', upd. cbn [nd_data]. destruct (N.eqb_spec (y / M) i) as [Hyi|].
      + exists b, t'. repeat split; try assumption. apply Hcur'. rewrite Hyi in H4. congruence.
      + exists b, u. auto.
  Qed.

  Lemma node_new_inv : node_inv (node_new NN).
  Proof.
    constructor; cbn [nd_data nd_occ nd_n nd_imin nd_imax node_new]; try (intros; discriminate); try lia.
    - intros i Hi. split.
      + unfold bit. rewrite N.bits_0, andb_false_r. discriminate.
      + intros [t [j [H _]]]. discriminate.
    - exists []. split; [constructor|]. split; [|reflexivity]. intros x. unfold node_mem.
      cbn [nd_data]. rewrite andb_false_r. split; [intros []|discriminate].
  Qed.

  Definition node_spec : set_spec (node_ops sub oob sub_null_ok NN M) (NN * M).
  Proof.
    refine (@Build_set_spec _ _ (node_ops sub oob sub_null_ok NN M) (NN * M) node_inv node_mem node_cur
              _ node_new_inv _ _ _ _ _ node_insert_spec node_erase_spec
              node_begin_spec node_last_spec _ node_next_spec node_prev_spec _).
    - intros s j _ H. unfold node_mem in H. apply andb_prop in H as [H _]. apply N.ltb_lt. exact H.
    - intros j. unfold node_mem. cbn [node_ops so_new node_new nd_data]. apply andb_false_r.
    - intros s it c. cbn [so_deref node_ops]. unfold node_deref, node_cur. destruct c as [x|].
      + intros [Hx [Hit [b [t [Hsub [Et [Hti Hcur]]]]]]]. assert (Hi := idx_lt x Hx).
        rewrite Hit, Hsub. replace (x / M <? NN) with true by lia.
        rewrite (ss_deref _ _ sp _ _ _ Hcur). f_equal.
        destruct (div_split x M HM) as [Hd _]. symmetry. exact Hd.
      + intros H. replace (it_i it <? NN) with false by lia. reflexivity.
    - intros s it j [H _]. exact H.
    - intros s Hs. cbn [so_empty node_ops]. unfold node_empty. rewrite N.eqb_eq.
      apply (card_zero _ _ (ni_card s Hs)).
    - intros s x Hs Hx. cbn [so_contains node_ops]. unfold node_contains, node_hi, node_lo.
      assert (Hi := idx_lt x Hx). destruct (div_split x M HM) as [Hd Hmod].
      rewrite rd_data_ok by exact Hi. cbn [bind]. unfold node_mem. replace (x <? NN * M) with true by lia.
      cbn [andb]. destruct (nd_data s (x / M)) as [t|] eqn:Et; [|reflexivity].
      apply (ss_contains _ _ sp); [eapply ni_sub; eauto|exact Hmod].
    - intros s x Hs Hx. destruct (node_lower_spec' s x Hs Hx) as [it [c [H1 [H2 [H3 _]]]]].
      exists it, c. auto.
    - intros s a b c d Ha Hb. cbn [so_eq node_ops]. unfold node_eq.
      destruct d as [y|].
      + destruct Hb as [Hy [Hib [bb [tb [Hsb [Etb [_ Hcb]]]]]]]. assert (Hyi := idx_lt y Hy).
        rewrite Hib, Hsb. replace (y / M <? NN) with true by lia.
        destruct c as [x|].
        * destruct Ha as [Hx [Hia [ba [ta [Hsa [Eta [_ Hca]]]]]]]. rewrite Hia, Hsa.
          destruct (N.eqb_spec (x / M) (y / M)) as [Hq|Hq]; cbn [andb].
          -- rewrite Hq in *. rewrite Etb in Eta. injection Eta as ->.
             rewrite (ss_eq _ _ sp _ _ _ _ _ Hca Hcb).
             destruct (div_split x M HM) as [Hxd _], (div_split y M HM) as [Hyd _].
             destruct (N.eqb_spec (x mod M) (y mod M)) as [Hr|Hr]; symmetry; [apply N.eqb_eq|apply N.eqb_neq]; congruence.
          -- symmetry. apply N.eqb_neq. congruence.
        * cbn in Ha. replace (it_i a =? y / M) with false by lia. reflexivity.
      + cbn in Hb. replace (it_i b <? NN) with false by lia.
        destruct c as [x|].
        * destruct Ha as [Hx [Hia _]]. rewrite Hia. assert (Hxi := idx_lt x Hx).
          replace (x / M <? NN) with true by lia. reflexivity.
        * cbn in Ha. replace (it_i a <? NN) with false by lia. reflexivity.
  Defined.
End Node.
