(** The whole pointer set against an abstract set of addresses. *)
From Coq Require Import NArith ZArith List Bool Lia Sorted ZifyBool ZifyNat ZifyN.
From Verif Require Import PointerSet PointerSetProofs PointerSetLevels PointerSetNode.
Import ListNotations.
Open Scope N_scope.

(** ** Specification *)

(** Addresses the collector stores: 8-aligned and in the lower half of a
    47-bit user address space. *)
Definition addr (a : N) : Prop := a mod 8 = 0 /\ a < 2^47.

(** An abstract set of addresses and the effect of an operation on it. *)
Definition aset := N -> bool.
Definition after (m : aset) (o : ps_op) : aset :=
  match o with
  | Insert a => fun x => (x =? a) || m x
  | Erase a => fun x => negb (x =? a) && m x
  end.
(** What the asserts of pointer_set.hpp:278 and 304 demand. *)
Definition allowed (m : aset) (o : ps_op) : Prop :=
  match o with
  | Insert a => addr a /\ m a = false
  | Erase a => addr a /\ m a = true
  end.
Fixpoint allowed_all (m : aset) (h : list ps_op) : Prop :=
  match h with [] => True | o :: h' => allowed m o /\ allowed_all (after m o) h' end.
Definition empty_set : aset := fun _ => false.
Definition members (h : list ps_op) : aset := fold_left after h empty_set.

(** ** Refinement *)
Section Top.
  Variable w : N.

  Definition mid_spec : set_spec (mid_ops (Some w)) (2^16 * 2^16).
  Proof.
    apply (node_spec (leaf_ops 16) (2^16) (2^16)
             (leaf_spec 16 ltac:(lia)) w false); reflexivity.
  Defined.
  Definition top_spec : set_spec (top_ops (Some w)) (2^12 * 2^32).
  Proof.
    apply (node_spec (mid_ops (Some w)) (2^12) (2^32) mid_spec w true); reflexivity.
  Defined.

  Definition reps (s : pset) (m : aset) : Prop :=
    ss_inv top_spec s /\ (forall x, ss_mem top_spec s x = m (8 * x)) /\ (forall a, m a = true -> addr a).

  Lemma addr_index a : addr a -> N.shiftr a 3 < 2^12 * 2^32 /\ a = 8 * N.shiftr a 3.
  Proof.
    intros [H1 H2]. rewrite N.shiftr_div_pow2. change (2^3) with 8.
    assert (H := N.div_mod a 8 ltac:(lia)). split; [|lia].
    apply N.div_lt_upper_bound; lia.
  Qed.

  Lemma eqb_8 x y : (8 * x =? 8 * y) = (x =? y).
  Proof. destruct (N.eqb_spec x y); [subst; apply N.eqb_refl|]. apply N.eqb_neq. lia. Qed.

  Lemma reps_new : reps (ps_new (Some w)) empty_set.
  Proof.
    split; [apply (ss_new_inv _ _ top_spec)|]. split; [|discriminate].
    intros x. apply (ss_new_mem _ _ top_spec).
  Qed.

  Lemma reps_step s m o : reps s m -> allowed m o ->
    exists s', ps_step (Some w) s o = Some s' /\ reps s' (after m o) /\
      (forall it c, ss_cur top_spec s it c -> ss_cur top_spec s' it c).
  Proof.
    intros [Hi [Hm Ha]] Hok. destruct o as [a|a]; destruct Hok as [Had Hin];
      destruct (addr_index a Had) as [Hx Hax]; cbn [ps_step].
    - destruct (ss_insert _ _ top_spec s (N.shiftr a 3) Hi Hx) as [s' [H1 [H2 [H3 H4]]]].
      { rewrite Hm, <- Hax. exact Hin. }
      exists s'. split; [exact H1|]. split; [|exact H4]. split; [exact H2|]. split.
      + intros x. rewrite H3, Hm. cbn [after]. rewrite Hax at 2. rewrite eqb_8. reflexivity.
      + intros b. cbn [after]. intros H. apply orb_prop in H as [H|H]; [|apply Ha; exact H].
        apply N.eqb_eq in H as ->. exact Had.
    - destruct (ss_erase _ _ top_spec s (N.shiftr a 3) Hi Hx) as [s' [H1 [H2 [H3 H4]]]].
      { rewrite Hm, <- Hax. exact Hin. }
      exists s'. split; [exact H1|]. split; [|exact H4]. split; [exact H2|]. split.
      + intros x. rewrite H3, Hm. cbn [after]. rewrite Hax at 2. rewrite eqb_8. reflexivity.
      + intros b. cbn [after]. intros H. apply andb_prop in H as [_ H]. apply Ha; exact H.
  Qed.

  Lemma reps_run_from h : forall s m, reps s m -> allowed_all m h ->
    exists s', fold_left (fun os o => do s <- os; ps_step (Some w) s o) h (Some s) = Some s' /\
      reps s' (fold_left after h m).
  Proof.
    induction h as [|o h IH]; intros s m Hr Hall.
    - exists s. split; [reflexivity|exact Hr].
    - destruct Hall as [Ho Hh]. destruct (reps_step s m o Hr Ho) as [s' [Hs [Hr' _]]].
      cbn [fold_left bind]. rewrite Hs. apply IH; assumption.
  Qed.

  Lemma reps_run h : allowed_all empty_set h ->
    exists s, ps_run (Some w) h = Some s /\ reps s (members h).
  Proof. intros H. apply reps_run_from; [apply reps_new|exact H]. Qed.

  Lemma contains_ok s m a : reps s m -> addr a -> ps_contains (Some w) s a = Some (m a).
  Proof.
    intros [Hi [Hm Ha]] Had. destruct (addr_index a Had) as [Hx Hax].
    unfold ps_contains. rewrite (ss_contains _ _ top_spec s _ Hi Hx), Hm, <- Hax. reflexivity.
  Qed.

  (** moving the least / greatest characterisation from indices to addresses *)
  Definition to_addr (c : option N) : option N := match c with Some x => Some (8 * x) | None => None end.

  Lemma least_addr s m x c : reps s m ->
    is_least_ge (ss_mem top_spec s) x c -> is_least_ge m (8 * x) (to_addr c).
  Proof.
    intros [Hi [Hm Ha]] Hl.
    assert (Hun : forall y, m y = true -> exists z, y = 8 * z /\ ss_mem top_spec s z = true).
    { intros y Hy. destruct (addr_index y (Ha y Hy)) as [_ E]. exists (N.shiftr y 3).
      split; [exact E|]. rewrite Hm, <- E. exact Hy. }
    destruct c as [k|]; cbn [to_addr is_least_ge] in *.
    - destruct Hl as [H1 [H2 H3]]. rewrite Hm in H1. split; [exact H1|]. split; [lia|].
      intros y Hy1 Hy2. destruct (m y) eqn:E; [|reflexivity].
      destruct (Hun y E) as [z [-> Hz]]. rewrite H3 in Hz by lia. discriminate.
    - intros y Hy1. destruct (m y) eqn:E; [|reflexivity].
      destruct (Hun y E) as [z [-> Hz]]. rewrite Hl in Hz by lia. discriminate.
  Qed.

  Lemma greatest_addr s m x c : reps s m ->
    is_greatest_lt (ss_mem top_spec s) x c -> is_greatest_lt m (8 * x) (to_addr c).
  Proof.
    intros [Hi [Hm Ha]] Hl.
    assert (Hun : forall y, m y = true -> exists z, y = 8 * z /\ ss_mem top_spec s z = true).
    { intros y Hy. destruct (addr_index y (Ha y Hy)) as [_ E]. exists (N.shiftr y 3).
      split; [exact E|]. rewrite Hm, <- E. exact Hy. }
    destruct c as [k|]; cbn [to_addr is_greatest_lt] in *.
    - destruct Hl as [H1 [H2 H3]]. rewrite Hm in H1. split; [exact H1|]. split; [lia|].
      intros y Hy1 Hy2. destruct (m y) eqn:E; [|reflexivity].
      destruct (Hun y E) as [z [-> Hz]]. rewrite H3 in Hz by lia. discriminate.
    - intros y Hy1. destruct (m y) eqn:E; [|reflexivity].
      destruct (Hun y E) as [z [-> Hz]]. rewrite Hl in Hz by lia. discriminate.
  Qed.

  Lemma deref_addr s it c : ss_cur top_spec s it c -> ps_deref (Some w) it = to_addr c.
  Proof.
    intros H. unfold ps_deref. rewrite (ss_deref _ _ top_spec _ _ _ H).
    destruct c as [x|]; [|reflexivity]. cbn [to_addr]. rewrite N.shiftl_mul_pow2. f_equal. change (2^3) with 8. lia.
  Qed.

  (** ** Iteration *)
  Definition from (P : N -> bool) (i : N) : N -> bool := fun x => (i <=? x) && P x.

  Lemma walk_ok s m : reps s m -> forall fuel it i c n,
    is_least_ge (ss_mem top_spec s) i c -> ss_cur top_spec s it c ->
    card (from (ss_mem top_spec s) i) n -> n < N.of_nat fuel ->
    exists l, ps_walk (Some w) fuel s it = Some l /\ StronglySorted N.lt l /\
      (forall a, In a l <-> m a = true /\ 8 * i <= a) /\ N.of_nat (length l) = n.
  Proof.
    intros Hr. assert (Hr' := Hr). destruct Hr' as [Hi [Hm Ha]].
    induction fuel as [|fuel IH]; intros it i c n Hl Hc Hcard Hf; [lia|].
    cbn [ps_walk]. rewrite (deref_addr s it c Hc).
    assert (Hla := least_addr s m i c Hr Hl).
    destruct c as [x|]; cbn [to_addr] in *.
    - destruct (ss_next _ _ top_spec s it x Hi Hc) as [it' [c' [H1 [H2 H3]]]].
      unfold ps_next. rewrite H1. cbn [bind].
      destruct Hl as [Hl1 [Hl2 Hl3]].
      destruct (card_remove _ (from (ss_mem top_spec s) (x + 1)) _ x Hcard) as [Hn0 Hcard'].
      { unfold from. rewrite Hl1. replace (i <=? x) with true by lia. reflexivity. }
      { intros y. unfold from. destruct (N.eqb_spec y x) as [->|Hyx]; cbn [negb andb].
        - replace (x + 1 <=? x) with false by lia. reflexivity.
        - destruct (N.leb_spec (x + 1) y) as [Hy|Hy]; destruct (N.leb_spec i y) as [Hy'|Hy']; cbn [andb]; try lia; try reflexivity.
          symmetry. apply Hl3; lia. }
      destruct (IH it' (x + 1) c' (n - 1) H2 H3 Hcard' ltac:(lia)) as [l [Hw' [Hs [Hin Hlen]]]].
      rewrite Hw'. cbn [bind]. eexists. split; [reflexivity|].
      assert (Hgt : Forall (N.lt (8 * x)) l).
      { apply Forall_forall. intros a Hina. apply Hin in Hina as [_ Hle]. lia. }
      split; [constructor; assumption|]. split; [|cbn [length]; lia].
      intros a. cbn [In]. rewrite Hin. destruct Hla as [Ha1 [Ha2 Ha3]]. split.
      + intros [<-|[H4 H5]]; [split; [exact Ha1|lia]|]. split; [exact H4|lia].
      + intros [H4 H5]. destruct (N.lt_total a (8 * x)) as [H6|[H6|H6]].
        * rewrite Ha3 in H4 by lia. discriminate.
        * left. congruence.
        * right. split; [exact H4|]. destruct (addr_index a (Ha a H4)) as [_ E]. lia.
    - exists []. split; [reflexivity|]. split; [constructor|]. split.
      + intros a. split; [intros []|]. intros [H1 H2]. rewrite Hla in H1 by lia. discriminate.
      + cbn [length]. symmetry. apply (card_zero _ _ Hcard). intros y. unfold from.
        destruct (N.leb_spec i y); [|reflexivity]. cbn [andb]. apply Hl. assumption.
  Qed.

  Lemma size_card s : ss_inv top_spec s -> card (ss_mem top_spec s) (ps_size s).
  Proof. intros H. exact (ni_card _ _ _ _ _ H). Qed.

  Lemma elements_ok s m : reps s m ->
    exists l, ps_elements (Some w) s = Some l /\ StronglySorted N.lt l /\
      (forall a, In a l <-> m a = true) /\ N.of_nat (length l) = ps_size s.
  Proof.
    intros Hr. assert (Hr' := Hr). destruct Hr' as [Hi [Hm Ha]].
    destruct (ss_begin _ _ top_spec s Hi) as [it [c [H1 [H2 H3]]]].
    unfold ps_elements, ps_begin. rewrite H1. cbn [bind].
    destruct (walk_ok s m Hr (Datatypes.S (N.to_nat (ps_size s))) it 0 c (ps_size s) H2 H3) as [l [W1 [W2 [W3 W4]]]].
    - eapply card_ext; [apply size_card; exact Hi|].
      intros x. unfold from. replace (0 <=? x) with true by lia. reflexivity.
    - lia.
    - exists l. split; [exact W1|]. split; [exact W2|]. split; [|exact W4].
      intros a. rewrite W3. split; [intros [H _]; exact H|]. intros H. split; [exact H|lia].
  Qed.

  Lemma lower_ok s m a : reps s m -> addr a ->
    exists it, ps_lower (Some w) s a = Some it /\ is_least_ge m a (ps_deref (Some w) it) /\
    exists it', ps_prev (Some w) s it = Some it' /\ is_greatest_lt m a (ps_deref (Some w) it').
  Proof.
    intros Hr Had. assert (Hr' := Hr). destruct Hr' as [Hi [Hm Ha]].
    destruct (addr_index a Had) as [Hx Hax].
    destruct (node_lower_spec' (mid_ops (Some w)) (2^12) (2^32) mid_spec w
                ltac:(reflexivity) ltac:(reflexivity) ltac:(reflexivity) ltac:(reflexivity) s (N.shiftr a 3) Hi Hx)
      as [it [c [H1 [H2 [H3 H4]]]]].
    exists it. split; [exact H1|].
    rewrite (deref_addr s it c H3). split.
    { rewrite Hax. apply (least_addr s m _ c Hr). exact H2. }
    destruct c as [x|].
    - destruct (ss_prev _ _ top_spec s it x Hi H3) as [it' [c' [P1 [P2 P3]]]].
      exists it'. split; [exact P1|]. rewrite (deref_addr s it' c' P3).
      assert (G := greatest_addr s m _ c' Hr P2).
      assert (L := least_addr s m _ _ Hr H2). cbn [to_addr is_least_ge] in L. rewrite <- Hax in L.
      destruct L as [L1 [L2 L3]].
      destruct (to_addr c') as [y|] eqn:Ey; cbn [is_greatest_lt] in *.
      + destruct G as [G1 [G2 G3]]. split; [exact G1|].
        assert (y < a) by (destruct (N.lt_ge_cases y a) as [|Hge]; [assumption|rewrite L3 in G1 by assumption; discriminate]).
        split; [assumption|]. intros z Z1 Z2. apply G3; lia.
      + intros z Hz. apply G. lia.
    - rewrite (H4 eq_refl).
      destruct (node_prev_end_spec (mid_ops (Some w)) (2^12) (2^32) mid_spec w true
                ltac:(reflexivity) ltac:(reflexivity) ltac:(reflexivity) ltac:(reflexivity) s Hi eq_refl)
        as [it' [c' [P1 [P2 P3]]]].
      exists it'. split; [exact P1|]. rewrite (deref_addr s it' c' P3).
      assert (G := greatest_addr s m _ c' Hr P2).
      assert (L := least_addr s m _ _ Hr H2). cbn [to_addr is_least_ge] in L. rewrite <- Hax in L.
      assert (Htop : forall z, m z = true -> z < 8 * (2^12 * 2^32)) by (intros z Hz; apply Ha in Hz as [_ Hz]; lia).
      destruct (to_addr c') as [y|] eqn:Ey; cbn [is_greatest_lt] in *.
      + destruct G as [G1 [G2 G3]]. split; [exact G1|].
        assert (y < a) by (destruct (N.lt_ge_cases y a) as [|Hge]; [assumption|rewrite L in G1 by assumption; discriminate]).
        split; [assumption|]. intros z Z1 Z2. apply G3; [assumption|]. destruct Had as [_ Had]. lia.
      + intros z Hz. apply G. destruct Had as [_ Had]. lia.
  Qed.

  (** An iterator pointing at [a] keeps working while other addresses, or [a]
      itself, are inserted or erased: [++] leads to the least member above. *)
  Lemma next_after_history s m it a h : reps s m -> ss_cur top_spec s it (Some (N.shiftr a 3)) -> addr a ->
    allowed_all m h ->
    exists s' it', fold_left (fun os o => do s <- os; ps_step (Some w) s o) h (Some s) = Some s' /\
      ps_next (Some w) s' it = Some it' /\
      is_least_ge (fold_left after h m) (a + 8) (ps_deref (Some w) it').
  Proof.
    intros Hr Hc Had Hh. revert s m Hr Hc Hh. induction h as [|o h IH]; intros s m Hr Hc Hh.
    - assert (Hr' := Hr). destruct Hr' as [Hi [Hm Ha]].
      destruct (ss_next _ _ top_spec s it _ Hi Hc) as [it' [c' [P1 [P2 P3]]]].
      exists s, it'. split; [reflexivity|]. split; [exact P1|].
      rewrite (deref_addr s it' c' P3). cbn [fold_left].
      destruct (addr_index a Had) as [Hx Hax].
      replace (a + 8) with (8 * (N.shiftr a 3 + 1)) by lia.
      apply (least_addr s m _ c' Hr P2).
    - destruct Hh as [Ho Hh]. destruct (reps_step s m o Hr Ho) as [s1 [Hs [Hr1 Hk]]].
      cbn [fold_left bind]. rewrite Hs. apply IH; auto.
  Qed.
End Top.

(** ** Statements used by the property file *)
Lemma history_ok w h : allowed_all empty_set h ->
  exists s l, ps_run (Some w) h = Some s /\
    (forall a, addr a -> ps_contains (Some w) s a = Some (members h a)) /\
    ps_elements (Some w) s = Some l /\ StronglySorted N.lt l /\
    (forall a, In a l <-> members h a = true) /\
    N.of_nat (length l) = ps_size s.
Proof.
  intros Hh. destruct (reps_run w h Hh) as [s [H1 H2]].
  destruct (elements_ok w s _ H2) as [l [E1 [E2 [E3 E4]]]].
  exists s, l. repeat split; try assumption; try apply E3.
  intros a Ha. apply contains_ok; assumption.
Qed.

Lemma history_lower w h : allowed_all empty_set h -> forall a, addr a ->
  exists s it it', ps_run (Some w) h = Some s /\ ps_lower (Some w) s a = Some it /\
    is_least_ge (members h) a (ps_deref (Some w) it) /\
    ps_prev (Some w) s it = Some it' /\ is_greatest_lt (members h) a (ps_deref (Some w) it').
Proof.
  intros Hh a Ha. destruct (reps_run w h Hh) as [s [H1 H2]].
  destruct (lower_ok w s _ a H2 Ha) as [it [L1 [L2 [it' [L3 L4]]]]].
  exists s, it, it'. auto.
Qed.

Lemma history_next w h1 h2 : allowed_all empty_set (h1 ++ h2) -> forall a, members h1 a = true ->
  exists s1 s2 it it', ps_run (Some w) h1 = Some s1 /\ ps_run (Some w) (h1 ++ h2) = Some s2 /\
    ps_lower (Some w) s1 a = Some it /\ ps_deref (Some w) it = Some a /\
    ps_next (Some w) s2 it = Some it' /\ is_least_ge (members (h1 ++ h2)) (a + 8) (ps_deref (Some w) it').
Proof.
  intros Hh a Ha.
  assert (Hsplit : forall h m, allowed_all m (h ++ h2) -> allowed_all m h /\ allowed_all (fold_left after h m) h2).
  { induction h as [|o h IH]; intros m; cbn [app allowed_all fold_left].
    - auto.
    - intros [Ho H]. apply IH in H as [H1 H2]. auto. }
  destruct (Hsplit h1 empty_set Hh) as [Hh1 Hh2].
  destruct (reps_run w h1 Hh1) as [s1 [R1 R2]].
  assert (Had : addr a) by (destruct R2 as [_ [_ R2]]; apply R2; exact Ha).
  destruct (addr_index a Had) as [Hx Hax].
  assert (R2' := R2). destruct R2' as [Hi [Hm Hall]].
  destruct (ss_lower _ _ (top_spec w) s1 _ Hi Hx) as [it [c [L1 [L2 L3]]]].
  assert (Hc : c = Some (N.shiftr a 3)).
  { assert (Hin : ss_mem (top_spec w) s1 (N.shiftr a 3) = true) by (rewrite Hm, <- Hax; exact Ha).
    destruct c as [x|]; cbn [is_least_ge] in L2.
    - destruct L2 as [L2a [L2b L2c]]. f_equal. destruct (N.lt_total x (N.shiftr a 3)) as [H|[H|H]]; try lia.
      rewrite L2c in Hin by lia. discriminate.
    - rewrite L2 in Hin by lia. discriminate. }
  subst c.
  destruct (next_after_history w s1 (members h1) it a h2 R2 L3 Had Hh2) as [s2 [it' [N1 [N2 N3]]]].
  exists s1, s2, it, it'. split; [exact R1|]. split.
  { unfold ps_run. rewrite fold_left_app. unfold ps_run in R1. rewrite R1. exact N1. }
  split; [exact L1|]. split.
  { rewrite (deref_addr w s1 it _ L3). cbn [to_addr]. rewrite <- Hax. reflexivity. }
  split; [exact N2|]. unfold members. rewrite fold_left_app. exact N3.
Qed.

(** The mutators and [contains] never touch the word past the end. *)
Lemma step_oob o o' s op : ps_step o s op = ps_step o' s op.
Proof.
  destruct op; cbn [ps_step]; unfold ps_insert, ps_erase;
    cbv beta iota delta [top_ops mid_ops node_ops so_insert so_erase node_insert node_erase so_new so_empty];
    reflexivity.
Qed.
Lemma contains_oob o o' s a : ps_contains o s a = ps_contains o' s a.
Proof.
  unfold ps_contains; cbv beta iota delta [top_ops mid_ops node_ops so_contains node_contains]; reflexivity.
Qed.
Lemma new_oob o o' : ps_new o = ps_new o'.
Proof. unfold ps_new. cbv beta iota delta [top_ops node_ops so_new]. reflexivity. Qed.
Lemma run_oob o o' h : ps_run o h = ps_run o' h.
Proof.
  unfold ps_run. rewrite (new_oob o o'). generalize (Some (ps_new o')) as os.
  induction h as [|op h IH]; intros os; cbn [fold_left].
  - reflexivity.
  - replace (do s <- os; ps_step o s op) with (do s <- os; ps_step o' s op).
    + apply IH.
    + destruct os as [s|]; cbn [bind]; [symmetry; apply step_oob|reflexivity].
Qed.

Lemma mutators_defined h : allowed_all empty_set h ->
  exists s, ps_run None h = Some s /\
    forall a, addr a -> ps_contains None s a = Some (members h a).
Proof.
  intros Hh. destruct (history_ok 0 h Hh) as [s [l [H1 [H2 _]]]].
  exists s. split; [rewrite <- H1; apply run_oob|].
  intros a Ha. rewrite (contains_oob None (Some 0)). apply H2. exact Ha.
Qed.
