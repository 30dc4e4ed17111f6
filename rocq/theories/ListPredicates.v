(** list?, circular-list? and dotted-list? decide what they should on every heap. *)
From Coq Require Import ZArith List Bool Lia PeanoNat.
From Verif Require Import Lists.
Import ListNotations.

(** ** Specification: following the cdr chain *)
Fixpoint chain (h : heap) (n : nat) (x : val) : option val :=
  match n with
  | O => Some x
  | S n => match x with
           | Ptr p => match nth_error h p with
                      | Some o => if pairp o then chain h n (second o) else None
                      | None => None
                      end
           | _ => None
           end
  end.
Definition pair_at (h : heap) (x : val) : Prop := exists p o, x = Ptr p /\ nth_error h p = Some o /\ pairp o = true.
Definition proper (h : heap) (x : val) : Prop := exists n, chain h n x = Some Nil.
Definition dotted (h : heap) (x : val) : Prop :=
  exists n w, chain h n x = Some w /\ ~ pair_at h w /\ w <> Nil.
Definition circular (h : heap) (x : val) : Prop :=
  forall n, exists w, chain h n x = Some w /\ pair_at h w.

Lemma is_pair_iff : forall h x, is_pair h x = true <-> pair_at h x.
Proof.
  intros h x. split.
  - destruct x as [|b|p]; cbn; try discriminate. destruct (nth_error h p) as [o|] eqn:E; [|discriminate].
    intros H. exists p, o. auto.
  - intros (p & o & -> & E & H). cbn. rewrite E. exact H.
Qed.
Lemma is_pair_cdr : forall h x, is_pair h x = true -> exists d, cdr h x = Done d /\ chain h 1 x = Some d.
Proof.
  intros h x H. apply is_pair_iff in H. destruct H as (p & o & -> & E & H).
  exists (second o). cbn. rewrite E, H. auto.
Qed.
Lemma chain_add : forall h m n x y, chain h m x = Some y -> chain h (m + n) x = chain h n y.
Proof.
  induction m as [|m IH]; intros n x y H; cbn in *; [congruence|].
  destruct x as [|b|p]; try discriminate. destruct (nth_error h p) as [o|]; [|discriminate].
  destruct (pairp o); [|discriminate]. apply IH. exact H.
Qed.
Lemma chain_prefix : forall h m n x w, chain h (m + n) x = Some w -> exists y, chain h m x = Some y.
Proof.
  induction m as [|m IH]; intros n x w H; cbn in *; [eauto|].
  destruct x as [|b|p]; try discriminate. destruct (nth_error h p) as [o|]; [|discriminate].
  destruct (pairp o); [|discriminate]. eapply IH. exact H.
Qed.
Lemma chain_step_pair : forall h n x w, chain h (S n) x = Some w -> is_pair h x = true.
Proof.
  intros h n x w H. cbn in H. destruct x as [|b|p]; try discriminate. cbn.
  destruct (nth_error h p) as [o|]; [|discriminate]. destruct (pairp o); [reflexivity|discriminate].
Qed.
Lemma chain_end_unique : forall h a b x w w', chain h a x = Some w -> is_pair h w = false ->
  chain h b x = Some w' -> is_pair h w' = false -> a = b.
Proof.
  intros h a b x w w' Ha Hw Hb Hw'.
  destruct (Nat.lt_trichotomy a b) as [L|[L|L]]; [|exact L|].
  - exfalso. replace b with (a + S (b - a - 1)) in Hb by lia.
    rewrite (chain_add _ _ _ _ _ Ha) in Hb. apply chain_step_pair in Hb. congruence.
  - exfalso. replace a with (b + S (a - b - 1)) in Ha by lia.
    rewrite (chain_add _ _ _ _ _ Hb) in Ha. apply chain_step_pair in Ha. congruence.
Qed.
Lemma veq_iff : forall x y, veq x y = true <-> x = y.
Proof.
  intros [|a|p] [|b|q]; cbn; split; intros H; try discriminate; try reflexivity.
  - apply Z.eqb_eq in H. congruence.
  - injection H as ->. apply Z.eqb_refl.
  - apply Nat.eqb_eq in H. congruence.
  - injection H as ->. apply Nat.eqb_refl.
Qed.

(** The common shape of the three predicates *)
Fixpoint floyd (fuel : nat) (h : heap) (meet : bool) (last : val -> bool) (x0 y0 : val) : res bool :=
  match fuel with
  | O => Loop
  | S fuel =>
    if is_pair h x0 then
      x1 <- cdr h x0;
      if is_pair h x1 then
        x2 <- cdr h x1; y1 <- cdr h y0;
        if veq x2 y1 then Done meet else floyd fuel h meet last x2 y1
      else Done (last x1)
    else Done (last x0)
  end.
Lemma proper_floyd : forall fuel h x y, is_proper_list fuel h x y = floyd fuel h false is_null x y.
Proof.
  induction fuel as [|fuel IH]; intros; [reflexivity|]. cbn [is_proper_list floyd].
  destruct (is_pair h x); [|reflexivity]. destruct (cdr h x) as [x1| |]; cbn; try reflexivity.
  destruct (is_pair h x1); [|reflexivity]. destruct (cdr h x1) as [x2| |]; cbn; try reflexivity.
  destruct (cdr h y) as [y1| |]; cbn; try reflexivity. rewrite IH. reflexivity.
Qed.
Lemma circular_floyd : forall fuel h x y, is_circular_list fuel h x y = floyd fuel h true (fun _ => false) x y.
Proof.
  induction fuel as [|fuel IH]; intros; [reflexivity|]. cbn [is_circular_list floyd].
  destruct (is_pair h x); [|reflexivity]. destruct (cdr h x) as [x1| |]; cbn; try reflexivity.
  destruct (is_pair h x1); [|reflexivity]. destruct (cdr h x1) as [x2| |]; cbn; try reflexivity.
  destruct (cdr h y) as [y1| |]; cbn; try reflexivity. rewrite IH. reflexivity.
Qed.
Lemma dotted_floyd : forall fuel h x y, is_dotted_list fuel h x y = floyd fuel h false (fun v => negb (is_null v)) x y.
Proof.
  induction fuel as [|fuel IH]; intros; [reflexivity|]. cbn [is_dotted_list floyd].
  destruct (is_pair h x); [|reflexivity]. destruct (cdr h x) as [x1| |]; cbn; try reflexivity.
  destruct (is_pair h x1); [|reflexivity]. destruct (cdr h x1) as [x2| |]; cbn; try reflexivity.
  destruct (cdr h y) as [y1| |]; cbn; try reflexivity. rewrite IH. reflexivity.
Qed.

(** A chain that ends at [w] *)
Lemma floyd_finite : forall fuel h meet last v n w i x0 y0,
  chain h n v = Some w -> is_pair h w = false ->
  2 * i <= n -> chain h (2 * i) v = Some x0 -> chain h i v = Some y0 -> n - 2 * i < fuel ->
  floyd fuel h meet last x0 y0 = Done (last w).
Proof.
  induction fuel as [|fuel IH]; intros h meet last v n w i x0 y0 Hn Hw Hi Hx Hy Hf; [lia|].
  assert (Hr : chain h (n - 2 * i) x0 = Some w).
  { rewrite <- (chain_add h (2 * i) (n - 2 * i) v x0 Hx). rewrite <- Hn. f_equal. lia. }
  cbn [floyd]. destruct (is_pair h x0) eqn:P0.
  2:{ assert (n - 2 * i = 0) by (eapply chain_end_unique; [exact Hr|exact Hw|reflexivity|exact P0]).
      rewrite H in Hr. cbn in Hr. congruence. }
  destruct (is_pair_cdr h x0 P0) as (x1 & -> & C1). cbn [rbind].
  destruct (n - 2 * i) as [|m] eqn:Em. { cbn in Hr. congruence. }
  change (S m) with (1 + m) in Hr. rewrite (chain_add _ _ _ _ _ C1) in Hr.
  destruct (is_pair h x1) eqn:P1.
  2:{ assert (m = 0) by (eapply chain_end_unique; [exact Hr|exact Hw|reflexivity|exact P1]).
      subst m. cbn in Hr. congruence. }
  destruct (is_pair_cdr h x1 P1) as (x2 & -> & C2). cbn [rbind].
  destruct m as [|m]. { cbn in Hr. congruence. }
  change (S m) with (1 + m) in Hr. rewrite (chain_add _ _ _ _ _ C2) in Hr.
  assert (Py : is_pair h y0 = true).
  { assert (Hy' : chain h (n - i) y0 = Some w).
    { rewrite <- (chain_add h i (n - i) v y0 Hy). rewrite <- Hn. f_equal. lia. }
    replace (n - i) with (S (n - i - 1)) in Hy' by lia. eapply chain_step_pair. exact Hy'. }
  destruct (is_pair_cdr h y0 Py) as (y1 & -> & D1). cbn [rbind].
  assert (Hx2 : chain h (2 * S i) v = Some x2).
  { replace (2 * S i) with (2 * i + (1 + 1)) by lia. rewrite (chain_add _ _ _ _ _ Hx).
    rewrite (chain_add _ _ _ _ _ C1). exact C2. }
  assert (Hy1 : chain h (S i) v = Some y1).
  { replace (S i) with (i + 1) by lia. rewrite (chain_add _ _ _ _ _ Hy). exact D1. }
  destruct (veq x2 y1) eqn:V.
  { exfalso. apply veq_iff in V. subst y1.
    assert (E1 : chain h (n - S i) x2 = Some w).
    { rewrite <- (chain_add h (S i) (n - S i) v x2 Hy1). rewrite <- Hn. f_equal. lia. }
    pose proof (chain_end_unique h _ _ _ _ _ E1 Hw Hr Hw). lia. }
  apply (IH h meet last v n w (S i)); try assumption; lia.
Qed.

(** Pigeonhole *)
Lemma dup_of_not_nodup : forall (l : list nat), ~ NoDup l ->
  exists i j x, i < j /\ nth_error l i = Some x /\ nth_error l j = Some x.
Proof.
  induction l as [|x l IH]; intros H; [exfalso; apply H; constructor|].
  destruct (in_dec Nat.eq_dec x l) as [I|I].
  - apply In_nth_error in I. destruct I as [n E]. exists 0, (S n), x. repeat split; [lia|exact E].
  - destruct IH as (i & j & y & L & E1 & E2).
    { intros N. apply H. constructor; assumption. }
    exists (S i), (S j), y. repeat split; [lia|exact E1|exact E2].
Qed.
Lemma nth_error_map_seq : forall {A} (f : nat -> A) n i, i < n -> nth_error (map f (seq 0 n)) i = Some (f i).
Proof.
  intros A f n i H. apply map_nth_error. rewrite (nth_error_nth' _ 0) by (rewrite seq_length; exact H).
  rewrite seq_nth by exact H. reflexivity.
Qed.
Lemma nth_error_map_seq_inv : forall {A} (f : nat -> A) n i x, nth_error (map f (seq 0 n)) i = Some x -> i < n /\ x = f i.
Proof.
  intros A f n i x H. assert (L : i < n).
  { apply nth_error_Some_length in H || (assert (i < length (map f (seq 0 n))) by (apply nth_error_Some; congruence);
      rewrite map_length, seq_length in *; assumption). }
  split; [exact L|]. rewrite nth_error_map_seq in H by exact L. congruence.
Qed.

Definition addr (h : heap) (v : val) (n : nat) : nat :=
  match chain h n v with Some (Ptr p) => p | _ => 0 end.

Lemma circular_meets : forall h v, circular h v ->
  exists i, 1 <= i <= length h /\ chain h (2 * i) v = chain h i v.
Proof.
  intros h v Hc.
  assert (Ha : forall n, chain h n v = Some (Ptr (addr h v n)) /\ addr h v n < length h).
  { intros n. destruct (Hc n) as (w & E & p & o & -> & Eo & _). unfold addr. rewrite E.
    split; [reflexivity|]. apply nth_error_Some. congruence. }
  set (N := length h). set (l := map (addr h v) (seq 0 (S N))).
  assert (ND : ~ NoDup l).
  { intros ND. assert (I : incl l (seq 0 N)).
    { intros x Hx. apply in_map_iff in Hx. destruct Hx as (n & <- & _). apply in_seq. pose proof (proj2 (Ha n)). fold N in H. lia. }
    apply NoDup_incl_length in I; [|exact ND]. unfold l in I. rewrite map_length, !seq_length in I. lia. }
  destruct (dup_of_not_nodup l ND) as (a & b & x & L & E1 & E2).
  unfold l in E1, E2. apply nth_error_map_seq_inv in E1, E2. destruct E1 as [La Ea], E2 as [Lb Eb].
  assert (Per : forall k, chain h (a + (b - a) * k) v = chain h a v).
  { assert (One : chain h (b - a) (Ptr (addr h v a)) = Some (Ptr (addr h v a))).
    { rewrite <- (chain_add h a (b - a) v _ (proj1 (Ha a))). replace (a + (b - a)) with b by lia.
      rewrite (proj1 (Ha b)). congruence. }
    induction k as [|k IH]; [f_equal; lia|].
    replace (a + (b - a) * S k) with (a + (b - a) + (b - a) * k) by lia.
    rewrite <- IH. rewrite (proj1 (Ha a)) in IH.
    rewrite (chain_add h (a + (b - a)) ((b - a) * k) v (Ptr (addr h v a))).
    2:{ replace (a + (b - a)) with b by lia. rewrite (proj1 (Ha b)). congruence. }
    rewrite (chain_add h a ((b - a) * k) v _ (proj1 (Ha a))). reflexivity. }
  set (lam := b - a) in *.
  (* a multiple of lam that is at least a and at least 1 *)
  assert (exists i, 1 <= i <= N /\ a <= i /\ exists k, i = lam * k) as (i & Hi & Hai & k & Hk).
  { destruct (Nat.eq_dec a 0).
    - exists lam. split; [unfold lam; lia|]. split; [lia|]. exists 1. lia.
    - pose proof (Nat.div_mod a lam ltac:(unfold lam; lia)) as D. pose proof (Nat.mod_upper_bound a lam ltac:(unfold lam; lia)).
      destruct (Nat.eq_dec (a mod lam) 0).
      + exists a. split; [lia|]. split; [lia|]. exists (a / lam). lia.
      + exists (lam * (a / lam + 1)). split; [split; [unfold lam in *; nia|nia]|]. split; [nia|]. eauto. }
  exists i. split; [exact Hi|].
  assert (Shift : forall n j, a <= n -> chain h (n + lam * j) v = chain h n v).
  { intros n j Hn. replace (n + lam * j) with (a + lam * j + (n - a)) by lia.
    rewrite (chain_add h (a + lam * j) (n - a) v (Ptr (addr h v a))).
    2:{ rewrite Per. apply Ha. }
    replace n with (a + (n - a)) at 2 by lia. symmetry. apply chain_add. apply Ha. }
  rewrite <- (Shift i k Hai). f_equal. lia.
Qed.

Lemma floyd_circular : forall h v meet last i, circular h v -> chain h (2 * i) v = chain h i v ->
  forall fuel j x0 y0, j < i -> chain h (2 * j) v = Some x0 -> chain h j v = Some y0 -> i - j <= fuel ->
  floyd fuel h meet last x0 y0 = Done meet.
Proof.
  intros h v meet last i Hc Hm. induction fuel as [|fuel IH]; intros j x0 y0 Hj Hx Hy Hf; [lia|].
  assert (P : forall n x, chain h n v = Some x -> is_pair h x = true).
  { intros n x E. destruct (Hc n) as (w & E' & Hw). rewrite E in E'. injection E' as ->. apply is_pair_iff. exact Hw. }
  cbn [floyd]. rewrite (P _ _ Hx). destruct (is_pair_cdr h x0 (P _ _ Hx)) as (x1 & -> & C1). cbn [rbind].
  assert (Hx1 : chain h (2 * j + 1) v = Some x1) by (rewrite (chain_add _ _ _ _ _ Hx); exact C1).
  rewrite (P _ _ Hx1). destruct (is_pair_cdr h x1 (P _ _ Hx1)) as (x2 & -> & C2). cbn [rbind].
  assert (Hx2 : chain h (2 * S j) v = Some x2).
  { replace (2 * S j) with (2 * j + 1 + 1) by lia. rewrite (chain_add _ _ _ _ _ Hx1). exact C2. }
  destruct (is_pair_cdr h y0 (P _ _ Hy)) as (y1 & -> & D1). cbn [rbind].
  assert (Hy1 : chain h (S j) v = Some y1).
  { replace (S j) with (j + 1) by lia. rewrite (chain_add _ _ _ _ _ Hy). exact D1. }
  destruct (veq x2 y1) eqn:V; [reflexivity|].
  destruct (Nat.eq_dec (S j) i) as [E|E].
  { exfalso. subst i. rewrite Hx2, Hy1 in Hm. injection Hm as Hm. apply veq_iff in Hm. congruence. }
  apply (IH (S j)); try assumption; lia.
Qed.

(** Every chain ends within the heap or never *)
Lemma chain_dichotomy : forall h v,
  (exists n w, n <= length h /\ chain h n v = Some w /\ is_pair h w = false) \/ circular h v.
Proof.
  intros h v.
  assert (D : forall m, (exists n w, n <= m /\ chain h n v = Some w /\ is_pair h w = false) \/
                        (forall n, n <= m -> exists w, chain h n v = Some w /\ is_pair h w = true)).
  { induction m as [|m [IH|IH]].
    - destruct (is_pair h v) eqn:E.
      + right. intros n Hn. exists v. replace n with 0 by lia. auto.
      + left. exists 0, v. auto.
    - left. destruct IH as (n & w & L & H). exists n, w. split; [lia|exact H].
    - destruct (IH m ltac:(lia)) as (w & E & P). destruct (is_pair_cdr h w P) as (d & _ & C).
      assert (Ed : chain h (S m) v = Some d).
      { replace (S m) with (m + 1) by lia. rewrite (chain_add _ _ _ _ _ E). exact C. }
      destruct (is_pair h d) eqn:Pd.
      + right. intros n Hn. destruct (Nat.eq_dec n (S m)); [subst; eauto|]. apply IH. lia.
      + left. exists (S m), d. auto. }
  destruct (D (length h)) as [H|H]; [left; exact H|right].
  (* length h + 1 pairs in a row: two are the same *)
  set (N := length h) in *. set (l := map (addr h v) (seq 0 (S N))).
  assert (Ha : forall n, n <= N -> chain h n v = Some (Ptr (addr h v n)) /\ addr h v n < N).
  { intros n Hn. destruct (H n Hn) as (w & E & P). apply is_pair_iff in P. destruct P as (p & o & -> & Eo & _).
    unfold addr. rewrite E. split; [reflexivity|]. apply nth_error_Some. congruence. }
  assert (ND : ~ NoDup l).
  { intros ND. assert (I : incl l (seq 0 N)).
    { intros x Hx. apply in_map_iff in Hx. destruct Hx as (n & <- & Hn). apply in_seq in Hn. apply in_seq.
      pose proof (proj2 (Ha n ltac:(lia))). lia. }
    apply NoDup_incl_length in I; [|exact ND]. unfold l in I. rewrite map_length, !seq_length in I. lia. }
  destruct (dup_of_not_nodup l ND) as (a & b & x & L & E1 & E2).
  unfold l in E1, E2. apply nth_error_map_seq_inv in E1, E2. destruct E1 as [La Ea], E2 as [Lb Eb].
  (* walk: every position is equal to a position at most b *)
  assert (W : forall n, exists m, m < b /\ chain h n v = chain h m v /\ m <= n).
  { induction n as [|n (m & Hm & E & Hle)]; [exists 0; repeat split; lia|].
    destruct (Ha m ltac:(lia)) as [Em _].
    assert (En : chain h (S n) v = chain h (S m) v).
    { replace (S n) with (n + 1) by lia. replace (S m) with (m + 1) by lia.
      rewrite (chain_add h n 1 v (Ptr (addr h v m))) by congruence.
      rewrite (chain_add h m 1 v (Ptr (addr h v m))) by congruence. reflexivity. }
    destruct (Nat.eq_dec (S m) b) as [Q|Q].
    - exists a. split; [exact L|]. split; [|lia]. rewrite En, Q.
      rewrite (proj1 (Ha a ltac:(lia))), (proj1 (Ha b ltac:(lia))). congruence.
    - exists (S m). repeat split; [lia|exact En|lia]. }
  intros n. destruct (W n) as (m & Hm & E & _). destruct (H m ltac:(lia)) as (w & Ew & P).
  exists w. split; [congruence|]. apply is_pair_iff. exact P.
Qed.

Inductive shape := Proper | Dotted | Circular.
Definition has_shape (h : heap) (v : val) (s : shape) : Prop :=
  match s with Proper => proper h v | Dotted => dotted h v | Circular => circular h v end.

Lemma predicates_decide : forall h v, exists s, has_shape h v s /\
  (forall s', has_shape h v s' -> s' = s) /\
  forall fuel, length h < fuel ->
    proper_p fuel h v = Done (match s with Proper => true | _ => false end) /\
    dotted_p fuel h v = Done (match s with Dotted => true | _ => false end) /\
    circular_p fuel h v = Done (match s with Circular => true | _ => false end).
Proof.
  intros h v. destruct (chain_dichotomy h v) as [(n & w & L & E & P)|Hc].
  - assert (Np : ~ pair_at h w) by (rewrite <- is_pair_iff; congruence).
    assert (Run : forall meet last fuel, length h < fuel -> floyd fuel h meet last v v = Done (last w)).
    { intros. eapply (floyd_finite fuel h meet last v n w 0); try eassumption; try reflexivity; lia. }
    assert (NC : ~ circular h v).
    { intros C. destruct (C n) as (w' & E' & Hp). rewrite E in E'. injection E' as <-. tauto. }
    destruct w as [|b|p].
    + exists Proper. split; [exists n; exact E|]. split.
      * intros [| |] Hs; [reflexivity| |tauto]. destruct Hs as (m & u & Eu & Nu & Nn).
        assert (n = m) by (eapply chain_end_unique; [exact E|exact P|exact Eu|];
          destruct (is_pair h u) eqn:Q; [apply is_pair_iff in Q; tauto|reflexivity]).
        subst m. congruence.
      * intros fuel Hf. unfold proper_p, dotted_p, circular_p.
        rewrite proper_floyd, dotted_floyd, circular_floyd, !Run by assumption. auto.
    + exists Dotted. split; [exists n, (Imm b); repeat split; [exact E|exact Np|discriminate]|]. split.
      * intros [| |] Hs; [|reflexivity|tauto]. destruct Hs as (m & Eu).
        assert (n = m) by (eapply chain_end_unique; [exact E|exact P|exact Eu|reflexivity]). subst m. congruence.
      * intros fuel Hf. unfold proper_p, dotted_p, circular_p.
        rewrite proper_floyd, dotted_floyd, circular_floyd, !Run by assumption. auto.
    + exists Dotted. split; [exists n, (Ptr p); repeat split; [exact E|exact Np|discriminate]|]. split.
      * intros [| |] Hs; [|reflexivity|tauto]. destruct Hs as (m & Eu).
        assert (n = m) by (eapply chain_end_unique; [exact E|exact P|exact Eu|reflexivity]). subst m. congruence.
      * intros fuel Hf. unfold proper_p, dotted_p, circular_p.
        rewrite proper_floyd, dotted_floyd, circular_floyd, !Run by assumption. auto.
  - exists Circular. split; [exact Hc|]. split.
    + intros [| |] Hs; [| |reflexivity]; exfalso.
      * destruct Hs as (m & Eu). destruct (Hc m) as (w & Ew & (p & o & -> & _)). congruence.
      * destruct Hs as (m & u & Eu & Nu & _). destruct (Hc m) as (w & Ew & Hw). congruence.
    + intros fuel Hf. destruct (circular_meets h v Hc) as (i & Hi & Hm).
      assert (Run : forall meet last, floyd fuel h meet last v v = Done meet).
      { intros. apply (floyd_circular h v meet last i Hc Hm fuel 0); try reflexivity; lia. }
      unfold proper_p, dotted_p, circular_p. rewrite proper_floyd, dotted_floyd, circular_floyd, !Run. auto.
Qed.
