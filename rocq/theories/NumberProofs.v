(** Proofs about exact arithmetic. *)
From Coq Require Import ZArith QArith Qreduction List Bool Lia Sorted.
From Verif Require Import Number.
Import ListNotations.
Open Scope Z_scope.

(** ** Specification: the rational number an exact number object denotes, and
    the objects the interpreter can hold. *)
Definition value (x : num) : Q := match x with Small z | Large z => inject_Z z | Ratio q => q end.
Definition valid (x : num) : Prop :=
  match x with Small z => -2^31 <= z < 2^31 | Large _ => True | Ratio q => Qred q = q end.
(** The object is an exact integer (exact-integer? accepts it) equal to z. *)
Definition is_int (x : num) (z : Z) : Prop := x = Small z \/ x = Large z.

Lemma valid_q q : Qred (Qred q) = Qred q.
Proof. apply Qred_complete, Qred_correct. Qed.

Lemma canon_wide_ok z : valid (canon_wide z) /\ is_int (canon_wide z) z.
Proof.
  unfold canon_wide. destruct (is_int32 z) eqn:E; cbn [valid]; split; auto; try (left; reflexivity); try (right; reflexivity).
  unfold is_int32, int32_min, int32_max in E. lia.
Qed.
Lemma is_int_value x z : is_int x z -> value x = inject_Z z.
Proof. intros [->| ->]; reflexivity. Qed.

Lemma canon_ratio_valid q : Qred q = q -> valid (canon_ratio q).
Proof. unfold canon_ratio. destruct (Z.pos (Qden q) =? 1); cbn [valid]; auto. Qed.
Lemma canon_ratio_value q : value (canon_ratio q) == q.
Proof.
  unfold canon_ratio. destruct (Z.pos (Qden q) =? 1) eqn:E; cbn [value]; [|reflexivity].
  apply Z.eqb_eq in E. unfold Qeq, inject_Z. cbn [Qnum Qden]. rewrite E. lia.
Qed.

Lemma to_q_value x : to_q x = value x.
Proof. destruct x; reflexivity. Qed.

Ltac int_case := rewrite ?(is_int_value _ _ (proj2 (canon_wide_ok _))); cbn [value canon_large].

Lemma add_ok x y : valid (n_add x y) /\ value (n_add x y) == value x + value y.
Proof.
  assert (G : forall x y, valid (canon_ratio (mpq_add (to_q x) (to_q y))) /\
                          value (canon_ratio (mpq_add (to_q x) (to_q y))) == value x + value y).
  { intros. split; [apply canon_ratio_valid, valid_q|].
    rewrite canon_ratio_value. unfold mpq_add. rewrite Qred_correct, !to_q_value. reflexivity. }
  destruct x as [a|a|a], y as [b|b|b]; unfold n_add; try apply G; split; try apply canon_wide_ok; try exact Logic.I;
    int_case; rewrite inject_Z_plus; reflexivity.
Qed.

Lemma inject_Z_minus a b : (inject_Z (a - b) == inject_Z a - inject_Z b)%Q.
Proof. unfold Z.sub. rewrite inject_Z_plus, inject_Z_opp. reflexivity. Qed.

Lemma sub_ok x y : valid (n_sub x y) /\ value (n_sub x y) == value x - value y.
Proof.
  assert (G : forall x y, valid (canon_ratio (mpq_sub (to_q x) (to_q y))) /\
                          value (canon_ratio (mpq_sub (to_q x) (to_q y))) == value x - value y).
  { intros. split; [apply canon_ratio_valid, valid_q|].
    rewrite canon_ratio_value. unfold mpq_sub. rewrite Qred_correct, !to_q_value. reflexivity. }
  destruct x as [a|a|a], y as [b|b|b]; unfold n_sub; try apply G; split; try apply canon_wide_ok; try exact Logic.I;
    int_case; rewrite inject_Z_minus; reflexivity.
Qed.

Lemma mul_ok x y : valid (n_mul x y) /\ value (n_mul x y) == value x * value y.
Proof.
  assert (G : forall x y, valid (canon_ratio (mpq_mul (to_q x) (to_q y))) /\
                          value (canon_ratio (mpq_mul (to_q x) (to_q y))) == value x * value y).
  { intros. split; [apply canon_ratio_valid, valid_q|].
    rewrite canon_ratio_value. unfold mpq_mul. rewrite Qred_correct, !to_q_value. reflexivity. }
  destruct x as [a|a|a], y as [b|b|b]; unfold n_mul; try apply G; split; try apply canon_wide_ok; try exact Logic.I;
    int_case; rewrite inject_Z_mult; reflexivity.
Qed.

(** Integers stay exact integer objects. *)
Lemma add_int x y a b : is_int x a -> is_int y b -> is_int (n_add x y) (a + b).
Proof. intros [->| ->] [->| ->]; unfold n_add; try (right; reflexivity). apply canon_wide_ok. Qed.
Lemma sub_int x y a b : is_int x a -> is_int y b -> is_int (n_sub x y) (a - b).
Proof. intros [->| ->] [->| ->]; unfold n_sub; try (right; reflexivity). apply canon_wide_ok. Qed.
Lemma mul_int x y a b : is_int x a -> is_int y b -> is_int (n_mul x y) (a * b).
Proof. intros [->| ->] [->| ->]; unfold n_mul; try (right; reflexivity). apply canon_wide_ok. Qed.

(** ** Division *)
Lemma ratio_nd_ok a b : b <> 0 -> exists q, ratio_nd a b = Ok q /\ Qred q = q /\ q == inject_Z a / inject_Z b.
Proof.
  intros Hb. destruct b as [|p|p]; [contradiction| |]; cbn [ratio_nd]; eexists; (split; [reflexivity|]);
    (split; [apply valid_q|]); rewrite Qred_correct; unfold Qdiv, Qinv, inject_Z, Qmult, Qeq; cbn [Qnum Qden]; lia.
Qed.

Lemma value_zero_num x : (~ value x == 0) -> Qnum (value x) <> 0.
Proof. intros H E. apply H. unfold Qeq. cbn [Qnum Qden]. lia. Qed.

Lemma div_ok x y : (~ value y == 0) -> exists r, n_div x y = Ok r /\ valid r /\ value r == value x / value y.
Proof.
  intros Hy.
  assert (G : exists r, obind (mpq_div (to_q x) (to_q y)) (fun q => Ok (canon_ratio q)) = Ok r /\ valid r /\ value r == value x / value y).
  { unfold mpq_div. rewrite !to_q_value. apply value_zero_num in Hy. apply Z.eqb_neq in Hy. rewrite Hy. cbn [obind].
    eexists. split; [reflexivity|]. split; [apply canon_ratio_valid, valid_q|]. rewrite canon_ratio_value, Qred_correct. reflexivity. }
  assert (Hi : forall b, value y = inject_Z b -> b <> 0).
  { intros b E E0. apply Hy. rewrite E, E0. reflexivity. }
  destruct x as [a|a|a], y as [b|b|b]; unfold n_div; try exact G;
    destruct (ratio_nd_ok a b (Hi b eq_refl)) as [q [E [V W]]]; rewrite E; cbn [obind]; eexists; (split; [reflexivity|]).
  - split; [exact V|exact W].
  - split; [apply canon_ratio_valid, V|rewrite canon_ratio_value; exact W].
  - split; [apply canon_ratio_valid, V|rewrite canon_ratio_value; exact W].
  - split; [apply canon_ratio_valid, V|rewrite canon_ratio_value; exact W].
Qed.

Lemma integral_den q z : Qred q = q -> q == inject_Z z -> Qden q = 1%positive /\ Qnum q = z.
Proof.
  intros V W. rewrite <- V. rewrite (Qred_complete _ _ W).
  unfold inject_Z, Qred. pose proof (Z.ggcd_gcd z 1) as H1. pose proof (Z.ggcd_correct_divisors z 1) as H2.
  destruct (Z.ggcd z 1) as [g [aa bb]]. cbn [fst] in H1. rewrite Z.gcd_1_r in H1. subst g.
  destruct H2 as [H2 H3]. replace bb with 1 by lia. replace aa with z by lia. split; reflexivity.
Qed.

Lemma div_int x y z : (~ value y == 0) -> ~ (exists a b, x = Small a /\ y = Small b) ->
  value x / value y == inject_Z z -> n_div x y = Ok (Large z).
Proof.
  intros Hy Hs Hz. destruct (div_ok x y Hy) as [r [E [V W]]]. rewrite Hz in W.
  assert (G : forall q, Qred q = q -> r = canon_ratio q -> r = Large z).
  { intros q Vq ->. rewrite canon_ratio_value in W. destruct (integral_den q z Vq W) as [D Nm].
    unfold canon_ratio. rewrite D. cbn [Z.eqb Pos.eqb]. rewrite Nm. reflexivity. }
  rewrite E. f_equal.
  assert (D : (exists q, Qred q = q /\ r = canon_ratio q) \/ (exists a b, x = Small a /\ y = Small b)).
  { assert (R : forall a b q, ratio_nd a b = Ok q -> Qred q = q).
    { intros a b q. destruct b as [|p|p]; cbn [ratio_nd]; [discriminate| |]; intros Hq;
        [assert (q = Qred (a # p)) as -> by congruence|assert (q = Qred (- a # p)) as -> by congruence]; apply valid_q. }
    destruct x as [a|a|a], y as [b|b|b]; unfold n_div in E; cbn [to_q] in E.
    all: try (right; do 2 eexists; split; reflexivity); left.
    all: match type of E with
         | obind (ratio_nd ?a ?b) _ = _ => destruct (ratio_nd a b) as [q| |] eqn:Er; [|discriminate..];
           cbn [obind] in E; injection E as <-; exists q; split; [eapply R; exact Er|reflexivity]
         | obind (mpq_div ?a ?b) _ = _ => unfold mpq_div in E; destruct (Qnum b =? 0); [discriminate|];
           cbn [obind] in E; exists (Qred (a / b)); split; [apply valid_q|congruence]
         end. }
  destruct D as [[q [Vq Hr]]|D]; [exact (G q Vq Hr)|contradiction].
Qed.

(** ** Remainder and modulo *)
Lemma rem_int x y n d : is_int x n -> is_int y d -> d <> 0 ->
  exists r, n_rem x y = Ok r /\ is_int r (Z.rem n d).
Proof.
  intros Hx Hy Hd. apply Z.eqb_neq in Hd.
  destruct Hx as [->| ->], Hy as [->| ->]; unfold n_rem; rewrite Hd; eexists; (split; [reflexivity|]); try (right; reflexivity).
  apply canon_wide_ok.
Qed.

Lemma mod_of_rem n d : d <> 0 -> Z.rem (Z.rem n d + d) d = n mod d.
Proof.
  intros Hd.
  pose proof (Z.quot_rem' n d) as E1. pose proof (Z.div_mod n d Hd) as E2.
  set (a := Z.rem n d) in *. set (q := Z.quot n d) in *.
  assert (Ha : Z.abs a < Z.abs d) by (apply Z.rem_bound_abs; exact Hd).
  assert (Hm : (0 <= n mod d < d) \/ (d < n mod d <= 0)) by (destruct (Z.lt_trichotomy d 0) as [?|[?|?]]; [right; apply Z.mod_neg_bound; lia|lia|left; apply Z.mod_pos_bound; lia]).
  set (b := n mod d) in *.
  assert (Hab : exists k, a = b + d * k) by (exists (n / d - q); nia).
  destruct Hab as [k Hk].
  assert (Hc : a = b \/ a + d = b).
  { destruct Hm as [Hm|Hm].
    - assert (k = 0 \/ k = -1) as [-> | ->] by nia; lia.
    - assert (k = 0 \/ k = -1) as [-> | ->] by nia; lia. }
  destruct Hc as [Hc|Hc].
  - rewrite Hc. destruct Hm as [Hm|Hm].
    + rewrite Z.rem_mod_nonneg by lia. replace (b + d) with (b + 1 * d) by lia. rewrite Z.mod_add by lia. apply Z.mod_small. lia.
    + rewrite <- (Z.opp_involutive (b + d)), Z.rem_opp_l by lia.
      rewrite <- (Z.rem_opp_r _ d) by lia. rewrite Z.rem_mod_nonneg by lia.
      replace (- (b + d)) with (- b + 1 * (- d)) by lia. rewrite Z.mod_add by lia. rewrite Z.mod_small by lia. lia.
  - rewrite Hc. destruct Hm as [Hm|Hm].
    + rewrite Z.rem_mod_nonneg by lia. apply Z.mod_small. lia.
    + rewrite <- (Z.opp_involutive b), Z.rem_opp_l by lia.
      rewrite <- (Z.rem_opp_r _ d) by lia. rewrite Z.rem_mod_nonneg by lia. rewrite Z.mod_small by lia. lia.
Qed.

Lemma modulo_int x y n d : is_int x n -> is_int y d -> d <> 0 ->
  exists r, n_modulo x y = Ok r /\ is_int r (n mod d).
Proof.
  intros Hx Hy Hd. unfold n_modulo. destruct (rem_int x y n d Hx Hy Hd) as [r [E H]]. rewrite E. cbn [obind].
  destruct (rem_int (n_add r y) y (Z.rem n d + d) d (add_int _ _ _ _ H Hy) Hy Hd) as [r' [E' H']].
  exists r'. split; [exact E'|]. rewrite <- mod_of_rem by exact Hd. exact H'.
Qed.

(** ** Comparison *)
Lemma cmp_ok x y : cmp x y = Qcompare (value x) (value y).
Proof.
  destruct x as [a|a|a], y as [b|b|b]; cbn [cmp to_q value]; try reflexivity;
    unfold Qcompare, inject_Z; cbn [Qnum Qden]; rewrite !Z.mul_1_r; reflexivity.
Qed.
Lemma n_eq_ok x y : n_eq x y = true <-> value x == value y.
Proof. unfold n_eq. rewrite cmp_ok, Qeq_alt. destruct (_ ?= _)%Q; split; congruence. Qed.
Lemma n_lt_ok x y : n_lt x y = true <-> (value x < value y)%Q.
Proof. unfold n_lt. rewrite cmp_ok, Qlt_alt. destruct (_ ?= _)%Q; split; congruence. Qed.
Lemma n_gt_ok x y : n_gt x y = true <-> (value y < value x)%Q.
Proof. unfold n_gt. rewrite cmp_ok, Qgt_alt. destruct (_ ?= _)%Q; split; congruence. Qed.
Lemma n_le_ok x y : n_le x y = true <-> (value x <= value y)%Q.
Proof. unfold n_le, n_gt. rewrite cmp_ok, Qle_alt. destruct (_ ?= _)%Q; cbn; split; congruence. Qed.
Lemma n_ge_ok x y : n_ge x y = true <-> (value y <= value x)%Q.
Proof. unfold n_ge, n_lt. rewrite cmp_ok, Qge_alt. destruct (_ ?= _)%Q; cbn; split; congruence. Qed.

Lemma no_adjacent_sorted p R xs : (forall x y, negb (p x y) = true <-> R x y) ->
  no_adjacent p xs = true <-> Sorted R xs.
Proof.
  intros H. induction xs as [|x xs IH]; [split; [constructor|reflexivity]|].
  destruct xs as [|y xs]; [split; [repeat constructor|reflexivity]|].
  cbn [no_adjacent]. rewrite andb_true_iff, H. cbn [no_adjacent] in IH. rewrite IH. split.
  - intros [H1 H2]. constructor; [exact H2|]. constructor. exact H1.
  - intros Hs. inversion Hs as [|? ? Hs1 Hh]; subst. inversion Hh; subst. auto.
Qed.
Lemma no_adjacent_strong p R xs : (forall x y, negb (p x y) = true <-> R x y) ->
  (forall x y z, R x y -> R y z -> R x z) -> no_adjacent p xs = true <-> StronglySorted R xs.
Proof.
  intros H T. rewrite (no_adjacent_sorted p R xs H). split; [apply Sorted_StronglySorted|apply StronglySorted_Sorted].
  intros x y z. apply T.
Qed.

Lemma s_eq_ok xs : s_eq xs = true <-> StronglySorted (fun x y => value x == value y) xs.
Proof.
  apply no_adjacent_strong; [|intros x y z; apply Qeq_trans].
  intros x y. unfold n_ne. rewrite negb_involutive. apply n_eq_ok.
Qed.
Lemma s_lt_ok xs : s_lt xs = true <-> StronglySorted (fun x y => (value x < value y)%Q) xs.
Proof.
  apply no_adjacent_strong; [|intros x y z; apply Qlt_trans].
  intros x y. unfold n_ge. rewrite negb_involutive. apply n_lt_ok.
Qed.
Lemma s_le_ok xs : s_le xs = true <-> StronglySorted (fun x y => (value x <= value y)%Q) xs.
Proof. apply no_adjacent_strong; [|intros x y z; apply Qle_trans]. exact n_le_ok. Qed.
Lemma s_gt_ok xs : s_gt xs = true <-> StronglySorted (fun x y => (value y < value x)%Q) xs.
Proof.
  apply no_adjacent_strong; [|intros x y z H1 H2; apply (Qlt_trans _ _ _ H2 H1)].
  intros x y. unfold n_le. rewrite negb_involutive. apply n_gt_ok.
Qed.
Lemma s_ge_ok xs : s_ge xs = true <-> StronglySorted (fun x y => (value y <= value x)%Q) xs.
Proof. apply no_adjacent_strong; [|intros x y z H1 H2; apply (Qle_trans _ _ _ H2 H1)]. exact n_ge_ok. Qed.
