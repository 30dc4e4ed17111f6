(** Lemmas: the arithmetic of doubles (Floats.SpecFloat) rounds as RoundingSpec.v says. *)
From Coq Require Import ZArith QArith Qreduction Qround Qabs Qpower Lia Lqa ZifyBool List Bool Floats.SpecFloat.
From Verif Require Import Number NumberProofs NumberRounding Flonum FlonumProofs FlonumSpec FlonumProofs2 FlonumProofs3 RoundingSpec.
Open Scope Z_scope.

(** ** Shifting to the right *)
(** x is between m and m + 1 where the location says *)
Definition located (m : Z) (l : location) (x : Q) : Prop :=
  match l with
  | loc_Exact => x == inject_Z m
  | loc_Inexact c => inject_Z m < x /\ x < inject_Z (m + 1) /\ Qcompare x (inject_Z m + (1 # 2)) = c
  end%Q.
Definition located_r (r : shr_record) (x : Q) : Prop := 0 <= shr_m r /\ located (shr_m r) (loc_of_shr_record r) x.

Lemma inject_succ m : (inject_Z (m + 1) == inject_Z m + 1)%Q.
Proof. rewrite inject_Z_plus. reflexivity. Qed.
Lemma inject_double m : (inject_Z (2 * m) == 2 * inject_Z m)%Q.
Proof. rewrite inject_Z_mult. reflexivity. Qed.

Lemma shr_1_ok r x : located_r r x -> located_r (shr_1 r) (x * (1 # 2)).
Proof.
  destruct r as [m r s]. unfold located_r. cbn [shr_m]. intros [P H]. split.
  { cbn [shr_1]. destruct m as [|[p|p|]|]; cbn [shr_m]; lia. }
  assert (Hm : exists h b, m = 2 * h + (if b : bool then 1 else 0) /\ shr_1 {| shr_m := m; shr_r := r; shr_s := s |} =
    {| shr_m := h; shr_r := b; shr_s := r || s |}).
  { destruct m as [|[p|p|]|]; [exists 0, false|exists (Zpos p), true|exists (Zpos p), false|exists 0, true|lia]; split; reflexivity || lia. }
  destruct Hm as (h & b & -> & ->). cbn [shr_m]. cbn [loc_of_shr_record located] in *.
  assert (E : (inject_Z (2 * h + (if b then 1 else 0)) == 2 * inject_Z h + (if b then 1 else 0))%Q).
  { rewrite inject_Z_plus, inject_double. destruct b; reflexivity. }
  destruct r, s; cbn [orb loc_of_shr_record located] in *; rewrite ?inject_succ, ?E in H; rewrite <- ?Qlt_alt, <- ?Qgt_alt, <- ?Qeq_alt in H;
    destruct b; cbn [orb loc_of_shr_record located]; rewrite ?inject_succ, <- ?Qlt_alt, <- ?Qgt_alt, <- ?Qeq_alt; lra.
Qed.
Lemma iter_ok p : forall r x, located_r r x -> located_r (iter_pos shr_1 p r) (x * p2 (Zneg p)).
Proof.
  assert (C : forall r x y, (x == y)%Q -> located_r r x -> located_r r y).
  { intros r x y E [A B]. split; [exact A|]. destruct (loc_of_shr_record r); cbn [located] in *; rewrite <- E; exact B. }
  induction p as [p IH|p IH|]; intros r x H; cbn [iter_pos].
  - refine (C _ _ _ _ (IH _ _ (IH _ _ (shr_1_ok _ _ H)))).
    rewrite <- Qmult_assoc, <- p2_add. change (1 # 2) with (p2 (-1)). rewrite <- Qmult_assoc, <- p2_add. replace (-1 + (Zneg p + Zneg p)) with (Zneg p~1) by lia. reflexivity.
  - refine (C _ _ _ _ (IH _ _ (IH _ _ H))). rewrite <- Qmult_assoc, <- p2_add. replace (Zneg p + Zneg p) with (Zneg p~0) by lia. reflexivity.
  - exact (shr_1_ok _ _ H).
Qed.
Lemma located_r_comp r x y : (x == y)%Q -> located_r r x -> located_r r y.
Proof.
  intros E [A B]. split; [exact A|]. destruct (loc_of_shr_record r); cbn [located] in *; rewrite <- E; exact B.
Qed.
Lemma loc_of_loc m l : loc_of_shr_record (shr_record_of_loc m l) = l /\ shr_m (shr_record_of_loc m l) = m.
Proof. destruct l as [|[]]; split; reflexivity. Qed.
Lemma shr_ok m l e n x : 0 <= m -> 0 <= n -> located m l x ->
  exists r, shr (shr_record_of_loc m l) e n = (r, e + n) /\ located_r r (x * p2 (- n)).
Proof.
  intros P N H. assert (H0 : located_r (shr_record_of_loc m l) x).
  { destruct (loc_of_loc m l) as [E1 E2]. unfold located_r. rewrite E1, E2. auto. }
  destruct n as [|p|p]; [| |lia]; cbn [shr].
  - eexists. split; [rewrite Z.add_0_r; reflexivity|]. eapply located_r_comp; [|exact H0]. change (p2 (- 0)) with 1%Q. ring.
  - eexists. split; [reflexivity|]. exact (iter_ok p _ _ H0).
Qed.

(** ** Rounding to an integer *)
Lemma int_gap (a b : Z) : a < b -> (inject_Z a + 1 <= inject_Z b)%Q.
Proof. intros H. rewrite <- inject_succ, <- inject_le. lia. Qed.
Ltac gaps z m :=
  destruct (Z.lt_trichotomy z m) as [G|[G|G]]; [|subst z|];
  [pose proof (int_gap _ _ G)| |pose proof (int_gap _ _ G);
    try (destruct (Z.eq_dec z (m + 1)) as [G'|G']; [subst z; rewrite ?inject_succ in *|
      let X := fresh in assert (X : m + 1 < z) by lia; pose proof (int_gap _ _ X); rewrite ?inject_succ in *])].
Lemma Qabs_case' q : (0 <= q /\ Qabs q == q \/ q < 0 /\ Qabs q == - q)%Q.
Proof. destruct (Qlt_le_dec q 0) as [L|L]; [right|left]; split; try exact L; [apply Qabs_neg|apply Qabs_pos]; lra. Qed.
Lemma round_int m l x : located m l x -> rounds_even x (round_nearest_even m l).
Proof.
  intros H. split; intros z'.
  - destruct l as [|[]]; cbn [located round_nearest_even] in *; rewrite <- ?Qlt_alt, <- ?Qgt_alt, <- ?Qeq_alt, ?inject_succ in H.
    + assert (Z0 : (Qabs (x - inject_Z m) == 0)%Q) by (rewrite H; setoid_replace (inject_Z m - inject_Z m)%Q with 0%Q by ring; reflexivity).
      rewrite Z0. apply Qabs_nonneg.
    + destruct (Z.even m); rewrite ?inject_succ;
        (gaps z' m; repeat match goal with |- context [Qabs ?a] => destruct (Qabs_case' a) as [[? ->]|[? ->]] end; lra).
    + gaps z' m; repeat match goal with |- context [Qabs ?a] => destruct (Qabs_case' a) as [[? ->]|[? ->]] end; lra.
    + rewrite ?inject_succ. gaps z' m; repeat match goal with |- context [Qabs ?a] => destruct (Qabs_case' a) as [[? ->]|[? ->]] end; lra.
  - intros Hq. destruct l as [|[]]; cbn [located round_nearest_even] in *; rewrite <- ?Qlt_alt, <- ?Qgt_alt, <- ?Qeq_alt, ?inject_succ in H.
    + left. assert (Z0 : (Qabs (x - inject_Z m) == 0)%Q) by (rewrite H; setoid_replace (inject_Z m - inject_Z m)%Q with 0%Q by ring; reflexivity).
      rewrite Z0 in Hq. symmetry in Hq. assert (E : (inject_Z z' == inject_Z m)%Q).
      { destruct (Qabs_case' (x - inject_Z z')) as [[? E]|[? E]]; rewrite E in Hq; lra. }
      unfold Qeq, inject_Z in E. cbn in E. lia.
    + right. destruct (Z.even m) eqn:Ev; [apply Z.even_spec, Ev|]. apply Z.even_spec. rewrite Z.even_add, Ev. reflexivity.
    + left. gaps z' m; try reflexivity; exfalso; revert Hq; repeat match goal with |- context [Qabs ?a] => destruct (Qabs_case' a) as [[? ->]|[? ->]] end; lra.
    + left. rewrite ?inject_succ in Hq. gaps z' m; try reflexivity; exfalso; revert Hq; repeat match goal with |- context [Qabs ?a] => destruct (Qabs_case' a) as [[? ->]|[? ->]] end; lra.
Qed.

(** ** Rounding to a double *)
Definition neg (r : ext) : ext := match r with Fin v => Fin (- v) | PInf => NInf | NInf => PInf | NaN => NaN end.
Definition signed (s : bool) (q : Q) : Q := if s then (- q)%Q else q.
Definition sign_of (f : double) : bool := match f with S754_zero s | S754_infinity s | S754_finite s _ _ => s | S754_nan => false end.

Lemma representable_comp a b : (a == b)%Q -> representable a -> representable b.
Proof. intros E (m & e & A & B). exists m, e. rewrite <- E. auto. Qed.
Lemma representable_opp a : representable a -> representable (- a).
Proof. intros (m & e & A & B & C). exists (- m), e. rewrite A, inject_Z_opp. split; [ring|]. split; [lia|exact C]. Qed.
Lemma closest_comp q q' v v' : (q == q')%Q -> (v == v')%Q -> closest q v -> closest q' v'.
Proof.
  intros E F [A B]. split; [eapply representable_comp; eassumption|]. intros y R. rewrite <- E, <- F. apply B, R.
Qed.
Lemma closest_opp q v : closest q v -> closest (- q) (- v).
Proof.
  intros [A B]. split; [apply representable_opp, A|]. intros y R. specialize (B (- y)%Q (representable_opp _ R)).
  setoid_replace (- q - - v)%Q with (- (q - v))%Q by ring. setoid_replace (- q - y)%Q with (- (q - - y))%Q by ring.
  rewrite !Qabs_opp. exact B.
Qed.
Lemma even_comp v v' : (v == v')%Q -> even_digits v -> even_digits v'.
Proof. intros E (m & e & A & B). exists m, e. rewrite <- E. auto. Qed.
Lemma even_opp v : even_digits v -> even_digits (- v).
Proof.
  intros (m & e & A & B & C & D & K). exists (- m), e. rewrite A, inject_Z_opp. repeat split; try lia; [ring|].
  destruct K as [k ->]. exists (- k). lia.
Qed.
Lemma rounds_to_comp q q' r : (q == q')%Q -> rounds_to q r -> rounds_to q' r.
Proof.
  intros E. destruct r as [v| | |]; cbn [rounds_to]; rewrite ?E; try tauto.
  intros (A & B & C). split; [rewrite <- E; exact A|]. split; [exact (closest_comp _ _ _ _ E (Qeq_refl v) B)|].
  intros y H. apply C. apply (closest_comp q' q y y); [symmetry; exact E|reflexivity|exact H].
Qed.
Lemma rounds_to_value q v v' : (v == v')%Q -> rounds_to q (Fin v) -> rounds_to q (Fin v').
Proof.
  intros E (A & B & C). split; [exact A|]. split; [exact (closest_comp _ _ _ _ (Qeq_refl q) E B)|].
  intros y H. destruct (C y H) as [D|D]; [left; rewrite <- E; exact D|right; exact (even_comp _ _ E D)].
Qed.
Lemma rounds_to_neg q r : rounds_to q r -> rounds_to (- q) (neg r).
Proof.
  destruct r as [v| | |]; cbn [rounds_to neg]; [|lra|lra|tauto].
  intros (A & B & C). split; [rewrite Qabs_opp; exact A|]. split; [apply closest_opp, B|].
  intros y H. destruct (C (- y)%Q) as [D|D]; [|left; rewrite <- D; ring|right; apply even_opp, D].
  apply closest_opp in H. revert H. apply closest_comp; [ring|reflexivity].
Qed.

Lemma abs_inject z : (Qabs (inject_Z z) == inject_Z (Z.abs z))%Q.
Proof. reflexivity. Qed.
Lemma abs_scaled z e : (Qabs (inject_Z z * p2 e) == inject_Z (Z.abs z) * p2 e)%Q.
Proof. rewrite Qabs_Qmult, (Qabs_pos (p2 e)) by (apply Qlt_le_weak, p2_pos). reflexivity. Qed.
Lemma scale_le a b e : (a <= b)%Q -> (a * p2 e <= b * p2 e)%Q.
Proof. intros H. apply Qmult_le_compat_r; [exact H|apply Qlt_le_weak, p2_pos]. Qed.
Lemma scale_lt a b e : (a < b)%Q <-> (a * p2 e < b * p2 e)%Q.
Proof. symmetry. apply Qmult_lt_r, p2_pos. Qed.
Lemma unscale x e : (x * p2 e * p2 (- e) == x)%Q.
Proof. rewrite <- Qmult_assoc, p2_opp. ring. Qed.
Lemma unscale' x e : (x * p2 (- e) * p2 e == x)%Q.
Proof. rewrite <- Qmult_assoc, (Qmult_comm (p2 (- e))), p2_opp. ring. Qed.

(** a representable number that is not below 2^(t + 52), or any for the least exponent, is
    a multiple of 2^t *)
Lemma multiple y t : representable y -> (t = -1074 \/ (p2 (t + 52) <= Qabs y)%Q) -> exists z, (y == inject_Z z * p2 t)%Q.
Proof.
  intros (a & b & Ey & Ha & Hb) H.
  assert (L : t <= b).
  { destruct H as [-> |H]; [lia|]. rewrite Ey, abs_scaled in H.
    assert (p2 (t + 52) < p2 (53 + b))%Q; [|apply p2_lt_inv in H0; lia].
    eapply Qle_lt_trans; [exact H|]. rewrite p2_add. apply scale_lt. rewrite p2_Z, <- inject_lt by lia. exact Ha. }
  exists (a * 2 ^ (b - t)). rewrite Ey, inject_Z_mult, <- p2_Z, <- Qmult_assoc, <- p2_add by lia.
  replace (b - t + t) with b by lia. reflexivity.
Qed.

(** the nearest multiple of 2^t is the nearest representable number *)
Lemma nearest_multiple X t N : (0 <= X)%Q -> rounds_even X N -> t = -1074 \/ (inject_Z (2 ^ 52) <= X)%Q ->
  representable (inject_Z N * p2 t) ->
  closest (X * p2 t) (inject_Z N * p2 t) /\
  (forall y, closest (X * p2 t) y -> (y == inject_Z N * p2 t)%Q \/ Z.Even N).
Proof.
  intros P [R1 R2] T Rep.
  assert (D : forall a b, (Qabs (a * p2 t - b * p2 t) == Qabs (a - b) * p2 t)%Q).
  { intros a b. setoid_replace (a * p2 t - b * p2 t)%Q with ((a - b) * p2 t)%Q by ring.
    rewrite Qabs_Qmult, (Qabs_pos (p2 t)) by (apply Qlt_le_weak, p2_pos). reflexivity. }
  assert (K : forall y, representable y ->
    (Qabs (X * p2 t - inject_Z N * p2 t) < Qabs (X * p2 t - y))%Q \/ exists z, (y == inject_Z z * p2 t)%Q).
  { intros y Ry. destruct (Qlt_le_dec y (p2 (t + 52))) as [L|L].
    - destruct T as [-> |T]; [right; apply multiple; auto|]. left.
      apply Qle_lt_trans with (Qabs (X * p2 t - inject_Z (2 ^ 52) * p2 t))%Q.
      + rewrite !D. apply scale_le, R1.
      + replace (t + 52) with (52 + t) in L by lia. rewrite p2_add, p2_Z in L by lia.
        pose proof (scale_le _ _ t T). destruct (Qabs_case' (X * p2 t - inject_Z (2 ^ 52) * p2 t)) as [[? ->]|[? ->]];
          destruct (Qabs_case' (X * p2 t - y)) as [[? ->]|[? ->]]; lra.
    - right. apply multiple; [exact Ry|]. right. eapply Qle_trans; [exact L|apply Qle_Qabs]. }
  split.
  - split; [exact Rep|]. intros y Ry. destruct (K y Ry) as [L|[z E]]; [apply Qlt_le_weak, L|].
    rewrite E, !D. apply scale_le, R1.
  - intros y [Ry C]. destruct (K y Ry) as [L|[z E]].
    + exfalso. specialize (C _ Rep). lra.
    + specialize (C _ Rep). rewrite E in C. rewrite !D in C. apply Qmult_le_r in C; [|apply p2_pos].
      destruct (R2 z) as [-> |Ev]; [apply Qle_antisym; [apply R1|exact C]|left; exact E|right; exact Ev].
Qed.
Lemma limit_p2 : (limit == (inject_Z (2 ^ 53) - (1 # 2)) * p2 971)%Q.
Proof.
  unfold limit. change (Qpower 2 1024) with (p2 1024). change (Qpower 2 970) with (p2 970).
  replace 1024 with (53 + 971) by lia. replace 970 with (-1 + 971) by lia. rewrite !p2_add, (p2_Z 53) by lia.
  change (p2 (-1)) with (1 # 2). ring.
Qed.
Lemma zdigits m : 0 <= m -> 0 <= Zdigits2 m /\ m < 2 ^ Zdigits2 m /\ (0 < m -> 2 ^ (Zdigits2 m - 1) <= m /\ 0 < Zdigits2 m).
Proof.
  intros H. destruct m as [|p|p]; [cbn; lia| |lia].
  change (Zdigits2 (Zpos p)) with (Zpos (digits2_pos p)). rewrite digits2_log2.
  pose proof (Z.log2_spec (Zpos p) ltac:(lia)) as [A B]. pose proof (Z.log2_nonneg (Zpos p)).
  replace (Z.log2 (Zpos p) + 1 - 1) with (Z.log2 (Zpos p)) by lia. unfold Z.succ in B. lia.
Qed.
Lemma located_bounds m l x : located m l x -> (inject_Z m <= x /\ x < inject_Z (m + 1))%Q.
Proof.
  rewrite inject_succ. destruct l; cbn [located]; rewrite ?inject_succ; [intros ->|intros (A & B & _)]; lra.
Qed.
Lemma rounds_bounds x n a b : rounds_even x n -> (inject_Z a <= x)%Q -> (x <= inject_Z b)%Q -> a <= n <= b.
Proof.
  intros [R _] A B. split.
  - destruct (Z_le_gt_dec a n) as [|G]; [assumption|exfalso]. specialize (R a). pose proof (int_gap n a ltac:(lia)).
    revert R. destruct (Qabs_case' (x - inject_Z n)) as [[? ->]|[? ->]]; destruct (Qabs_case' (x - inject_Z a)) as [[? ->]|[? ->]]; lra.
  - destruct (Z_le_gt_dec n b) as [|G]; [assumption|exfalso]. specialize (R b). pose proof (int_gap b n ltac:(lia)).
    revert R. destruct (Qabs_case' (x - inject_Z n)) as [[? ->]|[? ->]]; destruct (Qabs_case' (x - inject_Z b)) as [[? ->]|[? ->]]; lra.
Qed.

(** the shape of what is computed *)
Lemma round_shape s m e l x : 0 <= m -> located m l x -> e <= fexp prec emax (Zdigits2 m + e) ->
  let t := fexp prec emax (Zdigits2 m + e) in let X := (x * p2 (e - t))%Q in
  exists N, rounds_even X N /\ 0 <= N <= 2 ^ 53 /\ (0 <= X)%Q /\ (X < inject_Z (2 ^ 53))%Q /\
    -1074 <= t /\ (t = -1074 \/ (inject_Z (2 ^ 52) <= X)%Q /\ 2 ^ 52 <= N) /\
    binary_round_aux prec emax s m e l =
      if N =? 2 ^ 53 then (if t + 1 <=? 971 then S754_finite s (2 ^ 52) (t + 1) else S754_infinity s)
      else match N with
           | Zpos p => if t <=? 971 then S754_finite s p t else S754_infinity s
           | _ => S754_zero s
           end.
Proof.
  intros P H T. set (D := Zdigits2 m) in *. set (t := fexp prec emax (D + e)) in *. cbv zeta.
  assert (Ht : t = Z.max (D + e - 53) (-1074)) by reflexivity.
  destruct (zdigits m P) as (D0 & D1 & D2). fold D in D0, D1, D2.
  destruct (shr_ok m l e (t - e) x P ltac:(lia) H) as (r & E & Pr & Lr).
  replace (- (t - e)) with (e - t) in Lr by lia. replace (e + (t - e)) with t in E by lia.
  set (X := (x * p2 (e - t))%Q) in *. pose proof (round_int _ _ _ Lr) as R. set (N := round_nearest_even _ _) in *.
  destruct (located_bounds _ _ _ H) as [B1 B2].
  assert (X0 : (0 <= X)%Q).
  { apply Qmult_le_0_compat; [|apply Qlt_le_weak, p2_pos]. eapply Qle_trans; [|exact B1]. change 0%Q with (inject_Z 0). rewrite <- inject_le. exact P. }
  assert (X1 : (X < inject_Z (2 ^ 53))%Q).
  { rewrite <- p2_Z by lia. apply Qlt_le_trans with (p2 D * p2 (e - t))%Q.
    - apply scale_lt. rewrite p2_Z by lia. eapply Qlt_le_trans; [exact B2|]. rewrite <- inject_le. lia.
    - rewrite <- p2_add. apply p2_le. lia. }
  assert (X2 : t = -1074 \/ (inject_Z (2 ^ 52) <= X)%Q).
  { destruct (Z.eq_dec t (-1074)) as [->|NE]; [left; reflexivity|right].
    assert (0 < m). { destruct (Z.eq_dec m 0) as [Z0|]; [|lia]. unfold D in Ht. rewrite Z0 in Ht. cbn in Ht. lia. }
    rewrite <- p2_Z by lia. apply Qle_trans with (p2 (D - 1) * p2 (e - t))%Q.
    - rewrite <- p2_add. apply p2_le. lia.
    - apply scale_le. rewrite p2_Z by lia. eapply Qle_trans; [|exact B1]. rewrite <- inject_le. lia. }
  assert (NB : 0 <= N <= 2 ^ 53) by (apply (rounds_bounds X); [exact R|exact X0|apply Qlt_le_weak; exact X1]).
  exists N. split; [exact R|]. split; [exact NB|]. split; [exact X0|]. split; [exact X1|]. split; [lia|]. split.
  { destruct X2 as [|X2]; [left; assumption|right]. split; [exact X2|]. apply (rounds_bounds X N _ (2 ^ 53) R X2). apply Qlt_le_weak; exact X1. }
  unfold binary_round_aux. unfold shr_fexp at 1. fold D t. rewrite E. fold N.
  change (emax - prec) with 971.
  destruct (N =? 2 ^ 53) eqn:EN.
  - apply Z.eqb_eq in EN. rewrite EN. unfold shr_fexp. change (Zdigits2 (2 ^ 53)) with 54.
    replace (fexp prec emax (54 + t) - t) with 1 by (unfold fexp, emin, prec, emax; lia).
    cbn [shr]. change (shr_record_of_loc (2 ^ 53) loc_Exact) with {| shr_m := 2 ^ 53; shr_r := false; shr_s := false |}.
    change (iter_pos shr_1 1 {| shr_m := 2 ^ 53; shr_r := false; shr_s := false |}) with {| shr_m := 2 ^ 52; shr_r := false; shr_s := false |}.
    reflexivity.
  - assert (NN : N < 2 ^ 53) by lia. destruct (zdigits N ltac:(lia)) as (N0 & N1 & N2).
    assert (ND : Zdigits2 N <= 53).
    { destruct (Z.eq_dec N 0) as [->|]; [cbn; lia|]. destruct (N2 ltac:(lia)) as [N3 N4].
      destruct (Z_le_gt_dec (Zdigits2 N) 53) as [|G]; [assumption|]. exfalso.
      pose proof (Z.pow_le_mono_r 2 53 (Zdigits2 N - 1) ltac:(lia) ltac:(lia)). lia. }
    assert (S0 : shr_fexp prec emax N t loc_Exact = ({| shr_m := N; shr_r := false; shr_s := false |}, t)).
    { unfold shr_fexp. cbn [shr_record_of_loc].
      assert (K : fexp prec emax (Zdigits2 N + t) - t <= 0) by (unfold fexp, emin, prec, emax; lia).
      destruct (fexp prec emax (Zdigits2 N + t) - t); try reflexivity. lia. }
    rewrite S0. cbn [shr_m]. destruct N; [reflexivity|reflexivity|lia].
Qed.

Theorem round_aux_ok s m e l x : 0 <= m -> located m l x -> e <= fexp prec emax (Zdigits2 m + e) ->
  let f := binary_round_aux prec emax s m e l in
  vfloat f /\ sign_of f = s /\ rounds_to (signed s (x * p2 e)) (fext f).
Proof.
  intros P H T. destruct (round_shape s m e l x P H T) as (N & R & NB & X0 & X1 & Ht & HX & E). cbv zeta. rewrite E. clear E.
  set (t := fexp prec emax (Zdigits2 m + e)) in *. set (X := (x * p2 (e - t))%Q) in *.
  assert (XE : (x * p2 e == X * p2 t)%Q).
  { unfold X. rewrite <- Qmult_assoc, <- p2_add. replace (e - t + t) with e by lia. reflexivity. }
  assert (Sgn : forall f, vfloat f -> sign_of f = s -> rounds_to (X * p2 t) (fext (SFabs f)) ->
    vfloat f /\ sign_of f = s /\ rounds_to (signed s (x * p2 e)) (fext f)).
  { intros f V S0 K. split; [exact V|]. split; [exact S0|]. destruct s; cbn [signed].
    - apply rounds_to_comp with (- (X * p2 t))%Q; [rewrite XE; reflexivity|]. apply rounds_to_neg in K.
      destruct f as [s|s| |s m' e']; cbn [sign_of] in S0; try discriminate; subst s; cbn [SFabs fext fval neg] in *; try exact K.
      eapply rounds_to_value; [|exact K]. cbn [cond_Zopp]. rewrite inject_Z_opp. ring.
    - apply rounds_to_comp with (X * p2 t)%Q; [symmetry; exact XE|].
      destruct f as [s|s| |s m' e']; cbn [sign_of] in S0; try subst s; exact K. }
  assert (XT : (X * p2 t < p2 (53 + t))%Q) by (rewrite p2_add, (p2_Z 53) by lia; apply scale_lt, X1).
  assert (NotE : N <> 2 ^ 53 -> (X < inject_Z (2 ^ 53) - (1 # 2))%Q).
  { intros NE. destruct (Qlt_le_dec X (inject_Z (2 ^ 53) - (1 # 2))) as [|G]; [assumption|exfalso].
    destruct R as [R1 R2]. pose proof (int_gap N (2 ^ 53) ltac:(lia)) as Gp. specialize (R1 (2 ^ 53)).
    destruct (Z.eq_dec N (2 ^ 53 - 1)) as [EN|EN].
    - assert (Ev : ~ Z.Even N) by (rewrite EN; intros Ev; apply Z.even_spec in Ev; vm_compute in Ev; discriminate).
      destruct (R2 (2 ^ 53)) as [R3|R3]; [|lia|exact (Ev R3)].
      revert R1. destruct (Qabs_case' (X - inject_Z N)) as [[? ->]|[? ->]]; destruct (Qabs_case' (X - inject_Z (2 ^ 53))) as [[? ->]|[? ->]]; lra.
    - assert (Gp' : (inject_Z N + 1 <= inject_Z (2 ^ 53 - 1))%Q) by (apply int_gap; lia).
      pose proof (int_gap (2 ^ 53 - 1) (2 ^ 53) ltac:(lia)).
      revert R1. destruct (Qabs_case' (X - inject_Z N)) as [[? ->]|[? ->]]; destruct (Qabs_case' (X - inject_Z (2 ^ 53))) as [[? ->]|[? ->]]; lra. }
  assert (Big : forall u, 971 <= u -> u <= t \/ u = 971 /\ t = 971 -> (inject_Z (2 ^ 53) - (1 # 2) <= X)%Q \/ 971 < t ->
    (inject_Z (2 ^ 52) <= X)%Q -> rounds_to (X * p2 t) PInf).
  { intros u U1 U2 U3 U4. cbn [rounds_to]. rewrite limit_p2. destruct U3 as [U3|U3].
    - apply Qle_trans with (X * p2 971)%Q; [apply scale_le, U3|]. rewrite !(Qmult_comm X). apply Qmult_le_compat_r; [apply p2_le; lia|exact X0].
    - apply Qle_trans with (inject_Z (2 ^ 52) * p2 (1 + 971))%Q.
      + rewrite p2_add. change (p2 1) with 2%Q.
        setoid_replace (inject_Z (2 ^ 52) * (2 * p2 971))%Q with (inject_Z (2 ^ 53) * p2 971)%Q by (change (inject_Z (2 ^ 53)) with (2 * inject_Z (2 ^ 52))%Q; ring).
        apply scale_le. lra.
      + apply Qle_trans with (inject_Z (2 ^ 52) * p2 t)%Q; [|apply scale_le, U4].
        rewrite !(Qmult_comm (inject_Z (2 ^ 52))). apply Qmult_le_compat_r; [apply p2_le; lia|discriminate]. }
  assert (Small0 : t < 971 -> (X * p2 t < limit)%Q).
  { intros L. rewrite limit_p2. eapply Qlt_le_trans; [exact XT|]. apply Qle_trans with (p2 (52 + 971)); [apply p2_le; lia|].
    rewrite p2_add. apply scale_le. rewrite (p2_Z 52) by lia. vm_compute. discriminate. }
  assert (Xp : (Qabs (X * p2 t) == X * p2 t)%Q).
  { apply Qabs_pos. apply Qmult_le_0_compat; [exact X0|apply Qlt_le_weak, p2_pos]. }
  destruct (N =? 2 ^ 53) eqn:EN; [apply Z.eqb_eq in EN; subst N|apply Z.eqb_neq in EN].
  - assert (X52 : (inject_Z (2 ^ 52) <= X)%Q).
    { destruct (Qlt_le_dec X (inject_Z (2 ^ 52))) as [L|]; [exfalso|assumption].
      pose proof (rounds_bounds X (2 ^ 53) 0 (2 ^ 52) R X0 ltac:(lra)). lia. }
    destruct (t + 1 <=? 971) eqn:Et.
    + apply Sgn; [apply vfloat_iff; cbn; lia|reflexivity|].
      assert (V : (inject_Z (2 ^ 53) * p2 t == fval (S754_finite false (2 ^ 52) (t + 1)))%Q).
      { rewrite fval_abs, (Z.add_comm t 1), p2_add. change (p2 1) with 2%Q. change (inject_Z (2 ^ 53)) with (2 * inject_Z (2 ^ 52))%Q.
        change (inject_Z (Zpos (2 ^ 52))) with (inject_Z (2 ^ 52)). ring. }
      cbn [SFabs fext]. eapply rounds_to_value; [exact V|]. cbn [rounds_to]. split; [rewrite Xp; apply Small0; lia|].
      assert (Rep : representable (inject_Z (2 ^ 53) * p2 t)).
      { eapply representable_comp; [symmetry; exact V|]. apply fval_representable; [apply vfloat_iff; cbn; lia|reflexivity]. }
      destruct (nearest_multiple X t (2 ^ 53) X0 R) as [A B]; [destruct HX as [|[]]; auto|exact Rep|]. split; [exact A|].
      intros y Hy. right. exists (2 ^ 52), (t + 1). split; [rewrite V; reflexivity|]. repeat split; try lia. exists (2 ^ 51). reflexivity.
    + apply Sgn; [reflexivity|reflexivity|]. cbn [SFabs fext]. apply (Big 971); [lia|lia| |exact X52].
      destruct (Z.eq_dec t 971) as [->|]; [left|right; lia].
      destruct (Qlt_le_dec X (inject_Z (2 ^ 53) - (1 # 2))) as [L|]; [exfalso|assumption].
      destruct R as [R1 _]. specialize (R1 (2 ^ 53 - 1)).
      assert (Eq1 : (inject_Z (2 ^ 53 - 1) == inject_Z (2 ^ 53) - 1)%Q) by reflexivity. rewrite Eq1 in R1.
      revert R1. destruct (Qabs_case' (X - inject_Z (2 ^ 53))) as [[? ->]|[? ->]]; destruct (Qabs_case' (X - (inject_Z (2 ^ 53) - 1))) as [[? ->]|[? ->]]; lra.
  - specialize (NotE EN).
    assert (Core : representable (inject_Z N * p2 t) -> t <= 971 -> rounds_to (X * p2 t) (Fin (inject_Z N * p2 t))).
    { intros Rep Ht9. cbn [rounds_to]. split.
      - rewrite Xp. destruct (Z.eq_dec t 971) as [->|]; [|apply Small0; lia]. rewrite limit_p2. apply scale_lt, NotE.
      - destruct (nearest_multiple X t N X0 R) as [A B]; [destruct HX as [|[]]; auto|exact Rep|]. split; [exact A|].
        intros y Hy. destruct (B y Hy) as [|Ev]; [left; assumption|right]. exists N, t. split; [reflexivity|].
        repeat split; try lia. exact Ev. }
    assert (Rep : t <= 971 -> representable (inject_Z N * p2 t)).
    { intros L. exists N, t. split; [reflexivity|]. lia. }
    destruct N as [|p|p]; [| |lia].
    + apply Sgn; [reflexivity|reflexivity|]. assert (t = -1074) by lia. cbn [SFabs fext fval].
      eapply rounds_to_value; [|apply Core; [apply Rep; lia|lia]]. change (inject_Z 0) with 0%Q. ring.
    + destruct (t <=? 971) eqn:Et.
      * apply Sgn; [apply vfloat_iff; lia|reflexivity|]. cbn [SFabs fext].
        eapply rounds_to_value; [|apply Core; [apply Rep; lia|lia]]. rewrite fval_abs. reflexivity.
      * apply Sgn; [reflexivity|reflexivity|]. cbn [SFabs fext]. apply (Big 971); [lia|lia|right; lia|]. destruct HX as [|[]]; [lia|assumption].
Qed.

(** ** Results that need no rounding *)
Lemma rounds_self q : representable q -> (Qabs q < limit)%Q -> rounds_to q (Fin q).
Proof.
  intros R L. cbn [rounds_to]. split; [exact L|]. assert (Z0 : (Qabs (q - q) == 0)%Q) by (setoid_replace (q - q)%Q with 0%Q by ring; reflexivity).
  split; [split; [exact R|]; intros y _; rewrite Z0; apply Qabs_nonneg|].
  intros y [_ C]. left. specialize (C q R). rewrite Z0 in C. revert C.
  destruct (Qabs_case' (q - y)) as [[? ->]|[? ->]]; lra.
Qed.
Lemma representable_limit q : representable q -> (Qabs q < limit)%Q.
Proof.
  intros (m & e & E & A & B). rewrite E, abs_scaled, limit_p2.
  apply Qle_lt_trans with (inject_Z (2 ^ 53 - 1) * p2 971)%Q.
  - apply Qle_trans with (inject_Z (2 ^ 53 - 1) * p2 e)%Q; [apply scale_le; rewrite <- inject_le; lia|].
    rewrite !(Qmult_comm (inject_Z _)). apply Qmult_le_compat_r; [apply p2_le; lia|discriminate].
  - apply scale_lt. vm_compute. reflexivity.
Qed.
Lemma rounds_valid f : vfloat f -> finite f = true -> rounds_to (fval f) (fext f).
Proof.
  intros V F. rewrite fext_finite by exact F. pose proof (fval_representable f V F) as R.
  apply rounds_self; [exact R|apply representable_limit, R].
Qed.

(** ** ldexp and normalisation *)
Lemma shift_pos_mul d m : Zpos (shift_pos d m) = Zpos m * 2 ^ Zpos d.
Proof. rewrite shift_pos_correct. change (Zpower_pos 2 d) with (2 ^ Zpos d). lia. Qed.
Lemma digits_shift m d : Zpos (digits2_pos (shift_pos d m)) = Zpos (digits2_pos m) + Zpos d.
Proof. rewrite !digits2_log2, shift_pos_mul, Z.log2_mul_pow2 by lia. lia. Qed.
Lemma binary_round_ok s m e : let f := binary_round prec emax s m e in
  vfloat f /\ sign_of f = s /\ rounds_to (signed s (inject_Z (Zpos m) * p2 e)) (fext f).
Proof.
  cbv zeta. unfold binary_round, shl_align. set (t := fexp prec emax (Zpos (digits2_pos m) + e)).
  destruct (t - e) as [|d|d] eqn:E.
  - apply round_aux_ok; [lia|reflexivity|]. cbn [Zdigits2]. fold t. lia.
  - apply round_aux_ok; [lia|reflexivity|]. cbn [Zdigits2]. fold t. lia.
  - destruct (round_aux_ok s (Zpos (shift_pos d m)) t loc_Exact (inject_Z (Zpos (shift_pos d m)))) as (A & B & C); [lia|reflexivity| |].
    + cbn [Zdigits2]. rewrite digits_shift. replace (Zpos (digits2_pos m) + Zpos d + t) with (Zpos (digits2_pos m) + e) by lia. fold t. lia.
    + split; [exact A|]. split; [exact B|]. eapply rounds_to_comp; [|exact C].
      assert (K : (inject_Z (Zpos (shift_pos d m)) * p2 t == inject_Z (Zpos m) * p2 e)%Q).
      { rewrite shift_pos_mul, inject_Z_mult, <- p2_Z, <- Qmult_assoc, <- p2_add by lia. replace (Zpos d + t) with e by lia. reflexivity. }
      destruct s; cbn [signed]; rewrite K; reflexivity.
Qed.
Lemma normalize_ok z e : let f := binary_normalize prec emax z e false in
  vfloat f /\ rounds_to (inject_Z z * p2 e) (fext f).
Proof.
  cbv zeta. destruct z as [|p|p]; cbn [binary_normalize].
  - split; [reflexivity|]. eapply rounds_to_comp; [|apply (rounds_valid (S754_zero false)); reflexivity]. cbn [fval]. change (inject_Z 0) with 0%Q. ring.
  - destruct (binary_round_ok false p e) as (A & _ & B). auto.
  - destruct (binary_round_ok true p e) as (A & _ & B). split; [exact A|]. eapply rounds_to_comp; [|exact B]. cbn [signed].
    change (inject_Z (Zneg p)) with (- inject_Z (Zpos p))%Q. ring.
Qed.

(** ** The four operations *)
Lemma aligned m e ez : ez <= e -> (inject_Z (Zpos (fst (shl_align m e ez))) * p2 ez == inject_Z (Zpos m) * p2 e)%Q.
Proof.
  intros L. unfold shl_align. destruct (ez - e) as [|d|d] eqn:E; cbn [fst]; [replace ez with e by lia; reflexivity|lia|].
  rewrite shift_pos_mul, inject_Z_mult, <- p2_Z, <- Qmult_assoc, <- p2_add by lia. replace (Zpos d + ez) with e by lia. reflexivity.
Qed.
Lemma aligned_signed s m e ez : ez <= e -> (inject_Z (cond_Zopp s (Zpos (fst (shl_align m e ez)))) * p2 ez == fval (S754_finite s m e))%Q.
Proof.
  intros L. rewrite fval_abs. destruct s; cbn [cond_Zopp]; rewrite <- (aligned m e ez L); [rewrite inject_Z_opp; ring|reflexivity].
Qed.
Lemma add_finite x y : vfloat x -> vfloat y -> finite x = true -> finite y = true ->
  vfloat (SFadd prec emax x y) /\ rounds_to (fval x + fval y) (fext (SFadd prec emax x y)).
Proof.
  intros V1 V2 F1 F2. destruct x as [s|s| |s m e], y as [s'|s'| |s' m' e']; try discriminate; cbn [SFadd].
  - destruct (Bool.eqb s s'); (split; [reflexivity|]); apply (rounds_valid (S754_zero false)); reflexivity.
  - split; [exact V2|]. eapply rounds_to_comp; [|apply rounds_valid; assumption]. change (fval (S754_zero s)) with 0%Q. ring.
  - split; [exact V1|]. eapply rounds_to_comp; [|apply rounds_valid; assumption]. change (fval (S754_zero s')) with 0%Q. ring.
  - destruct (normalize_ok (cond_Zopp s (Zpos (fst (shl_align m e (Z.min e e')))) + cond_Zopp s' (Zpos (fst (shl_align m' e' (Z.min e e'))))) (Z.min e e')) as [A B].
    split; [exact A|]. eapply rounds_to_comp; [|exact B]. rewrite inject_Z_plus, Qmult_plus_distr_l, !aligned_signed by lia. reflexivity.
Qed.
Lemma sub_add x y : SFsub prec emax x y = SFadd prec emax x (SFopp y).
Proof.
  destruct x as [s|s| |s m e], y as [s'|s'| |s' m' e']; try reflexivity.
  cbn [SFsub SFadd SFopp]. f_equal. destruct s'; cbn [negb cond_Zopp]; lia.
Qed.
Lemma opp_ok y : vfloat y -> vfloat (SFopp y) /\ finite (SFopp y) = finite y /\ (fval (SFopp y) == - fval y)%Q /\
  match fext y with Fin a => exists b, fext (SFopp y) = Fin b /\ (b == - a)%Q | z => fext (SFopp y) = opposite z end.
Proof.
  assert (K : forall s m e, (fval (S754_finite (negb s) m e) == - fval (S754_finite s m e))%Q).
  { intros s m e. rewrite !fval_abs. destruct s; cbn [negb]; ring. }
  intros V. destruct y as [s|s| |s m e]; cbn [SFopp]; (split; [exact V|]); (split; [reflexivity|]).
  - split; [reflexivity|]. exists 0%Q. split; reflexivity.
  - split; [reflexivity|]. destruct s; reflexivity.
  - split; reflexivity.
  - split; [apply K|]. eexists. split; [reflexivity|apply K].
Qed.
Lemma digits_mul a b : Zdigits2 (Zpos a) + Zdigits2 (Zpos b) - 1 <= Zdigits2 (Zpos (a * b)).
Proof.
  cbn [Zdigits2]. rewrite !digits2_log2. rewrite Pos2Z.inj_mul.
  pose proof (Z.log2_mul_below (Zpos a) (Zpos b) ltac:(lia) ltac:(lia)). lia.
Qed.
Lemma digits_valid s m e : vfloat (S754_finite s m e) -> -1074 <= e <= 971 /\ (e = -1074 \/ Zdigits2 (Zpos m) = 53) /\ 1 <= Zdigits2 (Zpos m) <= 53.
Proof.
  intros V. apply vfloat_iff in V. destruct V as (A & B & C). split; [exact B|]. cbn [Zdigits2]. rewrite digits2_log2.
  pose proof (Z.log2_nonneg (Zpos m)). pose proof (proj1 (Z.log2_lt_pow2 (Zpos m) 53 ltac:(lia)) A).
  split; [|lia]. destruct C as [C|C]; [left; exact C|right]. apply Z.log2_le_pow2 in C; lia.
Qed.
Lemma mul_finite x y : vfloat x -> vfloat y -> finite x = true -> finite y = true ->
  vfloat (SFmul prec emax x y) /\ rounds_to (fval x * fval y) (fext (SFmul prec emax x y)).
Proof.
  intros V1 V2 F1 F2. destruct x as [s|s| |s m e], y as [s'|s'| |s' m' e']; try discriminate; cbn [SFmul].
  1-3: split; [reflexivity|]; eapply rounds_to_comp; [|apply (rounds_valid (S754_zero (xorb s s'))); reflexivity]; cbn [fval]; ring.
  destruct (digits_valid _ _ _ V1) as (A1 & A2 & A3). destruct (digits_valid _ _ _ V2) as (B1 & B2 & B3). pose proof (digits_mul m m').
  destruct (round_aux_ok (xorb s s') (Zpos (m * m')) (e + e') loc_Exact (inject_Z (Zpos (m * m')))) as (A & _ & B); [lia|reflexivity| |].
  - unfold fexp, emin, prec, emax. lia.
  - split; [exact A|]. eapply rounds_to_comp; [|exact B]. rewrite Pos2Z.inj_mul, inject_Z_mult, !fval_abs.
    destruct s, s'; cbn [xorb signed]; rewrite p2_add; ring.
Qed.

Lemma new_location_ok n r : 0 < n -> 0 <= r < n -> forall q, located q (new_location n r) (inject_Z q + inject_Z r / inject_Z n).
Proof.
  intros N R q. assert (Nq : (0 < inject_Z n)%Q) by (change 0%Q with (inject_Z 0); rewrite <- inject_lt; exact N).
  assert (E0 : (inject_Z r / inject_Z n * inject_Z n == inject_Z r)%Q) by (field; lra).
  set (z := (inject_Z r / inject_Z n)%Q) in *.
  assert (C : forall c, Z.compare (2 * r) n = c -> 0 < r -> located q (loc_Inexact c) (inject_Z q + z)).
  { intros c Hc Hr. assert (Rq : (0 < inject_Z r)%Q) by (change 0%Q with (inject_Z 0); rewrite <- inject_lt; exact Hr).
    assert (Rn : (inject_Z r < inject_Z n)%Q) by (rewrite <- inject_lt; lia).
    assert (z0 : (0 < z)%Q) by (unfold z; apply Qlt_shift_div_l; [exact Nq|lra]).
    assert (z1 : (z < 1)%Q) by (unfold z; apply Qlt_shift_div_r; [exact Nq|lra]).
    cbn [located]. rewrite inject_succ. split; [lra|]. split; [lra|].
    assert (D : (inject_Z (2 * r) == (2 * z) * inject_Z n)%Q) by (rewrite inject_double, <- E0; ring).
    destruct (Z.compare_spec (2 * r) n) as [H|H|H]; subst c; rewrite <- ?Qlt_alt, <- ?Qgt_alt, <- ?Qeq_alt.
    - assert (2 * z == 1)%Q; [|lra]. apply Qmult_inj_r with (inject_Z n); [lra|]. rewrite <- D, H. ring.
    - rewrite inject_lt, D in H. setoid_replace (inject_Z n) with (1 * inject_Z n)%Q in H at 2 by ring. apply Qmult_lt_r in H; [lra|exact Nq].
    - rewrite inject_lt, D in H. setoid_replace (inject_Z n) with (1 * inject_Z n)%Q in H at 1 by ring. apply Qmult_lt_r in H; [lra|exact Nq]. }
  unfold new_location, new_location_even, new_location_odd.
  assert (Ex : Zeq_bool r 0 = true -> located q loc_Exact (inject_Z q + z)).
  { intros H. apply Zeq_bool_eq in H. cbn [located]. assert (z == 0)%Q; [|lra]. unfold z. rewrite H. change (inject_Z 0) with 0%Q. field. lra. }
  assert (Pos : Zeq_bool r 0 = false -> 0 < r) by (intros H; apply Zeq_bool_neq in H; lia).
  destruct (Z.even n) eqn:Ev; destruct (Zeq_bool r 0) eqn:E; try (apply Ex; reflexivity).
  - apply C; auto.
  - apply C; [|auto]. specialize (Pos eq_refl).
    assert (Od : exists k, n = 2 * k + 1). { apply Z.odd_spec. rewrite <- Z.negb_even, Ev. reflexivity. }
    destruct Od as [k Hk].
    destruct (Z.compare_spec (2 * r + 1) n) as [H|H|H]; destruct (Z.compare_spec (2 * r) n) as [H'|H'|H']; try reflexivity; lia.
Qed.
Lemma div_finite x y : vfloat x -> vfloat y -> finite x = true -> finite y = true -> ~ (fval y == 0)%Q ->
  vfloat (SFdiv prec emax x y) /\ rounds_to (fval x / fval y) (fext (SFdiv prec emax x y)).
Proof.
  intros V1 V2 F1 F2 NZ. destruct x as [s|s| |s m e], y as [s'|s'| |s' m' e']; try discriminate; cbn [SFdiv];
    try (exfalso; apply NZ; reflexivity).
  { split; [reflexivity|]. eapply rounds_to_comp; [|apply (rounds_valid (S754_zero (xorb s s'))); reflexivity].
    change (fval (S754_zero s)) with 0%Q. change (fval (S754_zero (xorb s s'))) with 0%Q. field. exact NZ. }
  unfold SFdiv_core_binary. set (k := Zdigits2 (Zpos m) + e - (Zdigits2 (Zpos m') + e')).
  set (t := Z.min (fexp prec emax k) (e - e')). cbv zeta.
  assert (M : match e - e' - t with 0 => Zpos m | Zpos _ => Z.shiftl (Zpos m) (e - e' - t) | Zneg _ => 0 end = Zpos m * 2 ^ (e - e' - t)).
  { assert (0 <= e - e' - t) by lia. destruct (e - e' - t); [lia|apply Z.shiftl_mul_pow2; lia|lia]. }
  rewrite M. set (n := Zpos m * 2 ^ (e - e' - t)). pose proof (pow_pos' (e - e' - t) ltac:(lia)) as PP.
  assert (Nn : 0 < n) by (unfold n; nia).
  pose proof (Z_div_mod n (Zpos m') ltac:(lia)) as DM. destruct (Z.div_eucl n (Zpos m')) as [q r]. destruct DM as [D1 D2].
  assert (Q0 : 0 <= q) by nia.
  set (X := (inject_Z q + inject_Z r / inject_Z (Zpos m'))%Q).
  assert (Mq : (0 < inject_Z (Zpos m'))%Q) by reflexivity.
  assert (XE : (X * inject_Z (Zpos m') == inject_Z (Zpos m) * p2 (e - e' - t))%Q).
  { unfold X. setoid_replace ((inject_Z q + inject_Z r / inject_Z (Zpos m')) * inject_Z (Zpos m'))%Q with (inject_Z (Zpos m' * q + r)) by (rewrite inject_Z_plus, inject_Z_mult; field; discriminate).
    rewrite <- D1. unfold n. rewrite inject_Z_mult, <- p2_Z by lia. reflexivity. }
  destruct (round_aux_ok (xorb s s') q t (new_location (Zpos m') r) X) as (A & _ & B); [exact Q0|apply new_location_ok; lia| |].
  - destruct (zdigits (Zpos m) ltac:(lia)) as (_ & _ & K1). destruct (K1 ltac:(lia)) as [K2 K3].
    destruct (zdigits (Zpos m') ltac:(lia)) as (_ & K4 & K4'). destruct (K4' ltac:(lia)) as [_ K5].
    destruct (zdigits q Q0) as (K6 & K7 & _).
    destruct (Z_le_gt_dec k t) as [L|G].
    + unfold fexp, emin, prec, emax in *. lia.
    + assert (Hd : k - t <= Zdigits2 q); [|unfold fexp, emin, prec, emax in *; lia].
      set (d1 := Zdigits2 (Zpos m)) in *. set (d2 := Zdigits2 (Zpos m')) in *. set (dq := Zdigits2 q) in *. clearbody d1 d2 dq.
      destruct (Z_le_gt_dec (k - t) dq) as [|G']; [assumption|exfalso].
      (* n < (q + 1) m' <= 2^(k-t-1) m' *)
      pose proof (Z.pow_le_mono_r 2 dq (k - t - 1) ltac:(lia) ltac:(lia)) as P1.
      assert (L1 : n < 2 ^ (k - t - 1) * Zpos m') by nia.
      assert (L2 : 2 ^ (d1 - 1) * 2 ^ (e - e' - t) <= n) by (unfold n; nia).
      assert (L3 : 2 ^ (k - t - 1) * Zpos m' < 2 ^ (k - t - 1) * 2 ^ d2) by (pose proof (pow_pos' (k - t - 1) ltac:(lia)); nia).
      rewrite <- Z.pow_add_r in L2, L3 by lia. unfold k in L3 at 2.
      replace (d1 + e - (d2 + e') - t - 1 + d2) with (d1 - 1 + (e - e' - t)) in L3 by lia. lia.
  - split; [exact A|]. eapply rounds_to_comp; [|exact B].
    assert (V : (X * p2 t == inject_Z (Zpos m) * p2 e / (inject_Z (Zpos m') * p2 e'))%Q).
    { pose proof (p2_pos e'). apply Qmult_inj_r with (inject_Z (Zpos m') * p2 e')%Q; [intros Z0; apply Qmult_integral in Z0; destruct Z0; lra|].
      setoid_replace (inject_Z (Zpos m) * p2 e / (inject_Z (Zpos m') * p2 e') * (inject_Z (Zpos m') * p2 e'))%Q with (inject_Z (Zpos m) * p2 e)%Q by (field; split; [lra|discriminate]).
      setoid_replace (X * p2 t * (inject_Z (Zpos m') * p2 e'))%Q with (X * inject_Z (Zpos m') * (p2 t * p2 e'))%Q by ring.
      rewrite XE, <- Qmult_assoc, <- !p2_add. replace (e - e' - t + (t + e')) with e by lia. reflexivity. }
    assert (W : forall a b, (a == fval (S754_finite s m e) -> b == fval (S754_finite s' m' e') -> a / b == fval (S754_finite s m e) / fval (S754_finite s' m' e'))%Q) by (intros a b -> ->; reflexivity).
    pose proof (p2_pos e'). 
    rewrite <- (W _ _ (Qeq_sym _ _ (fval_abs s m e)) (Qeq_sym _ _ (fval_abs s' m' e'))).
    destruct s, s'; cbn [xorb signed]; rewrite V; field; (split; [lra|discriminate]).
Qed.
