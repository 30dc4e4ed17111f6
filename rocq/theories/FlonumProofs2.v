(** Lemmas for the properties of inexact real numbers (Flonum.v, FlonumSpec.v). *)
From Coq Require Import ZArith QArith Qreduction Qround Qabs Qpower Lia Lqa ZifyBool List Bool Floats.SpecFloat.
From Verif Require Import Number NumberProofs NumberRounding Flonum FlonumProofs FlonumSpec.
Open Scope Z_scope.

(** The number an object stands for *)
Definition fext (f : double) : ext :=
  match f with
  | S754_nan => NaN
  | S754_infinity s => if s then NInf else PInf
  | _ => Fin (fval f)
  end.
Definition denote (x : real) : ext := match x with Exact x => Fin (value x) | Flo f => fext f end.
Definition rvalid (x : real) : Prop := match x with Exact x => valid x | Flo f => vfloat f end.

Lemma fext_finite f : finite f = true -> fext f = Fin (fval f).
Proof. destruct f; cbn; congruence. Qed.

(** ** Comparison *)
Lemma ltb_iff f g : vfloat f -> vfloat g -> SFltb f g = true <-> lt (fext f) (fext g).
Proof.
  intros V1 V2. destruct (finite f) eqn:F1; [destruct (finite g) eqn:F2|].
  - unfold SFltb. rewrite SFcompare_finite, !fext_finite by assumption. cbn [lt].
    rewrite Qlt_alt. destruct (Qcompare (fval f) (fval g)); split; congruence.
  - rewrite (fext_finite f F1). destruct g as [s|[]| |]; try discriminate; destruct f; try discriminate; cbn; intuition congruence.
  - destruct f as [s|[]| |]; try discriminate; destruct g as [t|[]| |]; cbn; intuition congruence.
Qed.
Lemma eqb_iff f g : vfloat f -> vfloat g -> SFeqb f g = true <-> same (fext f) (fext g).
Proof.
  intros V1 V2. destruct (finite f) eqn:F1; [destruct (finite g) eqn:F2|].
  - unfold SFeqb. rewrite SFcompare_finite, !fext_finite by assumption. cbn [same].
    rewrite Qeq_alt. destruct (Qcompare (fval f) (fval g)); split; congruence.
  - rewrite (fext_finite f F1). destruct g as [s|[]| |]; try discriminate; destruct f; try discriminate; cbn; intuition congruence.
  - destruct f as [s|[]| |]; try discriminate; destruct g as [t|[]| |]; cbn; intuition congruence.
Qed.

Lemma same_Fin a b x : (a == b)%Q -> (same x (Fin a) <-> same x (Fin b)) /\ (same (Fin a) x <-> same (Fin b) x).
Proof. intros H. destruct x; cbn [same]; try tauto. rewrite H. tauto. Qed.
Lemma lt_Fin a b x : (a == b)%Q -> (lt x (Fin a) <-> lt x (Fin b)) /\ (lt (Fin a) x <-> lt (Fin b) x).
Proof. intros H. destruct x; cbn [lt]; try tauto. rewrite H. tauto. Qed.

Lemma small_exact z : valid (Small z) -> fext (to_double (Small z)) = Fin (fval (to_double (Small z))) /\
  (fval (to_double (Small z)) == inject_Z z)%Q.
Proof.
  cbn [valid]. intros H. unfold to_double, to_q, ratio_of. destruct (of_Z_exact z ltac:(lia)) as [F V].
  split; [apply fext_finite, F|exact V].
Qed.

Lemma cmp_value x y : Number.cmp x y = Qcompare (value x) (value y).
Proof.
  unfold Number.cmp. destruct x, y; cbn [value to_q]; try reflexivity;
  unfold Qcompare, inject_Z; cbn [Qnum Qden]; rewrite ?Z.mul_1_r; reflexivity.
Qed.

(** the comparisons that the program gets right: neither is NaN, and they are not a
    fraction and a double *)
Definition ordered (x y : real) : Prop :=
  denote x <> NaN /\ denote y <> NaN /\
  match x, y with
  | Exact (Ratio _), Flo _ | Flo _, Exact (Ratio _) => False
  | _, _ => True
  end.
Lemma cmp_d_ok z f : fext f <> NaN -> exists c, cmp_d z f = Ok c /\
  (c_lt c = true <-> lt (Fin (inject_Z z)) (fext f)) /\ (c_gt c = true <-> lt (fext f) (Fin (inject_Z z))) /\
  (c_eq c = true <-> same (Fin (inject_Z z)) (fext f)).
Proof.
  intros H. destruct f as [s|[]| |s m e]; try (now contradiction H); cbn [cmp_d]; eexists; (split; [reflexivity|]); cbn [fext lt same c_lt c_gt c_eq];
    try (intuition congruence).
  all: rewrite Qlt_alt, (Qeq_alt (inject_Z z)), Qlt_alt; 
    rewrite <- (Qcompare_antisym (inject_Z z)); destruct (Qcompare (inject_Z z) _); cbn; intuition congruence.
Qed.

Lemma less_exact x y : less_than (Exact x) (Exact y) = Ok (n_lt x y).
Proof. destruct x, y; reflexivity. Qed.
Lemma greater_exact x y : greater_than (Exact x) (Exact y) = Ok (n_gt x y).
Proof. destruct x, y; reflexivity. Qed.
Lemma less_than_ok x y : rvalid x -> rvalid y -> ordered x y ->
  exists b, less_than x y = Ok b /\ (b = true <-> lt (denote x) (denote y)).
Proof.
  intros V1 V2 (N1 & N2 & H). destruct x as [x|f], y as [y|g].
  - eexists. split; [apply less_exact|]. unfold n_lt. rewrite cmp_value. cbn [denote lt]. rewrite Qlt_alt.
    destruct (Qcompare (value x) (value y)); intuition congruence.
  - destruct x as [z|z|q]; [| |contradiction]; cbn [less_than denote value] in *.
    + eexists. split; [reflexivity|]. rewrite ltb_iff by (exact V2 || apply of_q_valid).
      destruct (small_exact z V1) as [-> E]. apply (lt_Fin _ _ (fext g) E).
    + destruct (cmp_d_ok z g N2) as (c & -> & A & B & C). eexists. split; [reflexivity|exact A].
  - destruct y as [z|z|q]; [| |contradiction]; cbn [less_than denote value] in *.
    + eexists. split; [reflexivity|]. rewrite ltb_iff by (exact V1 || apply of_q_valid).
      destruct (small_exact z V2) as [-> E]. apply (lt_Fin _ _ (fext f) E).
    + destruct (cmp_d_ok z f N1) as (c & -> & A & B & C). eexists. split; [reflexivity|exact B].
  - eexists. split; [reflexivity|]. apply ltb_iff; assumption.
Qed.
Lemma greater_less x y : greater_than x y = less_than y x.
Proof.
  destruct x as [x|f], y as [y|g].
  - rewrite greater_exact, less_exact. unfold n_gt, n_lt. rewrite !cmp_value, <- (Qcompare_antisym (value y)). destruct (Qcompare (value y) (value x)); reflexivity.
  - destruct x; reflexivity.
  - destruct y; reflexivity.
  - reflexivity.
Qed.
Lemma ordered_sym x y : ordered x y -> ordered y x.
Proof. unfold ordered. destruct x as [[]|], y as [[]|]; tauto. Qed.
Lemma not_lt_le x y : x <> NaN -> y <> NaN -> ~ lt x y <-> le y x.
Proof.
  intros A B. unfold le. destruct x, y; cbn [lt same]; try tauto.
  split; [intros H; apply Qnot_lt_le, Qle_lteq in H; exact H|].
  intros [H|H] L; [exact (Qlt_irrefl _ (Qlt_trans _ _ _ H L))|rewrite H in L; exact (Qlt_irrefl _ L)].
Qed.

(** ** Exact and inexact *)
Lemma fval_den f : vfloat f -> finite f = true -> exists m e, (fval f == inject_Z m * p2 e)%Q /\ Z.abs m < 2 ^ 53 /\ -1074 <= e <= 971.
Proof.
  intros V F. destruct f as [s|s| |s m e]; try discriminate.
  - exists 0, 0. cbn [fval]. split; [ring|lia].
  - apply vfloat_iff in V. exists (cond_Zopp s (Zpos m)), e. split; [reflexivity|]. destruct s; cbn; lia.
Qed.
Lemma fval_representable f : vfloat f -> finite f = true -> representable (fval f).
Proof. intros V F. destruct (fval_den f V F) as (m & e & A & B & C). exists m, e. auto. Qed.
Lemma of_q_representable q : representable q -> finite (of_q q) = true /\ (fval (of_q q) == q)%Q.
Proof. intros (m & e & A & B & C). apply (of_q_exact q m e); assumption. Qed.
Lemma of_q_comp q q' : (q == q')%Q -> of_q q = of_q q'.
Proof.
  intros H.
  assert (S0 : (Qnum q <? 0) = (Qnum q' <? 0)). { unfold Qeq in H. nia. }
  destruct (Qeq_dec q 0) as [Z|N]; [rewrite !of_q_zero; [reflexivity| |exact Z]; rewrite <- H; exact Z|].
  assert (N' : ~ (q' == 0)%Q) by (rewrite <- H; exact N).
  destruct (Qlt_le_dec (Qabs q) (p2 1024)) as [L|G].
  - assert (L' : (Qabs q' < p2 1024)%Q) by (rewrite <- H; exact L).
    destruct (of_q_shape q N L) as (l & A & B & X). destruct (of_q_shape q' N' L') as (l' & A' & B' & X').
    rewrite <- H in A', B'. assert (l = l').
    { assert (l < l' + 1) by (apply p2_lt_inv; eapply Qle_lt_trans; eassumption).
      assert (l' < l + 1) by (apply p2_lt_inv; eapply Qle_lt_trans; eassumption). lia. }
    subst l'. cbv zeta in X, X'. destruct X as (_ & _ & _ & ->), X' as (_ & _ & _ & ->). rewrite S0.
    rewrite (Qfloor_comp _ _ (Qmult_comp _ _ (Qabs_wd _ _ H) _ _ (Qeq_refl _))). reflexivity.
  - rewrite !of_q_huge, S0; [reflexivity| |exact G]. rewrite <- H. exact G.
Qed.
Lemma canon_value q : (value (canon_ratio q) == q)%Q.
Proof.
  unfold canon_ratio. destruct (Zpos (Qden q) =? 1) eqn:E; cbn [value]; [|reflexivity].
  destruct q as [n d]. cbn [Qnum Qden] in *. apply Z.eqb_eq in E. injection E as ->. reflexivity.
Qed.
Lemma canon_valid q : Qred q = q -> valid (canon_ratio q).
Proof. intros H. unfold canon_ratio. destruct (_ =? _); cbn; auto. Qed.

(** equal finite doubles are the same, up to the sign of 0 *)
Lemma vfloat_inj f g : vfloat f -> vfloat g -> finite f = true -> finite g = true -> (fval f == fval g)%Q ->
  f = g \/ exists s t, f = S754_zero s /\ g = S754_zero t.
Proof.
  intros V1 V2 F1 F2 E. pose proof (SFcompare_finite f g V1 V2 F1 F2) as C.
  apply Qeq_alt in E. rewrite E in C.
  destruct f as [s1|s1| |s1 m1 e1], g as [s2|s2| |s2 m2 e2]; try discriminate; cbn [SFcompare] in C.
  - right. eauto.
  - destruct s2; discriminate.
  - destruct s1; discriminate.
  - left. destruct s1, s2; try discriminate; injection C as C; destruct (Z.compare_spec e1 e2); try discriminate; subst.
    + destruct (Pcompare m1 m2 Eq) eqn:X; try discriminate. apply Pos.compare_eq in X. subst. reflexivity.
    + apply Pos.compare_eq in C. subst. reflexivity.
Qed.
