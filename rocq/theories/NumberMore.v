(** Further lemmas about exact arithmetic: integral results, n-ary operations,
    and the laws of integer division. *)
From Coq Require Import ZArith QArith Qreduction Qround List Bool Lia.
From Verif Require Import Number NumberProofs NumberRounding NumberGcd.
Import ListNotations.
Open Scope Z_scope.

Lemma inject_Z_inj a b : inject_Z a == inject_Z b -> a = b.
Proof. unfold Qeq, inject_Z. cbn [Qnum Qden]. lia. Qed.

Lemma canon_red_integral q z : q == inject_Z z -> canon_ratio (Qred q) = Large z.
Proof.
  intros H. rewrite <- Qred_correct in H. destruct (integral_den (Qred q) z (valid_q q) H) as [D Nm].
  unfold canon_ratio. rewrite D. cbn [Z.eqb Pos.eqb]. rewrite Nm. reflexivity.
Qed.

Ltac integral_tac f ok fint :=
  match goal with |- _ -> is_int (f ?x ?y) ?z =>
    intros H;
    destruct x as [a|a|a], y as [b|b|b];
    try (right; unfold f; apply canon_red_integral; rewrite !to_q_value; exact H);
    match goal with |- is_int (f (?c ?a) (?d ?b)) z =>
      let E := fresh in
      pose proof (fint (c a) (d b) a b ltac:(first [left; reflexivity|right; reflexivity])
                                       ltac:(first [left; reflexivity|right; reflexivity])) as E;
      pose proof (proj2 (ok (c a) (d b))) as V; rewrite (is_int_value _ _ E), H in V;
      apply inject_Z_inj in V; subst; exact E
    end
  end.

Lemma add_integral x y z : value x + value y == inject_Z z -> is_int (n_add x y) z.
Proof. integral_tac n_add add_ok add_int. Qed.
Lemma sub_integral x y z : value x - value y == inject_Z z -> is_int (n_sub x y) z.
Proof. integral_tac n_sub sub_ok sub_int. Qed.
Lemma mul_integral x y z : value x * value y == inject_Z z -> is_int (n_mul x y) z.
Proof. integral_tac n_mul mul_ok mul_int. Qed.

(** ** n-ary operations *)
Definition qsum (qs : list Q) : Q := fold_right Qplus 0%Q qs.
Definition qprod (qs : list Q) : Q := fold_right Qmult 1%Q qs.

Lemma add_fold xs : forall a, value (fold_left n_add xs a) == value a + qsum (map value xs).
Proof.
  induction xs as [|x xs IH]; intros a; cbn [fold_left map qsum fold_right].
  - rewrite Qplus_0_r. reflexivity.
  - rewrite IH, (proj2 (add_ok a x)). unfold qsum. ring.
Qed.
Lemma s_add_ok xs : value (s_add xs) == qsum (map value xs).
Proof. unfold s_add. rewrite add_fold. cbn [value]. unfold inject_Z. ring. Qed.
Lemma mul_fold xs : forall a, value (fold_left n_mul xs a) == value a * qprod (map value xs).
Proof.
  induction xs as [|x xs IH]; intros a; cbn [fold_left map qprod fold_right].
  - rewrite Qmult_1_r. reflexivity.
  - rewrite IH, (proj2 (mul_ok a x)). unfold qprod. ring.
Qed.
Lemma s_mul_ok xs : value (s_mul xs) == qprod (map value xs).
Proof. unfold s_mul. rewrite mul_fold. cbn [value]. unfold inject_Z. ring. Qed.
Lemma sub_fold xs : forall a, value (fold_left n_sub xs a) == value a - qsum (map value xs).
Proof.
  induction xs as [|x xs IH]; intros a; cbn [fold_left map qsum fold_right].
  - unfold Qminus. rewrite Qplus_0_r. reflexivity.
  - rewrite IH, (proj2 (sub_ok a x)). unfold qsum. ring.
Qed.
Lemma s_sub_ok x xs : value (s_sub x xs) == match xs with [] => - value x | _ => value x - qsum (map value xs) end.
Proof.
  unfold s_sub. destruct xs as [|y ys].
  - rewrite (proj2 (sub_ok _ _)). cbn [value]. unfold inject_Z. ring.
  - apply sub_fold.
Qed.

Lemma div_fold xs : forall a, Forall (fun y => ~ value y == 0) xs -> 
  exists r, fold_left (fun o y => let! a := o in n_div a y) xs (Ok a) = Ok r /\ value r * qprod (map value xs) == value a.
Proof.
  induction xs as [|x xs IH]; intros a Hf; cbn [fold_left map qprod fold_right].
  - exists a. split; [reflexivity|]. ring.
  - inversion Hf as [|? ? Hx Hf']; subst. cbn [obind]. destruct (div_ok a x Hx) as [r [E [_ V]]]. rewrite E.
    destruct (IH r Hf') as [s [Es Vs]]. exists s. split; [exact Es|].
    transitivity (value x * (value s * qprod (map value xs)))%Q.
    + unfold qprod. ring.
    + rewrite Vs, V. field. exact Hx.
Qed.
Lemma s_div_ok x xs : Forall (fun y => ~ value y == 0) (match xs with [] => [x] | _ => xs end) ->
  exists r, s_div x xs = Ok r /\
    match xs with [] => value r * value x == 1 | _ => value r * qprod (map value xs) == value x end.
Proof.
  intros H. unfold s_div. destruct xs as [|y ys].
  - inversion H as [|? ? Hx _]; subst. destruct (div_ok (Small 1) x Hx) as [r [E [_ V]]]. exists r. split; [exact E|].
    rewrite V. cbn [value]. unfold inject_Z. field. exact Hx.
  - apply div_fold. exact H.
Qed.

Lemma div_zero x y : value y == 0 -> n_div x y = Crash.
Proof.
  intros H.
  assert (Hn : Qnum (value y) = 0) by (unfold Qeq in H; cbn [Qnum Qden] in H; lia).
  destruct x as [a|a|a], y as [b|b|b]; cbn [value] in Hn; unfold inject_Z in Hn; cbn [Qnum] in Hn;
    unfold n_div, mpq_div, to_q, ratio_of, inject_Z; cbn [Qnum]; rewrite ?Hn; reflexivity.
Qed.

(** ** The laws of integer division *)
Lemma remainder_laws x y n d : is_int x n -> is_int y d -> d <> 0 ->
  exists o r, n_remainder x y = Ok o /\ is_int o r /\
    (d | n - r) /\ Z.abs r < Z.abs d /\ (r = 0 \/ Z.sgn r = Z.sgn n).
Proof.
  intros Hx Hy Hd. destruct (rem_int x y n d Hx Hy Hd) as [o [E Ho]].
  exists o, (Z.rem n d). split; [exact E|]. split; [exact Ho|].
  pose proof (Z.quot_rem' n d). pose proof (Z.rem_bound_abs n d Hd). pose proof (Z.rem_sign_nz n d Hd).
  split; [exists (Z.quot n d); lia|]. split; [lia|].
  destruct (Z.eq_dec (Z.rem n d) 0); [left; assumption|right]. auto.
Qed.
Lemma modulo_laws x y n d : is_int x n -> is_int y d -> d <> 0 ->
  exists o m, n_modulo x y = Ok o /\ is_int o m /\
    (d | n - m) /\ Z.abs m < Z.abs d /\ (m = 0 \/ Z.sgn m = Z.sgn d).
Proof.
  intros Hx Hy Hd. destruct (modulo_int x y n d Hx Hy Hd) as [o [E Ho]].
  exists o, (n mod d). split; [exact E|]. split; [exact Ho|].
  pose proof (Z.div_mod n d Hd). split; [exists (n / d); lia|].
  destruct (Z_lt_ge_dec d 0).
  - pose proof (Z.mod_neg_bound n d ltac:(lia)). split; [lia|]. lia.
  - pose proof (Z.mod_pos_bound n d ltac:(lia)). split; [lia|]. lia.
Qed.
Lemma quotient_laws x y n d : valid x -> valid y -> is_int x n -> is_int y d -> d <> 0 -> 
  Z.abs n < 2^53 * Z.abs d \/ (d | n) ->
  exists o p q r, n_quotient x y = Ok o /\ is_int o q /\ n_remainder x y = Ok p /\ is_int p r /\ n = d * q + r.
Proof.
  intros Vx Vy Hx Hy Hd H.
  destruct (rem_int x y n d Hx Hy Hd) as [p [Ep Hp]].
  assert (Q : exists o, n_quotient x y = Ok o /\ is_int o (Z.quot n d)).
  { destruct H as [H|[k H]]; [apply quotient_int; assumption|eapply quotient_divisible; eassumption]. }
  destruct Q as [o [Eo Ho]]. exists o, p, (Z.quot n d), (Z.rem n d).
  pose proof (Z.quot_rem' n d). auto.
Qed.

Lemma integer_rounding f x n : is_int x n -> exists r, nearest f x = Ok r /\ is_int r n.
Proof.
  intros [->| ->]; cbn [nearest]; eexists; (split; [reflexivity|]); [apply canon_wide_ok|right; reflexivity].
Qed.

Lemma truncate_spec q : Z.abs (Qnum q) < 2^53 * Zpos (Qden q) ->
  exists z, n_truncate (Ratio q) = Ok (Large z) /\
    z = if Qnum q <? 0 then Qceiling q else Qfloor q.
Proof.
  intros H. eexists. split; [apply truncate_ratio; exact H|].
  destruct q as [a b]. unfold Qceiling, Qfloor, Qopp. cbn [Qnum Qden] in *.
  destruct (a <? 0) eqn:E.
  - rewrite <- Z.quot_opp_opp by lia. rewrite <- (Z.opp_involutive a) at 1. rewrite Z.opp_involutive.
    replace (Z.quot (- a) (- Z.pos b)) with (- Z.quot (-a) (Z.pos b)) by (rewrite Z.quot_opp_r by lia; reflexivity).
    rewrite Z.quot_div_nonneg by lia. reflexivity.
  - apply Z.quot_div_nonneg; lia.
Qed.
