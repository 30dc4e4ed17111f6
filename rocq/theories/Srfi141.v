(** Model of library/srfi-141.ss (integer division operators) on exact integers
    and proofs of their defining equations.  [exact?] is true of every operand
    here and [inexact->exact] is the identity on exact numbers. *)
From Coq Require Import ZArith QArith Qround Qcanon List Bool Lia ZifyBool.
From Verif Require Import Number NumberProofs NumberRounding NumberGcd NumberMore.
Import ListNotations.
Open Scope Z_scope.

(** library/srfi-141.ss:23-30 *)
Definition floor_quotient (x y : num) : outcome num := let! q := n_div x y in n_floor q.
Definition floor_remainder := n_modulo.
Definition values2 (q r : outcome num) : outcome (num * num) := let! a := q in let! b := r in Ok (a, b).
Definition floor_div (x y : num) := values2 (floor_quotient x y) (floor_remainder x y).
(** library/srfi-141.ss:32-44 *)
Definition ceiling_quotient (n d : num) : outcome num := let! q := n_div n d in n_ceiling q.
Definition ceiling_remainder (n d : num) : outcome num := let! q := ceiling_quotient n d in Ok (n_sub n (n_mul d q)).
Definition ceiling_div (n d : num) := values2 (ceiling_quotient n d) (ceiling_remainder n d).
(** library/srfi-141.ss:46-52 *)
Definition truncate_div (x y : num) := values2 (n_quotient x y) (n_remainder x y).
(** library/srfi-141.ss:54-66 *)
Definition round_quotient (n d : num) : outcome num := let! q := n_div n d in n_round q.
Definition round_remainder (n d : num) : outcome num := let! q := round_quotient n d in Ok (n_sub n (n_mul d q)).
Definition round_div (n d : num) := values2 (round_quotient n d) (round_remainder n d).
(** library/srfi-141.ss:68-78 *)
Definition euclidean_quotient (n d : num) : outcome num :=
  if n_lt (Small 0) d then floor_quotient n d else ceiling_quotient n d.
Definition euclidean_remainder (n d : num) : outcome num := let! q := euclidean_quotient n d in Ok (n_sub n (n_mul d q)).
Definition euclidean_div (n d : num) := values2 (euclidean_quotient n d) (euclidean_remainder n d).
(** library/srfi-141.ss:80-94 *)
Definition balanced_remainder (n d : num) : outcome num :=
  let! r := euclidean_remainder n d in let! h := n_div d (Small 2) in
  let d2 := n_abs h in
  if n_lt r (n_sub (Small 0) d2) then Ok (n_add r (n_abs d))
  else if n_le d2 r then Ok (n_sub r (n_abs d)) else Ok r.
Definition balanced_quotient (n d : num) : outcome num := let! r := balanced_remainder n d in n_quotient (n_sub n r) d.
Definition balanced_div (n d : num) := values2 (balanced_quotient n d) (balanced_remainder n d).

(** ** Specification: a pair of exact integers q, r with n = d * q + r and P q r *)
Definition divides_with (o : outcome (num * num)) (n d : Z) (P : Z -> Z -> Prop) : Prop :=
  exists oq or q r, o = Ok (oq, or) /\ is_int oq q /\ is_int or r /\ n = d * q + r /\ P q r.

Lemma ratio_int_eq q n d : d <> 0 -> q == inject_Z n / inject_Z d -> Qnum q * d = n * Zpos (Qden q).
Proof.
  intros Hd Hq. unfold Qdiv, Qinv, Qmult, Qeq, inject_Z in Hq. cbn [Qnum Qden] in Hq.
  destruct d as [|p|p]; [contradiction| |]; cbn [Qnum Qden] in Hq; rewrite ?Pos2Z.inj_mul in Hq; nia.
Qed.
Lemma canonical_bounds q n d : Qred q = q -> d <> 0 -> q == inject_Z n / inject_Z d ->
  Z.abs (Qnum q) <= Z.abs n /\ Zpos (Qden q) <= Z.abs d.
Proof.
  intros C Hd Hq. apply ratio_int_eq in Hq; [|exact Hd]. apply Qred_iff in C.
  assert (D1 : (Zpos (Qden q) | d)).
  { apply (Z.gauss _ (Qnum q)); [exists n; lia|rewrite Z.gcd_comm; exact C]. }
  destruct D1 as [k Hk]. assert (Hn : n = Qnum q * k) by nia. assert (k <> 0) by nia. nia.
Qed.

Section Int.
  Variables (x y : num) (n d : Z).
  Hypotheses (Hx : is_int x n) (Hy : is_int y d) (Hd : d <> 0).

  Lemma div_cases : exists r, n_div x y = Ok r /\
    ((exists z, is_int r z /\ n = z * d) \/ (exists q, r = Ratio q /\ Qred q = q /\ q == inject_Z n / inject_Z d)).
  Proof.
    assert (Hv : ~ value y == 0) by (rewrite (is_int_value y d Hy); unfold Qeq, inject_Z; cbn [Qnum Qden]; lia).
    destruct (div_ok x y Hv) as [r [E [V W]]]. exists r. split; [exact E|].
    rewrite (is_int_value x n Hx), (is_int_value y d Hy) in W.
    destruct r as [z|z|q]; cbn [value valid] in *.
    - left. exists z. split; [left; reflexivity|]. apply ratio_int_eq in W; [|exact Hd]. cbn [inject_Z Qnum Qden] in W. lia.
    - left. exists z. split; [right; reflexivity|]. apply ratio_int_eq in W; [|exact Hd]. cbn [inject_Z Qnum Qden] in W. lia.
    - right. exists q. auto.
  Qed.

  Lemma floor_q : Z.abs n <= 2^52 -> Z.abs d <= 2^52 -> exists o, floor_quotient x y = Ok o /\ is_int o (n / d).
  Proof.
    intros Bn Bd. unfold floor_quotient. destruct div_cases as [r [-> [[z [Hz E]]|[q [-> [C W]]]]]]; cbn [obind].
    - destruct (integer_rounding d_floor r z Hz) as [o [Eo Ho]]. exists o. split; [exact Eo|].
      rewrite E, Z.div_mul by exact Hd. exact Ho.
    - destruct (canonical_bounds q n d C Hd W) as [B1 B2].
      destruct (floor_ratio q ltac:(lia) ltac:(lia)) as [-> _]. eexists. split; [reflexivity|]. right. f_equal.
      apply ratio_int_eq in W; [|exact Hd]. destruct q as [N D]. cbn [Qfloor Qnum Qden] in *.
      rewrite <- (Z.div_mul_cancel_r N (Zpos D) d) by lia. rewrite W, (Z.mul_comm (Zpos D) d). apply Z.div_mul_cancel_r; lia.
  Qed.
  Lemma ceiling_q : Z.abs n <= 2^52 -> Z.abs d <= 2^52 -> exists o, ceiling_quotient x y = Ok o /\ is_int o (- ((- n) / d)).
  Proof.
    intros Bn Bd. unfold ceiling_quotient. destruct div_cases as [r [-> [[z [Hz E]]|[q [-> [C W]]]]]]; cbn [obind].
    - destruct (integer_rounding d_ceil r z Hz) as [o [Eo Ho]]. exists o. split; [exact Eo|].
      rewrite E, <- Z.mul_opp_l, Z.div_mul, Z.opp_involutive by exact Hd. exact Ho.
    - destruct (canonical_bounds q n d C Hd W) as [B1 B2].
      destruct (floor_ratio q ltac:(lia) ltac:(lia)) as [_ ->]. eexists. split; [reflexivity|]. right. f_equal.
      apply ratio_int_eq in W; [|exact Hd]. destruct q as [N D]. unfold Qceiling, Qopp. cbn [Qfloor Qnum Qden] in *. f_equal.
      rewrite <- (Z.div_mul_cancel_r (-N) (Zpos D) d) by lia. replace (- N * d) with (- n * Z.pos D) by lia.
      rewrite (Z.mul_comm (Zpos D) d). apply Z.div_mul_cancel_r; lia.
  Qed.
  Lemma back_ok o q : is_int o q -> is_int (n_sub x (n_mul y o)) (n - d * q).
  Proof. intros Ho. apply sub_int; [exact Hx|apply mul_int; assumption]. Qed.

  Lemma floor_div_ok : Z.abs n <= 2^52 -> Z.abs d <= 2^52 ->
    divides_with (floor_div x y) n d (fun _ r => 0 <= r < d \/ d < r <= 0).
  Proof.
    intros Bn Bd. unfold floor_div, values2. destruct (floor_q Bn Bd) as [o [-> Ho]]. cbn [obind].
    destruct (modulo_int x y n d Hx Hy Hd) as [p [E Hp]]. unfold floor_remainder. rewrite E. cbn [obind].
    exists o, p, (n / d), (n mod d). repeat (split; [first [reflexivity|assumption]|]).
    split; [apply Z.div_mod; exact Hd|].
    destruct (Z_lt_ge_dec d 0); [right; apply Z.mod_neg_bound; lia|left; apply Z.mod_pos_bound; lia].
  Qed.
  Lemma ceil_range : let r := n - d * (- ((- n) / d)) in - d < r <= 0 \/ 0 <= r < - d.
  Proof.
    cbv zeta. pose proof (Z.div_mod (- n) d Hd).
    destruct (Z_lt_ge_dec d 0); [right; pose proof (Z.mod_neg_bound (-n) d); lia|left; pose proof (Z.mod_pos_bound (-n) d); lia].
  Qed.
  Lemma ceiling_div_ok : Z.abs n <= 2^52 -> Z.abs d <= 2^52 ->
    divides_with (ceiling_div x y) n d (fun _ r => - d < r <= 0 \/ 0 <= r < - d).
  Proof.
    intros Bn Bd. unfold ceiling_div, ceiling_remainder, values2. destruct (ceiling_q Bn Bd) as [o [-> Ho]]. cbn [obind].
    do 4 eexists. split; [reflexivity|]. split; [exact Ho|]. split; [apply back_ok; exact Ho|]. split; [lia|]. apply ceil_range.
  Qed.
  Lemma truncate_div_ok : valid x -> valid y -> Z.abs n < 2^53 * Z.abs d \/ (d | n) ->
    divides_with (truncate_div x y) n d (fun _ r => Z.abs r < Z.abs d /\ (r = 0 \/ Z.sgn r = Z.sgn n)).
  Proof.
    intros Vx Vy H. unfold truncate_div, values2.
    assert (Q : exists o, n_quotient x y = Ok o /\ is_int o (Z.quot n d)).
    { destruct H as [H|[k H]]; [apply quotient_int; assumption|eapply quotient_divisible; eassumption]. }
    destruct Q as [o [-> Ho]]. cbn [obind]. destruct (rem_int x y n d Hx Hy Hd) as [p [E Hp]]. unfold n_remainder. rewrite E. cbn [obind].
    do 4 eexists. split; [reflexivity|]. split; [exact Ho|]. split; [exact Hp|].
    pose proof (Z.quot_rem' n d). pose proof (Z.rem_bound_abs n d Hd). pose proof (Z.rem_sign_nz n d Hd).
    split; [lia|]. split; [lia|]. destruct (Z.eq_dec (Z.rem n d) 0); [left; assumption|right; auto].
  Qed.
  Lemma euclid_q : Z.abs n <= 2^52 -> Z.abs d <= 2^52 ->
    exists o q, euclidean_quotient x y = Ok o /\ is_int o q /\ 0 <= n - d * q < Z.abs d.
  Proof.
    intros Bn Bd. unfold euclidean_quotient. destruct (n_lt (Small 0) y) eqn:E.
    - apply n_lt_ok in E. rewrite (is_int_value y d Hy) in E. unfold Qlt, inject_Z in E. cbn [value Qnum Qden inject_Z] in E.
      destruct (floor_q Bn Bd) as [o [Eo Ho]]. exists o, (n / d). split; [exact Eo|]. split; [exact Ho|].
      pose proof (Z.div_mod n d Hd). pose proof (Z.mod_pos_bound n d). lia.
    - assert (d < 0).
      { destruct (Z_lt_ge_dec d 0); [assumption|]. exfalso. assert (T : n_lt (Small 0) y = true); [|congruence].
        apply n_lt_ok. rewrite (is_int_value y d Hy). unfold Qlt, inject_Z. cbn [value Qnum Qden inject_Z]. lia. }
      destruct (ceiling_q Bn Bd) as [o [Eo Ho]]. exists o, (- ((- n) / d)). split; [exact Eo|]. split; [exact Ho|].
      pose proof ceil_range as R. cbv zeta in R. lia.
  Qed.
  Lemma euclidean_div_ok : Z.abs n <= 2^52 -> Z.abs d <= 2^52 ->
    divides_with (euclidean_div x y) n d (fun _ r => 0 <= r < Z.abs d).
  Proof.
    intros Bn Bd. unfold euclidean_div, euclidean_remainder, values2. destruct (euclid_q Bn Bd) as [o [q [-> [Ho R]]]]. cbn [obind].
    do 4 eexists. split; [reflexivity|]. split; [exact Ho|]. split; [apply back_ok; exact Ho|]. split; [lia|]. exact R.
  Qed.

  Lemma round_div_ok : Z.abs n <= 2^51 * Z.abs d -> (forall k, 2 * n <> (2 * k + 1) * d) ->
    divides_with (round_div x y) n d (fun _ r => 2 * Z.abs r < Z.abs d).
  Proof.
    intros Bn Ht. unfold round_div, round_remainder, values2.
    assert (Q : exists o q, round_quotient x y = Ok o /\ is_int o q /\ 2 * Z.abs (n - d * q) < Z.abs d).
    { unfold round_quotient. destruct div_cases as [r [-> [[z [Hz E]]|[q [-> [C W]]]]]]; cbn [obind].
      - destruct (integer_rounding d_round r z Hz) as [o [Eo Ho]]. exists o, z. split; [exact Eo|]. split; [exact Ho|]. lia.
      - apply ratio_int_eq in W; [|exact Hd]. 
        assert (B : Z.abs (Qnum q) < 2^52 * Zpos (Qden q)).
        { assert (Z.abs (Qnum q) * Z.abs d = Z.abs n * Zpos (Qden q)) by (rewrite <- Z.abs_mul, W, Z.abs_mul; lia).
          apply (Z.mul_lt_mono_pos_r (Z.abs d)); [lia|]. nia. }
        rewrite (round_ratio q B). do 2 eexists. split; [reflexivity|]. split; [right; reflexivity|].
        set (z := Z.sgn (Qnum q) * _).
        assert (Hnt : forall k, 2 * Qnum q <> (2 * k + 1) * Zpos (Qden q)).
        { intros k Hk. apply (Ht k). apply (Z.mul_cancel_r _ _ (Zpos (Qden q))); [lia|].
          replace (2 * n * Z.pos (Qden q)) with (2 * Qnum q * d) by lia. rewrite Hk. lia. }
        pose proof (nearest_unique_abs (Qnum q) (Zpos (Qden q)) z ltac:(lia) Hnt eq_refl) as R.
        assert (E : (n - d * z) * Zpos (Qden q) = (Qnum q - z * Zpos (Qden q)) * d) by lia.
        assert (E' : 2 * Z.abs (n - d * z) * Zpos (Qden q) = 2 * Z.abs (Qnum q - z * Zpos (Qden q)) * Z.abs d)
          by (rewrite <- !Z.mul_assoc, <- (Z.abs_mul (Qnum q - _)), <- E, Z.abs_mul; lia).
        apply (Z.mul_lt_mono_pos_r (Zpos (Qden q))); [lia|]. rewrite E'. nia. }
    destruct Q as [o [q [-> [Ho R]]]]. cbn [obind].
    do 4 eexists. split; [reflexivity|]. split; [exact Ho|]. split; [apply back_ok; exact Ho|]. split; [lia|]. exact R.
  Qed.

  Lemma balanced_r : Z.abs n <= 2^52 -> Z.abs d <= 2^52 ->
    exists o r, balanced_remainder x y = Ok o /\ is_int o r /\ (d | n - r) /\ - Z.abs d <= 2 * r < Z.abs d.
  Proof.
    intros Bn Bd. unfold balanced_remainder, euclidean_remainder.
    destruct (euclid_q Bn Bd) as [o [q [-> [Ho R]]]]. cbn [obind].
    pose proof (back_ok o q Ho) as Hb. set (e := n_sub x (n_mul y o)) in *.
    assert (Hv : ~ value (Small 2) == 0) by (cbv; discriminate).
    destruct (div_ok y (Small 2) Hv) as [h [-> [Vh Wh]]]. cbn [obind].
    destruct (abs_value h Vh) as [_ Ah].
    assert (Hh : value (n_abs h) == Z.abs d # 2).
    { rewrite Ah, Wh, (is_int_value y d Hy). cbn [value]. unfold Qdiv, Qmult, Qinv, inject_Z, Qabs.Qabs, Qeq. cbn [Qnum Qden]. lia. }
    assert (Hs : value (n_sub (Small 0) (n_abs h)) == - Z.abs d # 2).
    { rewrite (proj2 (sub_ok _ _)), Hh. cbn [value]. unfold Qeq, Qminus, Qplus, Qopp, inject_Z. cbn [Qnum Qden]. lia. }
    destruct (n_lt e (n_sub (Small 0) (n_abs h))) eqn:E1.
    { exfalso. apply n_lt_ok in E1. rewrite (is_int_value e _ Hb), Hs in E1. unfold Qlt, inject_Z in E1. cbn [Qnum Qden] in E1. lia. }
    pose proof (n_le_ok (n_abs h) e) as L. rewrite (is_int_value e _ Hb), Hh in L. unfold Qle, inject_Z in L. cbn [Qnum Qden] in L.
    destruct (n_le (n_abs h) e) eqn:E2.
    - pose proof (proj1 L eq_refl). do 2 eexists. split; [reflexivity|]. split; [apply sub_int; [exact Hb|apply abs_int; exact Hy]|].
      split; [|lia]. exists (q + Z.sgn d). pose proof (Z.sgn_abs d). lia.
    - assert (~ (Z.abs d * 1 <= (n - d * q) * 2)) by (intros C; apply L in C; discriminate).
      do 2 eexists. split; [reflexivity|]. split; [exact Hb|]. split; [exists q; lia|lia].
  Qed.
  Lemma balanced_div_ok : valid y -> Z.abs n <= 2^52 -> Z.abs d <= 2^52 ->
    divides_with (balanced_div x y) n d (fun _ r => - Z.abs d <= 2 * r < Z.abs d).
  Proof.
    intros Vy Bn Bd. unfold balanced_div, balanced_quotient, values2. destruct (balanced_r Bn Bd) as [o [r [-> [Ho [[k Hk] R]]]]]. cbn [obind].
    destruct (quotient_divisible (n_sub x o) y (n - r) d k) as [p [-> Hp]]; try assumption; [apply sub_int; assumption|apply sub_ok|].
    cbn [obind]. do 4 eexists. split; [reflexivity|]. split; [exact Hp|]. split; [exact Ho|].
    rewrite Hk, Z.quot_mul by exact Hd. split; [lia|exact R].
  Qed.
End Int.
