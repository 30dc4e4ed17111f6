(** C86 arithmetic of exact complex numbers, C87 parts and classes of complex numbers,
    C88 max and min of real numbers. *)
From Coq Require Import ZArith QArith Qfield Qabs List Bool Lia Lqa Floats.SpecFloat.
From Verif Require Import Number NumberProofs NumberRounding NumberMore Flonum FlonumSpec FlonumProofs FlonumProofs2 FlonumProofs3 PropertiesFlonum Complex ComplexSpec.
Import ListNotations.
Open Scope Z_scope.

(** ** C86 *)
(** the exact complex numbers, and the number each stands for *)
Definition exactly (x : real) (q : Q) : Prop := exists n, x = Exact n /\ (value n == q)%Q.
Definition stands (x : number) (c : cq) : Prop :=
  match x with
  | Rn x => exactly x (fst c) /\ (snd c == 0)%Q
  | Cn re im => exactly re (fst c) /\ exactly im (snd c)
  end.
(** a complex object is made only for numbers that are not real *)
Definition reduced (x : number) : Prop := match x with Rn _ => True | Cn _ im => ~ exactly im 0 end.

Lemma equals_exact x y : equals (Exact x) (Exact y) = Ok (n_eq x y).
Proof. destruct x; reflexivity. Qed.
Lemma exactly_comp x p q : exactly x p -> (p == q)%Q -> exactly x q.
Proof. intros (n & -> & E) H. exists n. split; [reflexivity|]. rewrite E. exact H. Qed.
Lemma add_exactly x y a b : exactly x a -> exactly y b -> exists r, add x y = Ok r /\ exactly r (a + b).
Proof.
  intros (m & -> & E) (n & -> & F). eexists. split; [reflexivity|]. eexists. split; [reflexivity|].
  rewrite (proj2 (add_ok m n)), E, F. reflexivity.
Qed.
Lemma sub_exactly x y a b : exactly x a -> exactly y b -> exists r, sub x y = Ok r /\ exactly r (a - b).
Proof.
  intros (m & -> & E) (n & -> & F). eexists. split; [reflexivity|]. eexists. split; [reflexivity|].
  rewrite (proj2 (sub_ok m n)), E, F. reflexivity.
Qed.
Lemma mul_exactly x y a b : exactly x a -> exactly y b -> exists r, mul x y = Ok r /\ exactly r (a * b).
Proof.
  intros (m & -> & E) (n & -> & F). eexists. split; [reflexivity|]. eexists. split; [reflexivity|].
  rewrite (proj2 (mul_ok m n)), E, F. reflexivity.
Qed.
Lemma div_exactly x y a b : exactly x a -> exactly y b -> ~ (b == 0)%Q -> exists r, div x y = Ok r /\ exactly r (a / b).
Proof.
  intros (m & -> & E) (n & -> & F) N. destruct (div_ok m n) as (r & D & _ & V); [rewrite F; exact N|].
  exists (Exact r). unfold div. cbn [mixed]. rewrite D. split; [reflexivity|]. exists r. split; [reflexivity|]. rewrite V, E, F. reflexivity.
Qed.
Lemma canonicalize_exactly re im a b : exactly re a -> exactly im b ->
  exists z, canonicalize re im = Ok z /\ stands z (a, b) /\ reduced z.
Proof.
  intros A (n & -> & E). unfold canonicalize, e0. rewrite equals_exact. cbn [obind]. eexists. split; [reflexivity|].
  destruct (n_eq n (Small 0)) eqn:X.
  - apply n_eq_ok in X. split; [|exact I]. split; [exact A|]. cbn [snd]. rewrite <- E. exact X.
  - split; [split; [exact A|exists n; auto]|]. intros (k & [= <-] & Z0).
    assert (n_eq n (Small 0) = true) by (apply n_eq_ok; exact Z0). congruence.
Qed.
Lemma parts x c : stands x c -> exactly (real_part x) (fst c) /\ exactly (imag_part x) (snd c).
Proof.
  destruct x as [x|re im]; intros [A B]; [|auto]. split; [exact A|]. exists (Small 0). split; [reflexivity|]. rewrite B. reflexivity.
Qed.
Lemma stands_comp x c d : stands x c -> ceq c d -> stands x d.
Proof.
  intros S [A B]. destruct x as [x|re im]; destruct S as [S T].
  - split; [exact (exactly_comp _ _ _ S A)|]. rewrite <- B. exact T.
  - split; [exact (exactly_comp _ _ _ S A)|exact (exactly_comp _ _ _ T B)].
Qed.
Ltac step L H H' := let r := fresh "r" in let E := fresh "E" in let V := fresh "V" in
  destruct (L _ _ _ _ H H') as (r & E & V); rewrite E; cbn [obind].
Lemma real_add x y a b : exactly x a -> exactly y b -> exists z, obind (add x y) (fun r => Ok (Rn r)) = Ok z /\ stands z (cof (a + b)) /\ reduced z.
Proof. intros A B. step add_exactly A B. eexists. split; [reflexivity|]. split; [split; [exact V|reflexivity]|exact I]. Qed.

Theorem C86_arithmetic : forall x y a b, stands x a -> stands y b ->
  (exists z, plus x y = Ok z /\ stands z (cadd a b) /\ reduced z) /\
  (exists z, minus x y = Ok z /\ stands z (csub a b) /\ reduced z) /\
  (exists z, times x y = Ok z /\ stands z (cmul a b) /\ reduced z).
Proof.
  intros x y a b S T. destruct (parts x a S) as [A1 A2], (parts y b T) as [B1 B2].
  assert (K : forall on_real on_complex c, (forall u v, x = Rn u -> y = Rn v -> exists r, on_real u v = Ok r /\ exactly r (fst c) /\ (snd c == 0)%Q) ->
    (exists z, on_complex x y = Ok z /\ stands z c /\ reduced z) -> exists z, lift on_real on_complex x y = Ok z /\ stands z c /\ reduced z).
  { intros f g c H G. destruct x as [x|? ?], y as [y|? ?]; cbn [lift]; try exact G.
    destruct (H x y eq_refl eq_refl) as (r & E & R & Z0). rewrite E. cbn [obind]. eexists. split; [reflexivity|]. repeat split; assumption. }
  repeat split; apply K.
  - intros u v -> ->. destruct S as [_ S], T as [_ T]. destruct (add_exactly _ _ _ _ A1 B1) as (r & E & V).
    exists r. split; [exact E|]. split; [exact V|]. unfold cadd. cbn [snd]. rewrite S, T. reflexivity.
  - unfold complex_add. step add_exactly A1 B1. step add_exactly A2 B2. exact (canonicalize_exactly _ _ _ _ V V0).
  - intros u v -> ->. destruct S as [_ S], T as [_ T]. destruct (sub_exactly _ _ _ _ A1 B1) as (r & E & V).
    exists r. split; [exact E|]. split; [exact V|]. unfold csub. cbn [snd]. rewrite S, T. reflexivity.
  - unfold complex_sub. step sub_exactly A1 B1. step sub_exactly A2 B2. exact (canonicalize_exactly _ _ _ _ V V0).
  - intros u v -> ->. destruct S as [_ S], T as [_ T]. destruct (mul_exactly _ _ _ _ A1 B1) as (r & E & V).
    exists r. split; [exact E|]. unfold cmul. cbn [fst snd]. split; [apply (exactly_comp _ _ _ V); rewrite S, T; ring|]. rewrite S, T. ring.
  - unfold complex_mul. step mul_exactly A1 B1. step mul_exactly A2 B2. step mul_exactly A2 B1. step mul_exactly A1 B2.
    step sub_exactly V V0. step add_exactly V1 V2. destruct (canonicalize_exactly _ _ _ _ V3 V4) as (z & E5 & Z1 & Z2).
    exists z. split; [exact E5|]. split; [|exact Z2]. apply (stands_comp _ _ _ Z1). split; cbn [fst snd cmul]; ring.
Qed.
Print Assumptions C86_arithmetic.
(** Division by a number other than 0 gives the number that multiplied by the divisor is the
    dividend; by 0 it ends the process *)
Lemma square_zero (p q : Q) : (p * p + q * q == 0 -> p == 0 /\ q == 0)%Q.
Proof. intros H. split; nra. Qed.
Theorem C86_division : forall x y a b, stands x a -> stands y b -> ~ ceq b (cof 0) ->
  exists z c, divides x y = Ok z /\ stands z c /\ ceq (cmul c b) a /\ reduced z.
Proof.
  intros x y a b S T N. destruct (parts x a S) as [A1 A2], (parts y b T) as [B1 B2].
  assert (G : exists z c, complex_div x y = Ok z /\ stands z c /\ ceq (cmul c b) a /\ reduced z).
  { assert (D : ~ (fst b * fst b + snd b * snd b == 0)%Q) by (intros H; apply square_zero in H as [H1 H2]; apply N; split; assumption).
    unfold complex_div. step mul_exactly A1 B1. step mul_exactly A2 B2. step add_exactly V V0.
    step mul_exactly A2 B1. step mul_exactly A1 B2. step sub_exactly V2 V3.
    step mul_exactly B1 B1. step mul_exactly B2 B2. step add_exactly V5 V6.
    destruct (div_exactly _ _ _ _ V1 V7 D) as (re & E8 & V8). destruct (div_exactly _ _ _ _ V4 V7 D) as (im & E9 & V9).
    rewrite E8, E9. cbn [obind]. destruct (canonicalize_exactly _ _ _ _ V8 V9) as (z & E10 & Z1 & Z2).
    eexists. eexists. split; [exact E10|]. split; [exact Z1|]. split; [|exact Z2].
    split; cbn [fst snd cmul]; field; exact D. }
  destruct x as [x|? ?], y as [y|? ?]; try exact G. clear G. destruct S as [S S0], T as [T T0].
  assert (D : ~ (fst b == 0)%Q) by (intros H; apply N; split; assumption).
  destruct (div_exactly _ _ _ _ S T D) as (r & E & V). unfold divides. cbn [lift]. rewrite E. cbn [obind].
  eexists. exists (cof (fst a / fst b)). split; [reflexivity|]. split; [split; [exact V|reflexivity]|]. split; [|exact I].
  split; cbn [fst snd cmul cof]; rewrite ?S0, ?T0; [field; exact D|ring].
Qed.
Print Assumptions C86_division.
(** +, -, * and / of any number of arguments *)
Theorem C86_nary : forall xs cs, Forall2 stands xs cs ->
  (exists z, s_add xs = Ok z /\ stands z (fold_left cadd cs (cof 0))) /\
  (exists z, s_mul xs = Ok z /\ stands z (fold_left cmul cs (cof 1))) /\
  (forall x c, stands x c ->
     exists z, s_sub x xs = Ok z /\ stands z (match cs with [] => csub (cof 0) c | _ => fold_left csub cs c end)).
Proof.
  assert (F : forall f g, (forall x y a b, stands x a -> stands y b -> exists z, f x y = Ok z /\ stands z (g a b) /\ reduced z) ->
    forall xs cs, Forall2 stands xs cs -> forall x c, stands x c -> exists z, fold f xs x = Ok z /\ stands z (fold_left g cs c)).
  { intros f g H xs cs L. unfold fold. induction L as [|y d xs cs Y L IH]; intros x c X; [eexists; split; [reflexivity|exact X]|].
    cbn [fold_left obind]. destruct (H x y c d X Y) as (z & E & Z1 & _). rewrite E. apply IH. exact Z1. }
  assert (O : forall n, stands (Rn (Exact (Small n))) (cof (inject_Z n))).
  { intros n. split; [exists (Small n); split; reflexivity|reflexivity]. }
  intros xs cs L. split; [|split].
  - apply (F plus cadd); [intros; now apply C86_arithmetic|exact L|exact (O 0)].
  - apply (F times cmul); [intros; now apply C86_arithmetic|exact L|exact (O 1)].
  - intros x c X. destruct L as [|y d xs cs Y L].
    + destruct (proj1 (proj2 (C86_arithmetic _ _ _ _ (O 0) X))) as (z & E & Z1 & _). exists z. split; [exact E|exact Z1].
    + apply (F minus csub); [intros; now apply C86_arithmetic|constructor; assumption|exact X].
Qed.
Print Assumptions C86_nary.
(** / of one argument is its reciprocal, / of several divides the first by the product of
    the others *)
Theorem C86_reciprocal : forall x a, stands x a -> ~ ceq a (cof 0) ->
  exists z c, s_div x [] = Ok z /\ stands z c /\ ceq (cmul c a) (cof 1) /\ reduced z.
Proof.
  intros x a S N. destruct (C86_division (Rn (Exact (Small 1))) x (cof 1) a) as (z & c & E & Z1 & Z2 & Z3); [|exact S|exact N|].
  - split; [exists (Small 1); split; reflexivity|reflexivity].
  - exists z, c. repeat split; assumption || apply Z2.
Qed.
Print Assumptions C86_reciprocal.
Theorem C86_quotient : forall x y xs a b cs, stands x a -> stands y b -> Forall2 stands xs cs -> Forall (fun c => ~ ceq c (cof 0)) (b :: cs) ->
  exists z c, s_div x (y :: xs) = Ok z /\ stands z c /\ ceq (cmul c (fold_left cmul cs b)) a.
Proof.
  assert (M : forall c d e, ceq c d -> ceq (cmul c e) (cmul d e)).
  { intros c d e [H1 H2]. split; cbn [cmul fst snd]; rewrite H1, H2; reflexivity. }
  assert (A : forall cs b c, ceq (fold_left cmul cs (cmul c b)) (cmul c (fold_left cmul cs b))).
  { assert (P : forall cs b c, ceq b c -> ceq (fold_left cmul cs b) (fold_left cmul cs c)).
    { intros cs. induction cs as [|d cs IH]; intros b c H; [exact H|]. cbn [fold_left]. apply IH. now apply M. }
    assert (T : forall u v w, ceq u v -> ceq v w -> ceq u w) by (intros u v w [H1 H2] [H3 H4]; split; [now rewrite H1|now rewrite H2]).
    intros cs. induction cs as [|d cs IH]; intros b c; [split; reflexivity|]. cbn [fold_left].
    eapply T; [|apply IH]. apply P. split; cbn [cmul fst snd]; ring. }
  assert (T : forall u v w, ceq u v -> ceq v w -> ceq u w) by (intros u v w [H1 H2] [H3 H4]; split; [now rewrite H1|now rewrite H2]).
  intros x y xs a b cs X Y L. revert x y a b X Y. induction L as [|y' b' xs cs Y' L IH]; intros x y a b X Y N; inversion N as [|? ? N1 N2]; subst.
  - destruct (C86_division x y a b X Y N1) as (z & c & E & Z1 & Z2 & _). exists z, c. repeat split; [exact E|exact Z1|apply Z2|apply Z2].
  - destruct (C86_division x y a b X Y N1) as (z & c & E & Z1 & Z2 & _).
    destruct (IH z y' c b' Z1 Y' N2) as (w & d & E' & W1 & W2). exists w, d. split; [|split; [exact W1|]].
    + unfold s_div, fold in *. cbn [fold_left obind] in *. rewrite E. exact E'.
    + cbn [fold_left]. eapply T; [|exact Z2]. eapply T; [|apply (M _ _ b W2)].
      assert (C : forall u v, ceq (cmul u v) (cmul v u)) by (intros u v; split; cbn [cmul fst snd]; ring).
      assert (D : ceq (cmul d (fold_left cmul cs (cmul b b'))) (cmul d (cmul b (fold_left cmul cs b')))).
      { eapply T; [apply C|]. eapply T; [apply M, A|]. apply C. }
      eapply T; [exact D|]. split; cbn [cmul fst snd]; ring.
Qed.
Print Assumptions C86_quotient.
Example C86_example_quotient : let z := Cn (Exact (Small 3)) (Exact (Small 4)) in let i := Cn (Exact (Small 0)) (Exact (Small 1)) in
  s_div i [] = Ok (Cn (Exact (Ratio 0)) (Exact (Ratio (-1)))) /\ s_div z [i; z] = Ok (Cn (Exact (Large 0)) (Exact (Large (-1)))) /\
  stands z (inject_Z 3, inject_Z 4) /\ stands i (inject_Z 0, inject_Z 1).
Proof. cbv zeta. repeat split; try (vm_compute; reflexivity); eexists; split; reflexivity. Qed.
Theorem C86_equal : forall x y a b, stands x a -> stands y b -> exists t, c_equals x y = Ok t /\ (t = true <-> ceq a b).
Proof.
  intros x y a b S T. destruct (parts x a S) as [(p & P1 & P2) (q & Q1 & Q2)], (parts y b T) as [(r & R1 & R2) (s & S1 & S2)].
  assert (G : exists t, (let! a := equals (real_part x) (real_part y) in if a then equals (imag_part x) (imag_part y) else Ok false) = Ok t /\ (t = true <-> ceq a b)).
  { rewrite P1, R1, Q1, S1, !equals_exact. cbn [obind]. destruct (n_eq p r) eqn:X.
    - eexists. split; [reflexivity|]. rewrite n_eq_ok, Q2, S2. apply n_eq_ok in X. rewrite P2, R2 in X. unfold ceq. tauto.
    - eexists. split; [reflexivity|]. split; [discriminate|]. intros [H _]. rewrite <- P2, <- R2 in H. apply n_eq_ok in H. congruence. }
  destruct x as [x|? ?], y as [y|? ?]; try exact G. destruct S as [_ S0], T as [_ T0].
  cbn [real_part] in P1, R1. subst. cbn [c_equals]. rewrite equals_exact. eexists. split; [reflexivity|]. rewrite n_eq_ok, P2, R2. unfold ceq. rewrite S0, T0. intuition reflexivity.
Qed.
Print Assumptions C86_equal.
Example C86_example :
  let i := Cn (Exact (Small 0)) (Exact (Small 1)) in let z := Cn (Exact (Small 3)) (Exact (Small (-4))) in
  times i i = Ok (Rn (Exact (Small (-1)))) /\ plus z i = Ok (Cn (Exact (Small 3)) (Exact (Small (-3)))) /\
  divides (Rn (Exact (Small 1))) z = Ok (Cn (Exact (Ratio (3 # 25))) (Exact (Ratio (4 # 25)))) /\
  s_sub z [] = Ok (Cn (Exact (Small (-3))) (Exact (Small 4))) /\ stands z (inject_Z 3, inject_Z (-4)) /\
  divides z (Rn (Exact (Small 0))) = Crash.
Proof. cbv zeta. repeat split; try (vm_compute; reflexivity); eexists; split; reflexivity. Qed.
(** ** C87 *)
Theorem C87_parts : forall x y z, 
  real_part (make_rectangular x y) = x /\ imag_part (make_rectangular x y) = y /\
  c_is_exact z = is_exact (real_part z) && is_exact (imag_part z) /\
  c_is_nan z = is_nan (real_part z) || is_nan (imag_part z) /\
  c_is_infinite z = is_infinite (real_part z) || is_infinite (imag_part z).
Proof.
  intros x y z. split; [reflexivity|]. split; [reflexivity|].
  destruct z; cbn; rewrite ?orb_false_r, ?andb_true_r; auto.
Qed.
Print Assumptions C87_parts.
Theorem C87_real : forall x, rvalid (imag_part x) -> exists b, c_is_real x = Ok b /\ (b = true <-> same (denote (imag_part x)) (Fin 0)).
Proof.
  intros x V. destruct (C79_classes (imag_part x) V) as (_ & _ & _ & (b & E & B) & _). exists b. split; [|exact B].
  destruct x; [|exact E]. cbn [imag_part] in E. rewrite <- E. reflexivity.
Qed.
Print Assumptions C87_real.
(** (make-rectangular 1 0) is an integer but neither rational nor an exact integer *)
Theorem C87_tower_refuted : let z := make_rectangular (Exact (Small 1)) (Exact (Small 0)) in
  c_is_integer z = Ok true /\ c_is_exact z = true /\ c_is_rational z = false /\ c_is_exact_integer z = false.
Proof. repeat split. Qed.
Print Assumptions C87_tower_refuted.
(** Of numbers as arithmetic makes them: integer? implies rational? implies real? *)
Theorem C87_tower_partial : forall x, match x with Cn _ im => equals im e0 = Ok false | Rn _ => True end ->
  (is_infinite (real_part x) = false -> c_is_integer x = Ok true -> c_is_rational x = true) /\
  (c_is_rational x = true -> c_is_real x = Ok true) /\
  (c_is_exact x = true -> c_is_integer x = Ok true -> c_is_exact_integer x = true \/ exists q, x = Rn (Exact (Ratio q)) /\ Qden q = 1%positive).
Proof.
  intros [x|re im] H; cbn in *.
  - split; [|split].
    + destruct x as [n|f]; [reflexivity|]. cbn. intros I H0. destruct f; try discriminate; reflexivity.
    + reflexivity.
    + destruct x as [[z|z|q]|f]; cbn; intros E H0; auto; try discriminate. right. exists q. split; [reflexivity|].
      destruct (Qden q); discriminate || reflexivity.
  - rewrite H. cbn. repeat split; try discriminate.
Qed.
Print Assumptions C87_tower_partial.
(** The magnitude of an exact complex number is exact if it is an integer *)
Theorem C87_magnitude : forall re im a b k, exactly re a -> exactly im b -> 0 <= k -> (a * a + b * b == inject_Z (k * k))%Q ->
  exists r, c_magnitude (Cn re im) = Ok (Real r) /\ exactly r (inject_Z k).
Proof.
  intros re im a b k (m & -> & A) (n & -> & B) K E. cbn [c_magnitude mul mixed obind add r_add].
  destruct (add_ok (n_mul m m) (n_mul n n)) as [V W].
  assert (I : is_int (n_add (n_mul m m) (n_mul n n)) (k * k)).
  { apply add_integral. rewrite (proj2 (mul_ok m m)), (proj2 (mul_ok n n)), A, B. exact E. }
  destruct I as [I|I]; rewrite I in *.
  - destruct (C82_small (k * k) V) as [S _]; [nia|]. destruct (S k K eq_refl) as [R _]. eexists. split; [exact R|]. eexists. split; reflexivity.
  - eexists. split; [exact (C82_large_partial k K)|]. eexists. split; reflexivity.
Qed.
Print Assumptions C87_magnitude.
Example C87_example : c_magnitude (Cn (Exact (Small 3)) (Exact (Small (-4)))) = Ok (Real (Exact (Small 5))) /\
  c_is_real (Cn (Exact (Small 3)) (Flo (S754_zero true))) = Ok true /\ c_is_integer (Cn (Exact (Small 3)) (Exact (Small 1))) = Ok false.
Proof. repeat split; vm_compute; reflexivity. Qed.
(** The arguments of atan2 are exchanged: (angle 1) should be 0, the angle of a positive
    number, and is pi / 2, what std::atan2 gives for 1.0 and 0.0; (angle i) is 0 *)
Theorem C87_angle_refuted : forall atan2,
  angle atan2 (Rn (Exact (Small 1))) = Flo (atan2 (of_q 1) (of_q 0)) /\
  angle atan2 (Cn (Exact (Small 0)) (Exact (Small 1))) = Flo (atan2 (of_q 0) (of_q 1)).
Proof. split; reflexivity. Qed.
Print Assumptions C87_angle_refuted.

(** ** C88 *)
Definition greatest (xs : list real) (m : real) : Prop := In m xs /\ forall y, In y xs -> le (denote y) (denote m).
Definition least (xs : list real) (m : real) : Prop := In m xs /\ forall y, In y xs -> le (denote m) (denote y).
Definition some_inexact (xs : list real) : Prop := exists f, In (Flo f) xs.
(** all numbers but NaN *)
Definition comparable (x : real) : Prop := rvalid x /\ denote x <> NaN.

Lemma le_trans x y z : le x y -> le y z -> le x z.
Proof.
  unfold le. destruct x, y, z; cbn; intros [A|A] [B|B]; auto; try contradiction; try (left; lra); right; lra.
Qed.
Lemma le_refl x : x <> NaN -> le x x.
Proof. unfold le. destruct x; cbn; intros; try (right; reflexivity || exact I); congruence. Qed.
Lemma le_antisym x y : le x y -> le y x -> same x y.
Proof. unfold le. destruct x, y; cbn; intros [A|A] [B|B]; auto; try contradiction; lra. Qed.
Lemma le_total x y : x <> NaN -> y <> NaN -> le x y \/ le y x.
Proof.
  intros A B. unfold le. destruct x, y; cbn; auto; try congruence.
  destruct (Q_dec q q0) as [[L|L]|L]; [auto|auto|]. left. right. exact L.
Qed.
Lemma not_nan q : fext (of_q q) <> NaN.
Proof. unfold of_q. destruct (get_d q) as [d|]; [destruct (d_m d)|destruct (Qnum q <? 0)]; discriminate. Qed.
Lemma le_pinf x : x <> NaN -> le x PInf.
Proof. destruct x; cbn; intros; unfold le; cbn; auto; congruence. Qed.
Lemma ninf_le x : x <> NaN -> le NInf x.
Proof. destruct x; cbn; intros; unfold le; cbn; auto; congruence. Qed.
Lemma num_sign q : (Qnum q <? 0) = true <-> (q < 0)%Q.
Proof. rewrite Z.ltb_lt. unfold Qlt. cbn. lia. Qed.
Lemma of_q_mono p q : (p <= q)%Q -> le (fext (of_q p)) (fext (of_q q)).
Proof.
  intros H. pose proof (p2_pos 1024) as P0.
  destruct (Qlt_le_dec (Qabs p) (p2 1024)) as [Lp|Gp].
  2:{ rewrite (of_q_huge p Gp). destruct (Qnum p <? 0) eqn:S; [apply ninf_le, not_nan|].
      assert (0 <= p)%Q by (destruct (Qlt_le_dec p 0) as [X|X]; [apply num_sign in X; congruence|exact X]).
      rewrite Qabs_pos in Gp by assumption.
      assert (Gq : (p2 1024 <= Qabs q)%Q) by (rewrite Qabs_pos by lra; lra).
      rewrite (of_q_huge q Gq). destruct (Qnum q <? 0) eqn:T; [apply num_sign in T; lra|]. right. exact I. }
  destruct (Qlt_le_dec (Qabs q) (p2 1024)) as [Lq|Gq].
  2:{ rewrite (of_q_huge q Gq). destruct (Qnum q <? 0) eqn:S; [|apply le_pinf, not_nan].
      apply num_sign in S. rewrite Qabs_neg in Gq by lra. rewrite Qabs_neg in Lp by lra. lra. }
  destruct (of_q_truncates p Lp) as (F1 & T1 & S1). destruct (of_q_truncates q Lq) as (F2 & T2 & S2).
  rewrite !fext_finite by assumption.
  pose proof (fval_representable _ (of_q_valid p) F1) as R1. pose proof (fval_representable _ (of_q_valid q) F2) as R2.
  pose proof (of_q_maximal q _ Lq R1) as M1. pose proof (of_q_maximal p _ Lp R2) as M2.
  set (f := fval (of_q p)) in *. set (g := fval (of_q q)) in *.
  assert (K : (f <= g)%Q).
  { assert (Sg : forall x y, (Qabs y <= Qabs x)%Q -> (0 <= y * x)%Q -> ((0 <= x -> 0 <= y) /\ (x <= 0 -> y <= 0))%Q).
    { intros x y A B. split; intros C; apply Qnot_lt_le; intros D.
      - rewrite (Qabs_pos x C), (Qabs_neg y) in A by lra. nra.
      - rewrite (Qabs_neg x C), (Qabs_pos y) in A by lra. nra. }
    destruct (Sg p f T1 S1) as [Pp Pn]. destruct (Sg q g T2 S2) as [Qp Qn].
    destruct (Qlt_le_dec p 0) as [Np|Zp].
    - destruct (Qlt_le_dec q 0) as [Nq|Zq]; [|specialize (Pn ltac:(lra)); specialize (Qp Zq); lra].
      specialize (Pn ltac:(lra)). specialize (Qn ltac:(lra)).
      rewrite (Qabs_neg q), (Qabs_neg p), (Qabs_neg f), (Qabs_neg g) in * by lra. specialize (M2 ltac:(lra)). lra.
    - specialize (Pp Zp). specialize (Qp ltac:(lra)).
      rewrite (Qabs_pos q), (Qabs_pos p), (Qabs_pos f), (Qabs_pos g) in * by lra. specialize (M1 ltac:(lra)). lra. }
  unfold le, lt, same. apply Qle_lteq in K as [K|K]; auto.
Qed.
(** the double that inexact makes *)
Definition made (x : real) : ext := fext (as_double x).
Lemma inexact_made x : denote (inexact x) = made x.
Proof. destruct x; reflexivity. Qed.
Lemma made_not_nan x : comparable x -> made x <> NaN.
Proof. intros [_ H]. destruct x as [n|f]; [apply not_nan|exact H]. Qed.
Lemma to_double_q n : to_double n = of_q (value n).
Proof. destruct n; reflexivity. Qed.
Lemma made_mono x y : comparable x -> comparable y -> le (denote x) (denote y) -> le (made x) (made y).
Proof.
  intros Cx Cy L. pose proof (made_not_nan x Cx) as Nx. pose proof (made_not_nan y Cy) as Ny. destruct Cx as [Vx _], Cy as [Vy _].
  destruct x as [m|f], y as [n|g]; unfold made in *; cbn [as_double denote] in *; rewrite ?to_double_q in *; [| | |exact L].
  - apply of_q_mono. destruct L as [L|L]; cbn in L; lra.
  - destruct (finite g) eqn:F; [|destruct g as [|[]| |]; cbn in *; try discriminate; [destruct L; contradiction|apply le_pinf; exact Nx|congruence]].
    rewrite (fext_finite g F) in *. destruct (of_q_representable _ (fval_representable g Vy F)) as [A B].
    apply (le_trans _ (fext (of_q (fval g)))); [apply of_q_mono; destruct L as [L|L]; cbn in L; lra|].
    rewrite (fext_finite _ A). right. cbn. exact B.
  - destruct (finite f) eqn:F; [|destruct f as [|[]| |]; cbn in *; try discriminate; [apply ninf_le; exact Ny|destruct L; contradiction|congruence]].
    rewrite (fext_finite f F) in *. destruct (of_q_representable _ (fval_representable f Vx F)) as [A B].
    apply (le_trans _ (fext (of_q (fval f)))); [|apply of_q_mono; destruct L as [L|L]; cbn in L; lra].
    rewrite (fext_finite _ A). right. cbn. symmetry. exact B.
Qed.
Lemma less_made x y : comparable x -> comparable y ->
  exists b, less_than x y = Ok b /\ (b = true -> le (made x) (made y)) /\ (b = false -> le (made y) (made x)).
Proof.
  intros Cx Cy. pose proof (made_not_nan x Cx) as Nx. pose proof (made_not_nan y Cy) as Ny.
  assert (G : ordered x y -> exists b, less_than x y = Ok b /\ (b = true -> le (made x) (made y)) /\ (b = false -> le (made y) (made x))).
  { intros O. destruct (less_than_ok x y (proj1 Cx) (proj1 Cy) O) as (b & E & B). exists b. split; [exact E|]. split; intros ->.
    - apply made_mono; [exact Cx|exact Cy|]. left. now apply B.
    - apply made_mono; [exact Cy|exact Cx|]. destruct (le_total (denote y) (denote x)) as [L|[L|L]]; [apply Cy|apply Cx|exact L| |].
      + apply B in L. discriminate.
      + right. destruct (denote x), (denote y); cbn in *; auto. lra. }
  assert (D : forall f g, vfloat f -> vfloat g -> fext f <> NaN -> fext g <> NaN ->
    (SFltb f g = true -> le (fext f) (fext g)) /\ (SFltb f g = false -> le (fext g) (fext f))).
  { intros f g Vf Vg N1 N2. pose proof (ltb_iff f g Vf Vg) as H. split; intros E.
    - left. now apply H.
    - apply not_lt_le; [exact N1|exact N2|]. intros L. apply H in L. congruence. }
  destruct Cx as [Vx Dx], Cy as [Vy Dy].
  destruct x as [[a|a|a]|f], y as [[b|b|b]|g]; try (apply G; repeat split; assumption);
    (eexists; split; [reflexivity|]; apply D; try assumption; apply of_q_valid).
Qed.

Fixpoint pick (c : real -> real -> outcome bool) (best : real) (xs : list real) : outcome real :=
  match xs with [] => Ok best | y :: xs => let! b := c best y in pick c (if b then y else best) xs end.
Lemma max_pick xs : forall x, max_from x xs = pick less_than x xs.
Proof. induction xs as [|y xs IH]; intros x; [reflexivity|]. cbn. destruct (less_than x y) as [[]| |]; cbn; auto. Qed.
Lemma min_pick xs : forall x, min_from x xs = pick (fun x y => less_than y x) x xs.
Proof. induction xs as [|y xs IH]; intros x; [reflexivity|]. cbn. destruct (less_than y x) as [[]| |]; cbn; auto. Qed.
Lemma pick_ok (P : real -> Prop) (R : real -> real -> Prop) c :
  (forall x y, P x -> P y -> exists b, c x y = Ok b /\ (b = true -> R x y) /\ (b = false -> R y x)) ->
  (forall x, P x -> R x x) -> (forall x y z, R x y -> R y z -> R x z) ->
  forall xs x, P x -> Forall P xs -> exists m, pick c x xs = Ok m /\ In m (x :: xs) /\ forall y, In y (x :: xs) -> R y m.
Proof.
  intros H Rf Tr. induction xs as [|y xs IH]; intros x Px Pxs.
  - exists x. split; [reflexivity|]. split; [left; reflexivity|]. intros y [<-|[]]. auto.
  - inversion Pxs as [|? ? Py Pys]; subst. cbn [pick]. destruct (H x y Px Py) as (b & E & B1 & B2). rewrite E. cbn [obind].
    destruct (IH (if b then y else x)) as (m & E1 & I1 & U); [destruct b; assumption|assumption|].
    exists m. split; [exact E1|]. split; [destruct I1 as [<-|I1]; [destruct b; cbn; auto|cbn; auto]|].
    assert (T : R x m /\ R y m).
    { pose proof (U _ (or_introl eq_refl)) as U0. destruct b; [split; [apply (Tr _ y); auto|exact U0]|split; [exact U0|apply (Tr _ x); auto]]. }
    intros z [<-|[<-|I]]; [apply T|apply T|apply U; right; exact I].
Qed.
Lemma greatest_exists xs : forall x, Forall comparable (x :: xs) -> exists m, greatest (x :: xs) m.
Proof.
  induction xs as [|y xs IH]; intros x F; inversion F as [|? ? Px Pxs]; subst.
  - exists x. split; [left; reflexivity|]. intros y [<-|[]]. apply le_refl, Px.
  - destruct (IH y Pxs) as (m & I1 & U). assert (Pm : comparable m) by (rewrite Forall_forall in Pxs; auto).
    destruct (le_total (denote x) (denote m) (proj2 Px) (proj2 Pm)) as [L|L].
    + exists m. split; [right; exact I1|]. intros z [<-|I]; auto.
    + exists x. split; [left; reflexivity|]. intros z [<-|I]; [apply le_refl, Px|]. apply (le_trans _ (denote m)); auto.
Qed.
Lemma least_exists xs : forall x, Forall comparable (x :: xs) -> exists m, least (x :: xs) m.
Proof.
  induction xs as [|y xs IH]; intros x F; inversion F as [|? ? Px Pxs]; subst.
  - exists x. split; [left; reflexivity|]. intros y [<-|[]]. apply le_refl, Px.
  - destruct (IH y Pxs) as (m & I1 & U). assert (Pm : comparable m) by (rewrite Forall_forall in Pxs; auto).
    destruct (le_total (denote x) (denote m) (proj2 Px) (proj2 Pm)) as [L|L].
    + exists x. split; [left; reflexivity|]. intros z [<-|I]; [apply le_refl, Px|]. apply (le_trans _ (denote m)); auto.
    + exists m. split; [right; exact I1|]. intros z [<-|I]; auto.
Qed.
Lemma exists_inexact xs : existsb is_inexact xs = true <-> some_inexact xs.
Proof.
  rewrite existsb_exists. unfold some_inexact. split.
  - intros ([n|f] & I & E); [discriminate|eauto].
  - intros (f & I). exists (Flo f). auto.
Qed.
Lemma exact_ordered xs x y : ~ some_inexact xs -> Forall comparable xs -> In x xs -> In y xs -> ordered x y.
Proof.
  intros N F I J. rewrite Forall_forall in F. destruct (F x I) as [_ A], (F y J) as [_ B].
  split; [exact A|]. split; [exact B|]. destruct x as [x|f]; [|exfalso; apply N; exists f; exact I].
  destruct y as [y|g]; [|exfalso; apply N; exists g; exact J]. destruct x; exact Logic.I.
Qed.

(** max: if there is an inexact number, the greatest number made inexact, and otherwise the
    greatest number *)
Theorem C88_max_partial : forall x xs, Forall comparable (x :: xs) ->
  exists m r, greatest (x :: xs) m /\ s_max (x :: xs) = Ok (Some r) /\
    (some_inexact (x :: xs) -> is_inexact r = true /\ same (denote r) (denote (inexact m))) /\
    (~ some_inexact (x :: xs) -> greatest (x :: xs) r).
Proof.
  intros x xs F. destruct (greatest_exists xs x F) as (m & I & U). exists m.
  inversion F as [|? ? Px Pxs]; subst. rewrite Forall_forall in F.
  destruct (pick_ok comparable (fun x y => le (made x) (made y)) less_than) with (xs := xs) (x := x) as (p & E & Ip & Up);
    [apply less_made|intros z Z; apply le_refl, made_not_nan, Z|intros a b c; apply le_trans|exact Px|exact Pxs|].
  exists (contagion (x :: xs) p). split; [split; assumption|]. unfold s_max. rewrite max_pick, E. cbn [obind].
  split; [reflexivity|]. unfold contagion. split; intros S.
  - apply exists_inexact in S. rewrite S. split; [destruct p; reflexivity|]. rewrite !inexact_made.
    apply le_antisym; [|apply Up, I]. apply made_mono; [apply F, Ip|apply F, I|apply U, Ip].
  - destruct (existsb is_inexact (x :: xs)) eqn:S'; [apply exists_inexact in S'; contradiction|].
    destruct (pick_ok (fun z => In z (x :: xs)) (fun x y => le (denote x) (denote y)) less_than) with (xs := xs) (x := x) as (p' & E' & Ip' & Up').
    + intros a b A B. assert (O : ordered a b) by (apply (exact_ordered (x :: xs)); auto; rewrite Forall_forall; auto).
      destruct (less_than_ok a b (proj1 (F a A)) (proj1 (F b B)) O) as (t & Et & T). exists t. split; [exact Et|]. split; intros ->.
      * left. now apply T.
      * apply not_lt_le; [apply F, A|apply F, B|]. intros L. apply T in L. discriminate.
    + intros z Z. apply le_refl, F, Z.
    + intros a b c. apply le_trans.
    + left. reflexivity.
    + rewrite Forall_forall. intros z Z. right. exact Z.
    + rewrite E in E'. injection E' as <-. split; assumption.
Qed.
Print Assumptions C88_max_partial.
Theorem C88_min_partial : forall x xs, Forall comparable (x :: xs) ->
  exists m r, least (x :: xs) m /\ s_min (x :: xs) = Ok (Some r) /\
    (some_inexact (x :: xs) -> is_inexact r = true /\ same (denote r) (denote (inexact m))) /\
    (~ some_inexact (x :: xs) -> least (x :: xs) r).
Proof.
  intros x xs F. destruct (least_exists xs x F) as (m & I & U). exists m.
  inversion F as [|? ? Px Pxs]; subst. rewrite Forall_forall in F.
  destruct (pick_ok comparable (fun x y => le (made y) (made x)) (fun x y => less_than y x)) with (xs := xs) (x := x) as (p & E & Ip & Up);
    [intros a b A B; apply less_made; assumption|intros z Z; apply le_refl, made_not_nan, Z|intros a b c H1 H2; exact (le_trans _ _ _ H2 H1)|exact Px|exact Pxs|].
  exists (contagion (x :: xs) p). split; [split; assumption|]. unfold s_min. rewrite min_pick, E. cbn [obind].
  split; [reflexivity|]. unfold contagion. split; intros S.
  - apply exists_inexact in S. rewrite S. split; [destruct p; reflexivity|]. rewrite !inexact_made.
    apply le_antisym; [apply Up, I|]. apply made_mono; [apply F, I|apply F, Ip|apply U, Ip].
  - destruct (existsb is_inexact (x :: xs)) eqn:S'; [apply exists_inexact in S'; contradiction|].
    destruct (pick_ok (fun z => In z (x :: xs)) (fun x y => le (denote y) (denote x)) (fun x y => less_than y x)) with (xs := xs) (x := x) as (p' & E' & Ip' & Up').
    + intros b a B A. assert (O : ordered a b) by (apply (exact_ordered (x :: xs)); auto; rewrite Forall_forall; auto).
      destruct (less_than_ok a b (proj1 (F a A)) (proj1 (F b B)) O) as (t & Et & T). exists t. split; [exact Et|]. split; intros ->.
      * left. now apply T.
      * apply not_lt_le; [apply F, A|apply F, B|]. intros L. apply T in L. discriminate.
    + intros z Z. apply le_refl, F, Z.
    + intros a b c H1 H2. exact (le_trans _ _ _ H2 H1).
    + left. reflexivity.
    + rewrite Forall_forall. intros z Z. right. exact Z.
    + rewrite E in E'. injection E' as <-. split; assumption.
Qed.
Print Assumptions C88_min_partial.
Example C88_example : s_max [Exact (Small 1); Flo (of_q (1 # 2)); Exact (Small 3)] = Ok (Some (Flo (of_q 3))) /\
  s_min [Exact (Ratio (1 # 3)); Exact (Small 2)] = Ok (Some (Exact (Ratio (1 # 3)))) /\
  Forall comparable [Exact (Small 1); Flo (of_q (1 # 2)); Exact (Small 3)].
Proof.
  split; [vm_compute; reflexivity|]. split; [vm_compute; reflexivity|].
  repeat constructor; cbn; try lia; try discriminate.
Qed.
(** (max 10000000000 +nan.0) ends the process *)
Theorem C88_nan_refuted : s_max [Exact (Large 10000000000); Flo S754_nan] = Crash.
Proof. reflexivity. Qed.
Print Assumptions C88_nan_refuted.
