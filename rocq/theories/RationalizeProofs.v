(** Proofs about rationalize. *)
From Coq Require Qcanon.
From Coq Require Import ZArith QArith Qround Qabs Qreduction Lia Lqa Znumtheory Bool.
From Verif Require Import Rationalize.
Local Open Scope Q_scope.

Lemma less_spec : forall x y, less x y = true <-> x < y.
Proof.
  intros x y. unfold less. rewrite negb_true_iff. split; intros H.
  - apply Qnot_le_lt. intros L. apply Qle_bool_iff in L. congruence.
  - apply not_true_is_false. intros L. apply Qle_bool_iff in L. lra.
Qed.
Lemma less_false : forall x y, less x y = false <-> y <= x.
Proof. intros x y. unfold less. rewrite negb_false_iff. apply Qle_bool_iff. Qed.
Local Notation "# p" := (inject_Z p) (at level 5).
Lemma inj_le : forall p q, #p <= #q <-> (p <= q)%Z.
Proof. intros. rewrite Zle_Qle. reflexivity. Qed.
Lemma inj_lt : forall p q, #p < #q <-> (p < q)%Z.
Proof. intros. rewrite Zlt_Qlt. reflexivity. Qed.
Lemma lt_inj : forall p q, #p < #q -> (p < q)%Z.
Proof. intros. apply inj_lt. assumption. Qed.
Lemma le_inj : forall p q, #p <= #q -> (p <= q)%Z.
Proof. intros. apply inj_le. assumption. Qed.
Lemma inv_le : forall a b c d, 0 < a -> a * b == 1 -> 0 < c -> c * d == 1 -> a <= c -> d <= b.
Proof.
  intros a b c d A AB C CD L. assert (B : 0 < b) by nra. assert (D : 0 < d) by nra.
  assert (E : d * a * b <= d * c * b) by (apply Qmult_le_compat_r; [|lra]; rewrite !(Qmult_comm d); apply Qmult_le_compat_r; lra).
  assert (d * a * b == d) by (rewrite <- Qmult_assoc, AB; ring). assert (d * c * b == b) by (rewrite (Qmult_comm d c), CD; ring). lra.
Qed.
Lemma floor_lt_1 : forall x, 0 <= x - #(Qfloor x) /\ x - #(Qfloor x) < 1.
Proof. intros x. pose proof (Qfloor_le x). pose proof (Qlt_floor x) as H0. rewrite inject_Z_plus in H0. change (inject_Z 1) with 1 in H0. lra. Qed.
Lemma floor_unique : forall x n, #n <= x -> x < #n + 1 -> Qfloor x = n.
Proof.
  intros x n A B. pose proof (floor_lt_1 x) as [C D]. assert (#(Qfloor x) < #(n + 1)) by (rewrite inject_Z_plus; change #1 with 1; lra).
  assert (#n < #(Qfloor x + 1)) by (rewrite inject_Z_plus; change #1 with 1; lra). rewrite inj_lt in *. lia.
Qed.
Lemma floor_mono : forall x y, x <= y -> (Qfloor x <= Qfloor y)%Z.
Proof. intros. apply Qfloor_resp_le. assumption. Qed.

(** the terms of the result are least among all p/q between x and y *)
Lemma internal_spec : forall fuel x y n d m e, 0 < x -> x <= y -> (0 < d)%Z -> (0 < e)%Z -> x * #d == #n -> y * #e == #m -> (d + e <= Z.of_nat fuel)%Z ->
  exists z a b, internal fuel x y = Some z /\ (0 < a)%Z /\ (0 < b)%Z /\ Z.gcd a b = 1%Z /\ z * #b == #a /\ x <= z <= y /\
  forall p q, (0 < q)%Z -> x * #q <= #p -> #p <= y * #q -> (a <= p)%Z /\ (b <= q)%Z.
Proof.
  induction fuel as [|fuel IH]; intros x y n d m e X XY D E DN EM F; [lia|].
  cbn [internal]. pose proof (floor_lt_1 x) as [FX1 FX2]. pose proof (floor_lt_1 y) as [FY1 FY2].
  assert (LE : (Qfloor x <= Qfloor y)%Z) by (apply floor_mono; exact XY).
  generalize dependent (Qfloor x). generalize dependent (Qfloor y). intros fy FY1 FY2 fx FX1 FX2 LE.
  assert (NN : (0 <= fx)%Z). { assert (T : #(-1) < #fx) by (change #(-1) with (-(1)); lra). apply lt_inj in T. lia. }
  destruct (less #fx x) eqn:L; cbn [negb].
  - apply less_spec in L. destruct (Qeq_bool #fx #fy) eqn:EQ.
    + (* the same integer part *)
      apply Qeq_bool_eq in EQ. assert (EQ' : fx = fy) by (unfold Qeq in EQ; cbn in EQ; lia). rewrite <- EQ' in *.
      set (x' := x - #fx) in *. set (y' := y - #fx) in *. assert (X' : 0 < x') by (unfold x'; lra). assert (XY' : x' <= y') by (unfold x', y'; lra). assert (Y' : 0 < y') by lra.
      assert (IX : x' * / x' == 1) by (apply Qmult_inv_r; lra). assert (IY : y' * / y' == 1) by (apply Qmult_inv_r; lra).
      assert (PX : 0 < / x') by (apply Qinv_lt_0_compat; exact X'). assert (PY : 0 < / y') by (apply Qinv_lt_0_compat; exact Y').
      assert (NX : x' * #d == #(n - fx * d)) by (unfold x'; unfold Zminus; rewrite inject_Z_plus, inject_Z_opp, inject_Z_mult, <- DN; ring).
      assert (MY : y' * #e == #(m - fx * e)) by (unfold y'; unfold Zminus; rewrite inject_Z_plus, inject_Z_opp, inject_Z_mult, <- EM; ring).
      assert (QD : 0 < #d) by (change 0 with #0; apply (proj2 (inj_lt _ _)); exact D). assert (QE : 0 < #e) by (change 0 with #0; apply (proj2 (inj_lt _ _)); exact E).
      assert (B1 : (0 < n - fx * d < d)%Z) by (rewrite <- !inj_lt, <- NX; change #0 with 0; split; nra).
      assert (B2 : (0 < m - fx * e < e)%Z) by (rewrite <- !inj_lt, <- MY; change #0 with 0; split; nra).
      destruct (IH (/ y') (/ x') e (m - fx * e)%Z d (n - fx * d)%Z) as (z & a & b & HZ & A & B & G & ZB & ZI & Least); try lia; try assumption.
      { apply (inv_le x' (/ x') y' (/ y')); assumption. }
      { rewrite <- MY. rewrite Qmult_assoc, (Qmult_comm (/ y')), IY. ring. }
      { rewrite <- NX. rewrite Qmult_assoc, (Qmult_comm (/ x')), IX. ring. }
      rewrite HZ. assert (Z0 : 0 < z) by lra. assert (IZ : z * / z == 1) by (apply Qmult_inv_r; lra).
      assert (QA : 0 < #a) by (change 0 with #0; apply (proj2 (inj_lt _ _)); exact A).
      exists (#fx + / z), (fx * a + b)%Z, a. split; [reflexivity|]. split; [nia|]. split; [exact A|].
      split. { rewrite Z.gcd_comm, Z.add_comm, Z.gcd_add_mult_diag_r. exact G. }
      assert (ZA : / z * #a == #b) by (rewrite <- ZB, Qmult_assoc, (Qmult_comm (/ z)), IZ; ring).
      split. { rewrite inject_Z_plus, inject_Z_mult, <- ZA. ring. }
      split.
      { assert (x' <= / z) by (apply (inv_le z (/ z) (/ x') x'); try assumption; try lra; rewrite Qmult_comm; exact IX).
        assert (/ z <= y') by (apply (inv_le (/ y') y' z (/ z)); try assumption; try lra; rewrite Qmult_comm; exact IY). unfold x', y' in *. lra. }
      intros p q Q0 P1 P2. assert (QQ : 0 < #q) by (change 0 with #0; apply (proj2 (inj_lt _ _)); exact Q0).
      set (p' := (p - fx * q)%Z). assert (P' : #p' == #p - #fx * #q) by (unfold p', Zminus; rewrite inject_Z_plus, inject_Z_opp, inject_Z_mult; ring).
      assert (R1 : x' * #q <= #p') by (rewrite P'; unfold x'; lra). assert (R2 : #p' <= y' * #q) by (rewrite P'; unfold y'; lra).
      assert (PP : 0 < #p') by nra. assert (PP' : (0 < p')%Z) by (apply lt_inj; exact PP).
      destruct (Least q p' PP') as [M1 M2].
      { assert (T : / y' * #p' <= / y' * (y' * #q)) by (rewrite !(Qmult_comm (/ y')); apply Qmult_le_compat_r; lra).
        assert (/ y' * (y' * #q) == #q) by (rewrite Qmult_assoc, (Qmult_comm (/ y')), IY; ring). lra. }
      { assert (T : / x' * (x' * #q) <= / x' * #p') by (rewrite !(Qmult_comm (/ x')); apply Qmult_le_compat_r; lra).
        assert (/ x' * (x' * #q) == #q) by (rewrite Qmult_assoc, (Qmult_comm (/ x')), IX; ring). lra. }
      unfold p' in M2. split; nia.
    + (* an integer between them *)
      assert (fx <> fy) by (intros C; rewrite C in EQ; rewrite (proj2 (Qeq_bool_iff _ _)) in EQ; [discriminate|reflexivity]).
      exists (1 + #fx), (fx + 1)%Z, 1%Z. split; [reflexivity|]. split; [lia|]. split; [lia|]. split; [apply Z.gcd_1_r|].
      split. { rewrite inject_Z_plus. change #1 with 1. ring. }
      split. { split; [lra|]. assert (T : #(fx + 1) <= #fy) by (apply (proj2 (inj_le _ _)); lia). rewrite inject_Z_plus in T. change #1 with 1 in T. lra. }
      intros p q Q0 P1 P2. split; [|lia]. assert (QQ : 0 < #q) by (change 0 with #0; apply (proj2 (inj_lt _ _)); exact Q0).
      assert (T : #fx * #q < #p) by nra. rewrite <- inject_Z_mult in T. apply lt_inj in T. nia.
  - (* x is an integer *)
    apply less_false in L. assert (XE : x == #fx) by lra. exists #fx, fx, 1%Z. split; [reflexivity|].
    assert (0 < fx)%Z by (apply lt_inj; change #0 with 0; lra). split; [assumption|]. split; [lia|]. split; [apply Z.gcd_1_r|]. split; [change #1 with 1; ring|].
    split; [lra|]. intros p q Q0 P1 P2. split; [|lia]. assert (QQ : 0 < #q) by (change 0 with #0; apply (proj2 (inj_lt _ _)); exact Q0).
    assert (T : #fx * #q <= #p) by (rewrite <- XE; exact P1). rewrite <- inject_Z_mult in T. apply le_inj in T. nia.
Qed.

Lemma terms : forall z a b, (0 < b)%Z -> Z.gcd a b = 1%Z -> z * #b == #a -> numerator z = a /\ Zpos (denominator z) = b.
Proof.
  intros z a b B G E. unfold numerator, denominator. destruct b as [|b|b]; try lia.
  assert (R : Qred z = Qmake a b).
  { rewrite <- (Qcanon.Qred_identity (Qmake a b)) by exact G. apply Qred_complete. rewrite (Qmake_Qdiv a b), <- E. field. discriminate. }
  rewrite R. split; reflexivity.
Qed.
Lemma own_terms : forall w, w * #(Zpos (denominator w)) == #(numerator w).
Proof.
  intros w. unfold numerator, denominator. rewrite <- (Qred_correct w) at 1. destruct (Qred w) as [p q]. cbn [Qnum Qden]. rewrite (Qmake_Qdiv p q). field. discriminate.
Qed.
Lemma terms_eq : forall z w, z == w -> numerator z = numerator w /\ denominator z = denominator w.
Proof. intros z w E. unfold numerator, denominator. rewrite (Qred_complete _ _ E). auto. Qed.
Lemma terms_opp : forall z, numerator (- z) = (- numerator z)%Z /\ denominator (- z) = denominator z.
Proof. intros z. unfold numerator, denominator. rewrite Qred_opp. auto. Qed.
Lemma zero_simplest : forall w, simpler 0 w.
Proof. intros w. split; [change (numerator 0) with 0%Z; lia|change (denominator 0) with 1%positive; apply Pos.le_1_l]. Qed.

Definition enough (x y : Q) : nat := Z.to_nat (QDen x + QDen y).
Lemma internal_simplest : forall fuel x y, 0 < x -> x <= y -> (enough x y <= fuel)%nat ->
  exists z, internal fuel x y = Some z /\ x <= z <= y /\ forall w, x <= w <= y -> simpler z w.
Proof.
  intros fuel x y X XY F. assert (T : forall q : Q, q * #(QDen q) == #(Qnum q)) by (intros [n d]; cbn [Qnum Qden]; rewrite (Qmake_Qdiv n d); field; discriminate).
  destruct (internal_spec fuel x y (Qnum x) (QDen x) (Qnum y) (QDen y)) as (z & a & b & H & A & B & G & E & I & Least); try assumption; try lia; try apply T.
  { unfold enough in F. lia. }
  exists z. split; [exact H|]. split; [exact I|]. intros w [W1 W2]. destruct (terms z a b B G E) as [N D].
  assert (Q0 : 0 < #(Zpos (denominator w))) by (change 0 with #0; apply (proj2 (inj_lt _ _)); lia).
  destruct (Least (numerator w) (Zpos (denominator w))) as [L1 L2]; [lia| | |].
  - rewrite <- own_terms. apply Qmult_le_compat_r; [exact W1|]. apply Qlt_le_weak. exact Q0.
  - rewrite <- own_terms. apply Qmult_le_compat_r; [exact W2|]. apply Qlt_le_weak. exact Q0.
  - unfold simpler. rewrite N. split; [lia|]. rewrite <- D in L2. lia.
Qed.
Lemma internal_more : forall n x y u, internal n x y = Some u -> forall m, (n <= m)%nat -> internal m x y = Some u.
Proof.
  induction n as [|n IH]; intros x y u E m M; [discriminate|]. destruct m as [|m]; [lia|]. cbn [internal] in *.
  destruct (negb (less #(Qfloor x) x)); [exact E|]. destruct (Qeq_bool #(Qfloor x) #(Qfloor y)); [|exact E].
  destruct (internal n (/ (y - #(Qfloor y))) (/ (x - #(Qfloor x)))) as [v|] eqn:R; [|discriminate]. rewrite (IH _ _ _ R m) by lia. exact E.
Qed.
(** the answer with enough fuel *)
Definition gives (f : nat -> option Q) (z : Q) : Prop := exists n, forall fuel, (n <= fuel)%nat -> f fuel = Some z.
Lemma internal_gives : forall x y, 0 < x -> x <= y -> exists z, gives (fun fuel => internal fuel x y) z /\ x <= z <= y /\ forall w, x <= w <= y -> simpler z w.
Proof.
  intros x y X XY. destruct (internal_simplest (enough x y) x y X XY (le_n _)) as (z & H & R). exists z. split; [|exact R].
  exists (enough x y). intros fuel F. exact (internal_more _ _ _ _ H _ F).
Qed.
Definition simplest_between (lo hi z : Q) : Prop := lo <= z <= hi /\ forall w, lo <= w <= hi -> simpler z w.
Lemma floor_is : forall x n, #n <= x -> x < #n + 1 -> Qfloor x = n.
Proof.
  intros x n A B. pose proof (floor_lt_1 x) as [C D]. assert (P : #(Qfloor x) < #(n + 1)) by (rewrite inject_Z_plus; change #1 with 1; lra).
  assert (R : #n < #(Qfloor x + 1)) by (rewrite inject_Z_plus; change #1 with 1; lra). apply lt_inj in P. apply lt_inj in R. lia.
Qed.
Lemma floor_nonneg : forall x, 0 <= x -> (0 <= Qfloor x)%Z.
Proof. intros x X. pose proof (floor_lt_1 x) as [_ D]. assert (T : #(-1) < #(Qfloor x)) by (change #(-1) with (-(1)); lra). apply lt_inj in T. lia. Qed.
(** lo < 0 <= hi < 1: the answer is 0 *)
Lemma internal_zero : forall fuel lo hi, lo < 0 -> 0 <= hi -> hi < 1 -> exists z, internal (S fuel) (- hi) (- lo) = Some z /\ z == 0 /\ (internal (S (S fuel)) (- hi) (- lo) = Some z).
Proof.
  intros fuel lo hi L H H1. destruct (Qlt_le_dec 0 hi) as [P|P].
  - assert (F : Qfloor (- hi) = (-1)%Z) by (apply floor_is; change #(-1) with (-(1)); lra).
    assert (G : (0 <= Qfloor (- lo))%Z) by (apply floor_nonneg; lra). exists (1 + #(-1)).
    assert (E : forall f, internal (S f) (- hi) (- lo) = Some (1 + #(-1))).
    { intros f. cbn [internal]. rewrite F. rewrite (proj2 (less_spec #(-1) (- hi))) by (change #(-1) with (-(1)); lra). cbn [negb].
      destruct (Qeq_bool #(-1) #(Qfloor (- lo))) eqn:B; [|reflexivity]. apply Qeq_bool_eq in B. assert (T : #0 <= #(-1)) by (rewrite B; apply (proj2 (inj_le _ _)); exact G). apply le_inj in T. lia. }
    split; [apply E|]. split; [reflexivity|apply E].
  - assert (F : Qfloor (- hi) = 0%Z) by (apply floor_is; change #0 with 0; lra). exists #0.
    assert (E : forall f, internal (S f) (- hi) (- lo) = Some #0).
    { intros f. cbn [internal]. rewrite F. rewrite (proj2 (less_false #0 (- hi))) by (change #0 with 0; lra). reflexivity. }
    split; [apply E|]. split; [reflexivity|apply E].
Qed.
Lemma simpler_eq : forall z w u, z == w -> simpler w u -> simpler z u.
Proof. intros z w u E S. destruct (terms_eq z w E) as [A B]. unfold simpler. rewrite A, B. exact S. Qed.
Lemma ordered_simplest : forall lo hi, lo <= hi -> ~ (lo < 0 /\ 1 <= hi) ->
  exists z, gives (fun fuel => simplest_ordered fuel lo hi) z /\ simplest_between lo hi z.
Proof.
  intros lo hi LH OK. unfold simplest_ordered, simplest_between. destruct (less lo hi) eqn:L; cbn [negb].
  2: { apply less_false in L. exists lo. split; [exists 0%nat; reflexivity|].
       split; [lra|]. intros w W. destruct (terms_eq lo w) as [A B]; [lra|]. unfold simpler. rewrite A, B. split; [lia|apply Pos.le_refl]. }
  apply less_spec in L. destruct (less 0 lo) eqn:P.
  - apply less_spec in P. exact (internal_gives lo hi P LH).
  - apply less_false in P. destruct (less lo 0) eqn:N.
    + apply less_spec in N. destruct (Qlt_le_dec hi 0) as [HN|HP].
      * destruct (internal_gives (- hi) (- lo)) as (z & (n & G) & I & S); [lra|lra|]. exists (- z). split.
        -- exists n. intros fuel F. rewrite (G fuel F). reflexivity.
        -- split; [lra|]. intros w W. assert (W' : - hi <= - w <= - lo) by lra. destruct (S _ W') as [S1 S2]. destruct (terms_opp w) as [A B]. destruct (terms_opp z) as [C D].
           rewrite A, B in *. unfold simpler. rewrite C, D. split; [rewrite Z.abs_opp in *; exact S1|exact S2].
      * assert (H1 : hi < 1) by (apply Qnot_le_lt; intros C; apply OK; split; assumption).
        destruct (internal_zero 0 lo hi N HP H1) as (z & H & Z0 & _). exists (- z). split.
        -- exists 1%nat. intros fuel F. rewrite (internal_more _ _ _ _ H _ F). reflexivity.
        -- split; [lra|]. intros w _. apply (simpler_eq _ 0); [lra|apply zero_simplest].
    + apply less_false in N. exists 0. split; [exists 0%nat; reflexivity|]. split; [lra|]. intros w _. apply zero_simplest.
Qed.
(** lo < 0 and 1 <= hi: the answer is not 0 *)
Lemma ordered_not_zero : forall lo hi, lo < 0 -> 1 <= hi -> exists z, gives (fun fuel => simplest_ordered fuel lo hi) z /\ ~ z == 0.
Proof.
  intros lo hi L H. unfold simplest_ordered. rewrite (proj2 (less_spec lo hi)) by lra. cbn [negb]. rewrite (proj2 (less_false 0 lo)) by lra. rewrite (proj2 (less_spec lo 0)) by lra.
  pose proof (floor_lt_1 (- hi)) as [C D]. set (fx := Qfloor (- hi)) in *.
  assert (F1 : (fx <= -1)%Z) by (apply le_inj; change #(-1) with (-(1)); lra).
  destruct (less #fx (- hi)) eqn:B.
  - apply less_spec in B. exists (- (1 + #fx)). split.
    + exists 1%nat. intros [|fuel] F; [lia|]. cbn [internal]. fold fx. rewrite (proj2 (less_spec #fx (- hi))) by exact B. cbn [negb].
      destruct (Qeq_bool #fx #(Qfloor (- lo))) eqn:Q; [|reflexivity]. apply Qeq_bool_eq in Q. assert (G : (0 <= Qfloor (- lo))%Z) by (apply floor_nonneg; lra).
      assert (T : #0 <= #fx) by (rewrite Q; apply (proj2 (inj_le _ _)); exact G). apply le_inj in T. lia.
    + intros Z0. assert (T : #fx < #(-1)) by (change #(-1) with (-(1)); lra). assert (E : #(1 + fx) == #0) by (rewrite inject_Z_plus; change #1 with 1; change #0 with 0; lra).
      apply lt_inj in T. apply (proj1 (inject_Z_injective _ _)) in E. lia.
  - exists (- #fx). split.
    + exists 1%nat. intros [|fuel] F; [lia|]. cbn [internal]. fold fx. rewrite B. reflexivity.
    + intros Z0. assert (T : #fx <= #(-1)) by (apply (proj2 (inj_le _ _)); exact F1). change #(-1) with (-(1)) in T. lra.
Qed.
