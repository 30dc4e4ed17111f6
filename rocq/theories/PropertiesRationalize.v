(** C66, rationalize. *)
From Coq Require Import ZArith QArith Qround Qabs Lia Lqa Qminmax.
From Verif Require Import Rationalize RationalizeProofs.
Local Open Scope Q_scope.

Lemma between : forall x e w, Qabs (w - x) <= Qabs e <-> x - Qabs e <= w <= x + Qabs e.
Proof. intros x e w. rewrite Qabs_Qle_condition. split; intros [A B]; lra. Qed.
Lemma swapped : forall x e fuel, exists lo hi, rationalize fuel x e = simplest_ordered fuel lo hi.
Proof. intros x e fuel. unfold rationalize, simplest. destruct (less (x + e) (x - e)); eauto. Qed.
(** the two ends of the interval, whatever the sign of the tolerance *)
Lemma ends : forall x e, exists lo hi, (forall fuel, rationalize fuel x e = simplest_ordered fuel lo hi) /\ lo == x - Qabs e /\ hi == x + Qabs e.
Proof.
  intros x e. unfold rationalize, simplest. destruct (less (x + e) (x - e)) eqn:L.
  - apply less_spec in L. exists (x + e), (x - e). rewrite Qabs_neg by lra. split; [reflexivity|lra].
  - apply less_false in L. exists (x - e), (x + e). rewrite Qabs_pos by lra. split; [reflexivity|lra].
Qed.

(** C66, R7RS 6.2.6: "The rationalize procedure returns the simplest rational number differing from x by no
    more than y."  [gives f z]: with enough fuel, hence after finitely many recursive calls, the value is z.
    The full statement has no hypothesis on x and e; it fails exactly where the hypothesis does, by
    C66_rationalize_refuted. *)
Theorem C66_rationalize_partial : forall x e, ~ (x - Qabs e < 0 /\ 1 <= x + Qabs e) ->
  exists z, gives (fun fuel => rationalize fuel x e) z /\ simplest_within x e z.
Proof.
  intros x e OK. destruct (ends x e) as (lo & hi & R & L & H). pose proof (Qabs_nonneg e). destruct (ordered_simplest lo hi) as (z & (n & G) & B & S); [lra| |].
  - intros [A B]. apply OK. split; lra.
  - exists z. split; [exists n; intros fuel F; rewrite R; exact (G fuel F)|]. split; [apply between; lra|]. intros w W. apply between in W. apply S. lra.
Qed.
Print Assumptions C66_rationalize_partial.

(** When the interval has 0 inside and reaches 1, the simplest number is 0, and rationalize gives another. *)
Theorem C66_rationalize_refuted : forall x e, x - Qabs e < 0 -> 1 <= x + Qabs e ->
  simplest_within x e 0 /\ exists z, gives (fun fuel => rationalize fuel x e) z /\ ~ simplest_within x e z.
Proof.
  intros x e A B. assert (Z : simplest_within x e 0). { split; [apply between; lra|]. intros w _. apply zero_simplest. }
  split; [exact Z|]. destruct (ends x e) as (lo & hi & R & L & H). destruct (ordered_not_zero lo hi) as (z & (n & G) & N); [lra|lra|].
  exists z. split; [exists n; intros fuel F; rewrite R; exact (G fuel F)|]. intros [_ S]. destruct (S 0 (proj1 Z)) as [S1 _].
  change (numerator 0) with 0%Z in S1. apply N. rewrite <- (Qred_correct z). unfold numerator in S1. destruct (Qred z) as [p q]. cbn in S1. assert (p = 0%Z) as -> by lia. reflexivity.
Qed.
Print Assumptions C66_rationalize_refuted.

(** the simplest number is unique, so that the theorem above determines the value *)
Theorem C66_rationalize_unique : forall x e z w, simplest_within x e z -> simplest_within x e w -> Qabs e < Qabs x -> z == w.
Proof.
  intros x e z w [Z1 Z2] [W1 W2] NZ. destruct (Z2 w W1) as [A B]. destruct (W2 z Z1) as [C D]. apply between in Z1. apply between in W1.
  assert (DE : denominator z = denominator w) by (apply Pos.le_antisym; assumption).
  assert (EZ : Qred z == z) by apply Qred_correct. assert (EW : Qred w == w) by apply Qred_correct.
  assert (SG : 0 < z /\ 0 < w \/ z < 0 /\ w < 0).
  { destruct (Qlt_le_dec 0 x); [left|right]; [rewrite (Qabs_pos x) in NZ by lra|rewrite (Qabs_neg x) in NZ by lra]; split; lra. }
  unfold numerator, denominator in *. destruct (Qred z) as [p q], (Qred w) as [r s]. cbn in A, B, C, D, DE. subst s. rewrite <- EZ, <- EW in *.
  assert (PR : p = r). { unfold Qlt in SG. cbn in SG. lia. }
  subst. reflexivity.
Qed.
Print Assumptions C66_rationalize_unique.

(** examples of R7RS 6.2.6 and of the failure *)
Example C66_ex : rationalize 9 (3 # 10) (1 # 10) = Some (1 # 3) /\ simplest_within (3 # 10) (1 # 10) (1 # 3).
Proof.
  split; [vm_compute; reflexivity|]. destruct (C66_rationalize_partial (3 # 10) (1 # 10)) as (z & (n & G) & S).
  - intros [H _]. vm_compute in H. discriminate.
  - assert (E : rationalize (n + 9) (3 # 10) (1 # 10) = Some (1 # 3)). { rewrite Nat.add_comm. vm_compute. reflexivity. }
    rewrite (G (n + 9)%nat) in E by lia. congruence.
Qed.
Example C66_ex_negative : rationalize 9 (- (22 # 7)) (- (1 # 10)) = Some (- (16 # 5)). Proof. vm_compute. reflexivity. Qed.
Example C66_ex_zero : rationalize 9 (1 # 10) (1 # 2) = Some 0. Proof. vm_compute. reflexivity. Qed.
Example C66_ex_wrong : rationalize 9 1 (3 # 2) = Some 2. Proof. vm_compute. reflexivity. Qed.
