(** Property C114: the arithmetic of SRFI 143; and C14 for numerators of more than 52 bits.
    The model is in Srfi143.v and Srfi141.v. *)
From Coq Require Import ZArith QArith Qround Qabs List Bool Lia ZifyBool Floats.SpecFloat.
From Verif Require Import Number NumberProofs NumberRounding NumberGcd NumberMore Flonum FlonumProofs FlonumSpec PropertiesFlonum Srfi141 Srfi143 Srfi143Proofs.
Import ListNotations.
Open Scope Z_scope.

(** ** C14: quotients below 2^52, numbers of any size *)
(** balanced/ is right, although floor and ceiling are not *)
Theorem C14_balanced_wide_partial : forall x y n d, is_int x n -> is_int y d -> d <> 0 -> valid y -> Z.abs n < 2 ^ 52 * Z.abs d ->
  divides_with (balanced_div x y) n d (fun _ r => - Z.abs d <= 2 * r < Z.abs d).
Proof. intros x y n d Hx Hy Hd Vy B. apply balanced_wide; assumption. Qed.
Print Assumptions C14_balanced_wide_partial.
Theorem C14_euclidean_wide_partial : forall x y n d, is_int x n -> is_int y d -> d <> 0 -> 0 <= n < 2 ^ 52 * Z.abs d ->
  divides_with (euclidean_div x y) n d (fun _ r => 0 <= r < Z.abs d).
Proof. intros x y n d Hx Hy Hd B. apply euclidean_wide; try assumption; lia. Qed.
Print Assumptions C14_euclidean_wide_partial.
Theorem C14_floor_wide_partial : forall x y n d, is_int x n -> is_int y d -> 0 < d -> 0 <= n < 2 ^ 52 * d ->
  divides_with (floor_div x y) n d (fun _ r => 0 <= r < d).
Proof.
  intros x y n d Hx Hy Hd B. unfold floor_div, values2.
  destruct (floor_quotient_near x y n d Hx Hy ltac:(lia) ltac:(lia) Hd) as (o & z & -> & Ho & _ & _ & G). rewrite (G ltac:(lia)) in Ho. cbn [obind].
  destruct (modulo_int x y n d Hx Hy ltac:(lia)) as [p [E Hp]]. unfold floor_remainder. rewrite E. cbn [obind].
  exists o, p, (n / d), (n mod d). repeat (split; [first [reflexivity|assumption]|]). split; [apply Z.div_mod; lia|apply Z.mod_pos_bound; lia].
Qed.
Print Assumptions C14_floor_wide_partial.
Example C14_example_wide : balanced_div (Large (- (3 * 2 ^ 60) - 1)) (Small 1024) = Ok (Large (-3377699720527872), Large (-1)) /\
  (exists q, euclidean_div (Large (- (3 * 2 ^ 60) - 1)) (Small 1024) = Ok (Large q, Large (-1))).
Proof. split; [vm_compute; reflexivity|]. eexists. vm_compute. reflexivity. Qed.

(** ** C114: SRFI 143 *)
(** fixnums are the integers from fx-least to fx-greatest, in the representation that the arithmetic gives for them *)
Theorem C114_fixnum : forall x, valid x -> fixnum x = true -> exists z, is_int x z /\ - 2 ^ 31 <= z < 2 ^ 31 /\ is_int fx_least (- 2 ^ 31) /\ is_int fx_greatest (2 ^ 31 - 1) /\ is_int fx_width 32.
Proof.
  intros [z|z|q] V F; try discriminate. exists z. split; [left; reflexivity|]. split; [cbn [valid] in V; lia|]. repeat split; left; reflexivity.
Qed.
Print Assumptions C114_fixnum.
Theorem C114_unary : forall x z, is_int x z -> is_int (fxneg x) (- z) /\ is_int (fxabs x) (Z.abs z) /\ is_int (fxsquare x) (z * z).
Proof.
  intros x z H. split; [|split].
  - unfold fxneg, s_sub. replace (- z) with (0 - z) by lia. apply sub_int; [left; reflexivity|exact H].
  - apply abs_int, H.
  - unfold fxsquare, s_mul. cbn [fold_left]. replace (z * z) with (1 * z * z) by lia. apply mul_int; [|exact H]. apply mul_int; [left; reflexivity|exact H].
Qed.
Print Assumptions C114_unary.
(** What the carry procedures return for the number s: r and c with s = c 2^32 + r, r being a fixnum by its value *)
Definition carried (o : outcome (num * num)) (s : Z) : Prop :=
  exists r c rz cz, o = Ok (r, c) /\ is_int r rz /\ is_int c cz /\ s = cz * 2 ^ 32 + rz /\ - 2 ^ 31 <= rz < 2 ^ 31.
Lemma width_power pow : exact_power pow -> expt pow (Exact (Small 2)) (Exact fx_width) = Ok (Exact (Large (2 ^ 32))).
Proof.
  intros P. destruct (C83_expt_partial pow 2 32 P) as (x & E & I & V); [split; vm_compute; discriminate || reflexivity|split; vm_compute; discriminate || reflexivity|lia|vm_compute; reflexivity|].
  unfold fx_width. rewrite E. destruct I as [->| ->]; [|reflexivity]. exfalso. cbn [valid] in V. lia.
Qed.
Lemma carry_ok pow s z : exact_power pow -> is_int s z -> Z.abs z < 2 ^ 84 -> carried (carry pow s) z.
Proof.
  intros P I B. unfold carry. rewrite (width_power pow P). cbn [obind].
  destruct (balanced_wide s (Large (2 ^ 32)) z (2 ^ 32) I (or_intror eq_refl) ltac:(lia) ltac:(lia) ltac:(exact Logic.I)) as (oq & or & q & r & -> & Hq & Hr & E & R). cbn [obind fst snd].
  exists or, oq, r, q. split; [reflexivity|]. split; [exact Hr|]. split; [exact Hq|]. split; [lia|]. lia.
Qed.
(** The numbers are right, for all fixnums *)
Theorem C114_carry : forall pow i j k, exact_power pow -> - 2 ^ 31 <= i < 2 ^ 31 -> - 2 ^ 31 <= j < 2 ^ 31 -> - 2 ^ 31 <= k < 2 ^ 31 ->
  carried (fx_add_carry pow (Small i) (Small j) (Small k)) (i + j + k) /\
  carried (fx_sub_carry pow (Small i) (Small j) (Small k)) (i - j - k) /\
  carried (fx_mul_carry pow (Small i) (Small j) (Small k)) (i * j + k).
Proof.
  intros pow i j k P Hi Hj Hk. assert (I : forall z, is_int (Small z) z) by (left; reflexivity).
  split; [|split]; (apply carry_ok; [exact P| |]).
  - unfold s_add. cbn [fold_left]. replace (i + j + k) with (0 + i + j + k) by lia. repeat apply add_int; apply I.
  - lia.
  - unfold s_sub. cbn [fold_left]. repeat apply sub_int; apply I.
  - lia.
  - unfold s_add, s_mul. cbn [fold_left]. replace (i * j + k) with (0 + 1 * i * j + k) by lia. repeat first [apply add_int|apply mul_int]; apply I.
  - assert (Z.abs (i * j) <= 2 ^ 31 * 2 ^ 31) by (rewrite Z.abs_mul; apply Z.mul_le_mono_nonneg; lia). lia.
Qed.
Print Assumptions C114_carry.
Example C114_example : fx_add_carry some_pow (Small (2 ^ 31 - 1)) (Small 1) (Small 0) = Ok (Large (- 2 ^ 31), Large 1) /\
  fx_mul_carry some_pow (Small (- 2 ^ 31)) (Small (2 ^ 31 - 1)) (Small (-1)) = Ok (Large (2 ^ 31 - 1), Large (- 2 ^ 30)) /\ exact_power some_pow.
Proof. split; [vm_compute; reflexivity|]. split; [vm_compute; reflexivity|]. apply C83_example. Qed.
(** But what is returned is never a fixnum *)
Theorem C114_results_refuted : forall pow i j k r c, exact_power pow ->
  fx_add_carry pow (Small i) (Small j) (Small k) = Ok (r, c) \/ fx_sub_carry pow (Small i) (Small j) (Small k) = Ok (r, c) \/ fx_mul_carry pow (Small i) (Small j) (Small k) = Ok (r, c) ->
  fixnum r = false /\ fixnum c = false.
Proof.
  intros pow i j k r c P H.
  assert (G : exists s, carry pow s = Ok (r, c)) by (destruct H as [H|[H|H]]; eexists; exact H). clear H. destruct G as [s G].
  unfold carry in G. rewrite (width_power pow P) in G. cbn [obind] in G. unfold balanced_div, values2 in G.
  destruct (balanced_quotient s (Large (2 ^ 32))) as [q| |] eqn:Eq; try discriminate. cbn [obind] in G.
  destruct (balanced_remainder s (Large (2 ^ 32))) as [m| |] eqn:Er; try discriminate. cbn [obind fst snd] in G. injection G as -> ->.
  assert (Fx : forall z, fixnum (canon_large z) = false) by reflexivity. assert (Fr : forall q, fixnum (canon_ratio q) = false) by (intros q; unfold canon_ratio; destruct (Zpos (Qden q) =? 1); reflexivity).
  assert (Fs : forall x y, fixnum y = false -> fixnum (n_sub x y) = false /\ fixnum (n_add x y) = false /\ fixnum (n_mul y x) = false).
  { intros [|?|?] [?|?|?] F; try discriminate F; cbn [n_sub n_add n_mul]; rewrite ?Fx, ?Fr; auto. }
  assert (Fn : forall f x o, fixnum x = false -> Number.nearest f x = Ok o -> fixnum o = false).
  { intros f [?|?|q] o F N; try discriminate F; cbn [Number.nearest] in N; [injection N as <-; reflexivity|]. destruct (get_d q); [injection N as <-; reflexivity|discriminate]. }
  assert (Rm : fixnum r = false).
  { unfold balanced_remainder, euclidean_remainder in Er. destruct (euclidean_quotient s (Large (2 ^ 32))) as [e| |]; try discriminate. cbn [obind] in Er.
    assert (Fe : fixnum (n_sub s (n_mul (Large (2 ^ 32)) e)) = false) by (apply Fs, Fs; reflexivity).
    destruct (n_div (Large (2 ^ 32)) (Small 2)) as [h| |]; try discriminate. cbn [obind] in Er.
    destruct (n_lt _ _); [|destruct (n_le _ _)]; injection Er as <-; [apply Fs; reflexivity|apply Fs; reflexivity|exact Fe]. }
  split; [exact Rm|]. unfold balanced_quotient in Eq. rewrite Er in Eq. cbn [obind] in Eq. unfold n_quotient in Eq.
  pose proof (proj1 (Fs s r Rm)) as Fd. set (t := n_sub s r) in *. destruct (n_div t (Large (2 ^ 32))) as [v| |] eqn:Ev; try discriminate. cbn [obind] in Eq. apply (Fn d_trunc v c); [|exact Eq].
  destruct t as [?|?|?]; [discriminate Fd| |]; unfold n_div in Ev.
  - destruct (ratio_nd _ _); try discriminate. cbn [obind] in Ev. injection Ev as <-. apply Fr.
  - destruct (mpq_div _ _); try discriminate. cbn [obind] in Ev. injection Ev as <-. apply Fr.
Qed.
Print Assumptions C114_results_refuted.
Example C114_example_results : fx_add_carry some_pow (Small 1) (Small 2) (Small 0) = Ok (Large 3, Large 0) /\ fixnum (Large 3) = false /\ fixnum (s_add [Small 1; Small 2]) = true.
Proof. repeat split; vm_compute; reflexivity. Qed.
(** fxsqrt should return the exact root and the rest; of 2 it is a flonum *)
Theorem C114_sqrt_refuted : exists f, fxsqrt (Small 2) = Ok (Real (Flo f)).
Proof. eexists. vm_compute. reflexivity. Qed.
Print Assumptions C114_sqrt_refuted.
