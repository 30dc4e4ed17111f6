(** Property theorems about the texts of complex numbers (C122). *)
From Coq Require Import String ZArith QArith List Bool Lia Floats.SpecFloat.
From Verif Require Import Number NumberText NumberProofs Flonum Complex Decimal ComplexText ComplexTextProofs.
From Verif Require Writer.
Import ListNotations.
Open Scope Z_scope.

(** ** C122: a complex number is read as it was written, and its literals stand for their parts *)
(** The value of an exact number *)
Definition rational_value (x : num) : Q := match x with Small z | Large z => inject_Z z | Ratio q => q end.
(** s is read as the complex number with the exact parts a and b *)
Definition reads_as (s : list Z) (a b : Q) : Prop :=
  exists x y, make_number s 10 = Value (Cn (Exact x) (Exact y)) /\ (rational_value x == a)%Q /\ (rational_value y == b)%Q.
(** Only the last sign counts: a literal a ± b i, without a sign in b, is a complex number with the real numbers a and ± b as parts; without a
    the real part is 0, without b the imaginary part is ± 1; in any radix in which i is no digit *)
Theorem C122_literal : forall r a c b, 2 <= r <= 18 -> c = 43 \/ c = 45 -> ~ In 43 b -> ~ In 45 b ->
  make_number (a ++ c :: b ++ [105]) r =
    match make_real (match a with [] => [48] | _ => a end) r, make_real (match b with [] => [c; 49] | _ => c :: b end) r with
    | Read x, Read y => Value (Cn x y)
    | Read _, Binary32 => Float_part | Read _, Not_real => Not_a_number | Read _, Out_of_range => Raises | Read _, Undefined_behavior => Undefined
    | Binary32, _ => Float_part | Not_real, _ => Not_a_number | Out_of_range, _ => Raises | Undefined_behavior, _ => Undefined
    end.
Proof.
  intros r a c b R C P M. rewrite (literal_parts_in r a c b).
  - destruct (make_real (match a with [] => [48] | _ => a end) r); reflexivity.
  - unfold digit_in. cbn. destruct (Z.ltb_spec 18 r); [lia|reflexivity].
  - destruct C as [-> | ->]; reflexivity.
  - intros x H. unfold Reader.is_sign. destruct (x =? 43) eqn:E; [apply Z.eqb_eq in E; subst; contradiction|]. destruct (x =? 45) eqn:E2; [apply Z.eqb_eq in E2; subst; contradiction|reflexivity].
Qed.
Print Assumptions C122_literal.
(** Any other text is a number if it is a real number, in any radix; a number without an i at its end has no parts to be read unless it has an @ *)
Theorem C122_other : forall r s, (forall x, make_real s r = Read x -> make_number s r = Value (Rn x)) /\
  (make_real s r = Not_real -> last s 0 <> 105 -> ~ In 64 s -> make_number s r = Not_a_number).
Proof.
  intros r s. split; [intros x H; unfold make_number; rewrite H; reflexivity|]. intros H L N. unfold make_number. rewrite H, (rectangular_last s L), (polar_none s N). reflexivity.
Qed.
Print Assumptions C122_other.
(** A literal m@a that does not end in i stands for the complex number with the magnitude m and the angle a *)
Theorem C122_polar : forall r m a, 2 <= r <= 18 -> ~ In 64 a -> last a 0 <> 105 ->
  make_number (m ++ 64 :: a) r =
    match make_real m r, make_real a r with
    | Read x, Read y => Polar x y
    | Read _, Binary32 => Float_part | Read _, Not_real => Not_a_number | Read _, Out_of_range => Raises | Read _, Undefined_behavior => Undefined
    | Binary32, _ => Float_part | Not_real, _ => Not_a_number | Out_of_range, _ => Raises | Undefined_behavior, _ => Undefined
    end.
Proof.
  intros r m a R N L. unfold make_number. rewrite (real_at r); [|unfold digit_in; cbn; destruct (Z.ltb_spec 18 r); [lia|reflexivity]|apply in_or_app; right; left; reflexivity].
  rewrite rectangular_last, (polar_at m a N).
  - destruct (make_real m r); reflexivity.
  - intros K. apply L. destruct a as [|c a]; [exfalso; revert K; rewrite last_last; discriminate|].
    assert (Q : forall (p : list Z), last (p ++ 64 :: c :: a) 0 = last (c :: a) 0) by (induction p as [|x p IH]; [reflexivity|]; cbn [app last]; destruct (p ++ 64 :: c :: a) eqn:P; [destruct p; discriminate P|exact IH]).
    rewrite Q in K. exact K.
Qed.
Print Assumptions C122_polar.
(** In part: a complex number with exact parts and a negative imaginary part is read as it was written.  The whole statement is for any imaginary part other
    than 0; it fails for all positive ones, see below. *)
Theorem C122_round_trip_partial : forall re im, valid re -> valid im -> (rational_value im < 0)%Q ->
  exists s, complex_text (Exact re) (Exact im) = Ok s /\ reads_as s (rational_value re) (rational_value im).
Proof.
  intros re im Vr Vi N. eexists. split; [apply text_negative; exact N|]. destruct (num_text_read re Vr) as (x & X & Ex). destruct (num_text_read im Vi) as (y & Y & Ey).
  exists x, y. split; [|split; [exact Ex|exact Ey]]. rewrite literal_parts; [|reflexivity|intros c H; exact (unsigned_no_sign im c H)]. cbn [real_text].
  pose proof (text_nonempty re) as Ne. destruct (num_text re) as [|c t] eqn:T; [contradiction|]. rewrite X.
  rewrite num_text_sign in Y. destruct (Qle_bool 0 (NumberProofs.value im)) eqn:E; [exfalso; apply Qle_bool_iff in E; exact (Qlt_not_le _ _ N E)|]. cbn [app] in Y.
  destruct (unsigned_text im) as [|d u] eqn:U; [destruct (unsigned_chars im); contradiction|]. rewrite Y. reflexivity.
Qed.
Print Assumptions C122_round_trip_partial.
(** A number whose imaginary part is 0 is written as its real part *)
Theorem C122_real : forall re im, (rational_value im == 0)%Q -> complex_text re (Exact im) = Ok (real_text re).
Proof. intros re im H. unfold complex_text. rewrite (equals_zero' im H). reflexivity. Qed.
Print Assumptions C122_real.
(** No complex number with a positive exact imaginary part is read as it was written: the imaginary part is read with its plus sign, and +5 is a flonum *)
Theorem C122_positive_refuted : forall re im s a b, (0 < rational_value im)%Q -> complex_text (Exact re) (Exact im) = Ok s -> ~ reads_as s a b.
Proof.
  intros re im s a b N T (x & y & R & _). rewrite (text_positive _ _ N) in T. injection T as <-. rewrite literal_parts in R; [|reflexivity|intros c H; exact (unsigned_no_sign im c H)].
  destruct (make_real _ 10) as [x'| | | |]; cbn [parts] in R; try discriminate R.
  destruct (unsigned_text im) as [|d u] eqn:U; [destruct (unsigned_chars im); contradiction|].
  destruct (make_real (43 :: d :: u) 10) as [y'| | | |] eqn:Y; try discriminate R. destruct (plus_inexact _ _ Y) as (f & ->). discriminate R.
Qed.
Print Assumptions C122_positive_refuted.
(** If the imaginary part is a positive ratio, what was written is not even a number, but a symbol *)
Theorem C122_ratio_refuted : forall re q s, (0 < q)%Q -> Qden q <> 1%positive -> valid re -> complex_text (Exact re) (Exact (Ratio q)) = Ok s -> make_number s 10 = Not_a_number.
Proof.
  intros re q s N D V T. rewrite (text_positive _ (Ratio q) N) in T. pose proof (plus_ratio q D) as P. pose proof (unsigned_no_sign (Ratio q)) as Si. destruct (unsigned_chars (Ratio q)) as [_ Nu].
  set (u := unsigned_text (Ratio q)) in *. clearbody u. injection T as <-. rewrite literal_parts; [|reflexivity|exact Si].
  destruct (num_text_read re V) as (x & X & _). cbn [real_text]. pose proof (text_nonempty re) as Ne. destruct (num_text re) as [|c t] eqn:E; [contradiction|]. rewrite X. cbn [parts].
  destruct u as [|d u]; [contradiction|]. rewrite P. reflexivity.
Qed.
Print Assumptions C122_ratio_refuted.
(** +i is not exact; the sign of an exponent in the imaginary part is taken for the sign between the parts, so that neither 1+2e-5i nor what is written for the
    complex number 1-1e-7i is read as a number *)
Theorem C122_exponent_refuted :
  make_number (Writer.codes "+i") 10 = Value (Cn (Exact (Small 0)) (Flo (S754_finite false 4503599627370496 (-52)))) /\
  make_number (Writer.codes "1+2e-5i") 10 = Not_a_number /\
  complex_text (Exact (Small 1)) (Flo (S754_finite true 7555786372591432 (-76))) = Ok (Writer.codes "1-1e-07i") /\ make_number (Writer.codes "1-1e-07i") 10 = Not_a_number.
Proof. repeat split; vm_compute; reflexivity. Qed.
Print Assumptions C122_exponent_refuted.
Example C122_ex : complex_text (Exact (Ratio (1 # 2))) (Exact (Ratio (-3 # 4))) = Ok (Writer.codes "1/2-3/4i") /\
  make_number (Writer.codes "1/2-3/4i") 10 = Value (Cn (Exact (Ratio (1 # 2))) (Exact (Ratio (-3 # 4)))) /\
  make_number (Writer.codes "-i") 10 = Value (Cn (Exact (Small 0)) (Exact (Small (-1)))) /\
  make_number (Writer.codes "2@1") 10 = Polar (Exact (Small 2)) (Exact (Small 1)) /\ make_number (Writer.codes "mini") 10 = Not_a_number.
Proof. vm_compute. auto. Qed.
Example C122_ex_positive : complex_text (Exact (Small 3)) (Exact (Small 5)) = Ok (Writer.codes "3+5i") /\
  make_number (Writer.codes "3+5i") 10 = Value (Cn (Exact (Small 3)) (Flo (S754_finite false 5629499534213120 (-50)))) /\
  make_number (Writer.codes "1/2+1/3i") 10 = Not_a_number.
Proof. vm_compute. auto. Qed.
Example C122_ex_radix : make_number (Writer.codes "a-bi") 16 = Value (Cn (Exact (Small 10)) (Exact (Small (-11)))) /\ make_number (Writer.codes "a@b") 16 = Polar (Exact (Small 10)) (Exact (Small 11)) /\
  make_number (Writer.codes "ff") 16 = Value (Rn (Exact (Small 255))) /\ make_number (Writer.codes "xyz") 10 = Not_a_number.
Proof. vm_compute. auto. Qed.
