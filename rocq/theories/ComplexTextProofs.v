(** Proofs about the texts of complex numbers (C122). *)
From Coq Require Import String ZArith QArith List Bool Lia.
From Verif Require Import Number NumberText NumberProofs Flonum Complex Decimal DecimalSpec DecimalProofs ComplexText.
From Verif Require Reader Writer.
Import ListNotations.
Open Scope Z_scope.

(** ** What is no real number *)
Definition alien (c : Z) : Prop := Reader.is_dec c = false /\ Reader.is_sign c = false /\ c <> 46 /\ existsb (Z.eqb c) [68; 69; 70; 100; 101; 102] = false.
Lemma alien_i : alien 105.
Proof. split; [|split; [|split]]; reflexivity || discriminate. Qed.
Lemma alien_slash : alien 47.
Proof. split; [|split; [|split]]; reflexivity || discriminate. Qed.
Lemma unsigned_alien c s : alien c -> In c s -> In c (Reader.unsigned s).
Proof.
  intros (_ & A & _) H. destruct s as [|d s]; [destruct H|]. cbn [Reader.unsigned]. destruct (Reader.is_sign d) eqn:E; [|exact H]. destruct H as [->|H]; [congruence|exact H].
Qed.
Lemma decs_alien c s a b : alien c -> In c s -> Reader.decs s = (a, b) -> In c b.
Proof.
  intros A. revert a b. induction s as [|d s IH]; intros a b H Eq; [destruct H|]. cbn [Reader.decs] in Eq. destruct (Reader.is_dec d) eqn:D.
  - destruct (Reader.decs s) as [a' b'] eqn:E'. injection Eq as <- <-. destruct H as [->|H]; [destruct A; congruence|]. exact (IH a' b' H eq_refl).
  - injection Eq as <- <-. exact H.
Qed.
Lemma exponent_alien c s : alien c -> In c s -> Reader.exponent s = false.
Proof.
  intros A H. destruct s as [|e t]; [destruct H|]. unfold Reader.exponent. destruct H as [->|H]; [destruct A as (_ & _ & _ & ->); reflexivity|].
  destruct (Reader.decs (Reader.unsigned t)) as [a b] eqn:E. pose proof (decs_alien c _ _ _ A (unsigned_alien c t A H) E) as K. destruct b as [|x b]; [destruct K|]. destruct a; apply andb_false_r.
Qed.
Lemma decimal_alien c s : alien c -> In c s -> Reader.decimal s = false.
Proof.
  intros A H. unfold Reader.decimal. destruct (Reader.decs (Reader.unsigned s)) as [ds rest] eqn:E. pose proof (decs_alien c _ _ _ A (unsigned_alien c s A H) E) as K.
  destruct rest as [|x rest]; [destruct K|]. destruct (x =? 46) eqn:D.
  - destruct K as [->|K]; [destruct A as (_ & _ & A & _); lia|]. destruct (Reader.decs rest) as [fs r2] eqn:E2. pose proof (decs_alien c _ _ _ A K E2) as K2.
    rewrite (exponent_alien c r2 A K2). destruct ds, fs; reflexivity.
  - rewrite (exponent_alien c (x :: rest) A K). destruct ds; reflexivity.
Qed.
Lemma constant_i s : constant (s ++ [105]) = None.
Proof.
  assert (L : forall t, last t 0 = 48 -> s ++ [105] = t -> False) by (intros t L E; apply (f_equal (fun l => last l 0)) in E; rewrite last_last in E; lia).
  unfold constant. repeat (destruct (list_eq_dec Z.eq_dec _ _) as [E|_]; [exfalso; eapply L; [|exact E]; reflexivity|]). reflexivity.
Qed.
Lemma split_slash_i s : exists a b, split_slash (s ++ [105]) = (a, b) /\ match b with None => In 105 a | Some b => In 105 b end.
Proof.
  induction s as [|c s (a & b & E & H)]; [exists [105], None; split; [reflexivity|left; reflexivity]|]. cbn [app split_slash]. rewrite E. destruct (c =? 47).
  - exists [], (Some (s ++ [105])). split; [reflexivity|apply in_or_app; right; left; reflexivity].
  - exists (c :: a), b. split; [reflexivity|]. destruct b; [exact H|right; exact H].
Qed.
(** ** A text with an i is no number in a radix where i is no digit *)
Section In_radix.
Variable r : Z.
Hypothesis no_digit : digit_in r 105 = None.
Let is_i (c : Z) : Prop := c = 105 \/ c = 64.
Lemma i_digit c : is_i c -> digit_in r c = None /\ is_blank c = false /\ c <> 45 /\ c <> 43 /\ ~ digit c.
Proof. intros [-> | ->]; (split; [first [exact no_digit|reflexivity]|]); repeat split; try reflexivity; unfold digit; lia. Qed.
Lemma scan_i s : forall acc c, is_i c -> In c s -> snd (scan r acc s) <> [].
Proof.
  induction s as [|d s IH]; intros acc c F H; [destruct H|]. cbn [scan]. destruct (digit_in r d) eqn:E; [|discriminate].
  destruct H as [->|H]; [destruct (i_digit c F); congruence|]. eapply IH; eauto.
Qed.
Lemma mpz_i s : forall acc c, is_i c -> In c s -> mpz_digits r acc s = None.
Proof.
  induction s as [|d s IH]; intros acc c F H; [destruct H|]. cbn [mpz_digits]. destruct H as [->|H].
  - destruct (i_digit c F) as (-> & -> & _). reflexivity.
  - destruct (is_blank d); [eapply IH; eauto|]. destruct (digit_in r d); [eapply IH; eauto|reflexivity].
Qed.
Lemma skip_i s c : is_i c -> In c s -> In c (skip_blanks s).
Proof.
  intros F. induction s as [|d s IH]; intros H; [destruct H|]. cbn [skip_blanks]. destruct (is_blank d) eqn:E; [|exact H].
  destruct H as [->|H]; [destruct (i_digit c F) as (_ & B & _); congruence|exact (IH H)].
Qed.
Lemma mpz_set_i s c : is_i c -> In c s -> mpz_set_str s r = None.
Proof.
  intros F H. unfold mpz_set_str. apply (skip_i s c F) in H. destruct (skip_blanks s) as [|d t]; [destruct H|]. destruct (d =? 45) eqn:E.
  - destruct H as [->|H]; [destruct (i_digit c F); lia|]. destruct t as [|x t]; [destruct H|]. rewrite (mpz_i _ 0 c F H). destruct (digit_in r x); reflexivity.
  - rewrite (mpz_i _ 0 c F H). destruct (digit_in r d); reflexivity.
Qed.
Lemma integer_i s c : is_i c -> In c s -> make_integer s r = None.
Proof.
  intros F H. assert (L : large_of_string s r = None).
  { unfold large_of_string. destruct s as [|d s]; [destruct H|]. destruct (d =? 43) eqn:E.
    - destruct H as [->|H]; [destruct (i_digit c F); lia|]. rewrite (mpz_set_i s c F H). reflexivity.
    - rewrite (mpz_set_i _ c F H). reflexivity. }
  unfold make_integer, from_chars. destruct s as [|d s]; [destruct H|].
  assert (G : forall (neg : bool) t, In c t -> match match t with
     | c :: _ => match digit_in r c with
       | Some _ => let (v, rest) := scan r 0 t in let v := if neg then - v else v in if (- 2 ^ 63 <=? v) && (v <? 2 ^ 63) then FcOk v rest else FcRange
       | None => FcInvalid end
     | [] => FcInvalid end with
     | FcOk v [] => if is_int32 v then Some (Small v) else large_of_string (d :: s) r | FcOk _ _ => None | FcRange => large_of_string (d :: s) r | FcInvalid => None end = None).
  { intros neg t Ht. pose proof (scan_i t 0 c F Ht) as Sf. destruct t as [|x t]; [destruct Ht|]. destruct (digit_in r x); [|reflexivity].
    destruct (scan r 0 (x :: t)) as [v rest]. cbn [snd] in Sf. cbv zeta. destruct (_ && _); [|exact L]. destruct rest; [congruence|reflexivity]. }
  destruct (d =? 45) eqn:E.
  - specialize (G true s). destruct H as [->|H]; [destruct (i_digit c F); lia|]. specialize (G H). destruct s as [|x s]; [destruct H|]. destruct (digit_in r x); [|reflexivity]. destruct (scan r 0 (x :: s)). exact G.
  - specialize (G false _ H). cbn beta iota in G |- *. destruct (digit_in r d); [|reflexivity]. destruct (scan r 0 (d :: s)). exact G.
Qed.
Lemma rational_i s : make_rational (s ++ [105]) r = Ok None.
Proof.
  assert (F : is_i 105) by (left; reflexivity). unfold make_rational. rewrite (integer_i (s ++ [105]) 105 F) by (apply in_or_app; right; left; reflexivity).
  unfold ratio_of_string. destruct (split_slash_i s) as (a & b & -> & H). destruct b as [b|].
  - rewrite (mpz_set_i b 105 F H). destruct (mpz_set_str a r); reflexivity.
  - rewrite (mpz_set_i a 105 F H). reflexivity.
Qed.
(** A text that ends in i is no real number *)
Lemma real_i s : make_real (s ++ [105]) r = Not_real.
Proof.
  unfold make_real. rewrite rational_i, constant_i. rewrite (decimal_alien 105 _ alien_i) by (apply in_or_app; right; left; reflexivity). reflexivity.
Qed.
(** Nor is a text with an at sign *)
Lemma split_slash_in s : In 64 s -> exists a b, split_slash s = (a, b) /\ (In 64 a \/ match b with None => False | Some b => In 64 b end).
Proof.
  induction s as [|c s IH]; intros H; [destruct H|]. cbn [split_slash]. destruct (c =? 47) eqn:E.
  - destruct H as [->|H]; [discriminate E|]. exists [], (Some s). split; [reflexivity|right; exact H].
  - destruct (split_slash s) as [a b] eqn:P. exists (c :: a), b. split; [reflexivity|]. destruct H as [->|H]; [left; left; reflexivity|].
    destruct (IH H) as (a' & b' & K & Or). injection K as <- <-. destruct Or as [H'|H']; [left; right; exact H'|right; exact H'].
Qed.
Lemma alien_at : alien 64.
Proof. split; [|split; [|split]]; reflexivity || discriminate. Qed.
Lemma constant_at s : In 64 s -> constant s = None.
Proof.
  intros H. unfold constant. repeat (destruct (list_eq_dec Z.eq_dec _ _) as [E|_]; [exfalso; rewrite E in H; cbn in H; repeat (destruct H as [H|H]; [discriminate H|]); exact H|]). reflexivity.
Qed.
Lemma real_at s : In 64 s -> make_real s r = Not_real.
Proof.
  intros H. assert (F : is_i 64) by (right; reflexivity). unfold make_real. rewrite (constant_at s H), (decimal_alien 64 _ alien_at H). unfold make_rational. rewrite (integer_i s 64 F H).
  unfold ratio_of_string. destruct (split_slash_in s H) as (a & b & -> & [A|B]).
  - rewrite (mpz_set_i a 64 F A). reflexivity.
  - destruct b as [b|]; [|destruct B]. rewrite (mpz_set_i b 64 F B). destruct (mpz_set_str a r); reflexivity.
Qed.
End In_radix.
(** A text that begins with + is no exact number *)
Lemma rational_plus s : make_rational (43 :: s) 10 = Ok None.
Proof.
  unfold make_rational, make_integer. change (from_chars (43 :: s) 10) with FcInvalid. cbn [ratio_of_string]. unfold ratio_of_string. cbn [split_slash].
  change (43 =? 47) with false. destruct (split_slash s) as [a b]. change (mpz_set_str (43 :: a) 10) with (@None Z). destruct b as [b|]; [destruct (mpz_set_str b 10)|]; reflexivity.
Qed.

(** ** Where the sign of the imaginary part is *)
Lemma split_last_none p b : (forall x, In x b -> p x = false) -> Reader.split_last p b = None.
Proof.
  induction b as [|x b IH]; intros H; [reflexivity|]. cbn [Reader.split_last]. rewrite IH by (intros y Y; apply H; right; exact Y). rewrite (H x (or_introl eq_refl)). reflexivity.
Qed.
Lemma split_last_at p a c b : p c = true -> (forall x, In x b -> p x = false) -> Reader.split_last p (a ++ c :: b) = Some (a, c :: b).
Proof.
  intros P H. induction a as [|x a IH]; cbn [app Reader.split_last]; [rewrite (split_last_none p b H), P; reflexivity|]. rewrite IH. reflexivity.
Qed.
Lemma rectangular_at a c b : Reader.is_sign c = true -> (forall x, In x b -> Reader.is_sign x = false) -> Reader.rectangular ((a ++ c :: b) ++ [105]) = Some (a, c :: b).
Proof. intros P H. unfold Reader.rectangular. rewrite rev_app_distr. cbn [rev app]. change (105 =? 105) with true. rewrite rev_involutive. apply split_last_at; assumption. Qed.
Lemma rectangular_last s : last s 0 <> 105 -> Reader.rectangular s = None.
Proof.
  intros L. unfold Reader.rectangular. destruct (rev s) as [|c t] eqn:E; [reflexivity|]. destruct (c =? 105) eqn:C; [|reflexivity]. exfalso. apply L.
  rewrite <- (rev_involutive s), E. cbn [rev]. rewrite last_last. lia.
Qed.
Lemma polar_none s : ~ In 64 s -> Reader.polar s = None.
Proof. intros N. unfold Reader.polar. rewrite split_last_none; [reflexivity|]. intros x X. apply Z.eqb_neq. intros <-. exact (N X). Qed.
Lemma polar_at a b : ~ In 64 b -> Reader.polar (a ++ 64 :: b) = Some (a, b).
Proof. intros N. unfold Reader.polar. rewrite split_last_at; [reflexivity|reflexivity|]. intros x X. apply Z.eqb_neq. intros <-. exact (N X). Qed.
Lemma literal_parts_in r a c b : digit_in r 105 = None -> Reader.is_sign c = true -> (forall x, In x b -> Reader.is_sign x = false) ->
  make_number (a ++ c :: b ++ [105]) r =
    parts (fun x y => Value (Cn x y)) (make_real (match a with [] => [48] | _ => a end) r) (make_real (match b with [] => [c; 49] | _ => c :: b end) r).
Proof.
  intros D P H. change (c :: b ++ [105]) with ((c :: b) ++ [105]). rewrite app_assoc. unfold make_number. rewrite (real_i r D), (rectangular_at a c b P H). destruct b; reflexivity.
Qed.
Lemma literal_parts a c b : Reader.is_sign c = true -> (forall x, In x b -> Reader.is_sign x = false) ->
  make_number (a ++ c :: b ++ [105]) 10 =
    parts (fun x y => Value (Cn x y)) (make_real (match a with [] => [48] | _ => a end) 10) (make_real (match b with [] => [c; 49] | _ => c :: b end) 10).
Proof. apply literal_parts_in. reflexivity. Qed.

(** ** The texts of exact numbers *)
Lemma ten : 2 <= 10 <= 36. Proof. lia. Qed.
Definition is_char (c : Z) : Prop := Reader.is_sign c = false /\ c <> 110.
Lemma digits_char n : 0 <= n -> Forall (fun c => 48 <= c <= 57) (digits 10 n).
Proof.
  intros Hn. destruct (digits_spec 10 ten n Hn) as (_ & _ & _ & _ & D & _). revert D. apply Forall_impl. intros c (d & Hd & ->). unfold digit_char. destruct (d <? 10) eqn:E; lia.
Qed.
Definition digit_or_slash (c : Z) : Prop := 48 <= c <= 57 \/ c = 47.
Lemma digits_nonempty n : 0 <= n -> digits 10 n <> [].
Proof. intros Hn. destruct (digits_spec 10 ten n Hn) as (d & ds & -> & _). discriminate. Qed.
(** the digits after a sign *)
Definition unsigned_text (x : num) : list Z :=
  match x with
  | Small n | Large n => digits 10 (Z.abs n)
  | Ratio q => digits 10 (Z.abs (Qnum q)) ++ (if (Qden q =? 1)%positive then [] else 47 :: digits 10 (Zpos (Qden q)))
  end.
Lemma num_text_sign x : num_text x = (if Qle_bool 0 (NumberProofs.value x) then [] else [45]) ++ unsigned_text x.
Proof.
  assert (G : forall n, int_text 10 n = (if Qle_bool 0 (inject_Z n) then [] else [45]) ++ digits 10 (Z.abs n)).
  { intros n. unfold int_text, Qle_bool. cbn [inject_Z Qnum Qden]. destruct (n <? 0) eqn:E; destruct (0 * 1 <=? n * 1) eqn:F; try lia; [rewrite Z.abs_neq by lia|rewrite Z.abs_eq by lia]; reflexivity. }
  destruct x as [n|n|q]; cbn [num_text unsigned_text NumberProofs.value]; [apply G|apply G|]. rewrite G, <- app_assoc. f_equal.
Qed.
Lemma unsigned_chars x : Forall digit_or_slash (unsigned_text x) /\ unsigned_text x <> [].
Proof.
  assert (D : forall n, 0 <= n -> Forall digit_or_slash (digits 10 n)) by (intros n Hn; eapply Forall_impl; [|apply digits_char, Hn]; intros c H; left; exact H).
  assert (G : forall n, Forall digit_or_slash (digits 10 (Z.abs n)) /\ digits 10 (Z.abs n) <> []) by (intros n; split; [apply D|apply digits_nonempty]; lia).
  destruct x as [n|n|q]; cbn [unsigned_text]; [apply G|apply G|]. destruct (G (Qnum q)) as [A B]. split.
  - apply Forall_app. split; [exact A|]. destruct (Qden q =? 1)%positive; constructor; [right; reflexivity|]. apply D. lia.
  - intros H. apply app_eq_nil in H. apply B, H.
Qed.
Lemma unsigned_no_sign x c : In c (unsigned_text x) -> Reader.is_sign c = false.
Proof. intros H. destruct (unsigned_chars x) as [F _]. rewrite Forall_forall in F. specialize (F c H). unfold digit_or_slash in F. unfold Reader.is_sign. lia. Qed.
(** An exact number is read from its text *)
Lemma num_text_read x : valid x -> exists y, make_real (num_text x) 10 = Read (Exact y) /\ (NumberProofs.value y == NumberProofs.value x)%Q.
Proof.
  assert (G : forall n, exists y, make_rational (int_text 10 n) 10 = Ok (Some y) /\ is_int y n).
  { intros n. destruct (read_text 10 ten n) as (y & E & H). exists y. unfold make_rational. rewrite E. split; [reflexivity|exact H]. }
  assert (V : forall y n, is_int y n -> (NumberProofs.value y == inject_Z n)%Q) by (intros y n [-> | ->]; reflexivity).
  intros Hv. destruct x as [n|n|q]; cbn [num_text].
  - destruct (G n) as (y & E & H). exists y. unfold make_real. rewrite E. split; [reflexivity|exact (V y n H)].
  - destruct (G n) as (y & E & H). exists y. unfold make_real. rewrite E. split; [reflexivity|exact (V y n H)].
  - destruct (Qden q =? 1)%positive eqn:D.
    + rewrite app_nil_r. destruct (G (Qnum q)) as (y & E & H). exists y. unfold make_real. rewrite E. split; [reflexivity|]. rewrite (V y _ H). cbn [NumberProofs.value].
      apply Pos.eqb_eq in D. unfold Qeq. cbn. rewrite D. reflexivity.
    + destruct (ratio_literal 10 ten (Qnum q) (Zpos (Qden q)) ltac:(lia)) as (p & E & _ & W). exists (Ratio p). unfold make_real. rewrite E. split; [reflexivity|]. cbn [NumberProofs.value].
      rewrite W. rewrite <- Qmake_Qdiv. destruct q; reflexivity.
Qed.
Lemma equals_zero x : ~ (NumberProofs.value x == 0)%Q -> equals (Exact x) e0 = Ok false.
Proof.
  intros N. assert (H : equals (Exact x) e0 = Ok (n_eq x (Small 0))) by (destruct x; reflexivity). rewrite H. destruct (n_eq x (Small 0)) eqn:E; [|reflexivity]. exfalso. apply N. apply n_eq_ok in E. exact E.
Qed.
Lemma equals_zero' x : (NumberProofs.value x == 0)%Q -> equals (Exact x) e0 = Ok true.
Proof. intros N. assert (H : equals (Exact x) e0 = Ok (n_eq x (Small 0))) by (destruct x; reflexivity). rewrite H. f_equal. apply n_eq_ok. exact N. Qed.
(** The text of a complex number with exact parts *)
Lemma text_negative re im : (NumberProofs.value im < 0)%Q -> complex_text re (Exact im) = Ok (real_text re ++ 45 :: unsigned_text im ++ [105]).
Proof.
  intros N. unfold complex_text. rewrite equals_zero by (intros H; rewrite H in N; apply (Qlt_irrefl _ N)). cbn [real_text]. rewrite num_text_sign.
  destruct (Qle_bool 0 (NumberProofs.value im)) eqn:E; [exfalso; apply Qle_bool_iff in E; exact (Qlt_not_le _ _ N E)|]. reflexivity.
Qed.
Lemma text_positive re im : (0 < NumberProofs.value im)%Q -> complex_text re (Exact im) = Ok (real_text re ++ 43 :: unsigned_text im ++ [105]).
Proof.
  intros N. unfold complex_text. rewrite equals_zero by (intros H; rewrite H in N; apply (Qlt_irrefl _ N)). cbn [real_text]. rewrite num_text_sign.
  destruct (Qle_bool 0 (NumberProofs.value im)) eqn:E; [|exfalso; apply Bool.not_true_iff_false in E; apply E, Qle_bool_iff, Qlt_le_weak, N].
  cbn [app]. destruct (unsigned_text im) as [|c t] eqn:U; [destruct (unsigned_chars im); contradiction|]. unfold explicitly_signed.
  rewrite (unsigned_no_sign im c) by (rewrite U; left; reflexivity). reflexivity.
Qed.
(** The plus sign *)
Lemma plus_inexact s x : make_real (43 :: s) 10 = Read x -> exists f, x = Flo f.
Proof.
  unfold make_real. rewrite rational_plus. destruct (constant (43 :: s)); [intros [= <-]; eauto|]. destruct (Reader.decimal (43 :: s)); [|discriminate].
  destruct (marker (43 :: s)) as [c|].
  - destruct ((c =? 70) || (c =? 102)); [discriminate|]. destruct (stod (43 :: s)); intros [= <-]; eauto.
  - destruct (stod (43 :: s)); intros [= <-]; eauto.
Qed.
Lemma plus_ratio q : Qden q <> 1%positive -> make_real (43 :: unsigned_text (Ratio q)) 10 = Not_real.
Proof.
  intros N. assert (Sl : In 47 (43 :: unsigned_text (Ratio q))).
  { right. cbn [unsigned_text]. destruct (Qden q =? 1)%positive eqn:E; [apply Pos.eqb_eq in E; contradiction|]. apply in_or_app. right. left. reflexivity. }
  unfold make_real. rewrite rational_plus, (decimal_alien 47 _ alien_slash Sl), constant_none; [reflexivity|].
  intros [H|H]; [discriminate H|]. destruct (unsigned_chars (Ratio q)) as [F _]. rewrite Forall_forall in F. specialize (F _ H). unfold digit_or_slash in F. lia.
Qed.
Lemma text_nonempty x : num_text x <> [].
Proof. rewrite num_text_sign. destruct (unsigned_chars x) as [_ N]. intros H. apply app_eq_nil in H. apply N, H. Qed.
