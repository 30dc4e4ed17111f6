(** Lemmas on the reading of flonums: the model Decimal.v, the specification DecimalSpec.v. *)
From Coq Require Import String ZArith QArith Qreduction Qround Qabs Qpower Lia Lqa ZifyBool List Bool Floats.SpecFloat.
From Verif Require Import Number NumberProofs NumberRounding Flonum FlonumProofs FlonumSpec FlonumProofs2 FlonumProofs3 RoundingSpec FlonumRound.
From Verif Require Import NumberText DecimalSpec Decimal.
From Verif Require Reader Writer.
Import ListNotations.
Open Scope Z_scope.

(** ** Division rounds *)
Lemma nearest_ok s n d : let f := nearest s n d in
  vfloat f /\ sign_of f = s /\ rounds_to (signed s (Zpos n # d)) (fext f).
Proof.
  unfold nearest. cbv zeta. unfold SFdiv_core_binary. rewrite !Z.add_0_r. set (m := n) in *. set (m' := d) in *.
  set (k := Zdigits2 (Zpos m) - Zdigits2 (Zpos m')).
  set (t := Z.min (fexp prec emax k) (0 - 0)). cbv zeta.
  assert (M : match 0 - 0 - t with 0 => Zpos m | Zpos _ => Z.shiftl (Zpos m) (0 - 0 - t) | Zneg _ => 0 end = Zpos m * 2 ^ (0 - 0 - t)).
  { assert (0 <= 0 - 0 - t) by lia. destruct (0 - 0 - t); [lia|apply Z.shiftl_mul_pow2; lia|lia]. }
  rewrite M. set (a := Zpos m * 2 ^ (0 - 0 - t)). pose proof (pow_pos' (0 - 0 - t) ltac:(lia)) as PP.
  assert (Nn : 0 < a) by (unfold a; nia).
  pose proof (Z_div_mod a (Zpos m') ltac:(lia)) as DM. destruct (Z.div_eucl a (Zpos m')) as [q r]. destruct DM as [D1 D2].
  assert (Q0 : 0 <= q) by nia.
  set (X := (inject_Z q + inject_Z r / inject_Z (Zpos m'))%Q).
  assert (XE : (X * inject_Z (Zpos m') == inject_Z (Zpos m) * p2 (0 - 0 - t))%Q).
  { unfold X. setoid_replace ((inject_Z q + inject_Z r / inject_Z (Zpos m')) * inject_Z (Zpos m'))%Q with (inject_Z (Zpos m' * q + r)) by (rewrite inject_Z_plus, inject_Z_mult; field; discriminate).
    rewrite <- D1. unfold a. rewrite inject_Z_mult, <- p2_Z by lia. reflexivity. }
  destruct (round_aux_ok s q t (new_location (Zpos m') r) X) as (A & S0 & B); [exact Q0|apply new_location_ok; lia| |].
  - destruct (zdigits (Zpos m) ltac:(lia)) as (_ & _ & K1). destruct (K1 ltac:(lia)) as [K2 K3].
    destruct (zdigits (Zpos m') ltac:(lia)) as (_ & K4 & K4'). destruct (K4' ltac:(lia)) as [_ K5].
    destruct (zdigits q Q0) as (K6 & K7 & _).
    destruct (Z_le_gt_dec k t) as [L|G].
    + unfold fexp, emin, prec, emax in *. lia.
    + assert (Hd : k - t <= Zdigits2 q); [|unfold fexp, emin, prec, emax in *; lia].
      set (d1 := Zdigits2 (Zpos m)) in *. set (d2 := Zdigits2 (Zpos m')) in *. set (dq := Zdigits2 q) in *. clearbody d1 d2 dq.
      destruct (Z_le_gt_dec (k - t) dq) as [|G']; [assumption|exfalso].
      pose proof (Z.pow_le_mono_r 2 dq (k - t - 1) ltac:(lia) ltac:(lia)) as P1.
      assert (L1 : a < 2 ^ (k - t - 1) * Zpos m') by nia.
      assert (L2 : 2 ^ (d1 - 1) * 2 ^ (0 - 0 - t) <= a) by (unfold a; nia).
      assert (L3 : 2 ^ (k - t - 1) * Zpos m' < 2 ^ (k - t - 1) * 2 ^ d2) by (pose proof (pow_pos' (k - t - 1) ltac:(lia)); nia).
      rewrite <- Z.pow_add_r in L2, L3 by lia. unfold k in L3 at 2.
      replace (d1 - d2 - t - 1 + d2) with (d1 - 1 + (0 - 0 - t)) in L3 by lia. lia.
  - split; [exact A|]. split; [exact S0|]. eapply rounds_to_comp; [|exact B].
    assert (V : (X * p2 t == Zpos m # m')%Q).
    { apply Qmult_inj_r with (inject_Z (Zpos m')); [discriminate|].
      setoid_replace ((Zpos m # m') * inject_Z (Zpos m'))%Q with (inject_Z (Zpos m)) by (rewrite (Qmake_Qdiv (Zpos m) m'); field; discriminate).
      setoid_replace (X * p2 t * inject_Z (Zpos m'))%Q with (X * inject_Z (Zpos m') * p2 t)%Q by ring.
      rewrite XE, <- Qmult_assoc, <- p2_add. replace (0 - 0 - t + t) with 0 by lia. change (p2 0) with 1%Q. ring. }
    destruct s; cbn [signed]; rewrite V; reflexivity.
Qed.

Lemma limit_pos : (0 < limit)%Q. Proof. reflexivity. Qed.
Lemma rounds_finite q f : vfloat f -> rounds_to q (fext f) -> (Qabs q < limit)%Q -> finite f = true.
Proof.
  intros V H L. apply Qabs_Qlt_condition in L. destruct f as [s|[|]| |s m e]; try reflexivity; cbn [fext rounds_to] in H; [lra|lra|destruct H].
Qed.
Lemma rounds_infinite q f : rounds_to q (fext f) -> (limit <= Qabs q)%Q -> finite f = false.
Proof. intros H L. destruct f as [s|[|]| |s m e]; try reflexivity; destruct H as [H _]; lra. Qed.
(** A representable number is rounded to itself *)
Lemma rounds_exact q f : finite f = true -> rounds_to q (fext f) -> representable q -> (fval f == q)%Q.
Proof.
  intros F H R. rewrite (fext_finite f F) in H. destruct H as (_ & [_ C] & _). specialize (C q R).
  setoid_replace (q - q)%Q with 0%Q in C by ring. change (Qabs 0) with 0%Q in C. revert C. destruct (Qabs_case' (q - fval f)) as [[? ->]|[? ->]]; lra.
Qed.
Lemma fval_signed f : finite f = true -> (fval f == signed (sign_of f) (Qabs (fval f)))%Q.
Proof.
  destruct f as [s|s| |s m e]; try discriminate; intros _.
  - destruct s; reflexivity.
  - assert (P : (0 < inject_Z (Zpos m) * p2 e)%Q) by (apply Qmult_lt_0_compat; [reflexivity|apply p2_pos]). pose proof (fval_abs s m e) as K.
    destruct s; cbn [sign_of signed]; rewrite K; [rewrite Qabs_opp|]; rewrite Qabs_pos by lra; reflexivity.
Qed.
Lemma signed_abs' s q : (0 <= q)%Q -> (Qabs (signed s q) == q)%Q.
Proof. intros P. destruct s; cbn [signed]; [rewrite Qabs_opp|]; apply Qabs_pos, P. Qed.

Lemma round_decimal_ok s q : (0 <= q)%Q -> (q < limit)%Q -> representable q \/ (tiny <= q)%Q ->
  exists f, round_decimal s q = Ok f /\ vfloat f /\ finite f = true /\ sign_of f = s /\ rounds_to (signed s q) (fext f).
Proof.
  intros P L C. unfold round_decimal. destruct q as [[|n|n] d]; cbn [Qnum Qden]; [| |exfalso; unfold Qle in P; cbn in P; lia].
  - exists (S754_zero s). split; [reflexivity|]. split; [reflexivity|]. split; [reflexivity|]. split; [reflexivity|].
    eapply rounds_to_comp; [|apply (rounds_valid (S754_zero s)); reflexivity]. destruct s; reflexivity.
  - destruct (nearest_ok s n d) as (V & S0 & R). set (f := nearest s n d) in *. exists f.
    assert (F : finite f = true) by (apply (rounds_finite _ _ V R); rewrite (signed_abs' s _ P); exact L). rewrite F. cbn [negb].
    assert (G : negb (Qle_bool tiny (Zpos n # d)) && negb (Qeq_bool (Qabs (fval f)) (Zpos n # d)) = false).
    { destruct C as [C|C].
      - assert (E : (fval f == signed s (Zpos n # d))%Q) by (apply rounds_exact; [exact F|exact R|destruct s; [apply representable_opp|]; exact C]).
        replace (Qeq_bool (Qabs (fval f)) (Zpos n # d)) with true; [apply andb_false_r|]. symmetry. apply Qeq_bool_iff. rewrite E. apply signed_abs', P.
      - apply Qle_bool_iff in C. rewrite C. reflexivity. }
    rewrite G. tauto.
Qed.
Lemma round_decimal_range s q : (0 <= q)%Q -> (limit <= q)%Q \/ (~ representable q /\ q < tiny)%Q -> round_decimal s q = Raise.
Proof.
  intros P C. unfold round_decimal. destruct q as [[|n|n] d]; cbn [Qnum Qden]; [| |exfalso; unfold Qle in P; cbn in P; lia].
  - exfalso. assert (E : (0 # d == 0)%Q) by reflexivity. destruct C as [C|[C _]]; [rewrite E in C; pose proof limit_pos; lra|]. apply C.
    exists 0, 0. split; [exact E|]. lia.
  - destruct (nearest_ok s n d) as (V & S0 & R). set (f := nearest s n d) in *. destruct C as [C|[C T]].
    + rewrite (rounds_infinite _ _ R); [reflexivity|]. rewrite (signed_abs' s _ P). exact C.
    + destruct (finite f) eqn:F; [cbn [negb]|reflexivity].
      replace (Qle_bool tiny (Zpos n # d)) with false by (symmetry; apply not_true_iff_false; rewrite Qle_bool_iff; lra).
      replace (Qeq_bool (Qabs (fval f)) (Zpos n # d)) with false; [reflexivity|]. symmetry. apply not_true_iff_false. rewrite Qeq_bool_iff. intros E. apply C.
      apply representable_comp with (Qabs (fval f)); [exact E|]. pose proof (fval_representable f V F) as Rf.
      destruct (Qabs_case' (fval f)) as [[_ K]|[_ K]]; (eapply representable_comp; [symmetry; exact K|]); [exact Rf|apply representable_opp, Rf].
Qed.

(** ** Scanning *)
Lemma fold_natural ds : forall a, fold_left (fun a c => 10 * a + (c - 48)) ds a = a * 10 ^ Z.of_nat (length ds) + natural ds.
Proof.
  induction ds as [|c ds IH]; intros a; cbn [fold_left natural length]; [rewrite Z.mul_1_r; lia|]. rewrite IH, Nat2Z.inj_succ, Z.pow_succ_r by lia. ring.
Qed.
Lemma digits_value_natural ds : digits_value ds = natural ds.
Proof. unfold digits_value. rewrite fold_natural. lia. Qed.
Lemma is_dec_digit c : digit c -> Reader.is_dec c = true.
Proof. unfold digit, Reader.is_dec. lia. Qed.
Lemma decs_app ds : Forall digit ds -> forall rest, match rest with [] => True | c :: _ => Reader.is_dec c = false end -> Reader.decs (ds ++ rest) = (ds, rest).
Proof.
  induction 1 as [|c ds D _ IH]; intros rest H; cbn [app].
  - destruct rest as [|c rest]; [reflexivity|]. cbn [Reader.decs]. rewrite H. reflexivity.
  - cbn [Reader.decs]. rewrite (is_dec_digit c D), IH by exact H. reflexivity.
Qed.
Lemma decs_all ds : Forall digit ds -> Reader.decs ds = (ds, []).
Proof. intros D. pose proof (decs_app ds D [] Logic.I) as H. rewrite app_nil_r in H. exact H. Qed.
Lemma head_all ds : Forall digit ds -> match ds with [] => True | c :: _ => Reader.is_sign c = false end.
Proof. intros [|c t D _]; [exact Logic.I|]. unfold digit, Reader.is_sign in *. lia. Qed.
Lemma unsigned_app sg n t : sign sg n -> match t with [] => True | c :: _ => Reader.is_sign c = false end -> Reader.unsigned (sg ++ t) = t.
Proof. intros [] H; [|reflexivity|reflexivity]. destruct t as [|c t]; [reflexivity|]. cbn [app Reader.unsigned]. rewrite H. reflexivity. Qed.
Lemma head_minus sg n t : sign sg n -> match t with [] => True | c :: _ => Reader.is_sign c = false end -> match sg ++ t with c :: _ => c =? 45 | [] => false end = n.
Proof. intros [] H; [|reflexivity|reflexivity]. destruct t as [|c t]; [reflexivity|]. cbn [app]. unfold Reader.is_sign in H. lia. Qed.
Lemma head_digits ds t : Forall digit ds -> ds <> [] -> match ds ++ t with [] => True | c :: _ => Reader.is_sign c = false end.
Proof. intros H N. destruct H as [|c ds D _]; [congruence|]. cbn [app]. unfold digit, Reader.is_sign in *. lia. Qed.
Lemma suffix_head ex k : suffix ex k -> match ex with [] => True | c :: _ => Reader.is_dec c = false /\ Reader.is_sign c = false /\ (c =? 46) = false end.
Proof. intros [|c sg n ds M _ _ _]; [exact Logic.I|]. cbn [app]. unfold Reader.is_dec, Reader.is_sign. lia. Qed.
Lemma mantissa_head m ip fp ex k : mantissa m ip fp -> suffix ex k -> match m ++ ex with [] => True | c :: _ => Reader.is_sign c = false end.
Proof.
  intros [ip' D N|ip' fp' D D' N] S0; [apply head_digits; assumption|]. destruct D as [|c ip' D0 _]; [reflexivity|]. cbn [app]. unfold digit, Reader.is_sign in *. lia.
Qed.
Lemma mantissa_scan m ip fp ex k : mantissa m ip fp -> suffix ex k ->
  exists rest, Reader.decs (m ++ ex) = (ip, rest) /\ (match rest with c :: t => if c =? 46 then Reader.decs t else ([], rest) | [] => ([], []) end) = (fp, ex) /\
    (ip = [] -> fp <> [] /\ rest = 46 :: fp ++ ex) /\ (rest = ex \/ rest = 46 :: fp ++ ex).
Proof.
  intros M S0. pose proof (suffix_head ex k S0) as H. destruct M as [ip D N|ip fp D D' N].
  - exists ex. split; [apply decs_app; [exact D|destruct ex; tauto]|]. split; [destruct ex as [|c ex]; [reflexivity|]; destruct H as (_ & _ & H); rewrite H; reflexivity|]. split; [congruence|tauto].
  - exists (46 :: fp ++ ex). rewrite <- app_assoc. split; [apply decs_app; [exact D|reflexivity]|]. split; [|split; [|right; reflexivity]].
    + cbn [Z.eqb Pos.eqb]. apply decs_app; [exact D'|destruct ex; tauto].
    + intros ->. split; [exact N|reflexivity].
Qed.
Lemma suffix_value ex k : suffix ex k ->
  match ex with
  | c :: t => if (c =? 69) || (c =? 101) then
      let v := digits_value (fst (Reader.decs (Reader.unsigned t))) in match t with c :: _ => if c =? 45 then - v else v | [] => v end else 0
  | [] => 0
  end = k.
Proof.
  intros [|c sg n ds M S0 N D]; [reflexivity|]. replace ((c =? 69) || (c =? 101)) with true by lia.
  rewrite (unsigned_app sg n ds S0) by (apply head_all, D).
  rewrite (decs_all ds D). cbn [fst]. rewrite digits_value_natural. cbv zeta.
  pose proof (head_minus sg n ds S0 (head_all ds D)) as H.
  destruct (sg ++ ds) as [|c' t]; [subst n; reflexivity|]. rewrite H. reflexivity.
Qed.
(** std::stod reads what the literal denotes *)
Lemma stod_ok sg n m ip fp ex k : sign sg n -> mantissa m ip fp -> suffix ex k ->
  stod (sg ++ m ++ ex) = round_decimal n (inject_Z (natural (ip ++ fp)) * Qpower 10 (k - Z.of_nat (length fp))).
Proof.
  intros S0 M X. unfold stod. pose proof (mantissa_head m ip fp ex k M X) as H. rewrite (unsigned_app sg n _ S0 H), (head_minus sg n _ S0 H).
  destruct (mantissa_scan m ip fp ex k M X) as (rest & E1 & E2 & _ & _). rewrite E1, E2. pose proof (suffix_value ex k X) as K. cbv zeta in K |- *. rewrite K, digits_value_natural. reflexivity.
Qed.
Lemma exponent_ok ex k : suffix ex k -> Reader.exponent ex = true.
Proof.
  intros [|c sg n ds M S0 N D]; [reflexivity|]. cbn [Reader.exponent existsb]. replace ((c =? 68) || _) with true by lia.
  rewrite (unsigned_app sg n ds S0) by (apply head_all, D).
  rewrite (decs_all ds D). destruct ds; [congruence|reflexivity].
Qed.
Lemma decimal_ok sg n m ip fp ex k : sign sg n -> mantissa m ip fp -> suffix ex k -> Reader.decimal (sg ++ m ++ ex) = true.
Proof.
  intros S0 M X. unfold Reader.decimal. rewrite (unsigned_app sg n _ S0 (mantissa_head m ip fp ex k M X)).
  destruct (mantissa_scan m ip fp ex k M X) as (rest & E1 & E2 & E3 & E4). rewrite E1. pose proof (exponent_ok ex k X) as Ex.
  destruct rest as [|c rest].
  - destruct ip; [destruct (E3 eq_refl) as [_ K]; discriminate K|reflexivity].
  - destruct (c =? 46) eqn:Ec.
    + rewrite E2. rewrite Ex. destruct ip, fp; try reflexivity. destruct (E3 eq_refl). congruence.
    + destruct E4 as [E4|E4]; [|injection E4 as -> _; discriminate Ec]. rewrite E4, Ex. destruct ip; [|reflexivity]. destruct (E3 eq_refl) as [_ K]. injection K as -> _. discriminate Ec.
Qed.
Lemma marker_ok sg n m ip fp ex k : sign sg n -> mantissa m ip fp -> suffix ex k ->
  marker (sg ++ m ++ ex) = match ex with c :: _ => Some c | [] => None end.
Proof.
  intros S0 M X. unfold marker. rewrite (unsigned_app sg n _ S0 (mantissa_head m ip fp ex k M X)).
  destruct (mantissa_scan m ip fp ex k M X) as (rest & E1 & E2 & E3 & E4). rewrite E1. destruct rest as [|c rest].
  - injection E2 as _ <-. reflexivity.
  - destruct (c =? 46); [rewrite E2; reflexivity|]. injection E2 as _ <-. reflexivity.
Qed.

(** ** A literal with a point or an exponent is not exact *)
Definition literal_char (c : Z) : Prop := digit c \/ c = 43 \/ c = 45 \/ c = 46 \/ c = 69 \/ c = 101.
Lemma Forall_imp {A} (P Q : A -> Prop) l : (forall x, P x -> Q x) -> Forall P l -> Forall Q l.
Proof. intros H. induction 1; constructor; auto. Qed.
Lemma literal_chars s n q : denotes s n q -> Forall literal_char s.
Proof.
  assert (Sg : forall sg n, sign sg n -> Forall literal_char sg) by (intros ? ? []; repeat constructor; unfold literal_char; lia).
  assert (Dg : forall ds, Forall digit ds -> Forall literal_char ds) by (intros ds; apply Forall_imp; unfold literal_char; tauto).
  intros (sg & m & ip & fp & ex & k & -> & S0 & M & X & _). apply Forall_app. split; [eapply Sg; exact S0|]. apply Forall_app. split.
  - destruct M as [ip D _|ip fp D D' _]; [apply Dg, D|]. apply Forall_app. split; [apply Dg, D|]. constructor; [unfold literal_char; lia|apply Dg, D'].
  - destruct X as [|c sg' n' ds Mk S1 _ D]; [constructor|]. constructor; [unfold literal_char; lia|]. apply Forall_app. split; [eapply Sg; exact S1|apply Dg, D].
Qed.
Lemma digit_in_10' c : digit_in 10 c <> None -> digit c.
Proof.
  unfold digit_in, digit_value, digit. destruct ((48 <=? c) && (c <=? 57)) eqn:E; [lia|].
  destruct ((97 <=? c) && (c <=? 122)) eqn:E1; [replace (c - 87 <? 10) with false by lia; congruence|].
  destruct ((65 <=? c) && (c <=? 90)) eqn:E2; [replace (c - 55 <? 10) with false by lia; congruence|congruence].
Qed.
Definition foreign (c : Z) : Prop := c = 46 \/ c = 101 \/ c = 69 \/ c = 105.
Lemma foreign_digit c : foreign c -> digit_in 10 c = None /\ is_blank c = false /\ c <> 45 /\ c <> 43 /\ ~ digit c.
Proof. intros [-> | [-> | [-> | ->]]]; repeat split; try reflexivity; unfold digit; lia. Qed.
Lemma scan_foreign s : forall acc c, foreign c -> In c s -> snd (scan 10 acc s) <> [].
Proof.
  induction s as [|d s IH]; intros acc c F H; [destruct H|]. cbn [scan]. destruct (digit_in 10 d) eqn:E; [|discriminate].
  destruct H as [->|H]; [destruct (foreign_digit c F); congruence|]. eapply IH; eauto.
Qed.
Lemma mpz_foreign s : forall acc c, foreign c -> In c s -> mpz_digits 10 acc s = None.
Proof.
  induction s as [|d s IH]; intros acc c F H; [destruct H|]. cbn [mpz_digits]. destruct H as [->|H].
  - destruct (foreign_digit c F) as (-> & -> & _). reflexivity.
  - destruct (is_blank d); [eapply IH; eauto|]. destruct (digit_in 10 d); [eapply IH; eauto|reflexivity].
Qed.
Lemma skip_foreign s c : foreign c -> In c s -> In c (skip_blanks s).
Proof.
  intros F. induction s as [|d s IH]; intros H; [destruct H|]. cbn [skip_blanks]. destruct (is_blank d) eqn:E; [|exact H].
  destruct H as [->|H]; [destruct (foreign_digit c F) as (_ & B & _); congruence|exact (IH H)].
Qed.
Lemma mpz_set_foreign s c : foreign c -> In c s -> mpz_set_str s 10 = None.
Proof.
  intros F H. unfold mpz_set_str. apply (skip_foreign s c F) in H. destruct (skip_blanks s) as [|d t]; [destruct H|]. destruct (d =? 45) eqn:E.
  - destruct H as [->|H]; [destruct (foreign_digit c F); lia|]. destruct t as [|x t]; [destruct H|]. rewrite (mpz_foreign _ 0 c F H). destruct (digit_in 10 x); reflexivity.
  - rewrite (mpz_foreign _ 0 c F H). destruct (digit_in 10 d); reflexivity.
Qed.
Lemma integer_foreign s c : foreign c -> In c s -> make_integer s 10 = None.
Proof.
  intros F H. assert (L : large_of_string s 10 = None).
  { unfold large_of_string. destruct s as [|d s]; [destruct H|]. destruct (d =? 43) eqn:E.
    - destruct H as [->|H]; [destruct (foreign_digit c F); lia|]. rewrite (mpz_set_foreign s c F H). reflexivity.
    - rewrite (mpz_set_foreign _ c F H). reflexivity. }
  unfold make_integer, from_chars. destruct s as [|d s]; [destruct H|].
  assert (G : forall (neg : bool) t, In c t -> match match t with
     | c :: _ => match digit_in 10 c with
       | Some _ => let (v, rest) := scan 10 0 t in let v := if neg then - v else v in if (- 2 ^ 63 <=? v) && (v <? 2 ^ 63) then FcOk v rest else FcRange
       | None => FcInvalid end
     | [] => FcInvalid end with
     | FcOk v [] => if is_int32 v then Some (Small v) else large_of_string (d :: s) 10 | FcOk _ _ => None | FcRange => large_of_string (d :: s) 10 | FcInvalid => None end = None).
  { intros neg t Ht. pose proof (scan_foreign t 0 c F Ht) as Sf. destruct t as [|x t]; [destruct Ht|]. destruct (digit_in 10 x); [|reflexivity].
    destruct (scan 10 0 (x :: t)) as [v rest]. cbn [snd] in Sf. cbv zeta. destruct (_ && _); [|exact L]. destruct rest; [congruence|reflexivity]. }
  destruct (d =? 45) eqn:E.
  - specialize (G true s). destruct H as [->|H]; [destruct (foreign_digit c F); lia|]. specialize (G H). destruct s as [|x s]; [destruct H|]. destruct (digit_in 10 x); [|reflexivity]. destruct (scan 10 0 (x :: s)). exact G.
  - specialize (G false _ H). cbn beta iota in G |- *. destruct (digit_in 10 d); [|reflexivity]. destruct (scan 10 0 (d :: s)). exact G.
Qed.
Lemma split_slash_none s : ~ In 47 s -> split_slash s = (s, None).
Proof.
  induction s as [|c s IH]; intros H; [reflexivity|]. cbn [split_slash]. destruct (c =? 47) eqn:E; [exfalso; apply H; left; lia|]. rewrite IH; [reflexivity|]. intros K. apply H. right. exact K.
Qed.
Lemma rational_foreign s : inexact_literal s -> ~ In 47 s -> make_rational s 10 = Ok None.
Proof.
  intros I0 N. assert (F : exists c, foreign c /\ In c s) by (unfold foreign; destruct I0 as [H|[H|H]]; eexists; (split; [|exact H]); tauto).
  destruct F as (c & F & H). unfold make_rational. rewrite (integer_foreign s c F H). unfold ratio_of_string. rewrite (split_slash_none s N), (mpz_set_foreign s c F H). reflexivity.
Qed.
Lemma constant_none s : ~ In 110 s -> constant s = None.
Proof.
  intros H. unfold constant.
  destruct (list_eq_dec Z.eq_dec s (Writer.codes "+inf.0"%string)) as [E|_]; [exfalso; apply H; rewrite E; cbn; tauto|].
  destruct (list_eq_dec Z.eq_dec s (Writer.codes "-inf.0"%string)) as [E|_]; [exfalso; apply H; rewrite E; cbn; tauto|].
  destruct (list_eq_dec Z.eq_dec s (Writer.codes "+nan.0"%string)) as [E|_]; [exfalso; apply H; rewrite E; cbn; tauto|].
  destruct (list_eq_dec Z.eq_dec s (Writer.codes "-nan.0"%string)) as [E|_]; [exfalso; apply H; rewrite E; cbn; tauto|reflexivity].
Qed.
Lemma make_real_literal s n q : denotes s n q -> inexact_literal s ->
  exists q', (0 <= q')%Q /\ (q == signed n q')%Q /\
    make_real s 10 = match round_decimal n q' with Ok f => Read (Flo f) | Raise => Out_of_range | Crash => Undefined_behavior end.
Proof.
  intros D I0. pose proof (literal_chars s n q D) as Ch. rewrite Forall_forall in Ch.
  destruct D as (sg & m & ip & fp & ex & k & -> & S0 & M & X & E). exists (inject_Z (natural (ip ++ fp)) * Qpower 10 (k - Z.of_nat (length fp)))%Q.
  assert (Pn : forall ds, Forall digit ds -> 0 <= natural ds) by (induction 1 as [|c ds D0 _ IH]; cbn [natural]; [lia|]; unfold digit in D0; pose proof (Z.pow_nonneg 10 (Z.of_nat (length ds))); nia).
  split; [|split; [exact E|]].
  - apply Qmult_le_0_compat; [|apply Qpower_0_le; discriminate]. change 0%Q with (inject_Z 0). rewrite <- Zle_Qle. apply Pn. destruct M; apply Forall_app; split; auto.
  - unfold make_real. rewrite rational_foreign by first [exact I0|intros K; specialize (Ch 47 K); unfold literal_char, digit in Ch; lia].
    rewrite constant_none by (intros K; specialize (Ch 110 K); unfold literal_char, digit in Ch; lia).
    rewrite (decimal_ok sg n m ip fp ex k S0 M X), (marker_ok sg n m ip fp ex k S0 M X), (stod_ok sg n m ip fp ex k S0 M X).
    destruct X as [|c sg' n' ds Mk _ _ _]; [reflexivity|]. replace ((c =? 70) || (c =? 102)) with false by lia. reflexivity.
Qed.
