(** Model of number->string and string->number for exact numbers:
    src/kernel/number.cpp:360-403, 907-957, large_integer.cpp:55-62,
    ratio.cpp:68-79.  A string is a list of byte codes without NUL.
    std::to_chars, std::from_chars, mpz_get_str, mpz_set_str and mpq_set_str are
    modelled from their documentation and, for blanks, the GMP source. *)
From Coq Require Import ZArith QArith Qreduction List Bool Lia ZifyBool.
From Verif Require Import Number NumberProofs.
Import ListNotations.
Open Scope Z_scope.

Definition digit_char (d : Z) : Z := if d <? 10 then 48 + d else 87 + d.
Definition digit_value (c : Z) : option Z :=
  if (48 <=? c) && (c <=? 57) then Some (c - 48)
  else if (97 <=? c) && (c <=? 122) then Some (c - 87)
  else if (65 <=? c) && (c <=? 90) then Some (c - 55)
  else None.
Definition digit_in (r c : Z) : option Z :=
  match digit_value c with Some d => if d <? r then Some d else None | None => None end.
Definition is_blank (c : Z) : bool := (c =? 32) || ((9 <=? c) && (c <=? 13)).

(** Digits of a natural number, most significant first *)
Fixpoint digits_f (fuel : nat) (r n : Z) (acc : list Z) : list Z :=
  match fuel with
  | O => acc
  | S f => if n <? r then digit_char n :: acc else digits_f f r (n / r) (digit_char (n mod r) :: acc)
  end.
Definition digits (r n : Z) : list Z := digits_f (S (Z.to_nat (Z.log2 n))) r n [].
(** std::to_chars and mpz_get_str *)
Definition int_text (r z : Z) : list Z := if z <? 0 then 45 :: digits r (- z) else digits r z.

(** number.cpp:907-957.  The buffer has 33 zero bytes and is read as a C string:
    33 characters leave no terminator. *)
Definition number_to_string (x : num) (r : Z) : outcome (list Z) :=
  match x with
  | Small z => let s := int_text r z in if (length s <? 33)%nat then Ok s else Crash
  | Large z => Ok (int_text r z)
  | Ratio _ => Ok [84; 79; 68; 79]     (* "TODO" *)
  end.

(** Longest prefix of digits: value and rest *)
Fixpoint scan (r acc : Z) (s : list Z) : Z * list Z :=
  match s with
  | c :: s' => match digit_in r c with Some d => scan r (acc * r + d) s' | None => (acc, s) end
  | [] => (acc, [])
  end.
Inductive from_chars_result := FcInvalid | FcRange | FcOk (v : Z) (rest : list Z).
Definition from_chars (s : list Z) (r : Z) : from_chars_result :=
  let '(neg, t) := match s with c :: t => if c =? 45 then (true, t) else (false, s) | [] => (false, s) end in
  match t with
  | c :: _ =>
    match digit_in r c with
    | Some _ => let (v, rest) := scan r 0 t in
                let v := if neg : bool then - v else v in
                if (- 2^63 <=? v) && (v <? 2^63) then FcOk v rest else FcRange
    | None => FcInvalid
    end
  | [] => FcInvalid
  end.
(** mpz_set_str: leading blanks, a minus sign, a digit, then digits and blanks *)
Fixpoint skip_blanks (s : list Z) : list Z :=
  match s with c :: s' => if is_blank c then skip_blanks s' else s | [] => [] end.
Fixpoint mpz_digits (r acc : Z) (s : list Z) : option Z :=
  match s with
  | [] => Some acc
  | c :: s' => if is_blank c then mpz_digits r acc s'
               else match digit_in r c with Some d => mpz_digits r (acc * r + d) s' | None => None end
  end.
Definition mpz_set_str (s : list Z) (r : Z) : option Z :=
  let s := skip_blanks s in
  let '(neg, t) := match s with c :: t => if c =? 45 then (true, t) else (false, s) | [] => (false, s) end in
  match t with
  | c :: _ => match digit_in r c with
              | Some _ => option_map (fun v => if neg : bool then - v else v) (mpz_digits r 0 t)
              | None => None
              end
  | [] => None
  end.
(** large_integer.cpp:55-62; [None] is std::invalid_argument *)
Definition large_of_string (s : list Z) (r : Z) : option num :=
  option_map Large (mpz_set_str (match s with c :: s' => if c =? 43 then s' else s | [] => s end) r).
(** number.cpp:360-391 *)
Definition make_integer (s : list Z) (r : Z) : option num :=
  match from_chars s r with
  | FcOk v [] => if is_int32 v then Some (Small v) else large_of_string s r
  | FcOk _ _ => None
  | FcRange => large_of_string s r
  | FcInvalid => None
  end.
(** ratio.cpp:68-79: mpq_set_str splits at the first slash *)
Fixpoint split_slash (s : list Z) : list Z * option (list Z) :=
  match s with
  | [] => ([], None)
  | c :: s' => if c =? 47 then ([], Some s') else let (a, b) := split_slash s' in (c :: a, b)
  end.
Definition ratio_of_string (s : list Z) (r : Z) : outcome (option num) :=
  let (a, b) := split_slash s in
  match mpz_set_str a r, match b with Some b => mpz_set_str b r | None => Some 1 end with
  | Some n, Some d => let! q := ratio_nd n d in Ok (Some (Ratio q))
  | _, _ => Ok None
  end.
(** number.cpp:393-403; [Ok None] means the literal is tried as a real next *)
Definition make_rational (s : list Z) (r : Z) : outcome (option num) :=
  match make_integer s r with Some x => Ok (Some x) | None => ratio_of_string s r end.

(** ** Proofs *)
Section Radix.
  Variable r : Z.
  Hypothesis Hr : 2 <= r <= 36.

  Lemma digit_roundtrip d : 0 <= d < r -> digit_in r (digit_char d) = Some d.
  Proof.
    intros Hd. unfold digit_in, digit_char, digit_value. destruct (d <? 10) eqn:E.
    - replace ((48 <=? 48 + d) && (48 + d <=? 57)) with true by lia.
      replace (48 + d - 48) with d by lia. replace (d <? r) with true by lia. reflexivity.
    - replace ((48 <=? 87 + d) && (87 + d <=? 57)) with false by lia.
      replace ((97 <=? 87 + d) && (87 + d <=? 122)) with true by lia.
      replace (87 + d - 87) with d by lia. replace (d <? r) with true by lia. reflexivity.
  Qed.
  Definition is_digit (c : Z) : Prop := exists d, 0 <= d < r /\ c = digit_char d.
  Lemma digit_not_blank c : is_digit c -> is_blank c = false /\ (c =? 45) = false /\ (c =? 47) = false /\ (c =? 43) = false.
  Proof. intros [d [Hd ->]]. unfold is_blank, digit_char. destruct (d <? 10) eqn:E; lia. Qed.

  Lemma digits_f_app fuel : forall n acc, digits_f fuel r n acc = digits_f fuel r n [] ++ acc.
  Proof.
    induction fuel as [|f IH]; intros n acc; cbn [digits_f]; [reflexivity|].
    destruct (n <? r); [reflexivity|]. rewrite (IH _ (_ :: acc)), (IH _ [_]), <- app_assoc. reflexivity.
  Qed.
  Lemma digits_f_spec fuel : forall n, 0 <= n < 2^(Z.of_nat fuel) ->
    Forall is_digit (digits_f fuel r n []) /\ (fuel <> O -> digits_f fuel r n [] <> []) /\ (length (digits_f fuel r n []) <= fuel)%nat /\
    (forall acc rest, scan r acc (digits_f fuel r n [] ++ rest) = scan r (acc * r ^ Z.of_nat (length (digits_f fuel r n [])) + n) rest) /\
    (forall acc rest, mpz_digits r acc (digits_f fuel r n [] ++ rest) = mpz_digits r (acc * r ^ Z.of_nat (length (digits_f fuel r n [])) + n) rest).
  Proof.
    induction fuel as [|f IH]; intros n Hn.
    - change (2 ^ Z.of_nat 0) with 1 in Hn. assert (n = 0) as -> by lia. cbn [digits_f length app].
      split; [constructor|]. split; [congruence|]. split; [lia|].
      split; intros acc rest; change (r ^ Z.of_nat 0) with 1; f_equal; lia.
    - cbn [digits_f]. destruct (n <? r) eqn:E.
      + assert (D : is_digit (digit_char n)) by (exists n; split; [lia|reflexivity]).
        split; [constructor; [exact D|constructor]|]. split; [intros _ C; discriminate C|]. split; [cbn [length]; lia|].
        cbn [app length scan mpz_digits]. destruct (digit_not_blank _ D) as [-> _]. rewrite digit_roundtrip by lia.
        change (Z.of_nat 1) with 1. rewrite Z.pow_1_r. split; reflexivity.
      + assert (Hm : 0 <= n mod r < r) by (apply Z.mod_pos_bound; lia).
        assert (Hq : 0 <= n / r < 2 ^ Z.of_nat f).
        { split; [apply Z.div_pos; lia|]. rewrite Nat2Z.inj_succ, Z.pow_succ_r in Hn by lia.
          apply Z.div_lt_upper_bound; [lia|]. nia. }
        destruct (IH (n / r) Hq) as [D [_ [L [S M]]]].
        assert (D' : is_digit (digit_char (n mod r))) by (exists (n mod r); auto).
        rewrite digits_f_app. split; [apply Forall_app; split; [exact D|constructor; [exact D'|constructor]]|].
        split; [intros _ C; apply app_eq_nil in C; destruct C; discriminate|].
        rewrite app_length. cbn [length]. split; [lia|].
        pose proof (Z.div_mod n r ltac:(lia)) as Edm.
        assert (P : forall acc, (acc * r ^ Z.of_nat (length (digits_f f r (n / r) [])) + n / r) * r + n mod r =
                                acc * r ^ Z.of_nat (length (digits_f f r (n / r) []) + 1) + n).
        { intros acc. rewrite Nat2Z.inj_add, Z.pow_add_r by lia. change (Z.of_nat 1) with 1. rewrite Z.pow_1_r.
          set (pw := r ^ _). nia. }
        split; intros acc rest; rewrite <- app_assoc; [rewrite S|rewrite M]; cbn [app scan mpz_digits].
        * rewrite digit_roundtrip by exact Hm. rewrite P. reflexivity.
        * destruct (digit_not_blank _ D') as [-> _]. rewrite digit_roundtrip by exact Hm. rewrite P. reflexivity.
  Qed.

  Lemma digits_spec n : 0 <= n ->
    exists d ds, digits r n = digit_char d :: ds /\ 0 <= d < r /\ Forall is_digit (digits r n) /\
      (length (digits r n) <= S (Z.to_nat (Z.log2 n)))%nat /\
      (forall rest, scan r 0 (digits r n ++ rest) = scan r n rest) /\
      (forall rest, mpz_digits r 0 (digits r n ++ rest) = mpz_digits r n rest).
  Proof.
    intros Hn. destruct (digits_f_spec (S (Z.to_nat (Z.log2 n))) n) as [D [NE [L [S M]]]].
    { rewrite Nat2Z.inj_succ, Z2Nat.id by apply Z.log2_nonneg. split; [lia|].
      destruct (Z.eq_dec n 0) as [->|]; [reflexivity|]. apply Z.log2_spec. lia. }
    fold (digits r n) in *. destruct (digits r n) as [|c ds] eqn:E; [exfalso; apply NE; [lia|reflexivity]|].
    inversion D as [|? ? Hc D']; subst. destruct Hc as [d [Hd ->]]. exists d, ds.
    split; [reflexivity|]. split; [exact Hd|]. split; [exact D|]. split; [exact L|].
    split; intros rest; [rewrite S|rewrite M]; f_equal.
  Qed.

  Lemma digits_head n rest : 0 <= n -> exists c t, digits r n ++ rest = c :: t /\
    (exists d, digit_in r c = Some d) /\ is_blank c = false /\ (c =? 45) = false /\ (c =? 43) = false.
  Proof.
    intros Hn. destruct (digits_spec n Hn) as [d [ds [E [Hd _]]]]. rewrite E. cbn [app].
    exists (digit_char d), (ds ++ rest). split; [reflexivity|]. split; [exists d; apply digit_roundtrip; exact Hd|].
    destruct (digit_not_blank (digit_char d)) as [A [B [_ C]]]; [exists d; auto|]. auto.
  Qed.

  Definition in64 (z : Z) : bool := (- 2^63 <=? z) && (z <? 2^63).
  Lemma from_chars_text z rest : from_chars (int_text r z ++ rest) r =
    let (v, rest') := scan r (Z.abs z) rest in
    let v := if z <? 0 then - v else v in if in64 v then FcOk v rest' else FcRange.
  Proof.
    unfold from_chars, int_text. destruct (z <? 0) eqn:E.
    - cbn [app]. change (45 =? 45) with true.
      destruct (digits_head (-z) rest ltac:(lia)) as [c [t [Ec [[d Hd] [Hb [H45 H43]]]]]].
      destruct (digits_spec (-z) ltac:(lia)) as [_ [_ [_ [_ [_ [_ [S _]]]]]]].
      rewrite Z.abs_neq by lia. rewrite <- S. rewrite Ec, Hd. reflexivity.
    - destruct (digits_head z rest ltac:(lia)) as [c [t [Ec [[d Hd] [Hb [H45 H43]]]]]].
      destruct (digits_spec z ltac:(lia)) as [_ [_ [_ [_ [_ [_ [S _]]]]]]].
      rewrite Z.abs_eq by lia. rewrite <- S. rewrite Ec, H45, Hd. reflexivity.
  Qed.
  Lemma mpz_set_str_text z rest : mpz_set_str (int_text r z ++ rest) r =
    option_map (fun v => if z <? 0 then - v else v) (mpz_digits r (Z.abs z) rest).
  Proof.
    unfold mpz_set_str, int_text. destruct (z <? 0) eqn:E.
    - cbn [app]. change (skip_blanks (45 :: digits r (- z) ++ rest)) with (45 :: digits r (- z) ++ rest). change (45 =? 45) with true. cbv beta iota zeta.
      destruct (digits_head (-z) rest ltac:(lia)) as [c [t [Ec [[d Hd] [Hb [H45 H43]]]]]].
      destruct (digits_spec (-z) ltac:(lia)) as [_ [_ [_ [_ [_ [_ [_ M]]]]]]].
      rewrite Z.abs_neq by lia. rewrite <- M. rewrite Ec. cbv beta iota zeta. change (45 =? 45) with true. cbv beta iota zeta. rewrite Hd. reflexivity.
    - destruct (digits_head z rest ltac:(lia)) as [c [t [Ec [[d Hd] [Hb [H45 H43]]]]]].
      destruct (digits_spec z ltac:(lia)) as [_ [_ [_ [_ [_ [_ [_ M]]]]]]].
      rewrite Z.abs_eq by lia. rewrite <- M. rewrite Ec. cbn [skip_blanks]. rewrite Hb, H45. cbv beta iota zeta. rewrite Hd. reflexivity.
  Qed.
  Lemma text_no_plus z rest : match int_text r z ++ rest with c :: s' => if c =? 43 then s' else int_text r z ++ rest | [] => int_text r z ++ rest end = int_text r z ++ rest.
  Proof.
    unfold int_text. destruct (z <? 0) eqn:E; [reflexivity|].
    destruct (digits_head z rest ltac:(lia)) as [c [t [Ec [_ [_ [_ H43]]]]]]. rewrite Ec, H43. reflexivity.
  Qed.
  Lemma signed_abs z : (if z <? 0 then - Z.abs z else Z.abs z) = z.
  Proof. destruct (z <? 0) eqn:E; lia. Qed.

  Lemma read_text z : exists y, make_integer (int_text r z) r = Some y /\ is_int y z.
  Proof.
    pose proof (from_chars_text z []) as F. pose proof (mpz_set_str_text z []) as M. pose proof (text_no_plus z []) as P.
    rewrite app_nil_r in F, M, P. cbn [scan mpz_digits option_map] in F, M. rewrite signed_abs in F, M.
    assert (L : large_of_string (int_text r z) r = Some (Large z)) by (unfold large_of_string; rewrite P, M; reflexivity).
    unfold make_integer. rewrite F, L.
    destruct (in64 z); [destruct (is_int32 z)|]; eexists; (split; [reflexivity|]); [left|right|right]; reflexivity.
  Qed.

  Lemma digits_short : forall z, -2^31 <= z < 2^31 -> ~ (z = -2^31 /\ r = 2) -> (length (int_text r z) < 33)%nat.
  Proof.
    intros z Hz Hn. destruct (Z.eq_dec z (-2^31)) as [->|Hz'].
    - assert (K : forallb (fun k => (length (int_text (Z.of_nat k) (-2^31)) <? 33)%nat) (seq 3 34) = true) by (vm_compute; reflexivity).
      rewrite forallb_forall in K. specialize (K (Z.to_nat r)). rewrite Z2Nat.id in K by lia.
      assert (In (Z.to_nat r) (seq 3 34)) by (apply in_seq; lia). apply K in H. lia.
    - unfold int_text.
      assert (B : forall n, 0 <= n < 2^31 -> (length (digits r n) <= 31)%nat).
      { intros n Hn'. destruct (digits_spec n ltac:(lia)) as [_ [_ [_ [_ [_ [L _]]]]]].
        assert (Z.log2 n < 31). { destruct (Z.eq_dec n 0) as [->|]; [cbn; lia|]. apply Z.log2_lt_pow2; lia. } lia. }
      destruct (z <? 0) eqn:E; cbn [length]; [specialize (B (-z))|specialize (B z)]; lia.
  Qed.

  Lemma text_roundtrip x n : valid x -> is_int x n -> ~ (x = Small (-2^31) /\ r = 2) ->
    exists s y, number_to_string x r = Ok s /\ make_rational s r = Ok (Some y) /\ is_int y n.
  Proof.
    intros V Hx Hn. destruct (read_text n) as [y [E Hy]]. exists (int_text r n), y.
    split; [|split; [unfold make_rational; rewrite E; reflexivity|exact Hy]].
    destruct Hx as [->| ->]; cbn [number_to_string valid] in *; [|reflexivity].
    pose proof (digits_short n V ltac:(intros [-> ->]; apply Hn; auto)).
    replace (length (int_text r n) <? 33)%nat with true by (symmetry; apply Nat.ltb_lt; assumption). reflexivity.
  Qed.

  (** A ratio literal "n/d" *)
  Lemma slash_stops acc s : scan r acc (47 :: s) = (acc, 47 :: s) /\ mpz_digits r acc (47 :: s) = None.
  Proof. split; reflexivity. Qed.
  Lemma split_text z s : split_slash (int_text r z ++ 47 :: s) = (int_text r z, Some s).
  Proof.
    assert (G : forall l, Forall (fun c => (c =? 47) = false) l -> split_slash (l ++ 47 :: s) = (l, Some s)).
    { induction l as [|c l IH]; intros H; cbn [app split_slash]; [reflexivity|]. inversion H as [|? ? Hc Hl]; subst.
      rewrite Hc, (IH Hl). reflexivity. }
    apply G. unfold int_text.
    assert (D : forall n, 0 <= n -> Forall (fun c => (c =? 47) = false) (digits r n)).
    { intros n Hn. destruct (digits_spec n Hn) as [_ [_ [_ [_ [D _]]]]]. revert D. apply Forall_impl. intros c Hc. apply digit_not_blank. exact Hc. }
    destruct (z <? 0) eqn:E; [constructor; [reflexivity|]|]; apply D; lia.
  Qed.
  Lemma ratio_literal n d : 0 < d -> exists q,
    make_rational (int_text r n ++ 47 :: int_text r d) r = Ok (Some (Ratio q)) /\ Qred q = q /\ q == inject_Z n / inject_Z d.
  Proof.
    intros Hd. destruct (ratio_nd_ok n d ltac:(lia)) as [q [E [C W]]]. exists q. split; [|auto].
    unfold make_rational.
    assert (N : make_integer (int_text r n ++ 47 :: int_text r d) r = None).
    { unfold make_integer. rewrite from_chars_text. rewrite (proj1 (slash_stops _ _)). rewrite signed_abs. cbv zeta.
      destruct (in64 n); [reflexivity|]. unfold large_of_string. rewrite text_no_plus, mpz_set_str_text, (proj2 (slash_stops (Z.abs n) (int_text r d))). reflexivity. }
    rewrite N. unfold ratio_of_string. rewrite split_text.
    pose proof (mpz_set_str_text n []) as Mn. pose proof (mpz_set_str_text d []) as Md. rewrite app_nil_r in Mn, Md.
    cbn [mpz_digits option_map] in Mn, Md. rewrite signed_abs in Mn, Md. rewrite Mn, Md, E. reflexivity.
  Qed.
End Radix.
