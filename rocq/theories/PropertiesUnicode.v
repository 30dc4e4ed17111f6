(** Characters: C94-C97.  The statements speak of code points and of the Unicode data as
    transcribed in UnicodeTables.v; the specification below is separate from the model. *)
From Coq Require Import String ZArith List Bool Lia.
From Verif Require Import Number NumberText Bitwise Writer UnicodeTables Unicode UnicodeProofs.
Import ListNotations.
Open Scope Z_scope.

(** ** Specification *)
(** A Unicode scalar value *)
Definition scalar_value (c : Z) : Prop := 0 <= c <= 0xD7FF \/ 0xE000 <= c <= 0x10FFFF.
(** The values of a C++ int *)
Definition code (c : Z) : Prop := - 2 ^ 31 <= c < 2 ^ 31.
(** The category UnicodeData.txt gives to a code point: by a line of its own, or between a
    line First and a line Last *)
Definition has_category (c : Z) (g : category) : Prop :=
  (exists e, In e property_cases /\ low e <= c <= high e /\ val e = g) \/
  (exists r, In r ranges /\ low r <= c <= high r /\ val r = g).
(** The fields of a line *)
Fixpoint line_of (fields : list (list Z)) : list Z :=
  match fields with [] => [] | [f] => f | f :: fields => f ++ 59 :: line_of fields end.
Definition record (fields : list (list Z)) : Prop := fields <> [] /\ Forall (fun f => ~ In 59 f) fields.
(** A case label of a switch *)
Definition label (code prefix value : list Z) : list Z :=
  codes "case 0x" ++ code ++ codes ": return " ++ prefix ++ value ++ codes ";".

Lemma scalar_spec c : scalar c = true <-> scalar_value c.
Proof. unfold scalar, scalar_value. rewrite orb_true_iff, !andb_true_iff, !Z.leb_le. lia. Qed.
Lemma line_of_split fields : record fields -> split_at 59 [] (line_of fields) = fields.
Proof.
  intros [N F]. pose proof (split_fields 59 fields [] N F _ eq_refl) as H.
  assert (J : forall l, line_of l = (fix join (l : list (list Z)) := match l with [] => [] | [f] => f | f :: l => f ++ 59 :: join l end) l).
  { induction l as [|f l IH]; [reflexivity|]. destruct l as [|g l]; [reflexivity|]. simpl in *. rewrite IH. reflexivity. }
  rewrite J, H. destruct fields; [congruence|reflexivity].
Qed.

(** ** C94: classes *)
(** The classes are disjoint where they should be, and only scalar values are in them *)
Theorem C94_classes : forall c : Z,
  (char_upper_case c = true -> char_alphabetic c = true) /\
  (char_lower_case c = true -> char_alphabetic c = true) /\
  (char_upper_case c = true -> char_lower_case c = false) /\
  (char_alphabetic c = true -> char_numeric c = false /\ char_whitespace c = false) /\
  (char_numeric c = true -> char_whitespace c = false) /\
  (char_alphabetic c = true \/ char_numeric c = true \/ char_whitespace c = true -> scalar_value c).
Proof.
  intros c. assert (S : char_alphabetic c = true \/ char_numeric c = true \/ char_whitespace c = true -> scalar_value c).
  { intros H. apply scalar_spec, class_scalar. rewrite !orb_true_iff. tauto. }
  unfold char_upper_case, char_lower_case, char_alphabetic, char_numeric, char_whitespace in *.
  destruct (property c); repeat split; try discriminate; try reflexivity; exact S.
Qed.
Print Assumptions C94_classes.
(** The predicates say what the categories of Unicode say, for the code points with a line of
    their own; the classes used are L, Nd, Zs, Lu and Ll *)
Theorem C94_category_partial : forall (c : Z) (e : entry category), In e property_cases -> low e <= c <= high e ->
  property c = val e /\
  (char_alphabetic c = true <-> In (val e) [Ll; Lm; Lo; Lt; Lu]) /\ (char_numeric c = true <-> val e = Nd) /\
  (char_whitespace c = true <-> val e = Zs) /\ (char_upper_case c = true <-> val e = Lu) /\ (char_lower_case c = true <-> val e = Ll).
Proof.
  intros c e I L. assert (P : property c = val e).
  { unfold property. pose proof property_in_order as O. unfold in_order in O. apply andb_true_iff in O. destruct O as [O _].
    revert I O. generalize (-1). generalize property_cases. induction l as [|x l IH]; intros b I O; [destruct I|].
    simpl in O. apply andb_true_iff in O. destruct O as [O1 O2]. simpl.
    destruct I as [->|I].
    - assert (A : (low e <=? c) && (c <=? high e) = true) by lia. rewrite A. reflexivity.
    - destruct (sorted_in _ _ _ O2 I). assert (A : (low x <=? c) && (c <=? high x) = false) by lia. rewrite A. apply (IH (high x) I O2). }
  split; [assumption|]. unfold char_upper_case, char_lower_case, char_alphabetic, char_numeric, char_whitespace. rewrite P.
  destruct (val e); simpl; intuition discriminate.
Qed.
Print Assumptions C94_category_partial.
(** What fails: no code point strictly between a line First and a line Last has its category, so
    that ideographs and Hangul syllables are not alphabetic *)
Theorem C94_category_refuted :
  (forall (r : entry category) (c : Z), In r ranges -> low r < c < high r ->
     property c = Cn /\ char_alphabetic c = false) /\
  ~ (forall (c : Z) (g : category), has_category c g -> property c = g).
Proof.
  assert (A : forall (r : entry category) (c : Z), In r ranges -> low r < c < high r -> property c = Cn /\ char_alphabetic c = false).
  { intros r c I L. pose proof (inside_range r c I L) as P. unfold char_alphabetic. rewrite P. split; reflexivity. }
  split; [exact A|]. intros H. assert (I : In (R 0x4E00 0x9FFF Lo) ranges) by (vm_compute; tauto).
  destruct (A _ 0x4E01 I) as [P _]; [simpl; lia|].
  assert (K : has_category 0x4E01 Lo) by (right; exists (R 0x4E00 0x9FFF Lo); simpl; split; [assumption|split; [lia|reflexivity]]).
  apply H in K. rewrite P in K. discriminate.
Qed.
Print Assumptions C94_category_refuted.
(** For ASCII, all but white space is as in R7RS *)
Theorem C94_ascii_partial : forall c : Z, 0 <= c < 128 ->
  (char_upper_case c = true <-> 65 <= c <= 90) /\ (char_lower_case c = true <-> 97 <= c <= 122) /\
  (char_alphabetic c = true <-> 65 <= c <= 90 \/ 97 <= c <= 122) /\ (char_numeric c = true <-> 48 <= c <= 57) /\
  (char_whitespace c = true <-> c = 32) /\
  (97 <= c <= 122 -> upcase c = c - 32) /\ (~ 97 <= c <= 122 -> upcase c = c) /\
  (65 <= c <= 90 -> downcase c = c + 32) /\ (~ 65 <= c <= 90 -> downcase c = c) /\
  (48 <= c <= 57 -> digit_value c = Some (c - 48)) /\ (~ 48 <= c <= 57 -> digit_value c = None).
Proof.
  intros c H. destruct (ascii c H) as (A1 & A2 & A3 & A4 & A5 & A6 & A7 & A8).
  rewrite A1, A2, A3, A4, A5, A6, A7, A8. clear. unfold between.
  split; [lia|]. split; [lia|]. split; [lia|]. split; [lia|]. split; [lia|].
  split; [intros K; assert (Q : (97 <=? c) && (c <=? 122) = true) by lia; rewrite Q; reflexivity|].
  split; [intros K; assert (Q : (97 <=? c) && (c <=? 122) = false) by lia; rewrite Q; reflexivity|].
  split; [intros K; assert (Q : (65 <=? c) && (c <=? 90) = true) by lia; rewrite Q; reflexivity|].
  split; [intros K; assert (Q : (65 <=? c) && (c <=? 90) = false) by lia; rewrite Q; reflexivity|].
  split; intros K.
  - assert (Q : (48 <=? c) && (c <=? 57) = true) by lia; rewrite Q; reflexivity.
  - assert (Q : (48 <=? c) && (c <=? 57) = false) by lia; rewrite Q; reflexivity.
Qed.
Print Assumptions C94_ascii_partial.
(** What fails: tab, newline, form feed and return are White_Space but not char-whitespace? *)
Theorem C94_whitespace_refuted : forall c : Z, 9 <= c <= 13 \/ c = 0x85 -> char_whitespace c = false.
Proof.
  intros c H. assert (D : c = 9 \/ c = 10 \/ c = 11 \/ c = 12 \/ c = 13 \/ c = 0x85) by lia.
  unfold char_whitespace.
  destruct D as [-> | [-> | [-> | [-> | [-> | ->]]]]]; rewrite property_with; vm_compute; reflexivity.
Qed.
Print Assumptions C94_whitespace_refuted.
(** The tables are made from the lines as they should be: the category is the third field of
    each line, and a digit value or a mapping gives a case if and only if its field is not empty *)
Theorem C94_generated : forall (k : nat) (prefix : list Z) (records : list (list (list Z))), Forall record records ->
  (forall fields, In fields records -> length fields > S k)%nat ->
  map (sed k prefix) (map line_of records) = map (fun fields => label (hd [] fields) prefix (nth (S k) fields [])) records /\
  (forall l, In l (generate k prefix (map line_of records)) <->
     exists fields, In fields records /\ nth (S k) fields [] <> [] /\ l = label (hd [] fields) prefix (nth (S k) fields [])).
Proof.
  intros k prefix records F L.
  assert (A : forall fields, In fields records -> split_at 59 [] (line_of fields) = fields /\ nth_error fields (S k) = Some (nth (S k) fields []) /\
             sed k prefix (line_of fields) = label (hd [] fields) prefix (nth (S k) fields [])).
  { intros fields I. rewrite Forall_forall in F. pose proof (line_of_split _ (F _ I)) as E. specialize (L _ I).
    pose proof (nth_error_nth' fields [] L) as N. split; [assumption|]. split; [assumption|]. unfold sed. rewrite E, N.
    destruct fields; [simpl in L; lia|reflexivity]. }
  split.
  - rewrite map_map. apply map_ext_in. intros fields I. apply A. assumption.
  - intros l. unfold generate. rewrite in_flat_map. split.
    + intros (x & X & Y). apply in_map_iff in X. destruct X as (fields & <- & I). destruct (A _ I) as (A1 & A2 & A3).
      exists fields. split; [assumption|]. rewrite A1, A2, A3 in Y.
      destruct (nth (S k) fields []); [destruct Y|]. destruct Y as [<-|[]]. split; [discriminate|reflexivity].
    + intros (fields & I & N & ->). destruct (A _ I) as (A1 & A2 & A3). exists (line_of fields). split; [apply in_map; assumption|].
      rewrite A1, A2, A3. destruct (nth (S k) fields []); [congruence|]. left. reflexivity.
Qed.
Print Assumptions C94_generated.
Example C94_example :
  char_alphabetic 0x3BB = true /\ char_alphabetic 0x4E00 = true /\ char_alphabetic 0x4E01 = false /\ char_numeric 0x664 = true /\
  char_whitespace 0xA0 = true /\ char_whitespace 9 = false.
Proof.
  unfold char_alphabetic, char_numeric, char_whitespace. rewrite !property_with. vm_compute. repeat split; reflexivity.
Qed.
Example C94_generated_example :
  sed 1 [] (codes "0041;LATIN CAPITAL LETTER A;Lu;0;L;;;;;N;;;;0061;") = codes "case 0x0041: return Lu;" /\
  generate 12 (codes "0x") [codes "0041;LATIN CAPITAL LETTER A;Lu;0;L;;;;;N;;;;0061;"; codes "0020;SPACE;Zs;0;WS;;;;;N;;;;;"]
  = [codes "case 0x0041: return 0x0061;"].
Proof. split; vm_compute; reflexivity. Qed.

(** ** C95: case *)
(** Converting twice is converting once, scalar values stay scalar values, and what has
    been changed is not of the other case *)
Theorem C95_convert : forall c : Z,
  upcase (upcase c) = upcase c /\ downcase (downcase c) = downcase c /\
  (scalar_value c -> scalar_value (upcase c) /\ scalar_value (downcase c)) /\
  (upcase c <> c -> char_lower_case (upcase c) = false) /\ (downcase c <> c -> char_upper_case (downcase c) = false).
Proof.
  intros c.
  assert (U : upcase c = c \/ (upcase (upcase c) = upcase c /\ char_lower_case (upcase c) = false /\ scalar_value (upcase c))).
  { destruct (switch upcase_cases c) as [v|] eqn:E.
    - right. assert (X : upcase c = v) by (unfold upcase; rewrite E; reflexivity). rewrite X.
      destruct (up_case c v E) as (A & _ & B & C). rewrite scalar_spec in C. auto.
    - left. unfold upcase. rewrite E. reflexivity. }
  assert (D : downcase c = c \/ (downcase (downcase c) = downcase c /\ char_upper_case (downcase c) = false /\ scalar_value (downcase c))).
  { destruct (switch downcase_cases c) as [v|] eqn:E.
    - right. assert (X : downcase c = v) by (unfold downcase; rewrite E; reflexivity). rewrite X.
      destruct (down_case c v E) as (A & _ & B & C). rewrite scalar_spec in C. auto.
    - left. unfold downcase. rewrite E. reflexivity. }
  split; [destruct U as [U|U]; [rewrite U; assumption|exact (proj1 U)]|].
  split; [destruct D as [D|D]; [rewrite D; assumption|exact (proj1 D)]|].
  split; [intros S; split; [destruct U as [U|U]; [rewrite U; assumption|exact (proj2 (proj2 U))]|destruct D as [D|D]; [rewrite D; assumption|exact (proj2 (proj2 D))]]|].
  split; intros N.
  - destruct U as [U|(_ & U & _)]; [destruct (N U)|exact U].
  - destruct D as [D|(_ & D & _)]; [destruct (N D)|exact D].
Qed.
Print Assumptions C95_convert.
(** Converting there and back: all but 23 characters keep their lower-case form when they are
    converted to upper case, and all but 6 keep their upper-case form *)
Theorem C95_back_partial : forall c : Z,
  (downcase (upcase c) = downcase c <-> ~ In c odd_lower) /\ (upcase (downcase c) = upcase c <-> ~ In c odd_upper).
Proof.
  intros c. split; split.
  - intros H I. apply (odd_lower_differ c I H).
  - intros N. destruct (switch upcase_cases c) as [v|] eqn:E.
    + destruct (up_case c v E) as (_ & [A|A] & _); [|destruct (N A)]. assert (X : upcase c = v) by (unfold upcase; rewrite E; reflexivity).
      rewrite X. assumption.
    + assert (X : upcase c = c) by (unfold upcase; rewrite E; reflexivity). rewrite X. reflexivity.
  - intros H I. apply (odd_upper_differ c I H).
  - intros N. destruct (switch downcase_cases c) as [v|] eqn:E.
    + destruct (down_case c v E) as (_ & [A|A] & _); [|destruct (N A)]. assert (X : downcase c = v) by (unfold downcase; rewrite E; reflexivity).
      rewrite X. assumption.
    + assert (X : downcase c = c) by (unfold downcase; rewrite E; reflexivity). rewrite X. reflexivity.
Qed.
Print Assumptions C95_back_partial.
(** The comparisons of many characters hold if and only if they hold for each pair of them,
    and with -ci if and only if they hold for the lower-case forms *)
Theorem C95_compare : forall cs : list Z,
  (chars_eq cs = true <-> ForallOrdPairs (fun a b => a = b) cs) /\ (chars_lt cs = true <-> ForallOrdPairs Z.lt cs) /\
  (chars_le cs = true <-> ForallOrdPairs Z.le cs) /\ (chars_gt cs = true <-> ForallOrdPairs Z.gt cs) /\
  (chars_ge cs = true <-> ForallOrdPairs Z.ge cs) /\
  chars_ci_eq cs = chars_eq (map downcase cs) /\ chars_ci_lt cs = chars_lt (map downcase cs) /\
  chars_ci_le cs = chars_le (map downcase cs) /\ chars_ci_gt cs = chars_gt (map downcase cs) /\
  chars_ci_ge cs = chars_ge (map downcase cs).
Proof.
  intros cs.
  assert (A : forall (R : Z -> Z -> bool) (Q : Z -> Z -> Prop), (forall a b, R a b = true <-> Q a b) -> (forall a b c, Q a b -> Q b c -> Q a c) ->
              (adjacent R cs = true <-> ForallOrdPairs Q cs)).
  { intros R Q E T. rewrite adjacent_all by (intros a b c; rewrite !E; apply T).
    split; intros H; induction H as [|a l F O IH]; constructor; try assumption; eapply Forall_impl; try exact F; intros b; apply E. }
  assert (B : forall (R : Z -> Z -> bool), adjacent (fun a b => R (downcase a) (downcase b)) cs = adjacent R (map downcase cs)).
  { intros R. clear A. induction cs as [|a l IH]; [reflexivity|]. destruct l as [|b l]; [reflexivity|].
    change (R (downcase a) (downcase b) && adjacent (fun a b => R (downcase a) (downcase b)) (b :: l)
            = R (downcase a) (downcase b) && adjacent R (map downcase (b :: l))). rewrite IH. reflexivity. }
  split; [apply A; [intros; apply Z.eqb_eq|intros; congruence]|].
  split; [apply A; [intros; apply Z.ltb_lt|intros; lia]|].
  split; [apply A; [intros; apply Z.leb_le|intros; lia]|].
  split; [apply A; [intros; rewrite Z.gtb_lt; lia|intros; lia]|].
  split; [apply A; [intros; rewrite Z.geb_le; lia|intros; lia]|].
  split; [apply (B Z.eqb)|]. split; [apply (B Z.ltb)|]. split; [apply (B Z.leb)|]. split; [apply (B Z.gtb)|apply (B Z.geb)].
Qed.
Print Assumptions C95_compare.
(** What fails: characters that are equal when case is ignored need not be char-ci=?: a
    final sigma and a sigma have the same upper-case form *)
Theorem C95_fold_refuted :
  upcase 0x3C2 = upcase 0x3C3 /\ chars_ci_eq [0x3C2; 0x3C3] = false /\ char_foldcase 0x3C2 <> char_foldcase 0x3C3 /\
  (forall c, In c odd_lower -> chars_ci_eq [c; upcase c] = false).
Proof.
  split; [vm_compute; reflexivity|].
  split; [vm_compute; reflexivity|].
  split; [vm_compute; discriminate|].
  intros c I. unfold chars_ci_eq, adjacent. rewrite andb_true_r. apply Z.eqb_neq. intros E. symmetry in E. revert E. apply odd_lower_differ. assumption.
Qed.
Print Assumptions C95_fold_refuted.
Example C95_example : upcase 0x3BB = 0x39B /\ downcase 0x39B = 0x3BB /\ upcase 0x1C4 = 0x1C4 /\ upcase 0xDF = 0xDF.
Proof. vm_compute. repeat split; reflexivity. Qed.

(** ** C96: digit values *)
(** Each numeric character has a digit value, and its ten digits stand in a row *)
Theorem C96_digit : forall c : Z, char_numeric c = true -> exists d, digit_value c = Some d /\ 0 <= d <= 9 /\
  forall i, 0 <= i <= 9 -> char_numeric (c - d + i) = true /\ digit_value (c - d + i) = Some i.
Proof. exact numeric_digit. Qed.
Print Assumptions C96_digit.
(** What fails: digit-value should be #f for what is not char-numeric? (a superscript two) *)
Theorem C96_digit_refuted : exists c d, char_numeric c = false /\ digit_value c = Some d.
Proof. exists 0xB2, 2. unfold char_numeric, digit_value. rewrite property_with, digit_fast. vm_compute. split; reflexivity. Qed.
Print Assumptions C96_digit_refuted.
Example C96_example : digit_value 0x664 = Some 4 /\ digit_value 0x41 = None.
Proof. vm_compute. split; reflexivity. Qed.

(** ** C97: characters and integers *)
(** The two conversions are inverse to each other for scalar values *)
Theorem C97_integer : forall c : Z, scalar_value c ->
  integer_to_char (char_to_integer c) = Ok c /\
  forall d, integer_to_char (Small c) = Ok d -> char_to_integer d = Small c.
Proof. intros c S. split; [reflexivity|]. intros d H. injection H as <-. reflexivity. Qed.
Print Assumptions C97_integer.
(** What fails: other integers are made characters without an error, in part after
    wrapping: surrogates, numbers above the last scalar value, negative numbers and bignums *)
Theorem C97_integer_refuted :
  (forall n, code n -> ~ scalar_value n -> integer_to_char (Small n) = Ok n) /\
  (forall n c, 0 <= n -> code c -> (exists k, n = c + k * 2 ^ 32) -> integer_to_char (Large n) = Ok c) /\
  (exists n, code n /\ ~ scalar_value n) /\ integer_to_char (Large (2 ^ 32 + 65)) = Ok 65.
Proof.
  assert (A : forall n c, 0 <= n -> code c -> (exists k, n = c + k * 2 ^ 32) -> integer_to_char (Large n) = Ok c).
  { intros n c H C (k & K). unfold integer_to_char, cast_small. f_equal. unfold mpz_get_si.
    destruct (Z.ltb_spec n 0); [lia|]. unfold wrap32, code in *.
    pose proof (Z.div_mod n (2 ^ 63) ltac:(lia)) as D.
    assert (E : n mod 2 ^ 63 + 2 ^ 31 = (c + 2 ^ 31) + (k - 2 ^ 31 * (n / 2 ^ 63)) * 2 ^ 32) by lia.
    rewrite E, Z_mod_plus_full, Z.mod_small; lia. }
  split; [reflexivity|]. split; [exact A|]. split.
  - exists 0xD800. unfold code, scalar_value. lia.
  - apply A; [lia|unfold code; lia|]. exists 1. reflexivity.
Qed.
Print Assumptions C97_integer_refuted.
Example C97_example : integer_to_char (Small 0x3BB) = Ok 0x3BB /\ char_to_integer 0x3BB = Small 0x3BB /\ scalar_value 0x3BB.
Proof. unfold scalar_value. split; [reflexivity|]. split; [reflexivity|lia]. Qed.
