(** External representations (R7RS 2.2, 7.1.1 and 7.1.2) as a grammar, and the proof
    that the reader accepts every text of the grammar with its meaning. *)
From Coq Require Import String ZArith QArith List Bool Lia ZifyBool.
From Verif Require Import Number NumberProofs NumberText TextPort TextPortProofs Writer Reader.
Import ListNotations.
Open Scope Z_scope.

(** ** The grammar *)
(** What may follow a token that is not closed by itself *)
Definition delimiters : list Z :=
  [0x09; 0x0A; 0x0B; 0x0C; 0x0D; 0x20; 0x22; 0x23; 0x27; 0x28; 0x29; 0x2C; 0x3B; 0x5B; 0x5D; 0x60; 0x7B; 0x7C; 0x7D].
Definition ended (rest : list Z) : Prop := match rest with [] => True | c :: _ => In c delimiters end.
Definition word (w : list Z) : Prop := Forall (fun c => codepoint c /\ ~ In c delimiters) w.

(** The body of a block comment and its closing bracket *)
Inductive block : list Z -> Prop :=
| B_end : block (codes "|#")
| B_nested b r : block b -> block r -> block (codes "#|" ++ b ++ r)
| B_char c r : codepoint c -> block r ->
    ~ (c = 0x23 /\ hd 0 r = 0x7C) -> ~ (c = 0x7C /\ hd 0 r = 0x23) -> block (c :: r).

(** The value of a sequence of hexadecimal digits *)
Inductive hex_number : list Z -> Z -> Prop :=
| H_one c d : digit_in 16 c = Some d -> hex_number [c] d
| H_more h v c d : hex_number h v -> digit_in 16 c = Some d -> hex_number (h ++ [c]) (16 * v + d).

(** The characters between quotation marks, the closing one included.  Line
    continuations are left out. *)
Inductive quoted (mark : Z) : list Z -> list Z -> Prop :=
| Q_end : quoted mark [mark] []
| Q_char c t cs : codepoint c -> c <> mark -> c <> 0x5C -> quoted mark t cs -> quoted mark (c :: t) (c :: cs)
| Q_escape e c t cs : In (e, c) [(97, 7); (98, 8); (116, 9); (110, 10); (114, 13); (0x22, 0x22); (0x5C, 0x5C); (0x7C, 0x7C)] ->
    quoted mark t cs -> quoted mark (0x5C :: e :: t) (c :: cs)
| Q_hex h v t cs : hex_number h v -> v < 2 ^ 31 -> quoted mark t cs ->
    quoted mark (codes "\x" ++ h ++ codes ";" ++ t) (v :: cs).

Definition character_names : list (list Z * Z) :=
  [(codes "alarm", 0x07); (codes "backspace", 0x08); (codes "delete", 0x7F); (codes "escape", 0x1B);
   (codes "newline", 0x0A); (codes "null", 0x00); (codes "return", 0x0D); (codes "space", 0x20); (codes "tab", 0x09)].

Fixpoint list_of (ds : list datum) : datum :=
  match ds with [] => Nil | d :: ds => Pair d (list_of ds) end.

Section Grammar.
  (** The numbers of the grammar that are not decimal integers, and the words that
      are numbers, are those of make_number *)
  Variable inexact_value : list Z -> Z -> option nat.
  Variable inexact_text : nat -> list Z.

  (** A representation; the flag tells whether a delimiter must follow.
      [gap]: what may stand between two tokens; its flag tells the same of a gap
      that ends with the datum of a datum comment.  [tail]: the elements of a list
      after the first one, up to the closing parenthesis; as a vector is read the
      same way, a dot may come first in it, which R7RS does not ask for. *)
  Inductive rep : bool -> list Z -> datum -> Prop :=
  | R_true t : In t [codes "#t"; codes "#true"] -> rep true t (Bool true)
  | R_false t : In t [codes "#f"; codes "#false"] -> rep true t (Bool false)
  | R_integer z : rep true (int_text 10 z) (Num (if is_int32 z then Small z else Large z))
  | R_number w x : word w -> w <> [] -> w <> codes "." -> make_number inexact_value (text w) 10 = Exact x -> rep true w (Num x)
  | R_inexact w k : word w -> w <> [] -> w <> codes "." -> make_number inexact_value (text w) 10 = Flonum k -> rep true w (Inexact k)
  | R_char c : codepoint c -> rep true (codes "#\" ++ [c]) (Chr c)
  | R_char_name n c : In (n, c) character_names -> rep true (codes "#\" ++ n) (Chr c)
  | R_char_hex h v : hex_number h v -> v < 2 ^ 31 -> rep true (codes "#\x" ++ h) (Chr v)
  | R_string t cs : quoted 0x22 t cs -> rep false (0x22 :: t) (Str cs)
  | R_symbol w : word w -> w <> [] -> w <> codes "." ->
      make_number inexact_value (text w) 10 = Not_a_number -> rep true w (Sym (text w))
  | R_bars t cs : quoted 0x7C t cs -> Forall codepoint cs -> rep false (0x7C :: t) (Sym (text cs))
  | R_sharp_string t cs : quoted 0x22 t cs -> Forall codepoint cs -> rep false (codes "#""" ++ t) (Sym (text cs))
  | R_nil a g : gap a g -> rep false (codes "(" ++ g ++ codes ")") Nil
  | R_pair a g b x d t e : gap a g -> (a = true -> ended x) -> rep b x d -> (b = true -> ended t) -> tail t e ->
      rep false (codes "(" ++ g ++ x ++ t) (Pair d e)
  | R_vector t ds : tail t (list_of ds) -> rep false (codes "#(" ++ t) (Vec ds)
  | R_quote a g b x d : gap a g -> (a = true -> ended x) -> rep b x d ->
      rep b (codes "'" ++ g ++ x) (Pair (Sym (codes "quote")) (Pair d Nil))
  | R_quasiquote a g b x d : gap a g -> (a = true -> ended x) -> rep b x d ->
      rep b (codes "`" ++ g ++ x) (Pair (Sym (codes "quasiquote")) (Pair d Nil))
  | R_splicing a g b x d : gap a g -> (a = true -> ended x) -> rep b x d ->
      rep b (codes ",@" ++ g ++ x) (Pair (Sym (codes "unquote-splicing")) (Pair d Nil))
  | R_unquote b c x d : c <> 64 -> ~ In c [0x09; 0x0A; 0x0B; 0x0C; 0x0D; 0x20; 0x3B] -> rep b (c :: x) d ->
      rep b (codes "," ++ c :: x) (Pair (Sym (codes "unquote")) (Pair d Nil))
  with tail : list Z -> datum -> Prop :=
  | T_end a g : gap a g -> tail (g ++ codes ")") Nil
  | T_more a g b x d t e : gap a g -> (a = true -> ended x) -> rep b x d -> (b = true -> ended t) -> tail t e ->
      tail (g ++ x ++ t) (Pair d e)
  | T_dot a g a1 g1 b x d a2 g2 : gap a g -> a = false -> gap a1 g1 -> ended (g1 ++ x) -> (a1 = true -> ended x) ->
      rep b x d -> (b = true -> ended (g2 ++ codes ")")) -> gap a2 g2 -> ~ In 0x29 g2 ->
      tail (g ++ codes "." ++ g1 ++ x ++ g2 ++ codes ")") d
  with gap : bool -> list Z -> Prop :=
  | G_none : gap false []
  | G_white c a g : In c [0x09; 0x0A; 0x0B; 0x0C; 0x0D; 0x20] -> gap a g -> gap a (c :: g)
  | G_line l a g : Forall codepoint l -> ~ In 0x0A l -> gap a g -> gap a (codes ";" ++ l ++ 0x0A :: g)
  | G_block b a g : block b -> gap a g -> gap a (codes "#|" ++ b ++ g)
  | G_datum a g b x d : gap a g -> (a = true -> ended x) -> rep b x d -> gap b (codes "#;" ++ g ++ x)
  | G_datum_more a g b x d a' g' : gap a g -> (a = true -> ended x) -> rep b x d -> gap a' g' -> g' <> [] ->
      gap a' (codes "#;" ++ g ++ x ++ g').

  Scheme rep_ind' := Induction for rep Sort Prop
  with tail_ind' := Induction for tail Sort Prop
  with gap_ind' := Induction for gap Sort Prop.
  Combined Scheme grammar_ind from rep_ind', tail_ind', gap_ind'.
End Grammar.

(** ** The texts of the grammar consist of code points *)
Ltac lit := repeat match goal with
  | |- context [codes ?s] => let v := eval vm_compute in (codes s) in change (codes s) with v; cbn [app]
  | H : context [codes ?s] |- _ => let v := eval vm_compute in (codes s) in change (codes s) with v in H; cbn [app] in H
  end.
Ltac cps := lit; repeat first [assumption|apply Forall_nil|apply Forall_app; split|apply Forall_cons; [first [assumption|unfold codepoint; lia]|]].

Lemma block_cps b : block b -> Forall codepoint b.
Proof. induction 1; [cps|cps|constructor; assumption]. Qed.
Lemma digit_in_code c d : digit_in 16 c = Some d -> 48 <= c <= 102 /\ 0 <= d < 16 /\ is_blank c = false /\ special c = false /\ c <> 120 /\ c <> 88 /\ c <> 59.
Proof.
  unfold digit_in, digit_value, is_blank, special. intros H.
  destruct ((48 <=? c) && (c <=? 57)) eqn:E1; [|destruct ((97 <=? c) && (c <=? 122)) eqn:E2; [|destruct ((65 <=? c) && (c <=? 90)) eqn:E3]];
    try discriminate; destruct (_ <? 16) eqn:E; try discriminate; injection H as <-;
    (split; [lia|split; [lia|split; [lia|split; [unfold eof; cbn [existsb]; lia|lia]]]]).
Qed.
Lemma hex_cps h v : hex_number h v -> Forall (fun c => exists d, digit_in 16 c = Some d) h.
Proof. induction 1; [constructor; eauto|apply Forall_app; split; [assumption|constructor; eauto]]. Qed.
Lemma hex_codepoints h v : hex_number h v -> Forall codepoint h.
Proof.
  intros H. apply hex_cps in H. revert H. apply Forall_impl. intros c [d E]. apply digit_in_code in E. unfold codepoint. lia.
Qed.
Lemma hex_nonneg h v : hex_number h v -> 0 <= v.
Proof. induction 1 as [c d E|h v c d H IH E]; apply digit_in_code in E; lia. Qed.
Lemma quoted_cps m t cs : codepoint m -> quoted m t cs -> Forall codepoint t.
Proof.
  intros M. induction 1; lit.
  - constructor; [exact M|constructor].
  - constructor; assumption.
  - constructor; [unfold codepoint; lia|]. constructor; [|assumption]. cbn [In] in H. unfold codepoint.
    repeat match goal with H : _ \/ _ |- _ => destruct H as [H|H]; [injection H as <- <-; lia|] end. destruct H.
  - cps. eapply hex_codepoints; eassumption.
Qed.
Lemma word_cps w : word w -> Forall codepoint w.
Proof. apply Forall_impl. tauto. Qed.
Lemma digits_ascii z : Forall (fun c => 45 <= c <= 57 /\ c <> 47 /\ c <> 46) (int_text 10 z).
Proof.
  assert (D : forall n, 0 <= n -> Forall (fun c => 45 <= c <= 57 /\ c <> 47 /\ c <> 46) (digits 10 n)).
  { intros n Hn. destruct (digits_spec 10 ltac:(lia) n Hn) as (_ & _ & _ & _ & F & _). revert F. apply Forall_impl.
    intros c (d & Hd & ->). unfold digit_char. replace (d <? 10) with true by lia. lia. }
  unfold int_text. destruct (z <? 0) eqn:E; [constructor; [lia|]|]; apply D; lia.
Qed.
Lemma int_word z : word (int_text 10 z).
Proof.
  pose proof (digits_ascii z) as D. revert D. apply Forall_impl. intros c H. split; [unfold codepoint; lia|].
  cbn [In delimiters]. lia.
Qed.
Lemma grammar_cps iv :
  (forall b x d, rep iv b x d -> Forall codepoint x) /\
  (forall t d, tail iv t d -> Forall codepoint t) /\
  (forall a g, gap iv a g -> Forall codepoint g).
Proof.
  apply (grammar_ind iv (fun b x d _ => Forall codepoint x) (fun t d _ => Forall codepoint t) (fun a g _ => Forall codepoint g));
    intros; cps; try (apply word_cps; assumption).
  - cbn [In] in i. destruct i as [<-|[<-|[]]]; cps.
  - cbn [In] in i. destruct i as [<-|[<-|[]]]; cps.
  - apply word_cps, int_word.
  - cbn [In character_names] in i.
    repeat match goal with H : _ \/ _ |- _ => destruct H as [H|H]; [injection H as <- <-; cps|] end. destruct i.
  - eapply hex_codepoints; eassumption.
  - eapply quoted_cps; [|eassumption]. unfold codepoint; lia.
  - eapply quoted_cps; [|eassumption]. unfold codepoint; lia.
  - eapply quoted_cps; [|eassumption]. unfold codepoint; lia.
  - constructor; [|assumption]. cbn [In] in i. unfold codepoint.
    repeat match goal with H : _ \/ _ |- _ => destruct H as [<-|H]; [lia|] end. destruct i.
  - apply block_cps; assumption.
Qed.

(** ** Runs of characters *)
Lemma usable_holds s c cs : holds s (c :: cs) -> usable s = true.
Proof. intros [[bh ->]|[H _]]; [reflexivity|discriminate]. Qed.
Lemma good_usable s : good s = true -> usable s = true.
Proof. unfold good, usable. destruct (eofbit s), (failbit s), (badbit s); cbn; congruence. Qed.
Lemma enough_holds s cs : holds s cs -> (length cs + 2 <= enough s)%nat.
Proof.
  unfold enough. intros [[bh ->]|[-> _]]; [|cbn; lia]. cbn [ahead at_]. pose proof (text_length cs). lia.
Qed.
Lemma special_delimiter c : codepoint c -> special c = true <-> In c delimiters.
Proof. unfold codepoint, special, eof. intros H. cbn [existsb In delimiters]. lia. Qed.
Lemma not_delimiter c : codepoint c -> ~ In c delimiters -> special c = false.
Proof. intros C N. destruct (special c) eqn:E; [|reflexivity]. apply special_delimiter in E; tauto. Qed.

Lemma peek_ended s rest : Forall codepoint rest -> ended rest -> holds s rest ->
  exists p s', peek_character s = (Char p, s') /\ special p = true /\ holds s' rest.
Proof.
  intros C E H. destruct rest as [|c rest].
  - destruct (peek_spent s (holds_nil_spent s H)) as (s' & P & S). exists eof, s'. split; [exact P|].
    split; [reflexivity|right; auto].
  - inversion C as [|? ? Cc _]; subst. exists c, s. split; [apply (peek_holds s c rest); assumption|].
    split; [apply special_delimiter; assumption|exact H].
Qed.

Lemma token_loop_ok w : forall fuel s acc rest, word w -> Forall codepoint rest -> ended rest ->
  holds s (w ++ rest) -> (length w < fuel)%nat ->
  exists s', token_loop fuel s acc = (Run (acc ++ w), s') /\ holds s' rest.
Proof.
  induction w as [|c w IH]; intros fuel s acc rest W C E H L; (destruct fuel as [|fuel]; [cbn in L; lia|]); cbn [token_loop].
  - cbn [app] in H. destruct (peek_ended s rest C E H) as (p & s' & -> & -> & H'). rewrite app_nil_r. eauto.
  - inversion W as [|? ? [Cc Dc] W']; subst. cbn [app] in H. rewrite (peek_holds s c (w ++ rest) Cc H).
    rewrite (not_delimiter c Cc Dc). destruct (take_holds s c (w ++ rest) Cc H) as (s1 & -> & H1 & _).
    cbn [length] in L. destruct (IH fuel s1 (acc ++ [c]) rest W' C E H1 ltac:(lia)) as (s' & -> & H').
    rewrite <- app_assoc. cbn [app]. eauto.
Qed.
Lemma take_token_ok c w s rest : codepoint c -> word w -> Forall codepoint rest -> ended rest -> holds s (w ++ rest) ->
  exists s', take_token c s = (Run (text (c :: w)), s') /\ holds s' rest.
Proof.
  intros Cc W C E H. unfold take_token. pose proof (enough_holds s _ H) as L. rewrite app_length in L.
  destruct (token_loop_ok w (enough s) s [c] rest W C E H ltac:(lia)) as (s' & -> & H').
  rewrite string_utf8_text; [eauto|]. constructor; [exact Cc|apply word_cps; exact W].
Qed.

Lemma take_until_ok stop z l : forall fuel s acc rest, Forall codepoint l -> codepoint z -> Forall (fun c => stop c = false) l ->
  stop z = true -> holds s (l ++ z :: rest) -> (length l < fuel)%nat ->
  exists s', take_until fuel stop s acc = (Run (acc ++ l), s') /\ holds s' rest.
Proof.
  induction l as [|c l IH]; intros fuel s acc rest C Cz N Z H L; (destruct fuel as [|fuel]; [cbn in L; lia|]); cbn [take_until app] in *;
    rewrite (usable_holds s _ _ H).
  - destruct (take_holds s z rest Cz H) as (s1 & -> & H1 & _). rewrite Z, app_nil_r. eauto.
  - inversion C as [|? ? Cc C']; subst. inversion N as [|? ? Nc N']; subst.
    destruct (take_holds s c _ Cc H) as (s1 & -> & H1 & _). rewrite Nc. cbn [length] in L.
    destruct (IH fuel s1 (acc ++ [c]) rest C' Cz N' Z H1 ltac:(lia)) as (s' & -> & H'). rewrite <- app_assoc. cbn [app]. eauto.
Qed.
Lemma until_char z l s rest : Forall codepoint l -> codepoint z -> ~ In z l -> holds s (l ++ z :: rest) ->
  exists s', take_until (enough s) (Z.eqb z) s [] = (Run l, s') /\ holds s' rest.
Proof.
  intros C Cz N H. pose proof (enough_holds s _ H) as L. rewrite app_length in L.
  apply (take_until_ok (Z.eqb z) z l (enough s) s [] rest C Cz); [|apply Z.eqb_refl|exact H|lia].
  clear H L. induction l as [|c l IH]; constructor.
  - apply Z.eqb_neq. intros ->. apply N. left. reflexivity.
  - apply IH; [inversion C; assumption|]. intros I. apply N. right. exact I.
Qed.

(** ** Hexadecimal numbers *)
Lemma scan_snoc h : forall acc v c d, scan 16 acc h = (v, []) -> digit_in 16 c = Some d ->
  scan 16 acc (h ++ [c]) = (v * 16 + d, []).
Proof.
  induction h as [|x h IH]; intros acc v c d E D; cbn [scan app] in *.
  - injection E as <-. rewrite D. reflexivity.
  - destruct (digit_in 16 x) as [dx|]; [|discriminate]. apply IH; assumption.
Qed.
Lemma scan_hex h v : hex_number h v -> scan 16 0 h = (v, []).
Proof.
  induction 1 as [c d E|h v c d H IH E]; [cbn [scan]; rewrite E; f_equal; lia|].
  rewrite (scan_snoc h 0 v c d IH E). f_equal. lia.
Qed.
Lemma hex_nonempty h v : hex_number h v -> exists c t, h = c :: t.
Proof. destruct 1 as [c d E|h v c d H E]; [eauto|]. destruct h; cbn; eauto. Qed.
Lemma hex_value_ok h v : hex_number h v -> v < 2 ^ 31 -> hex_value h = Some v.
Proof.
  intros H V. pose proof (scan_hex h v H) as S. pose proof (hex_cps h v H) as D. pose proof (hex_nonneg h v H) as P.
  destruct (hex_nonempty h v H) as (c & t & ->). unfold hex_value.
  inversion D as [|? ? [d Dc] D']; subst. destruct (digit_in_code c d Dc) as (Rc & Rd & Bc & _ & _).
  cbn [skip_blanks]. rewrite Bc. replace (c =? 45) with false by lia. replace (c =? 43) with false by lia.
  assert (hex_prefix (c :: t) = Some v) as ->.
  { unfold hex_prefix. destruct t as [|x t]; [unfold hex_digits; rewrite Dc, S; reflexivity|].
    inversion D' as [|? ? [dx Dx] _]; subst. destruct (digit_in_code x dx Dx) as (_ & _ & _ & _ & X1 & X2 & _).
    replace ((c =? 48) && ((x =? 120) || (x =? 88))) with false by lia. unfold hex_digits. rewrite Dc, S. reflexivity. }
  cbn [obind]. unfold is_int32, int32_min, int32_max. replace (_ && _) with true by lia. reflexivity.
Qed.
Lemma hex_value_0 h v : hex_number h v -> v < 2 ^ 31 -> hex_value (48 :: h) = Some v.
Proof.
  intros H V. pose proof (scan_hex h v H) as S. pose proof (hex_cps h v H) as D. pose proof (hex_nonneg h v H) as P.
  destruct (hex_nonempty h v H) as (c & t & ->). unfold hex_value.
  inversion D as [|? ? [d Dc] D']; subst. destruct (digit_in_code c d Dc) as (Rc & Rd & Bc & _ & X1 & X2 & _).
  assert (P0 : hex_prefix (48 :: c :: t) = Some v).
  { unfold hex_prefix. replace ((48 =? 48) && ((c =? 120) || (c =? 88))) with false by lia. unfold hex_digits.
    change (digit_in 16 48) with (Some 0). cbv iota. change (scan 16 0 (48 :: c :: t)) with (scan 16 0 (c :: t)). rewrite S. reflexivity. }
  change (skip_blanks (48 :: c :: t)) with (48 :: c :: t). cbv iota. change (48 =? 45) with false. change (48 =? 43) with false. cbv iota.
  rewrite P0. cbn [obind]. unfold is_int32, int32_min, int32_max. replace (_ && _) with true by lia. reflexivity.
Qed.
Lemma chars_of_ascii h v : hex_number h v -> map char_of h = h.
Proof.
  intros H. apply hex_cps in H. induction H as [|c h [d D] H IH]; [reflexivity|]. cbn [map]. rewrite IH.
  apply digit_in_code in D. unfold char_of. rewrite Z.mod_small by lia. reflexivity.
Qed.

(** ** Quoted text *)
Lemma take_quoted_ok m t cs : (m = 0x22 \/ m = 0x7C) -> quoted m t cs ->
  forall fuel s acc rest, holds s (t ++ rest) -> Forall codepoint rest -> (length t <= fuel)%nat ->
  exists s', take_quoted fuel m s acc = (Run (acc ++ cs), s') /\ holds s' rest.
Proof.
  intros M Q. induction Q as [|c t cs Cc Nm Nb Q IH|e c t cs I Q IH|h v t cs Hh V Q IH]; intros fuel s acc rest H C L.
  - destruct fuel as [|fuel]; [cbn in L; lia|]. cbn [take_quoted app] in *.
    assert (Cm : codepoint m) by (unfold codepoint; lia).
    destruct (take_holds s m rest Cm H) as (s1 & -> & H1 & _). rewrite (eof_not_cp m Cm), Z.eqb_refl, app_nil_r. eauto.
  - destruct fuel as [|fuel]; [cbn in L; lia|]. cbn [take_quoted app length] in *.
    destruct (take_holds s c (t ++ rest) Cc H) as (s1 & -> & H1 & _). rewrite (eof_not_cp c Cc).
    replace (c =? m) with false by lia. replace (c =? 92) with false by lia.
    destruct (IH fuel s1 (acc ++ [c]) rest H1 C ltac:(lia)) as (s' & -> & H'). rewrite <- app_assoc. cbn [app]. eauto.
  - destruct fuel as [|fuel]; [cbn in L; lia|]. cbn [take_quoted app length] in *.
    destruct (take_holds s 0x5C (e :: t ++ rest) ltac:(unfold codepoint; lia) H) as (s1 & -> & H1 & _).
    change (92 =? eof) with false. replace (92 =? m) with false by lia. change (92 =? 92) with true. cbv iota.
    assert (Ce : codepoint e).
    { unfold codepoint. cbn [In] in I. repeat (destruct I as [I|I]; [injection I as <- <-; lia|]). destruct I. }
    destruct (take_holds s1 e (t ++ rest) Ce H1) as (s2 & -> & H2 & _).
    destruct (IH fuel s2 (acc ++ [c]) rest H2 C ltac:(lia)) as (s' & E & H'). exists s'. split; [|exact H'].
    rewrite <- app_assoc in E. cbn [app] in E. rewrite <- E.
    cbn [In] in I. repeat (destruct I as [I|I]; [injection I as <- <-; reflexivity|]). destruct I.
  - destruct fuel as [|fuel]; [cbn in L; lia|].
    change (codes "\x") with [92; 120] in *. change (codes ";") with [59] in *. cbn [take_quoted app length] in *.
    rewrite <- app_assoc in H. cbn [app] in H.
    destruct (take_holds s 92 _ ltac:(unfold codepoint; lia) H) as (s1 & -> & H1 & _).
    change (92 =? eof) with false. replace (92 =? m) with false by lia. change (92 =? 92) with true. cbv iota.
    destruct (take_holds s1 120 _ ltac:(unfold codepoint; lia) H1) as (s2 & -> & H2 & _).
    change (120 =? 97) with false. change (120 =? 98) with false. change (120 =? 102) with false. change (120 =? 110) with false.
    change (120 =? 114) with false. change (120 =? 116) with false. change (120 =? 118) with false. change (120 =? 120) with true. cbv iota.
    assert (N : ~ In 59 h).
    { pose proof (hex_cps h v Hh) as D. intros I. rewrite Forall_forall in D. destruct (D _ I) as [d E]. discriminate E. }
    destruct (until_char 59 h s2 (t ++ rest) (hex_codepoints h v Hh) ltac:(unfold codepoint; lia) N H2) as (s3 & -> & H3).
    rewrite (chars_of_ascii h v Hh), (hex_value_ok h v Hh V).
    rewrite app_length in L. cbn [length] in L.
    destruct (IH fuel s3 (acc ++ [v]) rest H3 C ltac:(lia)) as (s' & -> & H'). rewrite <- app_assoc. cbn [app]. eauto.
Qed.
Lemma quoted_ok m t cs s rest : (m = 0x22 \/ m = 0x7C) -> quoted m t cs -> holds s (t ++ rest) -> Forall codepoint rest ->
  exists s', take_quoted (enough s) m s [] = (Run cs, s') /\ holds s' rest.
Proof.
  intros M Q H C. pose proof (enough_holds s _ H) as L. rewrite app_length in L.
  apply (take_quoted_ok m t cs M Q (enough s) s [] rest H C). lia.
Qed.

(** ** Block comments *)
Lemma skip_block_ok b : block b -> forall fuel nest s rest, holds s (b ++ rest) -> Forall codepoint rest -> (length b < fuel)%nat ->
  exists s' fuel', (fuel <= fuel' + length b)%nat /\ holds s' rest /\
    skip_block fuel nest s = match nest with O => (Run [], s') | S k => skip_block fuel' k s' end.
Proof.
  induction 1 as [|b r Bb IHb Br IHr|c r Cc Br IH N1 N2]; intros fuel nest s rest H C L.
  - destruct fuel as [|fuel]; [cbn in L; lia|]. change (codes "|#") with [124; 35] in *. cbn [skip_block app length] in *.
    destruct (take_holds s 124 _ ltac:(unfold codepoint; lia) H) as (s1 & -> & H1 & _).
    change (124 =? eof) with false. change (124 =? 35) with false. change (124 =? 124) with true. cbv iota.
    rewrite (peek_holds s1 35 rest ltac:(unfold codepoint; lia) H1). change (35 =? 35) with true. cbv iota.
    destruct (take_holds s1 35 rest ltac:(unfold codepoint; lia) H1) as (s2 & -> & H2 & _).
    exists s2, fuel. split; [lia|]. split; [exact H2|]. destruct nest; reflexivity.
  - destruct fuel as [|fuel]; [cbn in L; lia|]. change (codes "#|") with [35; 124] in *. cbn [skip_block app length] in *.
    rewrite <- app_assoc in H. rewrite app_length in *.
    destruct (take_holds s 35 _ ltac:(unfold codepoint; lia) H) as (s1 & -> & H1 & _).
    change (35 =? eof) with false. change (35 =? 35) with true. cbv iota.
    rewrite (peek_holds s1 124 _ ltac:(unfold codepoint; lia) H1). change (124 =? 124) with true. cbv iota.
    destruct (take_holds s1 124 _ ltac:(unfold codepoint; lia) H1) as (s2 & -> & H2 & _).
    assert (Cr : Forall codepoint (r ++ rest)) by (apply Forall_app; split; [apply block_cps|]; assumption).
    destruct (IHb fuel (S nest) s2 (r ++ rest) H2 Cr ltac:(lia)) as (s3 & f3 & L3 & H3 & ->).
    destruct (IHr f3 nest s3 rest H3 C ltac:(lia)) as (s4 & f4 & L4 & H4 & ->).
    exists s4, f4. split; [lia|]. split; [exact H4|reflexivity].
  - destruct fuel as [|fuel]; [cbn in L; lia|]. cbn [skip_block app length] in *.
    destruct (take_holds s c _ Cc H) as (s1 & -> & H1 & _). rewrite (eof_not_cp c Cc).
    destruct (IH fuel nest s1 rest H1 C ltac:(lia)) as (s2 & f2 & L2 & H2 & E).
    assert (R : exists p q, r = p :: q /\ codepoint p).
    { pose proof (block_cps r Br) as K. destruct r as [|p q]; [inversion Br|]. inversion K; subst. eauto. }
    destruct R as (p & q & -> & Cp). cbn [hd app] in *.
    exists s2, f2. split; [lia|]. split; [exact H2|]. rewrite <- E. rewrite (peek_holds s1 p _ Cp H1).
    destruct (c =? 35) eqn:E1; [replace (p =? 124) with false by lia; reflexivity|].
    destruct (c =? 124) eqn:E2; [replace (p =? 35) with false by lia; reflexivity|]. reflexivity.
Qed.

(** ** Integers *)
Lemma integer_literal iv z : make_number iv (int_text 10 z) 10 = Exact (if is_int32 z then Small z else Large z).
Proof.
  pose proof (from_chars_text 10 ltac:(lia) z []) as F. pose proof (mpz_set_str_text 10 ltac:(lia) z []) as M.
  pose proof (text_no_plus 10 ltac:(lia) z []) as P. rewrite app_nil_r in F, M, P. cbn [scan mpz_digits option_map] in F, M.
  rewrite signed_abs in F, M.
  assert (L : large_of_string (int_text 10 z) 10 = Some (Large z)) by (unfold large_of_string; rewrite P, M; reflexivity).
  assert (I : make_integer (int_text 10 z) 10 = Some (if is_int32 z then Small z else Large z)).
  { unfold make_integer. rewrite F, L. destruct (in64 z) eqn:E64; [destruct (is_int32 z); reflexivity|].
    replace (is_int32 z) with false; [reflexivity|]. unfold in64, is_int32, int32_min, int32_max in *. lia. }
  unfold make_number, make_complex, make_real, make_rational. rewrite I. reflexivity.
Qed.
Lemma text_word_ascii w : Forall (fun c => 0 < c < 0x80) w -> text w = w.
Proof. apply text_ascii. Qed.
Lemma int_ascii z : text (int_text 10 z) = int_text 10 z.
Proof.
  apply text_ascii. pose proof (digits_ascii z) as D. revert D. apply Forall_impl. intros c H. lia.
Qed.
Lemma int_nonempty z : int_text 10 z <> [] /\ int_text 10 z <> codes ".".
Proof.
  pose proof (digits_ascii z) as D. split; intros E.
  - unfold int_text in E. destruct (z <? 0) eqn:Ez; [discriminate|].
    destruct (digits_spec 10 ltac:(lia) z ltac:(lia)) as (d & ds & E' & _). rewrite E' in E. discriminate.
  - rewrite E in D. change (codes ".") with [46] in D. inversion D; subst. lia.
Qed.

(** ** Reading *)
Section Reading.
  Variable inexact_value : list Z -> Z -> option nat.
  Variable inexact_text : nat -> list Z.
  Notation read := (read inexact_value inexact_text).
  Notation cases := (cases inexact_value inexact_text).

  (** With enough fuel, [read] yields [r] and leaves [s'] *)
  Definition yields (c0 : Z) (s : istream) (r : reading) (s' : istream) : Prop :=
    exists n, forall f, (n <= f)%nat -> read f c0 s = (r, s').

  Lemma yields_take c cs s : codepoint c -> holds s (c :: cs) ->
    exists s1, holds s1 cs /\ good s1 = true /\
      forall r s', (exists n, forall f, (n <= f)%nat -> cases (read f) 0 c s1 = (r, s')) -> yields 0 s r s'.
  Proof.
    intros Cc H. destruct (take_holds s c cs Cc H) as (s1 & E & H1 & G). exists s1. split; [exact H1|]. split; [exact G|].
    intros r s' (n & K). exists (S n). intros [|f] L; [lia|]. cbn [Reader.read]. rewrite (usable_holds s c cs H).
    change (0 =? 0) with true. cbv iota. rewrite E. apply K. lia.
  Qed.

  Lemma cases_word rec c s : codepoint c -> ~ In c delimiters ->
    cases rec 0 c s = match take_token c s with
                      | (Run token, s) => (atom inexact_value token, s)
                      | (bad, s) => (of_run bad, s)
                      end.
  Proof.
    intros C D. cbn [In delimiters] in D. unfold Reader.cases. rewrite (eof_not_cp c C).
    replace (existsb (Z.eqb c) [9; 10; 11; 12; 13; 32]) with false by (cbn [existsb]; lia).
    replace (c =? 34) with false by lia. replace (c =? 35) with false by lia. replace (c =? 39) with false by lia.
    replace (c =? 40) with false by lia. replace (c =? 41) with false by lia. replace (c =? 44) with false by lia.
    replace (c =? 59) with false by lia. replace (c =? 96) with false by lia. replace (c =? 124) with false by lia.
    replace (existsb (Z.eqb c) [91; 93; 123; 125]) with false by (cbn [existsb]; lia). reflexivity.
  Qed.

  (** A word is read whole *)
  Lemma read_word w rest s : word w -> w <> [] -> Forall codepoint rest -> ended rest -> holds s (w ++ rest) ->
    exists s', holds s' rest /\ yields 0 s (atom inexact_value (text w)) s'.
  Proof.
    intros W N C E H. destruct w as [|c w]; [congruence|]. inversion W as [|? ? [Cc Dc] W']; subst. cbn [app] in H.
    destruct (yields_take c (w ++ rest) s Cc H) as (s1 & H1 & _ & Y).
    destruct (take_token_ok c w s1 rest Cc W' C E H1) as (s' & T & H'). exists s'. split; [exact H'|].
    apply Y. exists O. intros f _. rewrite cases_word, T by assumption. reflexivity.
  Qed.

  Definition rep_reads (b : bool) (x : list Z) (d : datum) : Prop :=
    forall rest s, Forall codepoint rest -> (b = true -> ended rest) -> holds s (x ++ rest) ->
      exists s', holds s' rest /\ yields 0 s (Datum d) s'.
  Definition tail_reads (t : list Z) (d : datum) : Prop :=
    forall rest s, Forall codepoint rest -> holds s (t ++ rest) ->
      exists s', holds s' rest /\ yields 0x28 s (Datum d) s'.
  Definition gap_skips (a : bool) (g : list Z) : Prop :=
    forall rest s, Forall codepoint rest -> (a = true -> ended rest) -> holds s (g ++ rest) ->
      exists s', holds s' rest /\ forall r s'', yields 0 s' r s'' -> yields 0 s r s''.

  Lemma ended_app x rest : x <> [] -> ended x -> ended (x ++ rest).
  Proof. destruct x; [congruence|]. cbn. auto. Qed.
  Lemma ended_app' x y : ended x -> (x = [] -> ended y) -> ended (x ++ y).
  Proof. destruct x; cbn; auto. Qed.
  Lemma yields_agree c0 s : forall f g r s', yields c0 s r s' -> (forall n, exists m, (n <= m)%nat /\ read m c0 s = (f, g)) -> r = f /\ s' = g.
  Proof. intros f g r s' (n & K) Hn. destruct (Hn n) as (m & L & E). rewrite (K m L) in E. injection E as -> ->. auto. Qed.

  Lemma rep_nonempty : forall b x d, rep inexact_value b x d -> x <> [].
  Proof.
    intros b x d R. destruct R; try discriminate; try assumption; lit; try discriminate.
    - cbn [In] in *. intros ->. destruct H as [H|[H|[]]]; discriminate.
    - cbn [In] in *. intros ->. destruct H as [H|[H|[]]]; discriminate.
    - apply int_nonempty.
  Qed.
  Lemma gap_ended : forall a g, gap inexact_value a g -> ended g.
  Proof.
    intros a g G. destruct G; lit; cbn [ended]; auto; cbn [In delimiters] in *; lia.
  Qed.

  Lemma cases_rec rec c s : ~ In c [0x09; 0x0A; 0x0B; 0x0C; 0x0D; 0x20; 0x3B] ->
    cases rec c c s = cases rec 0 c s.
  Proof.
    intros N. cbn [In] in N. unfold Reader.cases.
    replace (existsb (Z.eqb c) [9; 10; 11; 12; 13; 32]) with false by (cbn [existsb]; lia).
    replace (c =? 59) with false by lia. reflexivity.
  Qed.
  Lemma elements_list ds : elements (list_of ds) = Some ds.
  Proof. induction ds as [|d ds IH]; cbn [list_of elements]; [reflexivity|]. rewrite IH. reflexivity. Qed.

  (** The two parts of a parenthesised form *)
  Lemma open_pair s1 s2 s3 d e : yields 0 s1 (Datum d) s2 -> yields 0x28 s2 (Datum e) s3 ->
    exists n, forall f, (n <= f)%nat -> open (read f) 0x28 s1 = (Datum (Pair d e), s3).
  Proof.
    intros (n1 & K1) (n2 & K2). exists (n1 + n2)%nat. intros f L. unfold open. rewrite K1 by lia. rewrite K2 by lia. reflexivity.
  Qed.
  Lemma open_close s1 s2 : yields 0 s1 Close s2 ->
    exists n, forall f, (n <= f)%nat -> open (read f) 0x28 s1 = (Datum Nil, s2).
  Proof. intros (n1 & K1). exists n1. intros f L. unfold open. rewrite K1 by lia. reflexivity. Qed.
  Lemma open_dot s1 s2 s3 s4 l d : yields 0 s1 Dot s2 -> yields 0 s2 (Datum d) s3 ->
    take_until (enough s3) (Z.eqb 0x29) s3 [] = (Run l, s4) ->
    exists n, forall f, (n <= f)%nat -> open (read f) 0x28 s1 = (Datum d, s4).
  Proof.
    intros (n1 & K1) (n2 & K2) T. exists (n1 + n2)%nat. intros f L. unfold open. rewrite K1, K2, T by lia. reflexivity.
  Qed.
  (** Reading with the argument '(' is reading what follows the parenthesis *)
  Lemma yields_open s c cs r s' : holds s (c :: cs) ->
    (exists n, forall f, (n <= f)%nat -> open (read f) 0x28 s = (r, s')) -> yields 0x28 s r s'.
  Proof.
    intros H (n & K). exists (S n). intros [|f] L; [lia|]. cbn [Reader.read]. rewrite (usable_holds s c cs H).
    change (40 =? 0) with false. cbv iota. change (cases (read f) 40 40 s) with (open (read f) 40 s). apply K. lia.
  Qed.
  Lemma read_close s rest : holds s (0x29 :: rest) -> exists s', holds s' rest /\ yields 0 s Close s'.
  Proof.
    intros H. destruct (yields_take 0x29 rest s ltac:(unfold codepoint; lia) H) as (s1 & H1 & _ & Y).
    exists s1. split; [exact H1|]. apply Y. exists O. intros f _. reflexivity.
  Qed.

  (** An abbreviation: a prefix, a gap and a datum *)
  Lemma abbreviation_reads name g a x b d rest s1 :
    gap_skips a g -> (a = true -> ended x) -> x <> [] -> Forall codepoint x -> rep_reads b x d ->
    Forall codepoint rest -> (b = true -> ended rest) -> holds s1 ((g ++ x) ++ rest) ->
    exists s', holds s' rest /\ exists n, forall f, (n <= f)%nat ->
      abbreviation (read f) name 0 s1 = (Datum (Pair (Sym name) (Pair d Nil)), s').
  Proof.
    intros G Ax Nx Cx X C E H. rewrite <- app_assoc in H.
    destruct (G (x ++ rest) s1) as (s2 & H2 & Y2); [apply Forall_app; auto|intros ->; apply ended_app; auto|exact H|].
    destruct (X rest s2 C E H2) as (s3 & H3 & Y3). exists s3. split; [exact H3|].
    destruct (Y2 _ _ Y3) as (n & K). exists n. intros f L. unfold abbreviation. rewrite K by lia. reflexivity.
  Qed.
End Reading.
