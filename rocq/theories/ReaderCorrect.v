(** The reader reads every text of the grammar of ReaderProofs.v with its meaning,
    and every text written by [write] is in that grammar. *)
From Coq Require Import String ZArith QArith List Bool Lia ZifyBool.
From Verif Require Import Number NumberProofs NumberText TextPort TextPortProofs Writer Reader ReaderProofs.
Import ListNotations.
Open Scope Z_scope.

Section Correct.
  Variable inexact_value : list Z -> Z -> option nat.
  Variable inexact_text : nat -> list Z.
  Notation read := (read inexact_value inexact_text).
  Notation cases := (cases inexact_value inexact_text).
  Notation yields := (yields inexact_value inexact_text).
  Notation rep_reads := (rep_reads inexact_value inexact_text).
  Notation tail_reads := (tail_reads inexact_value inexact_text).
  Notation gap_skips := (gap_skips inexact_value inexact_text).

  Ltac cp := unfold codepoint; lia.
  Ltac start c H s1 H1 Y :=
    match type of H with holds ?s (_ :: ?cs) =>
      destruct (yields_take inexact_value inexact_text c cs s ltac:(cp) H) as (s1 & H1 & _ & Y) end.
  Ltac next c H s2 E2 H2 :=
    match type of H with holds ?s (_ :: ?cs) =>
      destruct (take_holds s c cs ltac:(cp) H) as (s2 & E2 & H2 & _) end.

  Lemma word_of_list w : forallb (fun c => (0 <? c) && (c <=? 0x10FFFF) && negb (special c)) w = true -> word w.
  Proof.
    intros H. rewrite forallb_forall in H. apply Forall_forall. intros c I. specialize (H c I).
    assert (C : codepoint c) by (unfold codepoint; lia). split; [exact C|].
    intros D. apply special_delimiter in D; [|exact C]. rewrite D in H. lia.
  Qed.

  Lemma cases_sharp rec c2 s1 s2 : take_character s1 = (Char c2, s2) ->
    cases rec 0 35 s1 = sharp inexact_value inexact_text rec c2 s2.
  Proof. intros E. unfold Reader.cases. change (35 =? eof) with false. cbn [existsb]. change (35 =? 35) with true. rewrite E. reflexivity. Qed.

  Lemma reads_true t : In t [codes "#t"; codes "#true"] -> rep_reads true t (Bool true).
  Proof.
    intros I rest s C E H. specialize (E eq_refl).
    assert (W : exists w, t = 35 :: 116 :: w /\ word w).
    { cbn [In] in I. destruct I as [<-|[<-|[]]]; eexists; (split; [reflexivity|apply word_of_list; reflexivity]). }
    destruct W as (w & -> & W). cbn [app] in H. start 35 H s1 H1 Y. next 116 H1 s2 E2 H2.
    destruct (take_token_ok 116 w s2 rest ltac:(cp) W C E H2) as (s3 & T & H3). exists s3. split; [exact H3|].
    apply Y. exists O. intros f _. rewrite (cases_sharp _ _ _ _ E2). unfold sharp. rewrite T. reflexivity.
  Qed.

  Lemma no_digits s cs : holds s cs -> Forall codepoint cs ->
    match cs with [] => True | c :: _ => c <= 255 /\ ~ (48 <= c <= 57) end ->
    exists s', take_while (enough s) isdigit s [] = (Run [], s') /\ holds s' cs.
  Proof.
    intros H C D. unfold enough. cbn [take_while]. destruct (usable s) eqn:U; [|eauto]. destruct cs as [|c cs].
    - destruct (peek_spent s (holds_nil_spent s H)) as (s' & -> & S). exists s'. split; [reflexivity|right; auto].
    - inversion C as [|? ? Cc _]; subst. rewrite (peek_holds s c cs Cc H). unfold codepoint in Cc. unfold isdigit, ctype.
      replace ((-1 <=? c) && (c <=? 255)) with true by lia. replace ((48 <=? c) && (c <=? 57)) with false by lia. eauto.
  Qed.
  Lemma reads_false t : In t [codes "#f"; codes "#false"] -> rep_reads true t (Bool false).
  Proof.
    intros I rest s C E H. specialize (E eq_refl).
    assert (W : exists w, t = 35 :: 102 :: w /\ word w /\ hd 97 w = 97).
    { cbn [In] in I. destruct I as [<-|[<-|[]]]; eexists; (split; [reflexivity|split; [apply word_of_list; reflexivity|reflexivity]]). }
    destruct W as (w & -> & W & Hw). cbn [app] in H. start 35 H s1 H1 Y. next 102 H1 s2 E2 H2.
    destruct (no_digits s2 (w ++ rest) H2) as (s3 & T3 & H3).
    { apply Forall_app. split; [apply word_cps|]; assumption. }
    { destruct w as [|c w]; [|cbn in Hw; subst c; cbn; lia]. cbn [app]. destruct rest as [|c rest]; [trivial|].
      cbn [ended In delimiters] in E. lia. }
    destruct (take_token_ok 102 w s3 rest ltac:(cp) W C E H3) as (s4 & T & H4). exists s4. split; [exact H4|].
    apply Y. exists O. intros f _. rewrite (cases_sharp _ _ _ _ E2).
    change (sharp inexact_value inexact_text (read f) 102 s2) with (sharp_f 102 s2). unfold sharp_f. rewrite T3.
    change (fst (scan 10 0 [])) with 0. cbv zeta. change (2 ^ 31 <=? 0) with false. change ((0 =? 32) || (0 =? 64)) with false.
    rewrite T. reflexivity.
  Qed.

  Lemma reads_word w d : word w -> w <> [] -> w <> codes "." ->
    atom inexact_value (text w) = Datum d -> rep_reads true w d.
  Proof.
    intros W N D A rest s C E H. destruct (read_word inexact_value inexact_text w rest s W N C (E eq_refl) H) as (s' & H' & Y).
    rewrite A in Y. eauto.
  Qed.
  Lemma atom_word w : word w -> w <> codes "." -> atom inexact_value (text w) =
    match make_number inexact_value (text w) 10 with
    | Exact x => Datum (Num x) | Flonum k => Datum (Inexact k) | Not_a_number => Datum (Sym (text w))
    | Literal_raises => Failed | Literal_undefined => Undefined
    end.
  Proof.
    intros W D. unfold atom. destruct (list_eq_dec Z.eq_dec (text w) (codes ".")) as [E|_]; [|reflexivity].
    exfalso. apply D. pose proof (make_string_text w (word_cps w W)) as M. rewrite E in M.
    vm_compute in M. vm_compute. congruence.
  Qed.

  Lemma sharp_backslash rec s : sharp inexact_value inexact_text rec 92 s = sharp_char s.
  Proof. reflexivity. Qed.
  Lemma reads_char c : codepoint c -> rep_reads true (codes "#\" ++ [c]) (Chr c).
  Proof.
    intros Cc rest s C E H. specialize (E eq_refl). change (codes "#\") with [35; 92] in H. cbn [app] in H.
    start 35 H s1 H1 Y. next 92 H1 s2 E2 H2. destruct (take_holds s2 c rest Cc H2) as (s3 & E3 & H3 & _).
    destruct (peek_ended s3 rest C E H3) as (p & s4 & P & S & H4). exists s4. split; [exact H4|].
    apply Y. exists O. intros f _. rewrite (cases_sharp _ _ _ _ E2), sharp_backslash. unfold sharp_char. rewrite E3, P, S. reflexivity.
  Qed.
  Lemma reads_char_name n c : In (n, c) character_names -> rep_reads true (codes "#\" ++ n) (Chr c).
  Proof.
    intros I rest s C E H. specialize (E eq_refl). change (codes "#\") with [35; 92] in H. cbn [app] in H.
    assert (W : exists a b w, n = a :: b :: w /\ word (a :: b :: w) /\ a <> 120 /\ lookup (text n) char_names = Some c).
    { cbn [In character_names] in I.
      repeat (destruct I as [I|I];
        [injection I as <- <-; eexists _, _, _; (split; [reflexivity|split; [apply word_of_list; reflexivity|split; [discriminate|reflexivity]]])|]).
      destruct I. }
    destruct W as (a & b & w & -> & W & A & Lk). cbn [app] in H. start 35 H s1 H1 Y. next 92 H1 s2 E2 H2.
    inversion W as [|? ? [Ca Da] W']; subst. inversion W' as [|? ? [Cb Db] W'']; subst.
    destruct (take_holds s2 a _ Ca H2) as (s3 & E3 & H3 & _).
    pose proof (peek_holds s3 b _ Cb H3) as P.
    destruct (take_token_ok a (b :: w) s3 rest Ca W' C E H3) as (s4 & T & H4). exists s4. split; [exact H4|].
    apply Y. exists O. intros f _. rewrite (cases_sharp _ _ _ _ E2), sharp_backslash. unfold sharp_char.
    rewrite E3, P, (not_delimiter b Cb Db). replace (a =? 120) with false by lia. rewrite T, Lk. reflexivity.
  Qed.
  Lemma hex_word h v : hex_number h v -> word h.
  Proof.
    intros H. pose proof (hex_cps h v H) as D. revert D. apply Forall_impl. intros c [d E].
    apply digit_in_code in E. assert (C : codepoint c) by cp. split; [exact C|]. intros I. apply special_delimiter in I; [|exact C].
    destruct E as (_ & _ & _ & S & _). congruence.
  Qed.
  Lemma reads_char_hex h v : hex_number h v -> v < 2 ^ 31 -> rep_reads true (codes "#\x" ++ h) (Chr v).
  Proof.
    intros Hh V rest s C E H. specialize (E eq_refl). change (codes "#\x") with [35; 92; 120] in H. cbn [app] in H.
    start 35 H s1 H1 Y. next 92 H1 s2 E2 H2. next 120 H2 s3 E3 H3. pose proof (hex_word h v Hh) as W.
    destruct (take_token_ok 48 h s3 rest ltac:(cp) W C E H3) as (s4 & T & H4). exists s4. split; [exact H4|].
    assert (P : exists c t, h = c :: t) by exact (hex_nonempty h v Hh). destruct P as (c & t & ->).
    inversion W as [|? ? [Cc Dc] _]; subst. pose proof (peek_holds s3 c _ Cc H3) as P.
    apply Y. exists O. intros f _. rewrite (cases_sharp _ _ _ _ E2), sharp_backslash. unfold sharp_char.
    rewrite E3, P, (not_delimiter c Cc Dc). change (120 =? 120) with true. cbv iota. rewrite T.
    rewrite text_ascii, (hex_value_0 (c :: t) v Hh V); [reflexivity|]. constructor; [lia|].
    pose proof (hex_cps _ v Hh) as D. revert D. apply Forall_impl. intros x [d E']. apply digit_in_code in E'. lia.
  Qed.

  Lemma reads_string t cs : quoted 0x22 t cs -> rep_reads false (0x22 :: t) (Str cs).
  Proof.
    intros Q rest s C _ H. cbn [app] in H. start 34 H s1 H1 Y.
    destruct (quoted_ok 34 t cs s1 rest ltac:(auto) Q H1 C) as (s2 & T & H2). exists s2. split; [exact H2|].
    apply Y. exists O. intros f _. unfold Reader.cases. change (34 =? eof) with false. cbn [existsb].
    change (34 =? 34) with true. rewrite T. reflexivity.
  Qed.
  Lemma symbol_ok m t cs s rest : (m = 0x22 \/ m = 0x7C) -> quoted m t cs -> Forall codepoint cs -> Forall codepoint rest -> holds s (t ++ rest) ->
    exists s', quoted_symbol m s = (Datum (Sym (text cs)), s') /\ holds s' rest.
  Proof.
    intros M Q Cs C H. destruct (quoted_ok m t cs s rest M Q H C) as (s2 & T & H2). exists s2. split; [|exact H2].
    unfold quoted_symbol. rewrite T, string_utf8_text by exact Cs. reflexivity.
  Qed.
  Lemma reads_bars t cs : quoted 0x7C t cs -> Forall codepoint cs -> rep_reads false (0x7C :: t) (Sym (text cs)).
  Proof.
    intros Q Cs rest s C _ H. cbn [app] in H. start 124 H s1 H1 Y.
    destruct (symbol_ok 124 t cs s1 rest ltac:(auto) Q Cs C H1) as (s2 & T & H2). exists s2. split; [exact H2|].
    apply Y. exists O. intros f _. change (cases (read f) 0 124 s1) with (quoted_symbol 124 s1). exact T.
  Qed.
  Lemma reads_sharp_string t cs : quoted 0x22 t cs -> Forall codepoint cs -> rep_reads false (codes "#""" ++ t) (Sym (text cs)).
  Proof.
    intros Q Cs rest s C _ H. change (codes "#""") with [35; 34] in H. cbn [app] in H. start 35 H s1 H1 Y. next 34 H1 s2 E2 H2.
    destruct (symbol_ok 34 t cs s2 rest ltac:(auto) Q Cs C H2) as (s3 & T & H3). exists s3. split; [exact H3|].
    apply Y. exists O. intros f _. rewrite (cases_sharp _ _ _ _ E2).
    change (sharp inexact_value inexact_text (read f) 34 s2) with (quoted_symbol 34 s2). exact T.
  Qed.

  (** The dot of a dotted pair *)
  Lemma read_dot rest s : Forall codepoint rest -> ended rest -> holds s (0x2E :: rest) ->
    exists s', holds s' rest /\ yields 0 s Dot s'.
  Proof.
    intros C E H. destruct (read_word inexact_value inexact_text [46] rest s) as (s' & H' & Y);
      [apply word_of_list; reflexivity|discriminate|assumption..|]. eauto.
  Qed.

  Lemma tail_nonempty t d : tail inexact_value t d -> t <> [].
  Proof.
    intros T E1.
    destruct T as [a g G|a g b x d t e G Ax R Et T|a g a1 g1 b x d a2 g2 G Ea G1 Ex Ax R Eb G2 N];
      apply app_eq_nil in E1; destruct E1 as [_ E1]; [discriminate E1| |discriminate E1].
    apply app_eq_nil in E1. destruct E1 as [E1 _]. apply (rep_nonempty inexact_value b x d R). exact E1.
  Qed.
  Lemma holds_cons s t rest : t <> [] -> holds s (t ++ rest) -> exists c cs, holds s (c :: cs).
  Proof. destruct t as [|c cs]; [congruence|]. cbn. eauto. Qed.

  Theorem grammar_reads :
    (forall b x d, rep inexact_value b x d -> rep_reads b x d) /\
    (forall t d, tail inexact_value t d -> tail_reads t d) /\
    (forall a g, gap inexact_value a g -> gap_skips a g).
  Proof.
    destruct (grammar_cps inexact_value) as (CR & CT & CG).
    apply (grammar_ind inexact_value (fun b x d _ => rep_reads b x d) (fun t d _ => tail_reads t d) (fun a g _ => gap_skips a g)).
    - exact reads_true.
    - exact reads_false.
    - intros z. destruct (int_nonempty z) as [N D]. apply reads_word; [apply int_word|exact N|exact D|].
      rewrite atom_word by (try apply int_word; exact D). rewrite int_ascii, integer_literal. reflexivity.
    - intros w x W N D E. apply reads_word; auto. rewrite atom_word, E by assumption. reflexivity.
    - intros w x W N D E. apply reads_word; auto. rewrite atom_word, E by assumption. reflexivity.
    - exact reads_char.
    - exact reads_char_name.
    - exact reads_char_hex.
    - exact reads_string.
    - intros w W N D E. apply reads_word; auto. rewrite atom_word, E by assumption. reflexivity.
    - exact reads_bars.
    - exact reads_sharp_string.
    - (* the empty list *)
      intros a g Gg G rest s C _ H. lit. rewrite <- app_assoc in H. cbn [app] in H. start 40 H s1 H1 Y.
      destruct (G (41 :: rest) s1) as (s2 & H2 & Y2); [constructor; [cp|exact C]|intros _; cbn; lia|exact H1|].
      destruct (read_close inexact_value inexact_text s2 rest H2) as (s3 & H3 & Y3). exists s3. split; [exact H3|]. apply Y.
      apply open_close. apply Y2. exact Y3.
    - (* a pair *)
      intros a g b x d t e Gg G Ax Rx X Eb Tt T rest s C _ H. lit. rewrite <- !app_assoc in H. start 40 H s1 H1 Y.
      assert (Ct : Forall codepoint (t ++ rest)) by (apply Forall_app; split; [exact (CT _ _ Tt)|exact C]).
      destruct (G (x ++ t ++ rest) s1) as (s2 & H2 & Y2);
        [apply Forall_app; split; [exact (CR _ _ _ Rx)|exact Ct]|intros ->; apply ended_app; [exact (rep_nonempty _ _ _ _ Rx)|auto]|exact H1|].
      destruct (X (t ++ rest) s2 Ct) as (s3 & H3 & Y3);
        [intros ->; apply ended_app; [exact (tail_nonempty _ _ Tt)|auto]|exact H2|].
      destruct (T rest s3 C H3) as (s4 & H4 & Y4). exists s4. split; [exact H4|]. apply Y.
      apply (open_pair inexact_value inexact_text s1 s3 s4 d e); [apply Y2; exact Y3|exact Y4].
    - (* a vector *)
      intros t ds Tt T rest s C _ H. lit. start 35 H s1 H1 Y. next 40 H1 s2 E2 H2.
      destruct (T rest s2 C H2) as (s3 & H3 & (n & K)). exists s3. split; [exact H3|]. apply Y. exists n. intros f L.
      rewrite (cases_sharp _ _ _ _ E2). unfold sharp. cbn [Z.eqb]. rewrite K by exact L. rewrite elements_list. reflexivity.
    - intros a g b x d Gg G Ax Rx X rest s C E H. lit. start 39 H s1 H1 Y.
      destruct (abbreviation_reads inexact_value inexact_text (codes "quote") g a x b d rest s1 G Ax (rep_nonempty _ _ _ _ Rx) (CR _ _ _ Rx) X C E H1) as (s' & H' & K).
      exists s'. split; [exact H'|]. apply Y. exact K.
    - intros a g b x d Gg G Ax Rx X rest s C E H. lit. start 96 H s1 H1 Y.
      destruct (abbreviation_reads inexact_value inexact_text (codes "quasiquote") g a x b d rest s1 G Ax (rep_nonempty _ _ _ _ Rx) (CR _ _ _ Rx) X C E H1) as (s' & H' & K).
      exists s'. split; [exact H'|]. apply Y. exact K.
    - intros a g b x d Gg G Ax Rx X rest s C E H. lit. start 44 H s1 H1 Y. next 64 H1 s2 E2 H2.
      destruct (abbreviation_reads inexact_value inexact_text (codes "unquote-splicing") g a x b d rest s2 G Ax (rep_nonempty _ _ _ _ Rx) (CR _ _ _ Rx) X C E H2) as (s' & H' & n & K).
      exists s'. split; [exact H'|]. apply Y. exists n. intros f L. etransitivity; [|exact (K f L)].
      change (cases (read f) 0 44 s1) with (let '(t, s) := take_character s1 in
        match t with
        | ReadError => (Failed, s)
        | Char c => if c =? 64 then abbreviation (read f) (codes "unquote-splicing") 0 s
                    else abbreviation (read f) (codes "unquote") c s
        end). rewrite E2. reflexivity.
    - (* an unquote *)
      intros b c x d N64 Nw Rx X rest s C E H. lit. pose proof (CR _ _ _ Rx) as Cx. inversion Cx as [|? ? Cc Cx']; subst.
      start 44 H s1 H1 Y. destruct (X rest s1 C E H1) as (s' & H' & n & K). exists s'. split; [exact H'|]. apply Y.
      destruct (take_holds s1 c (x ++ rest) Cc H1) as (s2 & E2 & H2 & G2). exists (S n). intros f L.
      change (cases (read f) 0 44 s1) with (let '(t, s) := take_character s1 in
        match t with
        | ReadError => (Failed, s)
        | Char c => if c =? 64 then abbreviation (read f) (codes "unquote-splicing") 0 s
                    else abbreviation (read f) (codes "unquote") c s
        end). rewrite E2. replace (c =? 64) with false by lia. unfold abbreviation.
      assert (read f c s2 = (Datum d, s')) as ->; [|reflexivity].
      rewrite <- (K f ltac:(lia)). destruct f as [|f]; [lia|]. cbn [Reader.read].
      rewrite (good_usable s2 G2), (usable_holds s1 c _ H1). unfold codepoint in Cc. replace (c =? 0) with false by lia. change (0 =? 0) with true. cbv iota.
      rewrite E2. apply cases_rec. exact Nw.
    - (* the end of a list *)
      intros a g Gg G rest s C H. lit. rewrite <- app_assoc in H. cbn [app] in H.
      destruct (G (41 :: rest) s) as (s2 & H2 & Y2); [constructor; [cp|exact C]|intros _; cbn; lia|exact H|].
      destruct (read_close inexact_value inexact_text s2 rest H2) as (s3 & H3 & Y3). exists s3. split; [exact H3|].
      destruct (holds_cons s (g ++ [41]) rest) as (c & cs & Hc); [destruct g; discriminate|rewrite <- app_assoc; exact H|].
      apply (yields_open _ _ s c cs _ _ Hc). apply open_close. apply Y2. exact Y3.
    - (* a further element *)
      intros a g b x d t e Gg G Ax Rx X Eb Tt T rest s C H. rewrite <- !app_assoc in H.
      assert (Ct : Forall codepoint (t ++ rest)) by (apply Forall_app; split; [exact (CT _ _ Tt)|exact C]).
      destruct (G (x ++ t ++ rest) s) as (s2 & H2 & Y2);
        [apply Forall_app; split; [exact (CR _ _ _ Rx)|exact Ct]|intros ->; apply ended_app; [exact (rep_nonempty _ _ _ _ Rx)|auto]|exact H|].
      destruct (X (t ++ rest) s2 Ct) as (s3 & H3 & Y3);
        [intros ->; apply ended_app; [exact (tail_nonempty _ _ Tt)|auto]|exact H2|].
      destruct (T rest s3 C H3) as (s4 & H4 & Y4). exists s4. split; [exact H4|].
      destruct (holds_cons s (g ++ x) (t ++ rest)) as (c & cs & Hc);
        [intros E0; apply app_eq_nil in E0; destruct E0 as [_ E0]; exact (rep_nonempty _ _ _ _ Rx E0)|rewrite <- app_assoc; exact H|].
      apply (yields_open _ _ s c cs _ _ Hc). apply (open_pair inexact_value inexact_text s s3 s4 d e); [apply Y2; exact Y3|exact Y4].
    - (* a dotted tail *)
      intros a g a1 g1 b x d a2 g2 Gg G Ea Gg1 G1 Ex Ax Rx X Eb Gg2 G2 N2 rest s C H. subst a.
      change (codes ".") with [46] in *. change (codes ")") with [41] in *. rewrite <- !app_assoc in H. cbn [app] in H.
      assert (Cx := CR _ _ _ Rx). assert (Nx := rep_nonempty _ _ _ _ Rx).
      assert (C3 : Forall codepoint (g2 ++ 41 :: rest)) by (apply Forall_app; split; [exact (CG _ _ Gg2)|constructor; [cp|exact C]]).
      assert (C2 : Forall codepoint (x ++ g2 ++ 41 :: rest)) by (apply Forall_app; auto).
      assert (C1 : Forall codepoint (g1 ++ x ++ g2 ++ 41 :: rest)) by (apply Forall_app; split; [exact (CG _ _ Gg1)|auto]).
      destruct (G (46 :: g1 ++ x ++ g2 ++ 41 :: rest) s) as (s1 & H1 & Y1); [constructor; [cp|exact C1]|discriminate|exact H|].
      destruct (read_dot (g1 ++ x ++ g2 ++ 41 :: rest) s1 C1) as (s2 & H2 & Y2);
        [rewrite app_assoc; apply ended_app; [intros E0; apply app_eq_nil in E0; tauto|exact Ex]|exact H1|].
      destruct (G1 (x ++ g2 ++ 41 :: rest) s2 C2) as (s3 & H3 & Y3); [intros ->; apply ended_app; auto|exact H2|].
      destruct (X (g2 ++ 41 :: rest) s3 C3) as (s4 & H4 & Y4);
        [intros ->; specialize (Eb eq_refl); destruct g2; [cbn; lia|exact Eb]|exact H3|].
      destruct (until_char 41 g2 s4 rest (CG _ _ Gg2) ltac:(cp) N2 H4) as (s5 & T5 & H5). exists s5. split; [exact H5|].
      destruct (holds_cons s (g ++ [46]) (g1 ++ x ++ g2 ++ 41 :: rest)) as (c & cs & Hc); [destruct g; discriminate|rewrite <- app_assoc; exact H|].
      apply (yields_open _ _ s c cs _ _ Hc).
      apply (open_dot inexact_value inexact_text s s2 s4 s5 g2 d); [apply Y1; exact Y2|apply Y3; exact Y4|exact T5].
    - (* gaps *)
      intros rest s C _ H. exists s. split; [exact H|auto].
    - intros c a g I Gg G rest s C E H. cbn [app] in H.
      assert (Cc : codepoint c) by (cbn [In] in I; cp).
      destruct (yields_take inexact_value inexact_text c (g ++ rest) s Cc H) as (s1 & H1 & _ & Y).
      destruct (G rest s1 C E H1) as (s2 & H2 & Y2). exists s2. split; [exact H2|]. intros r s'' R. apply Y.
      destruct (Y2 _ _ R) as (n & K). exists n. intros f L. rewrite <- (K f L). unfold Reader.cases. rewrite (eof_not_cp c Cc).
      replace (existsb (Z.eqb c) [9; 10; 11; 12; 13; 32]) with true by (cbn [existsb In] in *; lia). reflexivity.
    - intros l a g Cl Nl Gg G rest s C E H. lit. rewrite <- app_assoc in H. cbn [app] in H. start 59 H s1 H1 Y.
      destruct (until_char 10 l s1 (g ++ rest) Cl ltac:(cp) Nl H1) as (s2 & T2 & H2).
      destruct (G rest s2 C E H2) as (s3 & H3 & Y3). exists s3. split; [exact H3|]. intros r s'' R. apply Y.
      destruct (Y3 _ _ R) as (n & K). exists n. intros f L. rewrite <- (K f L).
      unfold Reader.cases. change (59 =? eof) with false. cbn [existsb]. change (59 =? 59) with true. cbn [Z.eqb orb]. unfold line. rewrite T2. reflexivity.
    - intros b a g Bb Gg G rest s C E H. lit. rewrite <- app_assoc in H. start 35 H s1 H1 Y. next 124 H1 s2 E2 H2.
      assert (Cg : Forall codepoint (g ++ rest)) by (apply Forall_app; split; [exact (CG _ _ Gg)|exact C]).
      pose proof (enough_holds s2 _ H2) as L2. rewrite app_length in L2.
      destruct (skip_block_ok b Bb (enough s2) 0 s2 (g ++ rest) H2 Cg ltac:(lia)) as (s3 & f3 & _ & H3 & T3).
      destruct (G rest s3 C E H3) as (s4 & H4 & Y4). exists s4. split; [exact H4|]. intros r s'' R. apply Y.
      destruct (Y4 _ _ R) as (n & K). exists n. intros f L. rewrite <- (K f L). rewrite (cases_sharp _ _ _ _ E2).
      unfold sharp. cbn [Z.eqb Pos.eqb]. rewrite T3. reflexivity.
    - intros a g b x d Gg G Ax Rx X rest s C E H. lit. rewrite <- app_assoc in H. start 35 H s1 H1 Y. next 59 H1 s2 E2 H2.
      destruct (G (x ++ rest) s2) as (s3 & H3 & Y3);
        [apply Forall_app; split; [exact (CR _ _ _ Rx)|exact C]|intros ->; apply ended_app; [exact (rep_nonempty _ _ _ _ Rx)|auto]|exact H2|].
      destruct (X rest s3 C E H3) as (s4 & H4 & Y4). exists s4. split; [exact H4|]. intros r s'' (m & R). apply Y.
      destruct (Y3 _ _ Y4) as (n & K). exists (n + m)%nat. intros f L. rewrite (cases_sharp _ _ _ _ E2).
      unfold sharp. cbn [Z.eqb Pos.eqb]. rewrite K by lia. apply R. lia.
    - intros a g b x d a' g' Gg G Ax Rx X Gg' G' N' rest s C E H. lit. rewrite <- !app_assoc in H. start 35 H s1 H1 Y. next 59 H1 s2 E2 H2.
      assert (Cg : Forall codepoint (g' ++ rest)) by (apply Forall_app; split; [exact (CG _ _ Gg')|exact C]).
      destruct (G (x ++ g' ++ rest) s2) as (s3 & H3 & Y3);
        [apply Forall_app; split; [exact (CR _ _ _ Rx)|exact Cg]|intros ->; apply ended_app; [exact (rep_nonempty _ _ _ _ Rx)|auto]|exact H2|].
      destruct (X (g' ++ rest) s3 Cg) as (s4 & H4 & Y4); [intros _; apply ended_app; [exact N'|exact (gap_ended _ _ _ Gg')]|exact H3|].
      destruct (G' rest s4 C E H4) as (s5 & H5 & Y5). exists s5. split; [exact H5|]. intros r s'' R. apply Y.
      destruct (Y3 _ _ Y4) as (n & K). destruct (Y5 _ _ R) as (m & K'). exists (n + m)%nat. intros f L. rewrite (cases_sharp _ _ _ _ E2).
      unfold sharp. cbn [Z.eqb Pos.eqb]. rewrite K by lia. apply K'. lia.
  Qed.
End Correct.
