(** Every text written by [write] belongs to the grammar of ReaderProofs.v, hence
    reads back as the datum it was written from. *)
From Coq Require Import String ZArith QArith List Bool Lia ZifyBool.
From Verif Require Import Number NumberProofs NumberText TextPort TextPortProofs Writer Reader ReaderProofs ReaderCorrect.
Import ListNotations.
Open Scope Z_scope.

(** Induction over data *)
Lemma datum_ind' (P : datum -> Prop) :
  P Nil -> (forall b, P (Bool b)) -> (forall x, P (Num x)) -> (forall k, P (Inexact k)) -> (forall c, P (Chr c)) ->
  (forall cs, P (Str cs)) -> (forall n, P (Sym n)) -> (forall a b, P a -> P b -> P (Pair a b)) ->
  (forall ds, Forall P ds -> P (Vec ds)) -> P End -> forall d, P d.
Proof.
  intros H1 H2 H3 H4 H5 H6 H7 H8 H9 H10. fix F 1.
  intros [|b|x|k|c|cs|n|a b|ds|]; [exact H1|apply H2|apply H3|apply H4|apply H5|apply H6|apply H7|apply H8; apply F| |exact H10].
  apply H9. induction ds as [|d ds IH]; constructor; [apply F|exact IH].
Qed.

(** ** Data with an external representation *)
(** The number a literal of the same value is read as: a small integer when it fits,
    an integer when it is one *)
Definition plain_number (x : num) : num :=
  let integer z := if is_int32 z then Small z else Large z in
  match x with
  | Small z | Large z => integer z
  | Ratio q => if Z.pos (Qden q) =? 1 then integer (Qnum q) else x
  end.
Fixpoint plain (d : datum) : datum :=
  match d with
  | Num x => Num (plain_number x)
  | Pair a b => Pair (plain a) (plain b)
  | Vec ds => Vec (map plain ds)
  | d => d
  end.

Section Readable.
  Variable inexact_value : list Z -> Z -> option nat.
  (** Names that can be written without quotation marks; names that cannot *)
  Definition bare (cs : list Z) : Prop :=
    word cs /\ cs <> [] /\ cs <> codes "." /\ make_number inexact_value (text cs) 10 = Not_a_number.
  Definition marked (cs : list Z) : Prop :=
    cs = [] \/ (Exists (fun c => In c delimiters) cs /\ Forall (fun c => 0 < c <= 255) cs).
  Inductive readable : datum -> Prop :=
  | Rd_nil : readable Nil
  | Rd_bool b : readable (Bool b)
  | Rd_num x : valid x -> readable (Num x)
  | Rd_chr c : c = 0 \/ codepoint c -> readable (Chr c)
  | Rd_str cs : Forall (fun c => 0 <= c <= 255) cs -> readable (Str cs)
  | Rd_sym cs : bare cs \/ marked cs -> readable (Sym (text cs))
  | Rd_pair a b : readable a -> readable b -> readable (Pair a b)
  | Rd_vec ds : Forall readable ds -> readable (Vec ds).
End Readable.

(** ** Characters, strings and symbols *)
Definition ascii (c : Z) : Prop := 0 < c < 0x80.
Definition hex_check (c : Z) : bool :=
  forallb (fun c => (0 <? c) && (c <? 0x80)) (hex_text c) &&
  match hex_text c with
  | [a] => match digit_in 16 a with Some d => d =? c | None => false end
  | [a; b] => match digit_in 16 a, digit_in 16 b with Some d, Some e => 16 * d + e =? c | _, _ => false end
  | _ => false
  end.
Lemma hex_text_ok c : 0 <= c <= 255 -> hex_number (hex_text c) c /\ Forall ascii (hex_text c).
Proof.
  intros H. assert (K : forallb hex_check (map Z.of_nat (seq 0 256)) = true) by (vm_compute; reflexivity).
  rewrite forallb_forall in K. specialize (K c). assert (I : In c (map Z.of_nat (seq 0 256))).
  { apply in_map_iff. exists (Z.to_nat c). split; [lia|apply in_seq; lia]. }
  apply K in I. unfold hex_check in I. apply andb_prop in I. destruct I as [A I]. split.
  - destruct (hex_text c) as [|a [|b [|? ?]]]; try discriminate I.
    + destruct (digit_in 16 a) as [d|] eqn:Ea; [|discriminate]. replace c with d by lia. apply H_one. exact Ea.
    + destruct (digit_in 16 a) as [d|] eqn:Ea; [|discriminate]. destruct (digit_in 16 b) as [e|] eqn:Eb; [|discriminate].
      replace c with (16 * d + e) by lia. apply (H_more [a] d b e (H_one a d Ea) Eb).
  - apply Forall_forall. intros x I'. rewrite forallb_forall in A. specialize (A x I'). unfold ascii. lia.
Qed.

Lemma quoted_app_char m u cs' : quoted m u cs' -> forall c t, 0 <= c <= 255 -> m = 0x22 -> put c = Some t ->
  quoted m (t ++ u) (c :: cs') /\ Forall ascii t.
Proof.
  intros Q c t H -> E. unfold put, isprint in E. replace ((-1 <=? c) && (c <=? 255)) with true in E by lia. cbn [obind] in E.
  destruct ((32 <=? c) && (c <=? 126)) eqn:P; [|].
  - destruct (c =? 34) eqn:E1; [|destruct (c =? 92) eqn:E2; [|destruct (c =? 124) eqn:E3]]; injection E as <-; lit.
    + replace c with 34 by lia. split; [apply (Q_escape 34 34 34); [cbn; tauto|exact Q]|unfold ascii; repeat constructor; lia].
    + replace c with 92 by lia. split; [apply (Q_escape 34 92 92); [cbn; tauto|exact Q]|unfold ascii; repeat constructor; lia].
    + replace c with 124 by lia. split; [apply (Q_escape 34 124 124); [cbn; tauto|exact Q]|unfold ascii; repeat constructor; lia].
    + split; [apply Q_char; [unfold codepoint; lia|lia|lia|exact Q]|unfold ascii; repeat constructor; lia].
  - assert (t = codes "\x" ++ hex_text c ++ codes ";") as -> by congruence. clear E. destruct (hex_text_ok c H) as [Hx A]. rewrite <- !app_assoc. split; [apply (Q_hex 34 _ c); [exact Hx|lia|exact Q]|].
    lit. constructor; [unfold ascii; lia|]. constructor; [unfold ascii; lia|]. apply Forall_app. split; [exact A|]. constructor; [unfold ascii; lia|constructor].
Qed.
Lemma puts_quoted cs : Forall (fun c => 0 <= c <= 255) cs ->
  exists t, puts cs = Some t /\ Forall ascii t /\ quoted 0x22 (t ++ [0x22]) cs.
Proof.
  induction 1 as [|c cs H Hs (t & E & A & Q)]; [exists []; repeat split; constructor|].
  assert (P : exists u, put c = Some u).
  { unfold put, isprint. replace ((-1 <=? c) && (c <=? 255)) with true by lia. cbn [obind]. eauto. }
  destruct P as (u & P). cbn [puts obind]. rewrite P, E. cbn [obind].
  destruct (quoted_app_char 34 _ cs Q c u H eq_refl P) as [Q' A']. exists (u ++ t). split; [reflexivity|].
  split; [apply Forall_app; auto|]. rewrite <- app_assoc. exact Q'.
Qed.
Lemma write_string_ok cs : Forall (fun c => 0 <= c <= 255) cs ->
  exists t, write_string cs = Some (0x22 :: t) /\ Forall ascii (0x22 :: t) /\ quoted 0x22 t cs.
Proof.
  intros H. destruct (puts_quoted cs H) as (t & E & A & Q). exists (t ++ [34]). unfold write_string. rewrite E. split; [reflexivity|].
  split; [|exact Q]. constructor; [unfold ascii; lia|]. apply Forall_app. split; [exact A|]. constructor; [unfold ascii; lia|constructor].
Qed.

Lemma bytes_special c : codepoint c -> existsb special (rfc3629 c) = true -> In c delimiters.
Proof.
  intros C H. unfold codepoint in C. unfold rfc3629 in H.
  assert (Hi : forall b, 0x80 <= b -> special b = false). { intros b Hb. unfold special, eof. cbn [existsb]. lia. }
  destruct (c <? 0x80) eqn:E1; [|destruct (c <? 0x800) eqn:E2; [|destruct (c <? 0x10000) eqn:E3]]; cbn [existsb] in H.
  - rewrite orb_false_r in H. unfold special, eof in H. cbn [existsb] in H. cbn [delimiters In]. lia.
  - rewrite !Hi in H by (pose proof (Z.mod_pos_bound c 64); pose proof (Z.div_pos c 64); lia). discriminate.
  - rewrite !Hi in H; [discriminate| | |];
      try (pose proof (Z.mod_pos_bound c 64); pose proof (Z.mod_pos_bound (c / 64) 64); pose proof (Z.div_pos c 4096); lia).
  - rewrite !Hi in H; [discriminate| | | |];
      try (pose proof (Z.mod_pos_bound c 64); pose proof (Z.mod_pos_bound (c / 64) 64); pose proof (Z.mod_pos_bound (c / 4096) 64);
           pose proof (Z.div_pos c 262144); lia).
Qed.
Lemma special_bytes c : In c delimiters -> existsb special (rfc3629 c) = true.
Proof. cbn [delimiters In]. intros H. repeat (destruct H as [<-|H]; [reflexivity|]). destruct H. Qed.
Lemma existsb_text cs : existsb special (text cs) = existsb (fun c => existsb special (rfc3629 c)) cs.
Proof.
  induction cs as [|c cs IH]; [reflexivity|]. change (text (c :: cs)) with (rfc3629 c ++ text cs).
  rewrite existsb_app, IH. reflexivity.
Qed.
Lemma word_not_special cs : word cs -> existsb special (text cs) = false.
Proof.
  intros W. rewrite existsb_text. destruct (existsb _ cs) eqn:E; [|reflexivity]. exfalso.
  apply existsb_exists in E. destruct E as (c & I & E). unfold word in W. rewrite Forall_forall in W. destruct (W c I) as [C D].
  apply D. apply bytes_special; assumption.
Qed.
Lemma text_nonempty cs : cs <> [] -> text cs <> [].
Proof. intros N E. pose proof (text_length cs) as L. rewrite E in L. destruct cs; [congruence|cbn in L; lia]. Qed.

(** ** The written text *)
Section Round.
  Variable inexact_value : list Z -> Z -> option nat.
  Variable inexact_text : nat -> list Z.
  Notation rep := (rep inexact_value).
  Notation tail := (tail inexact_value).
  Notation gap := (gap inexact_value).
  Notation write := (write inexact_text).

  (** The loop of pair.cpp:81-108 and that of vector.cpp:33-38 *)
  Fixpoint write_tail (b : datum) : option (list Z) :=
    match b with
    | Nil => Some (codes ")")
    | Pair a b => let? t := write a in let? ts := write_tail b in Some (0x20 :: t ++ ts)
    | x => let? t := write x in Some (codes " . " ++ t ++ codes ")")
    end.
  Fixpoint write_elements (ds : list datum) : option (list Z) :=
    match ds with
    | [] => Some (codes ")")
    | d :: ds => let? t := write d in let? ts := write_elements ds in Some (0x20 :: t ++ ts)
    end.
  Lemma write_pair a b : write (Pair a b) = let? t := write a in let? ts := write_tail b in Some (0x28 :: t ++ ts).
  Proof. reflexivity. Qed.
  Lemma write_vec d ds : write (Vec (d :: ds)) = let? t := write d in let? ts := write_elements ds in Some (codes "#(" ++ t ++ ts).
  Proof. reflexivity. Qed.

  Definition written (d : datum) : Prop := exists x b, write d = Some (text x) /\ rep b x (plain d).
  Definition tailed (d : datum) : Prop := exists t, write_tail d = Some (text t) /\ tail t (plain d) /\ ended t.

  Lemma written_atom d x b : Forall ascii x -> write d = Some x -> rep b x (plain d) -> written d.
  Proof. intros A E R. exists x, b. rewrite (text_ascii x A). auto. Qed.

  Lemma number_written x : valid x -> written (Num x).
  Proof.
    intros V. unfold written. cbn [Writer.write plain].
    assert (I : forall z, exists x b, Some (int_text 10 z) = Some (text x) /\ rep b x (Num (if is_int32 z then Small z else Large z))).
    { intros z. exists (int_text 10 z), true. rewrite int_ascii. split; [reflexivity|apply R_integer]. }
    destruct x as [z|z|q]; cbn [write_number plain_number]; [apply I|apply I|].
    destruct (Z.pos (Qden q) =? 1) eqn:E; [apply I|]. cbn [valid] in V.
    set (w := int_text 10 (Qnum q) ++ 47 :: int_text 10 (Z.pos (Qden q))). exists w, true.
    assert (A : Forall ascii w).
    { unfold w. apply Forall_app. split; [|constructor; [unfold ascii; lia|]];
        (eapply Forall_impl; [|apply digits_ascii]); intros c H; unfold ascii; cbn in H; lia. }
    rewrite (text_ascii w A). split; [reflexivity|]. apply R_number.
    - unfold w, word. apply Forall_app. split; [|constructor; [split; [unfold codepoint; lia|cbn; lia]|]]; apply int_word.
    - unfold w. intros E'. apply app_eq_nil in E'. destruct E' as [_ E']. discriminate.
    - unfold w. intros E'. assert (I46 : In 47 (codes ".")) by (rewrite <- E'; apply in_or_app; right; left; reflexivity).
      change (codes ".") with [46] in I46. cbn in I46. lia.
    - rewrite (text_ascii w A). unfold make_number, make_complex, make_real.
      destruct (ratio_literal 10 ltac:(lia) (Qnum q) (Z.pos (Qden q)) ltac:(lia)) as (q' & Eq & Rq & Vq). fold w in Eq. rewrite Eq.
      f_equal. f_equal. rewrite <- Rq, <- V. apply Qred_complete. rewrite Vq. destruct q as [n d]. cbn [Qnum Qden].
      unfold Qeq, Qdiv, Qmult, Qinv, inject_Z. cbn [Qnum Qden]. lia.
  Qed.
  Lemma char_written c : c = 0 \/ codepoint c -> written (Chr c).
  Proof.
    intros H.
    assert (N : forall n, In (n, c) character_names -> write_char c = codes "#\" ++ n -> Forall ascii (codes "#\" ++ n) -> written (Chr c)).
    { intros n I E A. apply (written_atom (Chr c) (codes "#\" ++ n) true A); [cbn [Writer.write]; rewrite E; reflexivity|]. apply R_char_name. exact I. }
    unfold write_char in N.
    destruct (c =? 0) eqn:E0; [apply (N (codes "null")); [replace c with 0 by lia; cbn; tauto|reflexivity|cbv; repeat constructor]|].
    destruct (c =? 7) eqn:E1; [apply (N (codes "alarm")); [replace c with 7 by lia; cbn; tauto|reflexivity|cbv; repeat constructor]|].
    destruct (c =? 8) eqn:E2; [apply (N (codes "backspace")); [replace c with 8 by lia; cbn; tauto|reflexivity|cbv; repeat constructor]|].
    destruct (c =? 9) eqn:E3; [apply (N (codes "tab")); [replace c with 9 by lia; cbn; tauto|reflexivity|cbv; repeat constructor]|].
    destruct (c =? 10) eqn:E4; [apply (N (codes "newline")); [replace c with 10 by lia; cbn; tauto|reflexivity|cbv; repeat constructor]|].
    destruct (c =? 13) eqn:E5; [apply (N (codes "return")); [replace c with 13 by lia; cbn; tauto|reflexivity|cbv; repeat constructor]|].
    destruct (c =? 27) eqn:E6; [apply (N (codes "escape")); [replace c with 27 by lia; cbn; tauto|reflexivity|cbv; repeat constructor]|].
    destruct (c =? 32) eqn:E7; [apply (N (codes "space")); [replace c with 32 by lia; cbn; tauto|reflexivity|cbv; repeat constructor]|].
    destruct (c =? 127) eqn:E8; [apply (N (codes "delete")); [replace c with 127 by lia; cbn; tauto|reflexivity|cbv; repeat constructor]|].
    assert (C : codepoint c) by (destruct H; [lia|assumption]).
    exists (codes "#\" ++ [c]), true. split; [|apply R_char; exact C]. cbn [Writer.write]. unfold write_char.
    rewrite E0, E1, E2, E3, E4, E5, E6, E7, E8, (utf8_is_rfc c C).
    change (text (codes "#\" ++ [c])) with (codes "#\" ++ rfc3629 c ++ []). rewrite app_nil_r. reflexivity.
  Qed.
  Lemma string_written cs : Forall (fun c => 0 <= c <= 255) cs -> written (Str cs).
  Proof.
    intros H. destruct (write_string_ok cs H) as (t & E & A & Q). apply (written_atom (Str cs) (34 :: t) false A E). apply R_string. exact Q.
  Qed.
  Lemma symbol_written cs : bare inexact_value cs \/ marked cs -> written (Sym (text cs)).
  Proof.
    intros [(W & N & D & M)|[->|[S B]]].
    - exists cs, true. split; [|apply R_symbol; assumption]. cbn [Writer.write]. unfold write_symbol. rewrite (word_not_special cs W).
      pose proof (text_nonempty cs N). destruct (text cs); [congruence|reflexivity].
    - exists (codes "||"), false. split; [reflexivity|]. apply (R_bars _ [124] []); constructor.
    - destruct (write_string_ok cs) as (t & E & A & Q); [revert B; apply Forall_impl; lia|].
      assert (C : Forall codepoint cs) by (revert B; apply Forall_impl; unfold codepoint; lia).
      exists (codes "#""" ++ t), false. split; [|apply R_sharp_string; assumption].
      assert (X : existsb special (text cs) = true).
      { rewrite existsb_text. apply existsb_exists. apply Exists_exists in S. destruct S as (c & I & S). exists c. split; [exact I|apply special_bytes; exact S]. }
      cbn [Writer.write]. unfold write_symbol. rewrite X, (make_string_text cs C), E.
      pose proof (text_nonempty cs) as T. rewrite (text_ascii (codes "#""" ++ t)).
      2:{ lit. constructor; [unfold ascii in *; lia|]. exact A. }
      destruct (text cs); [|reflexivity]. exfalso. apply T; [|reflexivity]. intros ->. inversion S.
  Qed.

  Lemma text_app a b : text (a ++ b) = text a ++ text b.
  Proof. apply flat_map_app. Qed.
  Lemma ended_space t : ended (32 :: t).
  Proof. cbn. lia. Qed.
  Lemma gap_space : gap false [32].
  Proof. apply G_white; [cbn; lia|constructor]. Qed.

  Lemma data_written d : readable inexact_value d -> written d /\ tailed d.
  Proof.
    assert (T : forall d, write_tail d = (let? t := write d in Some (codes " . " ++ t ++ codes ")")) -> written d -> tailed d).
    { intros d0 E (x & b & W & R). exists (codes " . " ++ x ++ codes ")"). rewrite E, W. cbn [obind].
      split; [rewrite !text_app; reflexivity|]. split; [|exact (ended_space _)].
      apply (T_dot inexact_value false [32] false [32] b x (plain d0) false []).
      - exact gap_space. - reflexivity. - exact gap_space. - apply ended_space. - discriminate.
      - exact R. - intros _. cbn. lia. - constructor. - intros []. }
    induction d as [|b|x|k|c|cs|n|a b IHa IHb|ds IH|] using datum_ind'; intros Rd; inversion Rd; subst.
    - split.
      + exists (codes "()"), false. split; [reflexivity|]. apply (R_nil _ false []). constructor.
      + exists (codes ")"). split; [reflexivity|]. split; [|cbn; lia]. apply (T_end _ false []). constructor.
    - assert (W : written (Bool b)); [|split; [exact W|apply T; [reflexivity|exact W]]].
      exists (if b then codes "#t" else codes "#f"), true. destruct b; (split; [reflexivity|]).
      + apply R_true. left. reflexivity.
      + apply R_false. left. reflexivity.
    - pose proof (number_written x) as W. split; [auto|apply T; [reflexivity|auto]].
    - pose proof (char_written c) as W. split; [auto|apply T; [reflexivity|auto]].
    - pose proof (string_written cs) as W. split; [auto|apply T; [reflexivity|auto]].
    - pose proof (symbol_written cs) as W. split; [auto|apply T; [reflexivity|auto]].
    - destruct (IHa H1) as [(x & c & Wa & Ra) _]. destruct (IHb H2) as [_ (t & Wb & Tb & Eb)]. split.
      + exists (40 :: x ++ t), false. rewrite write_pair, Wa, Wb. cbn [obind]. split.
        * change (text (40 :: x ++ t)) with (40 :: text (x ++ t)). rewrite text_app. reflexivity.
        * apply (R_pair inexact_value false [] c x (plain a) t (plain b)); [constructor|discriminate|exact Ra|auto|exact Tb].
      + exists (32 :: x ++ t). cbn [write_tail]. rewrite Wa, Wb. cbn [obind]. split; [|split; [|apply ended_space]].
        * change (text (32 :: x ++ t)) with (32 :: text (x ++ t)). rewrite text_app. reflexivity.
        * apply (T_more inexact_value false [32] c x (plain a) t (plain b)); [exact gap_space|discriminate|exact Ra|auto|exact Tb].
    - assert (W : written (Vec ds)); [|split; [exact W|apply T; [reflexivity|exact W]]].
      assert (L : forall ds, Forall (readable inexact_value) ds -> Forall (fun d => readable inexact_value d -> written d /\ tailed d) ds ->
                exists t, write_elements ds = Some (text t) /\ tail t (list_of (map plain ds)) /\ ended t).
      { induction ds0 as [|d ds0 IHd]; intros Rs Ws.
        - exists (codes ")"). split; [reflexivity|]. split; [|cbn; lia]. apply (T_end _ false []). constructor.
        - inversion Rs as [|? ? Rd0 Rs0]; subst. inversion Ws as [|? ? Wd0 Ws0]; subst. destruct (IHd Rs0 Ws0) as (t & E & Tt & Et).
          destruct (Wd0 Rd0) as [(x & c & Wd & Rd') _]. exists (32 :: x ++ t). cbn [write_elements map list_of]. rewrite Wd, E. cbn [obind].
          split; [|split; [|apply ended_space]].
          + change (text (32 :: x ++ t)) with (32 :: text (x ++ t)). rewrite text_app. reflexivity.
          + apply (T_more inexact_value false [32] c x (plain d) t _); [exact gap_space|discriminate|exact Rd'|auto|exact Tt]. }
      destruct ds as [|d ds].
      + exists (codes "#()"), false. split; [reflexivity|]. apply (R_vector _ [41] []). apply (T_end _ false []). constructor.
      + inversion H0 as [|? ? Rd0 Rs0]; subst. inversion IH as [|? ? Wd0 Ws0]; subst. destruct (L ds Rs0 Ws0) as (t & E & Tt & Et).
        destruct (Wd0 Rd0) as [(x & c & Wd & Rd') _]. exists (codes "#(" ++ x ++ t), false. rewrite write_vec, Wd, E. cbn [obind].
        split; [rewrite !text_app; reflexivity|]. cbn [plain map]. apply R_vector.
        apply (T_more inexact_value false [] c x (plain d) t _); [constructor|discriminate|exact Rd'|auto|exact Tt].
  Qed.

  (** ** Reading back *)
  Notation yields := (yields inexact_value inexact_text).
  Notation read := (read inexact_value inexact_text).
  Lemma written_reads d : readable inexact_value d -> exists bytes, write d = Some bytes /\
    forall rest, Forall codepoint rest -> ended rest ->
      exists s', holds s' rest /\ yields 0 (stream_of (bytes ++ text rest)) (Datum (plain d)) s'.
  Proof.
    intros R. destruct (data_written d R) as [(x & b & W & Rx) _]. exists (text x). split; [exact W|].
    intros rest C E. rewrite <- text_app.
    apply (proj1 (grammar_reads inexact_value inexact_text) b x _ Rx rest _ C (fun _ => E)). left. exists []. reflexivity.
  Qed.

  (** The data of a file written one to a line *)
  Fixpoint write_lines (ds : list datum) : option (list Z) :=
    match ds with
    | [] => Some []
    | d :: ds => let? t := write d in let? ts := write_lines ds in Some (t ++ 10 :: ts)
    end.

  (** A text of data and what may stand between them, with a white space last *)
  Inductive file : list Z -> list datum -> Prop :=
  | F_end a g c : gap a g -> In c [0x09; 0x0A; 0x0B; 0x0C; 0x0D; 0x20] -> file (g ++ [c]) []
  | F_more a g b x d t ds : gap a g -> (a = true -> ended x) -> rep b x d -> (b = true -> ended t) -> file t ds ->
      file (g ++ x ++ t) (d :: ds).

  Lemma file_cps t ds : file t ds -> Forall codepoint t.
  Proof.
    destruct (grammar_cps inexact_value) as (CR & _ & CG).
    induction 1 as [a g c G I|a g b x d t ds G A R B F IH].
    - apply Forall_app. split; [exact (CG _ _ G)|]. constructor; [cbn [In] in I; unfold codepoint; lia|constructor].
    - apply Forall_app. split; [exact (CG _ _ G)|]. apply Forall_app. split; [exact (CR _ _ _ R)|exact IH].
  Qed.
  Lemma file_nonempty t ds : file t ds -> t <> [].
  Proof.
    intros F E. destruct F as [a g c G I|a g b x d t ds G A R B F]; apply app_eq_nil in E; destruct E as [_ E]; [discriminate|].
    apply app_eq_nil in E. exact (rep_nonempty _ _ _ _ R (proj1 E)).
  Qed.
  Lemma rep_not_end b x : ~ rep b x End.
  Proof. intros R. inversion R. Qed.

  Lemma file_reads t ds : file t ds -> forall s, holds s t -> exists n, forall f, (n <= f)%nat ->
    read_all inexact_value inexact_text (S (length ds)) f s = map Datum ds ++ [Datum End].
  Proof.
    destruct (grammar_reads inexact_value inexact_text) as (RR & _ & GG). destruct (grammar_cps inexact_value) as (CR & _ & CG).
    induction 1 as [a g c G I|a g b x d t ds G A R B F IH]; intros s H.
    - assert (C : codepoint c) by (cbn [In] in I; unfold codepoint; lia).
      destruct (GG a g G [c] s) as (s1 & H1 & Y).
      { constructor; [exact C|constructor]. } { intros _. cbn [ended In delimiters] in *. lia. } { exact H. }
      destruct (yields_take inexact_value inexact_text c [] s1 C H1) as (s2 & H2 & G2 & Y2).
      assert (U : usable s2 = true) by (apply good_usable; exact G2).
      destruct (take_spent s2 (holds_nil_spent s2 H2)) as (s3 & T & _).
      assert (Z : yields 0 s (Datum End) s3).
      { apply Y, Y2. exists 1%nat. intros f L. unfold Reader.cases. rewrite (eof_not_cp c C).
        replace (existsb (Z.eqb c) [9; 10; 11; 12; 13; 32]) with true by (cbn [existsb In] in *; lia).
        destruct f as [|f]; [lia|]. cbn [Reader.read]. rewrite U. change (0 =? 0) with true. cbv iota. rewrite T. reflexivity. }
      destruct Z as (n & K). exists n. intros f L. cbn [read_all length map app]. rewrite (K f L). reflexivity.
    - pose proof (file_cps _ _ F) as Ct.
      destruct (GG a g G (x ++ t) s) as (s1 & H1 & Y1).
      { apply Forall_app. split; [exact (CR _ _ _ R)|exact Ct]. } { intros ->. apply ended_app; [exact (rep_nonempty _ _ _ _ R)|auto]. } { exact H. }
      destruct (RR b x d R t s1 Ct B H1) as (s2 & H2 & Y2). destruct (Y1 _ _ Y2) as (n & K). destruct (IH s2 H2) as (m & M).
      exists (n + m)%nat. intros f L. specialize (M f ltac:(lia)). cbn [length]. remember (S (length ds)) as k.
      cbn [read_all]. rewrite (K f ltac:(lia)). cbn [map app]. destruct d; try (rewrite M; reflexivity). exfalso. exact (rep_not_end _ _ R).
  Qed.

  Lemma lines_written ds : Forall (readable inexact_value) ds -> exists t, write_lines ds = Some (text t) /\
    file (10 :: t) (map plain ds) /\ (ds <> [] -> file t (map plain ds)) /\ (ds = [] -> t = []).
  Proof.
    induction 1 as [|d ds R Rs (t & E & F & _ & _)].
    - exists []. split; [reflexivity|]. split; [apply (F_end false [] 10); [constructor|cbn; lia]|]. split; [congruence|reflexivity].
    - destruct (data_written d R) as [(x & b & W & Rx) _]. exists (x ++ 10 :: t). cbn [write_lines map]. rewrite W, E. cbn [obind].
      split; [|split; [|split]].
      + rewrite text_app. reflexivity.
      + apply (F_more false [10] b x (plain d) (10 :: t)); [apply G_white; [cbn; lia|constructor]|discriminate|exact Rx|intros _; cbn; lia|exact F].
      + intros _. apply (F_more false [] b x (plain d) (10 :: t)); [constructor|discriminate|exact Rx|intros _; cbn; lia|exact F].
      + discriminate.
  Qed.
  Lemma lines_read ds : Forall (readable inexact_value) ds -> exists bytes, write_lines ds = Some bytes /\
    exists n, forall f, (n <= f)%nat ->
      read_all inexact_value inexact_text (S (length ds)) f (stream_of bytes) = map Datum (map plain ds) ++ [Datum End].
  Proof.
    intros R. destruct (lines_written ds R) as (t & E & _ & F & Z). exists (text t). split; [exact E|].
    destruct ds as [|d ds].
    - rewrite Z by reflexivity. exists 1%nat. intros [|f] L; [lia|]. reflexivity.
    - rewrite <- (map_length plain (d :: ds)). apply (file_reads t); [apply F; discriminate|]. left. exists []. reflexivity.
  Qed.

  (** Data in the form the reader makes them *)
  Fixpoint plain_data (d : datum) : Prop :=
    match d with
    | Num (Small z) => is_int32 z = true
    | Num (Large z) => is_int32 z = false
    | Num (Ratio q) => Z.pos (Qden q) <> 1
    | Pair a b => plain_data a /\ plain_data b
    | Vec ds => (fix all ds := match ds with [] => True | d :: ds => plain_data d /\ all ds end) ds
    | _ => True
    end.
  Lemma plain_same d : plain_data d -> plain d = d.
  Proof.
    induction d as [|b|x|k|c|cs|n|a b IHa IHb|ds IH|] using datum_ind'; intros P; try reflexivity.
    - cbn [plain_data plain] in *. destruct x as [z|z|q]; cbn [plain_number]; [rewrite P; reflexivity..|].
      destruct (Z.pos (Qden q) =? 1) eqn:E; [lia|reflexivity].
    - destruct P as [Pa Pb]. cbn [plain]. rewrite IHa, IHb by assumption. reflexivity.
    - cbn [plain]. f_equal. cbn [plain_data] in P. induction IH as [|d ds Hd Hs IHs]; [reflexivity|].
      destruct P as [Pd Ps]. cbn [map]. rewrite Hd, IHs by assumption. reflexivity.
  Qed.
End Round.

(** ** Names *)
(** A word that begins with a character other than a digit, a sign or a point is
    not a number *)
Definition initial (c : Z) : Prop := ~ (48 <= c <= 57) /\ c <> 43 /\ c <> 45 /\ c <> 46.
Lemma digit_in_10 c : ~ (48 <= c <= 57) -> digit_in 10 c = None.
Proof.
  intros H. unfold digit_in, digit_value. replace ((48 <=? c) && (c <=? 57)) with false by lia.
  destruct ((97 <=? c) && (c <=? 122)) eqn:E1; [replace (c - 87 <? 10) with false by lia; reflexivity|].
  destruct ((65 <=? c) && (c <=? 90)) eqn:E2; [replace (c - 55 <? 10) with false by lia; reflexivity|reflexivity].
Qed.
Lemma mpz_initial s : match s with [] => True | c :: _ => is_blank c = false /\ c <> 45 /\ ~ (48 <= c <= 57) end -> mpz_set_str s 10 = None.
Proof.
  destruct s as [|c s]; intros H; [reflexivity|]. destruct H as (B & M & D). unfold mpz_set_str. cbn [skip_blanks]. rewrite B.
  replace (c =? 45) with false by lia. rewrite (digit_in_10 c D). reflexivity.
Qed.
Lemma rational_initial s : match s with [] => True | c :: _ => is_blank c = false /\ c <> 45 /\ ~ (48 <= c <= 57) end ->
  make_rational s 10 = Ok None.
Proof.
  intros H. unfold make_rational.
  assert (make_integer s 10 = None) as ->.
  { unfold make_integer. destruct s as [|c s]; [reflexivity|]. destruct H as (B & M & D). unfold from_chars. replace (c =? 45) with false by lia.
    rewrite (digit_in_10 c D). reflexivity. }
  unfold ratio_of_string. destruct (split_slash s) as [a b] eqn:E.
  rewrite (mpz_initial a); [reflexivity|]. destruct s as [|c s]; cbn [split_slash] in E; [injection E as <- <-; exact I|].
  destruct (c =? 47); [injection E as <- <-; exact I|]. destruct (split_slash s). injection E as <- <-. exact H.
Qed.
Section Names.
  Variable inexact_value : list Z -> Z -> option nat.
  Lemma real_initial s : match s with [] => True | c :: _ => is_blank c = false /\ initial c end ->
    make_real inexact_value s 10 = Not_a_number.
  Proof.
    intros H. unfold make_real. rewrite rational_initial.
    2:{ destruct s; [exact I|]. unfold initial in H. tauto. }
    assert (existsb (fun c => if list_eq_dec Z.eq_dec c s then true else false) constants = false) as ->.
    { destruct (existsb _ constants) eqn:E; [|reflexivity]. exfalso. apply existsb_exists in E. destruct E as (x & Ix & Ex).
      destruct (list_eq_dec Z.eq_dec x s) as [->|]; [|discriminate]. cbn [constants In] in Ix.
      unfold initial in H. repeat (destruct Ix as [<-|Ix]; [cbn in H; lia|]). destruct Ix. }
    assert (decimal s = false) as ->; [|reflexivity].
    destruct s as [|c s]; [reflexivity|]. destruct H as (B & D & P & M & Pt). unfold decimal, unsigned, is_sign.
    replace (c =? 43) with false by lia. replace (c =? 45) with false by lia. cbn [orb decs]. unfold is_dec.
    replace ((48 <=? c) && (c <=? 57)) with false by lia. replace (c =? 46) with false by lia. reflexivity.
  Qed.
  Lemma split_last_head p c s a b : split_last p (c :: s) = Some (a, b) -> (a = [] /\ p c = true) \/ exists a', a = c :: a'.
  Proof.
    cbn [split_last]. destruct (split_last p s) as [[a' b']|]; [intros E; injection E as <- <-; right; eauto|].
    destruct (p c); [|discriminate]. intros E; injection E as <- <-. left. auto.
  Qed.
  Lemma initial_not_number c s : is_blank c = false -> initial c -> make_number inexact_value (c :: s) 10 = Not_a_number.
  Proof.
    intros B I0. assert (R : make_real inexact_value (c :: s) 10 = Not_a_number) by (apply real_initial; auto).
    unfold make_number, make_complex. rewrite R. destruct (rectangular (c :: s)) as [[re im]|] eqn:E.
    - assert (X : exists re', re = c :: re').
      { unfold rectangular in E. destruct (rev (c :: s)) as [|z r] eqn:V; [discriminate|]. destruct (z =? 105); [|discriminate].
        assert (W : c :: s = rev r ++ [z]) by (rewrite <- (rev_involutive (c :: s)), V; reflexivity).
        destruct (rev r) as [|c' r']; [cbn in E; discriminate|]. cbn [app] in W. injection W as <- ->.
        destruct (split_last_head _ _ _ _ _ E) as [[-> S]|X]; [|exact X]. exfalso. unfold is_sign, initial in *. lia. }
      destruct X as (re' & ->). rewrite (real_initial (c :: re')) by auto. reflexivity.
    - destruct (polar (c :: s)) as [[m a]|] eqn:P; [|reflexivity]. unfold polar in P.
      destruct (split_last (Z.eqb 64) (c :: s)) as [[a' b']|] eqn:S; [|discriminate]. injection P as <- <-.
      rewrite (real_initial a'); [reflexivity|]. destruct (split_last_head _ _ _ _ _ S) as [[-> _]|(x & ->)]; auto.
  Qed.
  (** Identifiers are bare *)
  Lemma identifier_bare c cs : word (c :: cs) -> initial c -> bare inexact_value (c :: cs).
  Proof.
    intros W I0. pose proof (Forall_inv W) as [C D]. split; [exact W|]. split; [discriminate|]. split.
    - change (codes ".") with [46]. unfold initial in I0. intros E. injection E as -> _. lia.
    - change (text (c :: cs)) with (rfc3629 c ++ text cs).
      assert (X : exists b bs, rfc3629 c = b :: bs /\ is_blank b = false /\ initial b).
      { unfold codepoint in C. unfold rfc3629, initial, is_blank in *. cbn [delimiters In] in D.
        destruct (c <? 0x80) eqn:E1; [|destruct (c <? 0x800) eqn:E2; [|destruct (c <? 0x10000) eqn:E3]]; eexists; eexists; (split; [reflexivity|]);
          [split; lia| | |].
        - pose proof (Z.div_pos c 64). split; lia.
        - pose proof (Z.div_pos c 4096). split; lia.
        - pose proof (Z.div_pos c 262144). split; lia. }
      destruct X as (b & bs & -> & B & I'). cbn [app]. apply initial_not_number; assumption.
  Qed.
End Names.

(** A literal with a plus sign is not exact *)
Lemma decs_digits z : 0 <= z -> decs (digits 10 z) = (digits 10 z, []).
Proof.
  intros H. pose proof (digits_ascii z) as D. unfold int_text in D. replace (z <? 0) with false in D by lia.
  destruct (digits_spec 10 ltac:(lia) z H) as (_ & _ & _ & _ & F & _).
  induction F as [|c l Hc Hl IH]; [reflexivity|]. inversion D; subst. cbn [decs]. unfold is_dec.
  destruct Hc as (d & Hd & ->). unfold digit_char in *. replace (d <? 10) with true in * by lia.
  replace ((48 <=? 48 + d) && (48 + d <=? 57)) with true by lia. rewrite IH by assumption. reflexivity.
Qed.
Lemma plus_inexact iv z : 0 <= z -> make_number iv (43 :: digits 10 z) 10 = inexact iv (43 :: digits 10 z) 10.
Proof.
  intros H. unfold make_number, make_complex, make_real. rewrite rational_initial by (cbn; lia).
  assert (decimal (43 :: digits 10 z) = true) as ->.
  { unfold decimal, unsigned. change (is_sign 43) with true. cbv iota. rewrite (decs_digits z H).
    destruct (digits_spec 10 ltac:(lia) z H) as (d & ds & E & _). rewrite E. reflexivity. }
  rewrite orb_true_r. unfold inexact. destruct (iv _ _); reflexivity.
Qed.
