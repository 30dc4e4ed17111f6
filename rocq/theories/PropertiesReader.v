(** Properties C38, C39, C54 and C55: the reader and the writer. *)
From Coq Require Import String ZArith QArith List Bool Lia ZifyBool.
From Verif Require Import Number NumberProofs NumberText TextPort TextPortProofs Writer Reader ReaderProofs ReaderCorrect RoundTrip.
Import ListNotations.
Open Scope Z_scope.

(** * C38 — written data reads back as an equal datum *)

(** Full statement: for every datum built from booleans, integers, characters,
    strings, symbols, (), pairs and vectors, reading the text produced by write
    yields a datum equal to it.  Proved for every such datum except: strings with a
    character above U+00FF, symbols whose name is a number or a point, and symbols
    with a delimiter in their name and a character above U+00FF; for these it is
    false, see below.  [plain d] is [d] with its exact numbers in the form the
    reader makes; it is [d] itself when they are in that form.  Whatever follows the
    datum is left unread. *)
Theorem C38_round_trip_partial :
  forall inexact_value inexact_text d, readable inexact_value d ->
  exists bytes, write inexact_text d = Some bytes /\
    forall rest, Forall codepoint rest -> ended rest -> exists n, forall fuel, (n <= fuel)%nat ->
      exists s, read inexact_value inexact_text fuel 0 (stream_of (bytes ++ text rest)) = (Datum (plain d), s) /\ holds s rest.
Proof.
  intros iv it d R. destruct (written_reads iv it d R) as (bytes & W & K). exists bytes. split; [exact W|].
  intros rest C E. destruct (K rest C E) as (s & H & n & Y). exists n. intros f L. exists s. auto.
Qed.
Print Assumptions C38_round_trip_partial.

Theorem C38_same_datum :
  forall d, plain_data d -> plain d = d.
Proof. exact plain_same. Qed.
Print Assumptions C38_same_datum.

(** Every identifier of R7RS that begins with neither a sign nor a point is a
    symbol that is read back. *)
Theorem C38_identifiers :
  forall inexact_value c cs, word (c :: cs) -> ~ (48 <= c <= 57) -> c <> 43 -> c <> 45 -> c <> 46 ->
  readable inexact_value (Sym (text (c :: cs))).
Proof. intros iv c cs W D P M Q. apply Rd_sym. left. apply identifier_bare; [exact W|]. unfold initial. auto. Qed.
Print Assumptions C38_identifiers.

(** A symbol whose name is a number, or a point, is written without quotation marks:
    (string->symbol "1") reads back as the number 1, and (string->symbol ".") as no
    datum at all. *)
Theorem C38_symbol_refuted :
  forall inexact_value inexact_text,
  (exists bytes, write inexact_text (Sym (codes "1")) = Some bytes /\
     fst (read inexact_value inexact_text 10 0 (stream_of bytes)) = Datum (Num (Small 1))) /\
  (exists bytes, write inexact_text (Sym (codes ".")) = Some bytes /\
     fst (read inexact_value inexact_text 10 0 (stream_of bytes)) = Dot).
Proof. intros iv it. split; eexists; split; reflexivity. Qed.
Print Assumptions C38_symbol_refuted.

(** Writing a string with a character above U+00FF passes the code point to
    std::isprint, which is undefined. *)
Theorem C38_string_refuted :
  forall inexact_text cs c, In c cs -> 255 < c -> write inexact_text (Str cs) = None.
Proof.
  intros it cs c I H. cbn [write]. unfold write_string. assert (puts cs = None) as ->; [|reflexivity].
  induction cs as [|a cs IH]; [destruct I|]. cbn [puts]. destruct I as [->|I].
  - unfold put, isprint. replace ((-1 <=? c) && (c <=? 255)) with false by lia. reflexivity.
  - rewrite (IH I). destruct (put a); reflexivity.
Qed.
Print Assumptions C38_string_refuted.

Example C38_ex :
  write (fun _ => []) (Pair (Sym (codes "a b")) (Pair (Vec [Num (Small (-7)); Str [34; 10; 255]]) (Chr 32)))
    = Some (codes "(#""a b"" #(-7 ""\""\xA;\xFF;"") . #\space)") /\
  read_text (codes "(#""a b"" #(-7 ""\""\xA;\xFF;"") . #\space)")
    = Datum (Pair (Sym (codes "a b")) (Pair (Vec [Num (Small (-7)); Str [34; 10; 255]]) (Chr 32))).
Proof. split; reflexivity. Qed.
Example C38_ex_readable : readable (fun _ _ => None)
  (Pair (Sym (text (codes "a b"))) (Pair (Vec [Num (Small (-7)); Str [34; 10; 255]]) (Chr 32))).
Proof.
  apply Rd_pair; [|apply Rd_pair].
  - apply Rd_sym. right. right. split; [apply Exists_exists; exists 32; cbn; lia|]. lit. repeat constructor; lia.
  - apply Rd_vec. constructor; [apply Rd_num; cbn; lia|]. constructor; [apply Rd_str; repeat constructor; lia|constructor].
  - apply Rd_chr. right. unfold codepoint. lia.
Qed.

(** * C39 — comments and white space do not affect what is read *)

(** Whatever is read after white space, line comments, nested block comments and
    datum comments is what would be read without them: a datum, an error, a closing
    parenthesis.  The flag tells that the gap ends with a token, which must then be
    followed by a delimiter. *)
Theorem C39_gap :
  forall inexact_value inexact_text flag g, gap inexact_value flag g ->
  forall rest s, Forall codepoint rest -> (flag = true -> ended rest) -> holds s (g ++ rest) ->
  exists s', holds s' rest /\
    forall r s'', (exists n, forall fuel, (n <= fuel)%nat -> read inexact_value inexact_text fuel 0 s' = (r, s'')) ->
                  (exists n, forall fuel, (n <= fuel)%nat -> read inexact_value inexact_text fuel 0 s = (r, s'')).
Proof. intros iv it flag g G. exact (proj2 (proj2 (grammar_reads iv it)) flag g G). Qed.
Print Assumptions C39_gap.

(** Full statement: inserting comments or white space between tokens does not change
    the datum.  Proved: every representation of a datum is read as that datum,
    with any gaps after opening parentheses, between elements, around the dot, before
    closing parentheses, and after the quotation marks of abbreviations.  The grammar
    leaves out two places where the statement is false, see below: a gap after the
    comma of unquote, and a closing parenthesis in a comment after the last datum of
    a dotted list. *)
Theorem C39_representations_partial :
  forall inexact_value inexact_text flag x d, rep inexact_value flag x d ->
  forall rest s, Forall codepoint rest -> (flag = true -> ended rest) -> holds s (x ++ rest) ->
  exists s', holds s' rest /\
    exists n, forall fuel, (n <= fuel)%nat -> read inexact_value inexact_text fuel 0 s = (Datum d, s').
Proof. intros iv it flag x d R. exact (proj1 (grammar_reads iv it) flag x d R). Qed.
Print Assumptions C39_representations_partial.

(** Two texts of one datum read the same. *)
Theorem C39_same_datum_partial :
  forall inexact_value inexact_text f1 f2 x y d, rep inexact_value f1 x d -> rep inexact_value f2 y d ->
  exists n, forall fuel, (n <= fuel)%nat ->
    fst (read inexact_value inexact_text fuel 0 (stream_of (text x))) = Datum d /\
    fst (read inexact_value inexact_text fuel 0 (stream_of (text y))) = Datum d.
Proof.
  intros iv it f1 f2 x y d Rx Ry.
  assert (G : forall b z, rep iv b z d -> exists n, forall fuel, (n <= fuel)%nat -> fst (read iv it fuel 0 (stream_of (text z))) = Datum d).
  { intros b z R. destruct (proj1 (grammar_reads iv it) b z d R [] (stream_of (text z))) as (s' & _ & n & K);
      [constructor|intros _; exact I|left; exists []; rewrite app_nil_r; reflexivity|].
    exists n. intros f L. rewrite K by exact L. reflexivity. }
  destruct (G f1 x Rx) as (n & K). destruct (G f2 y Ry) as (m & M). exists (n + m)%nat. intros f L. split; [apply K|apply M]; lia.
Qed.
Print Assumptions C39_same_datum_partial.

(** Block comments nest to any depth. *)
Fixpoint nested (n : nat) : list Z :=
  match n with O => codes " | # " | S n => codes " #|" ++ nested n ++ codes "|# # " end.
Theorem C39_nested_blocks :
  forall inexact_value n, gap inexact_value false (codes "#|" ++ (nested n ++ codes "|#") ++ []).
Proof.
  intros iv n. apply G_block; [|constructor].
  assert (S : forall c r, codepoint c -> block r -> c <> 0x23 -> c <> 0x7C -> block (c :: r)) by (intros; apply B_char; auto; lia).
  assert (G : forall k r, block r -> block (nested k ++ r)).
  { clear n. induction k as [|k IH]; intros r B; cbn [nested]; lit.
    - apply S; [unfold codepoint; lia| |lia|lia]. apply B_char; [unfold codepoint; lia| |cbn; lia|cbn; lia].
      apply S; [unfold codepoint; lia| |lia|lia]. apply B_char; [unfold codepoint; lia| |cbn; lia|cbn; lia].
      apply S; [unfold codepoint; lia|exact B|lia|lia].
    - apply S; [unfold codepoint; lia| |lia|lia]. rewrite <- app_assoc. cbn [app].
      replace (35 :: 124 :: nested k ++ 124 :: 35 :: 32 :: 35 :: 32 :: r)
        with (codes "#|" ++ (nested k ++ codes "|#") ++ 32 :: 35 :: 32 :: r) by (lit; rewrite <- app_assoc; reflexivity).
      apply B_nested; [apply IH; constructor|].
      apply S; [unfold codepoint; lia| |lia|lia]. apply B_char; [unfold codepoint; lia| |cbn; lia|cbn; lia].
      apply S; [unfold codepoint; lia|exact B|lia|lia]. }
  apply G. constructor.
Qed.
Print Assumptions C39_nested_blocks.

(** A white space after the comma of unquote makes the reader loop for ever: the
    space is given to the recursive call as its first character, which skips it and
    starts over with it. *)
Theorem C39_unquote_space_refuted :
  forall inexact_value inexact_text fuel,
  fst (read inexact_value inexact_text fuel 0 (stream_of (codes ", x"))) = No_more_fuel.
Proof.
  intros iv it fuel. assert (L : forall f s, usable s = true -> read iv it f 32 s = (No_more_fuel, s)).
  { induction f as [|f IH]; intros s U; [reflexivity|]. cbn [read]. rewrite U. exact (IH s U). }
  destruct fuel as [|f]; [reflexivity|]. change (read iv it (S f) 0 (stream_of (codes ", x"))) with
    (abbreviation (read iv it f) (codes "unquote") 32 (Stream [120] [32; 44] false false false)).
  unfold abbreviation. rewrite L by reflexivity. reflexivity.
Qed.
Print Assumptions C39_unquote_space_refuted.

(** After the last datum of a dotted list everything up to the next closing
    parenthesis is dropped, even in a comment; what follows it is left in the port. *)
Theorem C39_dotted_comment_refuted :
  forall inexact_value inexact_text,
  let '(r, s) := read inexact_value inexact_text 20 0 (stream_of (codes "(a . b #| ) |#)")) in
  r = Datum (Pair (Sym (codes "a")) (Sym (codes "b"))) /\ ahead s = codes " |#)" /\
  fst (read inexact_value inexact_text 20 0 (stream_of (codes "(a . b #| |#)"))) = r.
Proof. intros iv it. vm_compute. repeat split. Qed.
Print Assumptions C39_dotted_comment_refuted.

Example C39_ex : read_text (codes "( 1 #| a #| b |# ; c |# #;(x ""y"") 2 . #|(|# ;)
 3 )") = read_text (codes "(1 2 . 3)").
Proof. reflexivity. Qed.

(** * C54 — successive reads return the data of a text in order, then the end *)

(** Full statement: from a port on a text of data, successive reads return the data
    in order and then the end-of-file object, again and again.  Proved for texts that
    end with a white space, up to the first end-of-file object; false otherwise. *)
Theorem C54_data_in_order_partial :
  forall inexact_value inexact_text t ds, file inexact_value t ds ->
  exists n, forall fuel, (n <= fuel)%nat ->
    read_all inexact_value inexact_text (S (length ds)) fuel (stream_of (text t)) = map Datum ds ++ [Datum End].
Proof. intros iv it t ds F. apply (file_reads iv it t ds F). left. exists []. reflexivity. Qed.
Print Assumptions C54_data_in_order_partial.

(** Data written one to a line read back as they were. *)
Theorem C54_lines :
  forall inexact_value inexact_text ds, Forall (readable inexact_value) ds ->
  exists bytes, write_lines inexact_text ds = Some bytes /\
    exists n, forall fuel, (n <= fuel)%nat ->
      read_all inexact_value inexact_text (S (length ds)) fuel (stream_of bytes) = map Datum (map plain ds) ++ [Datum End].
Proof. exact lines_read. Qed.
Print Assumptions C54_lines.

(** When the last token is not followed by anything, reading it sees the end of the
    text and leaves the port in a failed state: the next read is an error instead of
    the end-of-file object.  So is the read after a comment that ends the text, and
    every read after the first end-of-file object. *)
Theorem C54_end_refuted :
  forall inexact_value inexact_text fuel, (3 <= fuel)%nat ->
  read_all inexact_value inexact_text 2 fuel (stream_of (codes "abc")) = [Datum (Sym (codes "abc")); Failed] /\
  read_all inexact_value inexact_text 1 fuel (stream_of (codes "; abc")) = [Failed] /\
  (let '(r, s) := read inexact_value inexact_text fuel 0 (stream_of []) in
   r = Datum End /\ fst (read inexact_value inexact_text fuel 0 s) = Failed).
Proof.
  intros iv it [|[|[|f]]] L; try lia. split; [vm_compute; reflexivity|]. split; [vm_compute; reflexivity|]. vm_compute. split; reflexivity.
Qed.
Print Assumptions C54_end_refuted.

Example C54_ex : read_all (fun _ _ => None) (fun _ => []) 3 20 (stream_of (codes "a (b) ")) =
  [Datum (Sym (codes "a")); Datum (Pair (Sym (codes "b")) Nil); Datum End].
Proof. reflexivity. Qed.

(** * C55 — integer literals are exact *)

(** Full statement: a sequence of decimal digits, with or without a sign, reads as
    the exact integer it denotes.  Proved for the decimal form of every integer; a
    plus sign makes the literal inexact, see below. *)
Theorem C55_integers_partial :
  forall inexact_value z,
  make_number inexact_value (int_text 10 z) 10 = Exact (if is_int32 z then Small z else Large z).
Proof. exact integer_literal. Qed.
Print Assumptions C55_integers_partial.

(** +5 is read as 5.0: neither std::from_chars nor mpq_set_str accepts a plus sign, so
    the literal is taken for a decimal. *)
Theorem C55_plus_refuted :
  forall inexact_value z x, 0 <= z ->
  make_number inexact_value (codes "+" ++ int_text 10 z) 10 <> Exact x.
Proof.
  intros iv z x H. unfold int_text. replace (z <? 0) with false by lia. change (codes "+") with [43]. cbn [app].
  rewrite plus_inexact by exact H. unfold inexact. destruct (iv _ _); discriminate.
Qed.
Print Assumptions C55_plus_refuted.
Example C55_ex : read_text (codes "-12345678901") = Datum (Num (Large (-12345678901))) /\ read_text (codes "+5") = Datum (Inexact 0).
Proof. split; reflexivity. Qed.
