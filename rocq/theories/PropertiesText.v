(** Properties C16, C17 and C49: UTF-8 and reading from textual ports. *)
From Coq Require Import ZArith List Bool Lia.
From Verif Require Import TextPort TextPortProofs.
Import ListNotations.
Open Scope Z_scope.

(** * C16 — UTF-8 output followed by UTF-8 input is the identity *)

(** The encoder writes exactly the bytes of RFC 3629. *)
Theorem C16_encoder_is_rfc3629 :
  forall c, 0 < c <= 0x10FFFF -> utf8 c = rfc3629 c.
Proof. exact utf8_is_rfc. Qed.
Print Assumptions C16_encoder_is_rfc3629.

(** Full statement: for every sequence of scalar values, NUL included.  Missing:
    NUL, for which the statement is refuted below. *)
Theorem C16_round_trip_partial :
  forall cs n, Forall (fun c => scalar_value c /\ c <> 0) cs -> (length cs < n)%nat ->
  read_all n (stream_of (string_utf8 cs)) = cs.
Proof.
  intros cs n H Hn.
  assert (F : Forall codepoint cs).
  { eapply Forall_impl; [|exact H]. unfold scalar_value, codepoint. intros. cbn in *. lia. }
  rewrite string_utf8_text by exact F. exact (read_all_text cs [] n F Hn).
Qed.
Print Assumptions C16_round_trip_partial.

(** Reading one character consumes exactly its bytes *)
Theorem C16_read_consumes_partial :
  forall c before after, codepoint c ->
  take_character (at_ before (utf8 c ++ after)) = (Char c, at_ (rev (utf8 c) ++ before) after).
Proof. intros c bh r H. rewrite utf8_is_rfc by exact H. exact (take_utf8 c bh r H). Qed.
Print Assumptions C16_read_consumes_partial.

(** peek-char sees the character read-char would take and leaves the port as it was *)
Theorem C16_peek_changes_nothing_partial :
  forall c before after, codepoint c ->
  peek_character (at_ before (utf8 c ++ after)) = (Char c, at_ before (utf8 c ++ after)).
Proof. intros c bh r H. rewrite utf8_is_rfc by exact H. exact (peek_utf8 c bh r H). Qed.
Print Assumptions C16_peek_changes_nothing_partial.

Example C16_example :
  read_all 9 (stream_of (string_utf8 [65; 0xE9; 0x3042; 0x1F600; 10])) = [65; 0xE9; 0x3042; 0x1F600; 10].
Proof. reflexivity. Qed.
Example C16_example_bytes : string_utf8 [0x1F600] = [0xF0; 0x9F; 0x98; 0x80].
Proof. reflexivity. Qed.

(** NUL is a scalar value, but it is written as no byte at all, and peek-char
    removes it from a port. *)
Theorem C16_nul_refuted :
  scalar_value 0 /\
  read_all 2 (stream_of (string_utf8 [0])) = [] /\
  exists s, peek_character (stream_of [0; 65]) = (Char 0, s) /\ fst (take_character s) = Char 65.
Proof. split; [left; lia|]. split; [reflexivity|]. eexists. split; reflexivity. Qed.
Print Assumptions C16_nul_refuted.

(** * C17 — reads deliver the port's characters in order *)

(** Full statement: for every history of reads, including read-line anywhere.
    Missing: read-line on a line that has no newline, or is not ASCII, or at the end
    of the port; those are refuted below. *)
Theorem C17_reads_follow_the_text_partial :
  forall ops cs, Forall (fun c => 0 < c <= 0x10FFFF) cs -> allowed ops cs ->
  fst (run_ops ops (stream_of (text cs))) = fst (spec_ops ops cs).
Proof.
  intros ops cs Hcs Ha.
  destruct (ops_hold ops (stream_of (text cs)) cs Hcs (or_introl (ex_intro _ [] eq_refl)) Ha) as (s & -> & _).
  reflexivity.
Qed.
Print Assumptions C17_reads_follow_the_text_partial.

(** What was delivered, with the newlines put back, followed by what is still there
    is the text of the port. *)
Theorem C17_nothing_is_lost_partial :
  forall ops cs, Forall (fun c => 0 < c <= 0x10FFFF) cs -> allowed ops cs ->
  exists s rest, run_ops ops (stream_of (text cs)) = (fst (spec_ops ops cs), s) /\ holds s rest /\
    all_delivered ops (fst (run_ops ops (stream_of (text cs)))) ++ rest = cs.
Proof.
  intros ops cs Hcs Ha.
  destruct (ops_hold ops (stream_of (text cs)) cs Hcs (or_introl (ex_intro _ [] eq_refl)) Ha) as (s & E & H).
  exists s, (snd (spec_ops ops cs)). split; [exact E|]. split; [exact H|]. rewrite E. exact (spec_delivers ops cs Ha).
Qed.
Print Assumptions C17_nothing_is_lost_partial.

Example C17_example :
  let cs := [97; 10; 0x3042; 98; 99; 10; 100] in
  let ops := [Peek_char; Read_line; Read_char; Read_line; Read_string 5; Peek_char; Read_char] in
  Forall (fun c => 0 < c <= 0x10FFFF) cs /\ allowed ops cs /\
  fst (run_ops ops (stream_of (text cs)))
  = [A_char 97; A_string [97]; A_char 0x3042; A_string [98; 99]; A_string [100]; Eof_object; Eof_object].
Proof.
  cbv zeta. split; [repeat constructor; lia|]. split; [|reflexivity].
  cbn. split; [exact I|]. split.
  { exists [97], [0x3042; 98; 99; 10; 100]. repeat split; [repeat constructor; lia|cbn; lia]. }
  split; [exact I|]. split; [|tauto].
  exists [98; 99], [100]. repeat split; [repeat constructor; lia|cbn; lia].
Qed.

(** A last line without a newline is dropped: read-line answers the eof object. *)
Theorem C17_last_line_refuted :
  fst (run_ops [Read_line; Read_char] (stream_of [97; 98])) = [Eof_object; Eof_object] /\
  fst (spec_ops [Read_line; Read_char] [97; 98]) = [A_string [97; 98]; Eof_object].
Proof. split; reflexivity. Qed.
Print Assumptions C17_last_line_refuted.

(** A line with characters above 0x7F is mangled (U+3042 comes back as "B") or is an
    error (U+0080). *)
Theorem C17_non_ascii_line_refuted :
  fst (run_ops [Read_line] (stream_of (text [0x3042; 10]))) = [A_string [66]] /\
  fst (run_ops [Read_line] (stream_of (text [0x80; 10]))) = [An_error].
Proof. split; reflexivity. Qed.
Print Assumptions C17_non_ascii_line_refuted.

(** After peek-char has seen the end of the port, read-line answers "" for ever,
    never the eof object, so a loop over read-line does not end. *)
Theorem C17_read_line_after_peek_refuted :
  forall n, fst (run_ops (Peek_char :: repeat Read_line n) (stream_of []))
            = Eof_object :: repeat (A_string []) n.
Proof.
  intros n. cbn [run_ops]. change (run_op Peek_char (stream_of [])) with (Eof_object, Stream [] [] false true false).
  cbv beta iota.
  assert (H : run_ops (repeat Read_line n) (Stream [] [] false true false)
              = (repeat (A_string []) n, Stream [] [] false true false)).
  { induction n as [|n IH]; [reflexivity|]. cbn [repeat run_ops].
    change (run_op Read_line (Stream [] [] false true false)) with (A_string [], Stream [] [] false true false).
    cbv beta iota. rewrite IH. reflexivity. }
  rewrite H. reflexivity.
Qed.
Print Assumptions C17_read_line_after_peek_refuted.

(** * C49 — reading terminates on every byte sequence, and malformed UTF-8 is rejected *)

(** No read loops, whatever bytes the port holds and whatever state it is in. *)
Theorem C49_reads_terminate :
  forall op s, fst (run_op op s) <> No_fuel.
Proof. exact run_op_fuel. Qed.
Print Assumptions C49_reads_terminate.

(** Every character read consumes a byte, ends the stream, or is an error. *)
Theorem C49_progress :
  forall s c s', usable s = true -> take_character s = (Char c, s') ->
  c = eof \/ (length (ahead s') < length (ahead s))%nat.
Proof. exact take_eof_or_shorter. Qed.
Print Assumptions C49_progress.

(** Full statement: every sequence that is not the RFC 3629 form of a code point is
    an error.  Missing: only the lead byte is checked, see below. *)
Theorem C49_bad_lead_byte_partial :
  forall before b after, 0x80 <= b < 0xC2 \/ 0xF5 <= b < 0x100 ->
  take_character (at_ before (b :: after)) = (ReadError, at_ before (b :: after)).
Proof. exact bad_lead. Qed.
Print Assumptions C49_bad_lead_byte_partial.

(** The overlong form E0 80 AF is read as "/", a truncated sequence as a made-up
    character, and an ASCII character after a lead byte is swallowed. *)
Theorem C49_malformed_accepted_refuted :
  fst (take_character (stream_of [0xE0; 0x80; 0xAF])) = Char 47 /\
  fst (take_character (stream_of [0xE3])) = Char 0x3FFF /\
  (exists s, take_character (stream_of [0xC3; 40; 41]) = (Char 0xE8, s) /\ ahead s = [41]).
Proof. split; [reflexivity|]. split; [reflexivity|]. eexists. split; reflexivity. Qed.
Print Assumptions C49_malformed_accepted_refuted.

Example C49_example : fst (run_op Read_line (stream_of [0xFF; 0xE3; 10])) = An_error.
Proof. reflexivity. Qed.
