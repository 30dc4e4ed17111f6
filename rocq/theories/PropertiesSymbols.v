(** Property C37: symbols are interned. *)
From Coq Require Import String ZArith List Bool Lia.
From Verif Require Import TextPort TextPortProofs Symbols.
Import ListNotations.
Open Scope Z_scope.

(** * C37 — symbols are interned: same name iff same object *)

(** Full statement: in every history, string->symbol returns the same object exactly
    for equal strings, and symbol->string inverts it.  Proved for strings of the
    characters U+0001 to U+10FFFF.  Missing: U+0000, for which it is false. *)
Theorem C37_interning_partial :
  forall ops i j cs ds a b, let rs := fst (run_ops ops empty_world) in
  nth_error ops i = Some (String_to_symbol cs) -> nth_error rs i = Some (Some a) ->
  nth_error ops j = Some (String_to_symbol ds) -> nth_error rs j = Some (Some b) ->
  Forall codepoint cs -> Forall codepoint ds -> (a = b <-> cs = ds).
Proof.
  intros ops. pose proof (intern_history ops) as H. destruct (run_ops ops empty_world) as [rs w]. exact (proj1 H).
Qed.
Print Assumptions C37_interning_partial.

(** Whatever happens afterwards, symbol->string returns the string it was made from. *)
Theorem C37_inverse_partial :
  forall ops i cs a, let '(rs, w) := run_ops ops empty_world in
  nth_error ops i = Some (String_to_symbol cs) -> nth_error rs i = Some (Some a) ->
  Forall codepoint cs -> symbol_to_string a w = Some (A_string cs).
Proof.
  intros ops i cs a. pose proof (intern_history ops) as H. destruct (run_ops ops empty_world) as [rs w]. exact (proj1 (proj2 H) i cs a).
Qed.
Print Assumptions C37_inverse_partial.

(** A symbol that is read is the symbol made from its name. *)
Theorem C37_read_symbols :
  forall ops i j cs bytes a b, let rs := fst (run_ops ops empty_world) in
  nth_error ops i = Some (String_to_symbol cs) -> nth_error rs i = Some (Some a) ->
  nth_error ops j = Some (Read_token bytes) -> nth_error rs j = Some (Some b) ->
  (a = b <-> string_utf8 cs = bytes).
Proof.
  intros ops. pose proof (intern_history ops) as H. destruct (run_ops ops empty_world) as [rs w]. exact (proj2 (proj2 H)).
Qed.
Print Assumptions C37_read_symbols.

(** Every request is answered. *)
Theorem C37_answered :
  forall ops i cs, nth_error ops i = Some (String_to_symbol cs) ->
  exists a, nth_error (fst (run_ops ops empty_world)) i = Some (Some a).
Proof. intros ops i cs E. apply (run_ops_length ops empty_world i _ E). discriminate. Qed.
Print Assumptions C37_answered.

(** The character U+0000 vanishes from a name: the UTF-8 form of a character is built
    from a zero-terminated array. *)
Theorem C37_nul_refuted :
  forall w, string_to_symbol [97; 0; 98] w = string_to_symbol [97; 98] w /\
  (forall a w', string_to_symbol [0] empty_world = (a, w') -> symbol_to_string a w' = Some (A_string [])).
Proof. intros w. split; [reflexivity|]. intros a w' E. injection E as <- <-. reflexivity. Qed.
Print Assumptions C37_nul_refuted.

Example C37_ex :
  fst (run_ops [String_to_symbol [97]; Allocate; String_to_symbol [0xE9]; Read_token [0xC3; 0xA9]; String_to_symbol [97]] empty_world)
    = [Some 0%nat; None; Some 2%nat; Some 2%nat; Some 0%nat].
Proof. reflexivity. Qed.
