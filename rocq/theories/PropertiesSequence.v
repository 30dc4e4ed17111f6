(** Properties C18-C21 and C50: strings, vectors and homogeneous vectors. *)
From Coq Require Import ZArith QArith List Bool Lia.
From Verif Require Import Number NumberProofs TextPort TextPortProofs Sequence SequenceProofs.
Import ListNotations.
Open Scope Z_scope.

(** * C18 — string comparison is the lexicographic order *)

(** Full statement: also for the -ci versions.  Missing: of those only string-ci<?
    is right (below); the other four are refuted. *)
Theorem C18_comparison_partial : forall xs,
  (string_eq xs = true <-> chain eq xs) /\
  (string_lt xs = true <-> chain lex_less xs) /\
  (string_gt xs = true <-> chain (fun a b => lex_less b a) xs) /\
  (string_le xs = true <-> chain (fun a b => lex_less a b \/ a = b) xs) /\
  (string_ge xs = true <-> chain (fun a b => lex_less b a \/ a = b) xs).
Proof. exact string_compare_ok. Qed.
Print Assumptions C18_comparison_partial.

Theorem C18_trichotomy : forall a b,
  (lex_less a b /\ a <> b /\ ~ lex_less b a) \/ (~ lex_less a b /\ a = b /\ ~ lex_less b a) \/
  (~ lex_less a b /\ a <> b /\ lex_less b a).
Proof. exact lex_less_trichotomy. Qed.
Print Assumptions C18_trichotomy.

Theorem C18_transitive : forall a b c, lex_less a b -> lex_less b c -> lex_less a c.
Proof. exact lex_less_trans. Qed.
Print Assumptions C18_transitive.

(** string-ci<? is the lexicographic order on the folded code points, whatever the
    folding table says. *)
Theorem C18_ci_less : forall down xs,
  string_ci_lt down xs = true <-> chain (fun a b => lex_less (map down a) (map down b)) xs.
Proof. exact string_ci_lt_ok. Qed.
Print Assumptions C18_ci_less.

(** The character comparisons are the orders on the (folded) code points *)
Theorem C18_characters : forall down xs,
  (char_cmp Z.eqb xs = true <-> chain eq xs) /\ (char_cmp Z.ltb xs = true <-> chain Z.lt xs) /\
  (char_cmp Z.gtb xs = true <-> chain Z.gt xs) /\ (char_cmp Z.leb xs = true <-> chain Z.le xs) /\
  (char_cmp Z.geb xs = true <-> chain Z.ge xs) /\
  (char_ci_cmp Z.eqb down xs = true <-> chain (fun x y => down x = down y) xs) /\
  (char_ci_cmp Z.ltb down xs = true <-> chain (fun x y => down x < down y) xs) /\
  (char_ci_cmp Z.gtb down xs = true <-> chain (fun x y => down x > down y) xs) /\
  (char_ci_cmp Z.leb down xs = true <-> chain (fun x y => down x <= down y) xs) /\
  (char_ci_cmp Z.geb down xs = true <-> chain (fun x y => down x >= down y) xs).
Proof. exact char_compare_ok. Qed.
Print Assumptions C18_characters.

Example C18_example : string_lt [[97]; [97; 98]; [98]] = true /\ lex_less [97; 98] [98].
Proof.
  split; [reflexivity|]. exists []. right. exists 97, 98, [98], []. repeat split; lia.
Qed.

(** With any folding table: "" is not string-ci=? to itself, two strings with equal
    first characters are string-ci=?, "" is not string-ci<=? or string-ci>=? to itself, and
    string-ci>? puts "" after "a". *)
Theorem C18_ci_refuted : forall down,
  string_ci_eq down [[]; []] = false /\
  string_ci_eq down [[97; 98]; [97; 99]] = true /\
  string_ci_le down [[]; []] = false /\ string_ci_ge down [[]; []] = false /\
  string_ci_gt down [[97]; []] = false /\ string_ci_gt down [[]; [97]] = true.
Proof.
  intros down. repeat split; try reflexivity.
  unfold string_ci_eq, string_ci. cbn [adjacent lex]. rewrite Z.eqb_refl. reflexivity.
Qed.
Print Assumptions C18_ci_refuted.

(** * C19 — string and vector procedures agree with list operations *)

(** Full statement: an error for every invalid range as well.  Missing: an invalid
    range is undefined behaviour (refuted below).  seq_copy is string-copy, substring,
    vector-copy and the homogeneous copies; seq_to_list is string->list and
    vector->list; hseq_to_list is u8vector->list and its relatives. *)
Theorem C19_ranges_partial : forall (A : Type) (xs : list A) start stop s e,
  opt_index start 0 s -> opt_index stop (len xs) e -> 0 <= s <= e -> e <= len xs ->
  exists ys, between xs s e ys /\
    seq_copy xs start stop = Ok ys /\ seq_to_list xs start stop = Ok ys /\ hseq_to_list xs start stop = Ok ys.
Proof. exact @copy_ok. Qed.
Print Assumptions C19_ranges_partial.

(** "between" determines the answer *)
Theorem C19_range_is_unique : forall (A : Type) (xs : list A) s e ys zs,
  between xs s e ys -> between xs s e zs -> ys = zs.
Proof. exact @between_unique. Qed.
Print Assumptions C19_range_is_unique.

Theorem C19_append : forall (A : Type) (xss : list (list A)), seq_append xss = concat xss.
Proof. exact @append_ok. Qed.
Print Assumptions C19_append.

(** string-fill! and vector-fill! *)
Theorem C19_fill_partial : forall (A : Type) (xs : list A) (x : A) start stop s e,
  opt_index start 0 s -> opt_index stop (len xs) e -> 0 <= s <= e -> e <= len xs ->
  exists ys, seq_fill xs x start stop = Ok ys /\ length ys = length xs /\
    forall i, (i < length xs)%nat ->
      nth_error ys i = if (s <=? Z.of_nat i) && (Z.of_nat i <? e) then Some x else nth_error xs i.
Proof. exact @fill_ok. Qed.
Print Assumptions C19_fill_partial.

Example C19_example :
  seq_copy [10; 11; 12; 13] (Some (Small 1)) (Some (Large 3)) = Ok [11; 12] /\
  between [10; 11; 12; 13] 1 3 [11; 12] /\
  seq_fill [10; 11; 12; 13] 0 (Some (Small 1)) (Some (Small 3)) = Ok [10; 0; 0; 13].
Proof. split; [reflexivity|]. split; [exists [10], [13]; repeat split|reflexivity]. Qed.

(** Every invalid range is undefined behaviour instead of an error. *)
Theorem C19_invalid_range_refuted : forall (A : Type) (xs : list A) start stop s e,
  opt_index start 0 s -> opt_index stop (len xs) e -> ~ (0 <= s <= e /\ e <= len xs) ->
  seq_copy xs start stop = Crash.
Proof. exact @span_bad. Qed.
Print Assumptions C19_invalid_range_refuted.

(** string->vector and string->utf8 ignore their range, bytevector-append ignores its
    third and later arguments, and (string-length s) is wrong from 2^31 characters on. *)
Theorem C19_ignored_arguments_refuted :
  string_to_vector [97; 98; 99] (Some (Small 1)) (Some (Small 2)) = [97; 98; 99] /\
  string_to_bytes [97; 98; 99] (Some (Small 1)) (Some (Small 2)) = [97; 98; 99] /\
  hseq_append [[1]; [2]; [3]] = Ok [1; 2] /\ hseq_append [[1]] = Raise /\
  (forall (A : Type) (xs : list A), len xs = 2^31 -> seq_length xs = Small (- 2^31)).
Proof. repeat split; try reflexivity. intros A xs H. unfold seq_length. rewrite H. reflexivity. Qed.
Print Assumptions C19_ignored_arguments_refuted.

(** * C20 — copying as if through a temporary *)

(** string-copy! (std::copy on characters is memmove in libstdc++; the C++ standard
    alone would leave overlapping copies undefined) *)
Theorem C20_string_copy : forall (h : @store Z) to k from start stop j s e,
  index_arg k j -> opt_index start 0 s -> opt_index stop (len (h from)) e ->
  0 <= s <= e -> e <= len (h from) -> j + (e - s) <= len (h to) ->
  exists h', string_copy_into h to k from start stop = Ok h' /\
    copied (h to) (h from) (Z.to_nat j) (Z.to_nat s) (Z.to_nat (e - s)) (h' to) /\
    forall o, o <> to -> h' o = h o.
Proof. exact (@string_copy_ok Z). Qed.
Print Assumptions C20_string_copy.

(** vector-copy!, u8vector-copy! and relatives.  Full statement: without the last
    hypothesis.  Missing: the same object with [s < j < e], refuted below. *)
Theorem C20_vector_copy_partial : forall (A : Type) (h : @store A) to k from start stop j s e,
  index_arg k j -> opt_index start 0 s -> opt_index stop (len (h from)) e ->
  0 <= s <= e -> e <= len (h from) -> j + (e - s) <= len (h to) ->
  (to <> from \/ j <= s \/ e <= j) ->
  exists h', vector_copy_into h to k from start stop = Ok h' /\
    copied (h to) (h from) (Z.to_nat j) (Z.to_nat s) (Z.to_nat (e - s)) (h' to) /\
    forall o, o <> to -> h' o = h o.
Proof. exact @vector_copy_ok. Qed.
Print Assumptions C20_vector_copy_partial.

Definition C20_heap : @store Z := fun o => if Nat.eqb o 0 then [1; 2; 3; 4; 5] else [].
Example C20_example :
  match string_copy_into C20_heap 0 (Small 1) 0 None (Some (Small 3)) with Ok h => h 0%nat | _ => [] end
  = [1; 1; 2; 3; 5].
Proof. reflexivity. Qed.
Example C20_example_vector :
  match vector_copy_into C20_heap 0 (Small 0) 0 (Some (Small 2)) None with Ok h => h 0%nat | _ => [] end
  = [3; 4; 5; 4; 5].
Proof. reflexivity. Qed.

(** (vector-copy! v 1 v 0 3) smears the first element. *)
Theorem C20_overlap_refuted :
  (exists h', vector_copy_into C20_heap 0 (Small 1) 0 None (Some (Small 3)) = Ok h' /\ h' 0%nat = [1; 1; 1; 1; 5]) /\
  forall res, copied (C20_heap 0%nat) (C20_heap 0%nat) 1 0 3 res -> res = [1; 1; 2; 3; 5].
Proof.
  split; [eexists; split; reflexivity|].
  intros res [L C]. cbn in L. destruct res as [|a [|b [|c [|d [|e [|]]]]]]; try discriminate L.
  pose proof (C 0%nat) as C0. pose proof (C 1%nat) as C1. pose proof (C 2%nat) as C2.
  pose proof (C 3%nat) as C3. pose proof (C 4%nat) as C4. cbn in C0, C1, C2, C3, C4. congruence.
Qed.
Print Assumptions C20_overlap_refuted.

(** * C21 — element access *)

(** Full statement: also an error for every other index and every value that does not
    fit.  Missing: see the refutations.  seq_ref/seq_set are vector-ref/vector-set!,
    seq_at/seq_set_at are string-ref/string-set!. *)
Theorem C21_valid_index_reads_partial : forall (A : Type) (xs : list A) k z,
  is_int k z -> 0 <= z < len xs -> len xs < 2^64 ->
  exists x, nth_error xs (Z.to_nat z) = Some x /\ seq_ref xs k = Ok x /\ seq_at xs k = Ok x.
Proof. exact @ref_ok. Qed.
Print Assumptions C21_valid_index_reads_partial.

Theorem C21_valid_index_writes_partial : forall (A : Type) (xs : list A) k z x,
  is_int k z -> 0 <= z < len xs -> len xs < 2^64 ->
  exists ys, seq_set xs k x = Ok ys /\ seq_set_at xs k x = Ok ys /\ length ys = length xs /\
    nth_error ys (Z.to_nat z) = Some x /\
    forall i, i <> Z.to_nat z -> nth_error ys i = nth_error xs i.
Proof. exact @set_ok. Qed.
Print Assumptions C21_valid_index_writes_partial.

(** string-ref rejects every fixnum out of range *)
Theorem C21_string_ref_rejects : forall (A : Type) (xs : list A) z,
  is_int32 z = true -> len xs < 2^63 -> ~ (0 <= z < len xs) -> seq_at xs (Small z) = Raise.
Proof. exact @at_rejects. Qed.
Print Assumptions C21_string_ref_rejects.

(** A value that fits the element type is stored and read back unchanged, and the other
    elements keep theirs; this covers all eight integer types. *)
Theorem C21_homogeneous_store_partial : forall t xs k x i z,
  In t elem_types -> is_int k i -> 0 <= i < len xs -> len xs < 2^64 -> is_int x z -> in_range t z ->
  exists ys, h_set t xs k x = Ok ys /\ length ys = length xs /\
    (exists v, h_ref ys k = Ok v /\ is_int v z) /\
    (forall k' i', is_int k' i' -> 0 <= i' < len xs -> i' <> i -> h_ref ys k' = h_ref xs k').
Proof. exact h_set_ref. Qed.
Print Assumptions C21_homogeneous_store_partial.

Theorem C21_list_to_homogeneous_partial : forall t xs zs,
  In t elem_types -> Forall2 (fun x z => is_int x z /\ in_range t z) xs zs -> h_of_list t xs = Ok zs.
Proof. exact h_of_list_ok. Qed.
Print Assumptions C21_list_to_homogeneous_partial.

(** Whatever is stored, the element stays within its type *)
Theorem C21_elements_stay_in_range : forall t x z,
  In t elem_types -> input_cast t x = Ok z -> in_range t z.
Proof. exact input_cast_range. Qed.
Print Assumptions C21_elements_stay_in_range.

Example C21_example :
  seq_ref [7; 8; 9] (Small 2) = Ok 9 /\ h_set (Elem 8 false) [1; 2; 3] (Small 1) (Small 255) = Ok [1; 255; 3]
  /\ h_ref [1; 255; 3] (Small 1) = Ok (Large 255) /\ seq_at [7; 8; 9] (Small (-1)) = Raise.
Proof. repeat split; reflexivity. Qed.

(** Every out-of-range index makes vector-ref and u8vector-ref touch other memory. *)
Theorem C21_unchecked_index_refuted : forall (A : Type) (xs : list A) z,
  is_int32 z = true -> len xs < 2^63 -> ~ (0 <= z < len xs) -> seq_ref xs (Small z) = Crash.
Proof. exact @ref_out_of_range. Qed.
Print Assumptions C21_unchecked_index_refuted.

(** An index of 2^64 is taken for 0, and a large integer -1 for 1, even by string-ref;
    256 is stored as 0 and -1 as 255 — or as 1, if the -1 is a large integer. *)
Theorem C21_truncation_refuted :
  seq_at [97; 98] (Large (2^64)) = Ok 97 /\ seq_at [97; 98] (Large (-1)) = Ok 98 /\
  h_set (Elem 8 false) [0] (Small 0) (Small 256) = Ok [0] /\
  h_set (Elem 8 false) [0] (Small 0) (Small (-1)) = Ok [255] /\
  h_set (Elem 8 false) [0] (Small 0) (Large (-1)) = Ok [1].
Proof. repeat split; reflexivity. Qed.
Print Assumptions C21_truncation_refuted.

(** * C50 — utf8->string undoes string->utf8 *)

(** Full statement: for every string.  Missing: the empty string and strings with NUL. *)
Theorem C50_round_trip_partial : forall cs,
  cs <> [] -> Forall (fun c => 0 < c <= 0x10FFFF) cs -> Z.of_nat (length cs) < 2^64 ->
  bytes_to_string (string_to_bytes cs None None) None None = Ok (A_string cs).
Proof. exact utf8_round_trip. Qed.
Print Assumptions C50_round_trip_partial.

Theorem C50_empty_string_refuted :
  bytes_to_string (string_to_bytes [] None None) None None = Ok Eof_object /\
  string_to_bytes [97; 0; 98] None None = [97; 98].
Proof.
  split; [|reflexivity]. unfold bytes_to_string. cbn [string_to_bytes string_utf8 flat_map].
  change (span [] None None) with (@Ok (nat * nat) (O, O)). cbn [obind fst snd].
  unfold p_get_string. change (peek_character (stream_of (slice [] 0 0))) with (Char eof, Stream [] [] false true false).
  cbv beta iota. reflexivity.
Qed.
Print Assumptions C50_empty_string_refuted.

Example C50_example : string_to_bytes [0x3042; 97] None None = [0xE3; 0x81; 0x82; 97]
  /\ fst (p_get_string 9 (stream_of [0xE3; 0x81; 0x82; 97])) = A_string [0x3042; 97].
Proof. split; reflexivity. Qed.
