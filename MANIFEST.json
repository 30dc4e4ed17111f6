{
 "claims": [
  {
   "property": "C01",
   "status": "proved",
   "theorems": [
    "C01_store_then_load",
    "C01_eq_iff_same_value",
    "C01_get_is_pointer"
   ],
   "note": "bit-level model of nan_boxing_pointer"
  },
  {
   "property": "C02",
   "status": "proved",
   "theorems": [
    "C02_membership_and_iteration",
    "C02_lower_bound_and_predecessor",
    "C02_iterator_stability"
   ],
   "note": "three-level radix tree refined to a finite ordered set of 8-aligned 47-bit addresses; holds for every value of the word past the occupancy array"
  },
  {
   "property": "C03",
   "status": "partial",
   "theorems": [
    "C03_refuted",
    "C03_mutators_partial"
   ],
   "note": "refuted: begin() on a never-used set and ++ past an address with bits 19..34 set read occupancy[Q]; proved for mutators and contains"
  },
  {
   "property": "C04",
   "status": "proved",
   "theorems": [
    "C04_allocation_is_fresh",
    "C04_live_chunks_distinct",
    "C04_reuse_lifo",
    "C04_new_block_only_when_full"
   ],
   "note": "free list of block_allocator"
  },
  {
   "property": "C05",
   "status": "proved",
   "theorems": [
    "C05_reachable_kept",
    "C05_no_dangling"
   ],
   "note": "mark and sweep over cells, data and the pointer sets, with the pointer-set model underneath"
  },
  {
   "property": "C06",
   "status": "partial",
   "theorems": [
    "C06_refuted",
    "C06_self_vector_refuted",
    "C06_second_collection_refuted",
    "C06_exact_partial",
    "C06_conservative_partial"
   ],
   "note": "refuted for vectors: cells in std::vector buffers act as roots, so a vector containing itself is never freed and a second collection may free more; proved for heaps without such cells"
  },
  {
   "property": "C07",
   "status": "proved",
   "theorems": [
    "C07_registry_exact"
   ],
   "note": ""
  },
  {
   "property": "C08",
   "status": "proved",
   "theorems": [
    "C08_add",
    "C08_sub",
    "C08_mul",
    "C08_integral_results",
    "C08_nary"
   ],
   "note": "GMP trusted for mpz/mpq arithmetic; binary and n-ary procedures"
  },
  {
   "property": "C09",
   "status": "partial",
   "theorems": [
    "C09_value",
    "C09_nary",
    "C09_refuted",
    "C09_integer_partial"
   ],
   "note": "value proved for all operands; refuted for two small integers, whose quotient is always a ratio object (6/3 is not an integer object); integer results proved for every other pair"
  },
  {
   "property": "C10",
   "status": "partial",
   "theorems": [
    "C10_remainder",
    "C10_modulo",
    "C10_refuted",
    "C10_quotient_partial"
   ],
   "note": "remainder and modulo proved; quotient refuted for |n/d| >= 2^53 (it goes through double) and proved below that and for divisible operands"
  },
  {
   "property": "C100",
   "status": "partial",
   "theorems": [
    "C100_simple_partial",
    "C100_dotted_refuted",
    "C100_closing_refuted"
   ],
   "note": "lists that end with () only; C100_dotted_refuted: the loop takes the cdr of the tail of a dotted list, which is undefined for immediate values; C100_closing_refuted: one parenthesis too many for other objects"
  },
  {
   "property": "C101",
   "status": "proved",
   "theorems": [
    "C101_shared",
    "C101_every",
    "C101_plain"
   ],
   "note": "for every heap whose references are valid"
  },
  {
   "property": "C102",
   "status": "proved",
   "theorems": [
    "C102_let_values",
    "C102_let_star_values",
    "C102_receive",
    "C102_rec"
   ],
   "note": "the rules are read from the library text and compiled and run by the model of syntax-rules; what the forms in expansions mean (lambda, let, letrec, call-with-values, begin) is stated in MacrosSpec.v, any meaning of the program's own expressions; an alias is an identifier of its own (C58)"
  },
  {
   "property": "C103",
   "status": "proved",
   "theorems": [
    "C103_define_record_type"
   ],
   "note": "the rules are read from the library text and compiled and run by the model of syntax-rules; the meaning of define, begin and of calls of the procedures of srfi-9 is stated in RecordMacros.v"
  },
  {
   "property": "C104",
   "status": "proved",
   "theorems": [
    "C104_define_values",
    "C104_too_many"
   ],
   "note": "the rules are read from the library text and compiled and run by the model of syntax-rules; the meaning of the definitions in the expansion (set-cdr! and set! included) is stated in DefineValues.v; too many values are dropped with no variables or several (C104_too_many)"
  },
  {
   "property": "C105",
   "status": "proved",
   "theorems": [
    "C105_guard",
    "C105_one_meaning"
   ],
   "note": "the rules of guard and guard-aux are read from the library text and compiled and run by the model of syntax-rules; the meaning of the core forms and procedures in the expansion (call-with-current-continuation, with-exception-handler, call-with-values) is stated in Guard.v over arbitrary continuations and dynamic environments (C42, C40 are about these procedures); C105_one_meaning uses functional extensionality"
  },
  {
   "property": "C106",
   "status": "proved",
   "theorems": [
    "C106_case_lambda"
   ],
   "note": "the rules are read from the library text and compiled and run by the model of syntax-rules; so are the rules of the local macro, which are part of the expansion; the meaning of lambda, let, letrec-syntax, if, apply, length and error in the expansion is stated in CaseLambda.v"
  },
  {
   "property": "C107",
   "status": "partial",
   "theorems": [
    "C107_delay_force",
    "C107_delay",
    "C107_parameterize",
    "C107_letrec_star_partial",
    "C107_let",
    "C107_named_let_partial",
    "C107_compiled",
    "C107_letrec_star_refuted",
    "C107_letrec_star_whole_refuted"
   ],
   "note": "C107_delay, C107_delay_force, C107_parameterize, C107_let, C107_named_let_partial, C107_letrec_star_partial: the rules in any scope; C107_compiled: the expander compiles programs so (by C58). In the named let the inits are in the scope of the name, too. letrec* for bodies without definitions of their own; refuted: the definitions of the body are variables of the scope of the inits (C107_letrec_star_refuted, C107_letrec_star_whole_refuted)"
  },
  {
   "property": "C108",
   "status": "partial",
   "theorems": [
    "C108_operators_partial",
    "C108_unique",
    "C108_procedures",
    "C108_unary",
    "C108_exact_operand_refuted",
    "C108_negative_zero_refuted",
    "C108_no_arguments"
   ],
   "note": "C108_operators_partial, C108_procedures, C108_unary: sums, differences, products and quotients are rounded correctly, infinities and NaN included, for operands that are inexact or representable; C108_unique: rounding determines the result. Refuted: an exact operand that is not representable is truncated first (C108_exact_operand_refuted), (- 0.0) and the sum of negative zeros are positive zero (C108_negative_zero_refuted)"
  },
  {
   "property": "C109",
   "status": "partial",
   "theorems": [
    "C109_integer_fraction",
    "C109_integer_fraction_infinite",
    "C109_exponent",
    "C109_exponent_special",
    "C109_normalized_fraction",
    "C109_sign",
    "C109_normalized",
    "C109_make_flonum",
    "C109_adjacent",
    "C109_constants",
    "C109_least_refuted",
    "C109_least_normalized",
    "C109_nan",
    "C109_fraction_special"
   ],
   "note": "Proved for all flonums: C109_integer_fraction, C109_exponent, C109_normalized_fraction, C109_sign, C109_normalized, C109_make_flonum, C109_adjacent (with infinities), C109_constants. Refuted: fl-least is not the smallest positive flonum (C109_least_refuted), only the smallest normalised one (C109_least_normalized)"
  },
  {
   "property": "C11",
   "status": "partial",
   "theorems": [
    "C11_integers",
    "C11_refuted",
    "C11_truncate_partial",
    "C11_floor_ceiling_partial",
    "C11_round_partial"
   ],
   "note": "all four refuted (round sends ties away from zero; magnitudes above 2^53 lose digits; ceiling of a tiny ratio is 0; 2^1024 crashes); proved on the stated ranges"
  },
  {
   "property": "C110",
   "status": "partial",
   "theorems": [
    "C110_max",
    "C110_min",
    "C110_max_nan_refuted",
    "C110_unordered",
    "C110_differences",
    "C110_posdiff_nan_refuted",
    "C110_remquo",
    "C110_remquo_special",
    "C110_quotient_partial",
    "C110_quotient_refuted",
    "C110_hypot_refuted",
    "C110_hypot_partial",
    "C110_sqrt_refuted",
    "C110_cbrt_refuted"
   ],
   "note": "Proved: C110_max, C110_min, C110_unordered, C110_differences, C110_remquo and C110_remquo_special; C110_quotient_partial: the rounded quotient, truncated. Refuted: flquotient of large integers (C110_quotient_refuted), flmax of NaN (C110_max_nan_refuted), flposdiff of NaN (C110_posdiff_nan_refuted), flhypot overflows (C110_hypot_refuted), flsqrt of a negative number is imaginary (C110_sqrt_refuted), flcbrt of one is NaN, if pow is as in C (C110_cbrt_refuted)"
  },
  {
   "property": "C111",
   "status": "partial",
   "theorems": [
    "C111_inexact",
    "C111_special",
    "C111_small",
    "C111_ratio_partial",
    "C111_unique",
    "C111_ratio_refuted",
    "C111_squares"
   ],
   "note": "Proved: C111_inexact, C111_special, C111_small, C111_squares; C111_unique: the specification leaves one result only. C111_ratio_partial: for ratios that are flonums; refuted for others (C111_ratio_refuted: 1/7 is truncated to a flonum first) and for large integers (C82_large_refuted). Of std::sqrt it is assumed that it is SFsqrt of the standard library, of which the rounding is proved (FlonumSqrt.v)"
  },
  {
   "property": "C112",
   "status": "partial",
   "theorems": [
    "C112_decimal_partial",
    "C112_out_of_range",
    "C112_small_refuted",
    "C112_marker_refuted",
    "C112_reader"
   ],
   "note": "C112_decimal_partial: every literal below the limit of the flonums that denotes a flonum or is at least 2^-1022 - 2^-1076. C112_out_of_range: the others are refused, which C112_small_refuted shows to be wrong for 1e-320. C112_marker_refuted: the exponent after d is left out, and +5 is inexact. C112_reader: the reader of C38 reads the same texts as exact, inexact and not numbers. Literals with the marker f (binary32) are left out. Of strtod it is assumed that it rounds correctly and sets ERANGE as glibc does"
  },
  {
   "property": "C113",
   "status": "partial",
   "theorems": [
    "C113_read_back_partial",
    "C113_integer_refuted",
    "C113_small_refuted",
    "C113_special",
    "C113_number_to_string",
    "C113_number_to_string_refuted",
    "C113_shortest"
   ],
   "note": "C113_read_back_partial: every flonum from 2^-1022 on that is not an integer below 10^6 is read as itself, C113_special: infinities and NaN as well. C113_shortest: no decimal number of fewer digits is rounded to the flonum. Refuted for integers below 10^6, which are written without a point and read as exact (C113_integer_refuted), for subnormal numbers, which are refused by the reader (C113_small_refuted), and for number->string of infinities and NaN (C113_number_to_string_refuted). Of std::to_chars it is assumed that it gives the shortest digits that are read as the flonum, in the general format"
  },
  {
   "property": "C114",
   "status": "partial",
   "theorems": [
    "C114_fixnum",
    "C114_unary",
    "C114_carry",
    "C114_results_refuted",
    "C114_sqrt_refuted"
   ],
   "note": "The numbers are right: C114_carry, for all fixnums and for every std::pow that is exact for 2^32; C114_fixnum, C114_unary. Refuted: what the carry procedures return is never a fixnum by fixnum? (C114_results_refuted: large integers are not made small again); fxsqrt of 2 is a flonum (C114_sqrt_refuted). Shifts: C48; bits: C12"
  },
  {
   "property": "C115",
   "status": "partial",
   "theorems": [
    "C115_disjoint",
    "C115_recognised",
    "C115_immediate",
    "C115_ports",
    "C115_errors",
    "C115_conversion_partial",
    "C115_conversion_refuted",
    "C115_equal_partial",
    "C115_equal_refuted"
   ],
   "note": "C115_disjoint, C115_recognised, C115_immediate, C115_ports, C115_errors; C115_conversion_partial: conversions to classes other than pair are checked. Refuted: conversions to double, small_integer, float and bool are not checked, and the address of any word is followed for pairs (C115_conversion_refuted: (flabs 1) is a NaN); boolean=? and symbol=? look at two arguments only (C115_equal_refuted). Records are vectors: C44_disjoint_refuted"
  },
  {
   "property": "C116",
   "status": "proved",
   "theorems": [
    "C116_read",
    "C116_alike",
    "C116_write_read",
    "C116_unshared",
    "C116_isomorphic",
    "C116_undeclared",
    "C116_twice",
    "C116_chain",
    "C116_only"
   ],
   "note": "from the tokens on; texts whose labels are on pairs, vectors and atoms on the heap; empty vectors, which write/ss writes again for each reference, are left out of the statements about sharing"
  },
  {
   "property": "C117",
   "status": "partial",
   "theorems": [
    "C117_display_partial",
    "C117_nested_string_refuted",
    "C117_nested_char_refuted",
    "C117_symbol_refuted",
    "C117_nul_refuted"
   ],
   "note": "proved for strings and characters by themselves and for data without strings, characters and symbols that need escapes (C117_display_partial); refuted: a string or character inside of a list is written as by write, a symbol with special characters is escaped, NUL is not written"
  },
  {
   "property": "C118",
   "status": "proved",
   "theorems": [
    "C118_map",
    "C118_for_each",
    "C118_for_each_dotted",
    "C118_sequence_map",
    "C118_sequence_for_each"
   ],
   "note": "procedures that change existing objects are left out; list->string's demand for characters is not modelled"
  },
  {
   "property": "C119",
   "status": "partial",
   "theorems": [
    "C119_error",
    "C119_handler",
    "C119_handler_system",
    "C119_uncaught",
    "C119_irritants_partial",
    "C119_irritants_refuted",
    "C119_irritants_places",
    "C119_report_partial",
    "C119_report_error",
    "C119_report_refuted",
    "C119_report_not_applicable_refuted",
    "C119_report_exits",
    "C119_written",
    "C119_kinds",
    "C119_places"
   ],
   "note": "violated twice: the irritants of many errors of the implementation are not a list but the object itself (not applicable, failed to remove file, ...), and a report leaves out irritants that are fixnums, booleans, characters or flonums (uncaught (raise 42) is reported as 'uncaught exception'), because what() asks whether the irritants are a pointer; an error whose message is not a string ends the process instead of a report"
  },
  {
   "property": "C12",
   "status": "partial",
   "theorems": [
    "C12_logic",
    "C12_nary",
    "C12_shift_partial",
    "C12_count",
    "C12_width_partial",
    "C12_refuted",
    "C12_srfi151_logic",
    "C12_srfi151_eqv",
    "C12_srfi151_if",
    "C12_srfi151_bits",
    "C12_srfi151_any_bit_set",
    "C12_srfi151_swap",
    "C12_srfi151_field_partial",
    "C12_srfi151_replace",
    "C12_srfi151_first_set_bit",
    "C12_srfi151_lists",
    "C12_srfi151_fold",
    "C12_srfi151_for_each",
    "C12_srfi151_unfold",
    "C12_srfi151_generator",
    "C12_srfi151_vectors"
   ],
   "note": "logic, counting, and all SRFI 151 procedures proved by the bits of their results (also for-each, unfold and generators); refuted: right shift of a small integer by 64 or more is undefined, shift counts wrap modulo 2^32, the large integer -1 has width 1, rotation of an empty field divides by zero"
  },
  {
   "property": "C120",
   "status": "proved",
   "theorems": [
    "C120_history",
    "C120_once",
    "C120_report",
    "C120_shown",
    "C120_shown_first"
   ],
   "note": "programs as trees of uses of the library; escapes back into a check are left out; check-ec is not provided by the library"
  },
  {
   "property": "C121",
   "status": "partial",
   "theorems": [
    "C121_runs",
    "C121_restored",
    "C121_closed",
    "C121_opening_partial",
    "C121_open_output_refuted",
    "C121_open_input_refuted",
    "C121_open_unreadable_refuted",
    "C121_assigned_refuted"
   ],
   "note": "C121_runs and C121_restored hold for all programs over the library; refuted: a file that cannot be written or read gives a port that is not open instead of an error (C121_open_output_refuted, C121_open_unreadable_refuted), a missing file gives an error that is not a file error (C121_open_input_refuted), with-output-to-file closes another port if the thunk assigned the parameter (C121_assigned_refuted); escapes back into a body are left out"
  },
  {
   "property": "C122",
   "status": "partial",
   "theorems": [
    "C122_literal",
    "C122_other",
    "C122_polar",
    "C122_round_trip_partial",
    "C122_real",
    "C122_positive_refuted",
    "C122_ratio_refuted",
    "C122_exponent_refuted"
   ],
   "note": "C122_round_trip_partial: negative imaginary parts; for every positive exact imaginary part the statement is false (C122_positive_refuted: the imaginary part becomes a flonum, C122_ratio_refuted: the text is a symbol); C122_exponent_refuted: 1+2e-5i is a symbol; float parts and the value of polar literals are left out"
  },
  {
   "property": "C123",
   "status": "partial",
   "theorems": [
    "C123_exports",
    "C123_bound_partial",
    "C123_unbound_refuted",
    "C123_together_partial",
    "C123_together_refuted",
    "C123_separate_partial",
    "C123_separate_refuted",
    "C123_modifiers",
    "C123_renamed"
   ],
   "note": "C123_unbound_refuted: interaction-environment of (scheme r5rs) is not bound; C123_together_refuted: (scheme r5rs) with (scheme read), (scheme write) or (scheme repl), (scheme lazy) twice, (scheme base) with (scheme r4rs) and (scheme box) with (srfi 111) raise an error; C123_separate_refuted: (scheme base) assigns five procedures of (scheme r4rs); proved for everything else"
  },
  {
   "property": "C124",
   "status": "partial",
   "theorems": [
    "C124_bound_partial",
    "C124_load_refuted",
    "C124_exit_refuted",
    "C124_error_refuted"
   ],
   "note": "C124_load_refuted: (load filename) calls %interaction-environment, which (scheme r4rs) does not import; C124_exit_refuted: exit uses letrec, which (meevax continuation) does not import; C124_error_refuted: error is not bound in (srfi 9) and (srfi 149). C124_bound_partial is about all other names; the table of free names was extracted from the source, see FreeVariables.v for its simplifications."
  },
  {
   "property": "C125",
   "status": "partial",
   "theorems": [
    "C125_accessors",
    "C125_cons_star",
    "C125_cons_star_refuted",
    "C125_not_copied",
    "C125_fresh_refuted",
    "C125_cons_star_none",
    "C125_xcons"
   ],
   "note": "C125_cons_star_refuted: cons* changes the list of its arguments, which is the list given to apply; C125_fresh_refuted: a rest parameter and list share the list given to apply (C125_not_copied proves it for all states). The accessors and the value of cons* are proved in full; undefined behaviour on objects that are not pairs is left to C22."
  },
  {
   "property": "C126",
   "status": "partial",
   "theorems": [
    "C126_variables",
    "C126_variable",
    "C126_agree",
    "C126_agree_refuted",
    "C126_zero_byte_refuted",
    "C126_equals_refuted"
   ],
   "note": "The contents of the list, the value returned and the agreement are proved for environments that give no name two values and for names that are not empty and without zero byte and equals sign. C126_agree_refuted: with two entries for one name the procedures disagree; C126_zero_byte_refuted: a name is cut at a zero byte; C126_equals_refuted: a name with an equals sign finds a value that the list does not have. std::getenv is modelled after glibc."
  },
  {
   "property": "C127",
   "status": "partial",
   "theorems": [
    "C127_bound",
    "C127_exports_partial",
    "C127_exports_refuted",
    "C127_session",
    "C127_hides",
    "C127_together",
    "C127_same",
    "C127_separate",
    "C127_only_partial",
    "C127_only_refuted"
   ],
   "note": "C127_exports_refuted: (scheme division) lacks floor/, truncate/ and their quotients and remainders, which SRFI 141 lists. The rest is proved: C127_bound, C127_session, C127_together, C127_same, C127_separate, C127_hides. C127_only_refuted: srfi-16.ss picks error out of (scheme r5rs), which does not export it (it is imported from (srfi 23) too). The list of the names of (scheme flonum) is not compared with SRFI 144."
  },
  {
   "property": "C13",
   "status": "proved",
   "theorems": [
    "C13_binary",
    "C13_nary"
   ],
   "note": "binary and n-ary procedures"
  },
  {
   "property": "C14",
   "status": "partial",
   "theorems": [
    "C14_truncate_partial",
    "C14_floor_partial",
    "C14_ceiling_partial",
    "C14_euclidean_partial",
    "C14_round_partial",
    "C14_balanced_partial",
    "C14_refuted",
    "C14_balanced_wide_partial",
    "C14_euclidean_wide_partial",
    "C14_floor_wide_partial"
   ],
   "note": "refuted outside 52-bit operands (floor of a double) and for round/ on ties; proved on the stated ranges. C14_balanced_wide_partial, C14_euclidean_wide_partial and C14_floor_wide_partial: numbers of any size with a quotient below 2^52, for balanced/ without any other condition"
  },
  {
   "property": "C15",
   "status": "partial",
   "theorems": [
    "C15_refuted",
    "C15_roundtrip_partial"
   ],
   "note": "proved for all integers and radices except INT32_MIN in radix 2, where the 33-byte buffer has no room for the terminator"
  },
  {
   "property": "C16",
   "status": "partial",
   "theorems": [
    "C16_encoder_is_rfc3629",
    "C16_round_trip_partial",
    "C16_read_consumes_partial",
    "C16_peek_changes_nothing_partial",
    "C16_nul_refuted"
   ],
   "note": "proved for every sequence of code points other than NUL; refuted for NUL, which is written as nothing and dropped by peek-char"
  },
  {
   "property": "C17",
   "status": "partial",
   "theorems": [
    "C17_reads_follow_the_text_partial",
    "C17_nothing_is_lost_partial",
    "C17_last_line_refuted",
    "C17_non_ascii_line_refuted",
    "C17_read_line_after_peek_refuted"
   ],
   "note": "proved for all histories of read-char, peek-char, read-string, and read-line on newline-terminated ASCII lines; refuted for an unterminated last line, non-ASCII lines, and read-line after peek-char saw the end"
  },
  {
   "property": "C18",
   "status": "partial",
   "theorems": [
    "C18_comparison_partial",
    "C18_trichotomy",
    "C18_transitive",
    "C18_ci_less",
    "C18_characters",
    "C18_ci_refuted"
   ],
   "note": "string=? ... string>=?, character comparisons and string-ci<? proved; the other four string-ci procedures refuted for every folding table"
  },
  {
   "property": "C19",
   "status": "partial",
   "theorems": [
    "C19_ranges_partial",
    "C19_range_is_unique",
    "C19_append",
    "C19_fill_partial",
    "C19_invalid_range_refuted",
    "C19_ignored_arguments_refuted"
   ],
   "note": "proved for valid ranges; refuted: invalid ranges are undefined behaviour, string->vector and string->utf8 ignore ranges, bytevector-append ignores its third argument, string-length truncates to 32 bits"
  },
  {
   "property": "C20",
   "status": "partial",
   "theorems": [
    "C20_string_copy",
    "C20_vector_copy_partial",
    "C20_overlap_refuted"
   ],
   "note": "string-copy! proved for all overlaps (libstdc++ memmove); vector-copy! and bytevector-copy! proved unless start < at < end in the same object, where they are refuted"
  },
  {
   "property": "C21",
   "status": "partial",
   "theorems": [
    "C21_valid_index_reads_partial",
    "C21_valid_index_writes_partial",
    "C21_string_ref_rejects",
    "C21_homogeneous_store_partial",
    "C21_list_to_homogeneous_partial",
    "C21_elements_stay_in_range",
    "C21_unchecked_index_refuted",
    "C21_truncation_refuted"
   ],
   "note": "valid accesses proved; refuted: vector-ref, vector-set!, u8vector-ref are unchecked, large indices are truncated modulo 2^64, stored bytes modulo 256"
  },
  {
   "property": "C22",
   "status": "proved",
   "theorems": [
    "C22_predicates_decide"
   ],
   "note": "all heaps, arbitrary sharing and cycles; fuel above the number of heap objects always suffices"
  },
  {
   "property": "C23",
   "status": "partial",
   "theorems": [
    "C23_make_list",
    "C23_iota",
    "C23_list_copy",
    "C23_append",
    "C23_append_all",
    "C23_reverse",
    "C23_append_reverse",
    "C23_map",
    "C23_filter",
    "C23_alist_copy",
    "C23_take_partial",
    "C23_drop_partial",
    "C23_take_right_partial",
    "C23_drop_right_partial",
    "C23_list_ref_partial",
    "C23_drop_past_end_refuted",
    "C23_take_past_end_refuted",
    "C23_last",
    "C23_length_partial",
    "C23_length_circular_refuted",
    "C23_length_dotted_refuted"
   ],
   "note": "proved for proper (and where meaningful dotted) lists in arbitrary heaps; refuted: counts past the end are undefined behaviour, length counts dotted lists and loops on circular ones"
  },
  {
   "property": "C24",
   "status": "proved",
   "theorems": [
    "C24_append_x",
    "C24_reverse_x",
    "C24_append_reverse_x",
    "C24_take_x",
    "C24_drop_right_x",
    "C24_circulate",
    "C24_circular_list"
   ],
   "note": "append!, reverse!, append-reverse!, take!, drop-right!, circulate, circular-list"
  },
  {
   "property": "C25",
   "status": "proved",
   "theorems": [
    "C25_mem",
    "C25_ass"
   ],
   "note": "memq/memv/assq/assv over an arbitrary equivalence test; association lists whose entries have a car"
  },
  {
   "property": "C26",
   "status": "partial",
   "theorems": [
    "C26_equal_partial",
    "C26_equal_vectors_partial",
    "C26_lengths_refuted"
   ],
   "note": "proved for all pair graphs over atoms, and for vectors not on a cycle; refuted for homogeneous vectors of different lengths (undefined behaviour)"
  },
  {
   "property": "C27",
   "status": "partial",
   "theorems": [
    "C27_eq_eqv",
    "C27_eqv_equal",
    "C27_eq_identity",
    "C27_eqv_equivalence_partial",
    "C27_equal_equivalence",
    "C27_strings_refuted",
    "C27_boxes_refuted",
    "C27_vectors_refuted"
   ],
   "note": "implications and equivalence proved; refuted: eqv? identifies distinct strings, vectors and boxes of equal content"
  },
  {
   "property": "C28",
   "status": "proved",
   "theorems": [
    "C28_compiler_correct"
   ],
   "note": "for the core language (no call/cc, no dotted calls, no macros) over ten primitive procedures; evaluation order right to left, which R7RS allows"
  },
  {
   "property": "C29",
   "status": "partial",
   "theorems": [
    "C29_supplied_partial",
    "C29_preserved_partial",
    "C29_call_returns",
    "C29_callcc_refuted"
   ],
   "note": "no underflow for every form in an environment without call-with-current-continuation!, with any well-formed closures and continuations in the heap; refuted for call-with-current-continuation! outside tail position"
  },
  {
   "property": "C30",
   "status": "proved",
   "theorems": [
    "C30_tail_call",
    "C30_tail_position",
    "C30_space",
    "C30_loop",
    "C30_forever"
   ],
   "note": "tail call instruction, tail position, space bound for all terminating evaluations, iteration of any length, and a diverging loop"
  },
  {
   "property": "C31",
   "status": "proved",
   "theorems": [
    "C31_lexical_address"
   ],
   "note": "all stacks of formals and all environments with accepted argument counts"
  },
  {
   "property": "C32",
   "status": "partial",
   "theorems": [
    "C32_assignment_partial",
    "C32_local_partial",
    "C32_apply_refuted"
   ],
   "note": "top-level assignment in any program, local and rest variables in all states that represent a store; refuted when an argument list is shared through a dotted call (apply)"
  },
  {
   "property": "C33",
   "status": "partial",
   "theorems": [
    "C33_resume",
    "C33_capture",
    "C33_reentry_refuted"
   ],
   "note": "machine-level resumption proved for all histories; refuted: arguments already evaluated are shared between returns"
  },
  {
   "property": "C34",
   "status": "partial",
   "theorems": [
    "C34_globals_map_partial",
    "C34_unbound_refuted",
    "C34_assign_unbound_refuted"
   ],
   "note": "finite-map behaviour and forward references proved; refuted: an unbound identifier is not reported"
  },
  {
   "property": "C35",
   "status": "partial",
   "theorems": [
    "C35_import_sets_partial",
    "C35_import_partial",
    "C35_import_again_partial",
    "C35_sharing_refuted",
    "C35_twice_refuted",
    "C35_prefix_refuted"
   ],
   "note": "names and values for every nesting; sharing for bindings that are not renamed; refuted: renamed, prefixed and export-renamed bindings are copies, importing such a set twice into a library is refused, a prefix is put before the written form of a name; loading libraries from files is not modelled"
  },
  {
   "property": "C36",
   "status": "proved",
   "theorems": [
    "C36_requirements",
    "C36_first_clause"
   ],
   "note": "all requirements and clause lists over readable library names; libraries are those defined so far"
  },
  {
   "property": "C37",
   "status": "partial",
   "theorems": [
    "C37_interning_partial",
    "C37_inverse_partial",
    "C37_read_symbols",
    "C37_answered",
    "C37_nul_refuted"
   ],
   "note": "all histories and all strings without U+0000; refuted for U+0000, which vanishes from names"
  },
  {
   "property": "C38",
   "status": "partial",
   "theorems": [
    "C38_round_trip_partial",
    "C38_same_datum",
    "C38_identifiers",
    "C38_symbol_refuted",
    "C38_string_refuted"
   ],
   "note": "all finite data except strings and delimited symbols with a character above U+00FF (undefined behaviour, refuted) and symbols whose name is a number or a point (refuted); inexact numbers are not part of the statement; numbers come back in the form the reader makes"
  },
  {
   "property": "C39",
   "status": "partial",
   "theorems": [
    "C39_gap",
    "C39_representations_partial",
    "C39_same_datum_partial",
    "C39_nested_blocks",
    "C39_unquote_space_refuted",
    "C39_dotted_comment_refuted"
   ],
   "note": "every representation of every datum with any gaps; refuted after the comma of unquote and for a closing parenthesis in a comment after the last datum of a dotted list"
  },
  {
   "property": "C40",
   "status": "partial",
   "theorems": [
    "C40_call_cc",
    "C40_order_partial",
    "C40_order_refuted",
    "C40_parted",
    "C40_where",
    "C40_dynamic_wind",
    "C40_program_refuted"
   ],
   "note": "the compiled library text, for any program around it that keeps an invariant; order proved when as many extents are left as entered or nothing is common, refuted for all other pairs; after thunks run inside their extent on escapes; thunks may escape themselves and continuations may be entered again"
  },
  {
   "property": "C41",
   "status": "proved",
   "theorems": [
    "C41_make",
    "C41_make_plain",
    "C41_get",
    "C41_value",
    "C41_set",
    "C41_parameterize",
    "C41_body",
    "C41_bracketed",
    "C41_bracketed_other",
    "C41_transfer"
   ],
   "note": "make-parameter, the parameter procedures and dynamic-bind on the compiled library text, for any program around it that keeps an invariant; procedures may escape and be entered again; the rewriting of parameterize to dynamic-bind is not modelled; a body may assign cells that are not in its frame only"
  },
  {
   "property": "C42",
   "status": "partial",
   "theorems": [
    "C42_with",
    "C42_raise",
    "C42_raise_continuable",
    "C42_no_handler",
    "C42_throw",
    "C42_kernel_error",
    "C42_guarded",
    "C42_transfer",
    "C42_secondary_refuted",
    "C42_prompt_refuted",
    "C42_prompt_binding_refuted"
   ],
   "note": "with-exception-handler, raise and raise-continuable on the compiled library text, for any program around it; errors of the machine; transfers of control; refuted: the secondary exception of a returning handler (the outer handlers are not called), the handlers after an exception that nobody handles at the prompt; guard is C105; handlers that are not procedures are not covered"
  },
  {
   "property": "C43",
   "status": "partial",
   "theorems": [
    "C43_new",
    "C43_predicate",
    "C43_done",
    "C43_round",
    "C43_taken",
    "C43_keeps",
    "C43_force",
    "C43_shared_refuted",
    "C43_once_refuted"
   ],
   "note": "promise, promise? and force on the compiled library text, for any program around it, with any number of promises that thunks may make, force and update; the expansion of delay and lazy is C107; refuted: delay-force does not share the result with the promise it delegates to, whose body runs again when it is forced itself"
  },
  {
   "property": "C44",
   "status": "partial",
   "theorems": [
    "C44_history_partial",
    "C44_predicate_partial",
    "C44_last_partial",
    "C44_disjoint_refuted",
    "C44_forged_refuted"
   ],
   "note": "srfi-9 in Gallina, vector by vector: constructors, predicates, accessors and modifiers of any number of types and instances agree with an abstract specification over all histories that do not use the vector procedures on records (C44_history_partial, C44_predicate_partial, C44_last_partial); the macro define-record-type is C103; refuted: every instance is a vector (C44_disjoint_refuted), and a vector with the first two elements of an instance passes for one (C44_forged_refuted)"
  },
  {
   "property": "C45",
   "status": "partial",
   "theorems": [
    "C45_gcd",
    "C45_lcm_partial",
    "C45_refuted",
    "C45_max_min",
    "C45_parity",
    "C45_abs",
    "C45_exact_integer_sqrt"
   ],
   "note": "refuted for (lcm 0 0), one-argument gcd/lcm of a negative number and exact-integer-sqrt of a negative number; the rest proved"
  },
  {
   "property": "C46",
   "status": "partial",
   "theorems": [
    "C46_refuted"
   ],
   "note": "refuted for every dividend: GMP or the processor ends the process"
  },
  {
   "property": "C47",
   "status": "partial",
   "theorems": [
    "C47_refuted",
    "C47_ratio_literal_partial"
   ],
   "note": "refuted: number->string of a ratio is TODO, 4/2 reads as a ratio object, 1/0 ends the process, +5 is not exact, blanks inside literals are skipped; the value of n/d literals is proved"
  },
  {
   "property": "C48",
   "status": "partial",
   "theorems": [
    "C48_refuted",
    "C48_shift_left_partial"
   ],
   "note": "refuted: fxarithmetic-shift-right is the plain left shift"
  },
  {
   "property": "C49",
   "status": "partial",
   "theorems": [
    "C49_reads_terminate",
    "C49_progress",
    "C49_bad_lead_byte_partial",
    "C49_malformed_accepted_refuted"
   ],
   "note": "termination and progress proved; rejection refuted beyond the lead byte"
  },
  {
   "property": "C50",
   "status": "partial",
   "theorems": [
    "C50_round_trip_partial",
    "C50_empty_string_refuted"
   ],
   "note": "proved for non-empty strings without NUL; refuted for the empty string (eof object)"
  },
  {
   "property": "C51",
   "status": "partial",
   "theorems": [
    "C51_car_cdr_partial",
    "C51_no_error_refuted"
   ],
   "note": "pairs proved; refuted for everything else"
  },
  {
   "property": "C52",
   "status": "partial",
   "theorems": [
    "C52_cyclic_vectors_refuted"
   ],
   "note": "refuted for vectors containing themselves; the terminating cases are C26"
  },
  {
   "property": "C53",
   "status": "partial",
   "theorems": [
    "C53_surplus_refuted",
    "C53_missing_refuted"
   ],
   "note": "refuted: surplus arguments are ignored, missing arguments are undefined behaviour"
  },
  {
   "property": "C54",
   "status": "partial",
   "theorems": [
    "C54_data_in_order_partial",
    "C54_lines",
    "C54_end_refuted"
   ],
   "note": "texts that end with white space, up to the first end-of-file object; refuted otherwise"
  },
  {
   "property": "C55",
   "status": "partial",
   "theorems": [
    "C55_integers_partial",
    "C55_plus_refuted"
   ],
   "note": "decimal form of every integer; refuted for a plus sign"
  },
  {
   "property": "C56",
   "status": "proved",
   "theorems": [
    "C56_map",
    "C56_rows"
   ],
   "note": "on the compiled library text; f may change the state of the program, escape and be entered again"
  },
  {
   "property": "C57",
   "status": "proved",
   "theorems": [
    "C57_apply"
   ],
   "note": "on the compiled library text; without leading arguments f receives the list itself, see C32_apply_refuted"
  },
  {
   "property": "C58",
   "status": "partial",
   "theorems": [
    "C58_scope_partial",
    "C58_shadowed_refuted",
    "C58_or_refuted",
    "C58_letrec_refuted",
    "C58_keyword_refuted",
    "C58_definition_refuted",
    "C58_definition_macro_refuted",
    "C58_introduced_refuted",
    "C58_scope_refuted"
   ],
   "note": "C58_scope_partial: for all programs, internal definitions included, without let-syntax, call/cc!, current, install, quote-syntax, and within the premises marked careful in ExpanderSpec.v (which leave out internal definitions of a name bound outside or of the name of a macro, and macros that stand for definitions); er macros only. Refuted in general (C58_scope_refuted), with one theorem per defect: (and x) and (or #f x) with a doubly bound x take the outer x; letrec of a name bound outside takes the global; doubly bound names of syntax; internal definitions of a name bound outside or of the name of a macro"
  },
  {
   "property": "C59",
   "status": "partial",
   "theorems": [
    "C59_capture_refuted",
    "C59_undefined_refuted",
    "C59_reference_partial"
   ],
   "note": "C59_reference_partial: holds inside any nesting of lambda expressions when the variable exists where the macro is defined and no variable has the name of a macro or syntax. Refuted when the variable is defined after the macro, because the macro keeps a snapshot of the environment: a local variable captures the reference (C59_capture_refuted), or the expander never ends (C59_undefined_refuted)"
  },
  {
   "property": "C60",
   "status": "partial",
   "theorems": [
    "C60_inserted_refuted",
    "C60_program_partial",
    "C60_symbol_partial"
   ],
   "note": "holds for data of the program (C60_program_partial, and inside other forms as part of C58) and for a symbol that a macro quotes (C60_symbol_partial); refuted for lists that a macro quotes (C60_inserted_refuted): the list keeps its syntactic closures"
  },
  {
   "property": "C61",
   "status": "partial",
   "theorems": [
    "C61_rules_partial",
    "C61_literal_refuted",
    "C61_escape_refuted",
    "C61_ellipses_refuted",
    "C61_blank_refuted"
   ],
   "note": "C61_rules_partial: for all rules in which no literal is followed by an ellipsis, no variable occurs twice in a pattern, and whose templates have no (... ...), no _ and several ellipses only after an identifier. Refuted outside: C61_literal_refuted (a literal before an ellipsis matches anything), C61_escape_refuted ((... x) is not filled in), C61_ellipses_refuted (((x y) ... ...) copies the wrong parts), C61_blank_refuted (_ of a template is taken for a variable)"
  },
  {
   "property": "C62",
   "status": "partial",
   "theorems": [
    "C62_accepted_partial"
   ],
   "note": "C62_accepted_partial: both directions and termination, within the same restrictions"
  },
  {
   "property": "C63",
   "status": "proved",
   "theorems": [
    "C63_quasiquote"
   ],
   "note": "C63_quasiquote: for templates in which quasiquote, unquote and unquote-splicing occur only where the grammar of R7RS 4.2.8 has them; the expander calls the transformer again for the quasiquotes which remain (C58)"
  },
  {
   "property": "C64",
   "status": "proved",
   "theorems": [
    "C64_cond",
    "C64_case",
    "C64_and",
    "C64_or",
    "C64_when"
   ],
   "note": "C64_cond, C64_case, C64_and, C64_or, C64_when (when and unless); both directions, with the effects. The renamed identifiers of the expansions are taken to mean the procedures and forms they name (C58, C59)"
  },
  {
   "property": "C65",
   "status": "partial",
   "theorems": [
    "C65_let",
    "C65_let_star",
    "C65_do",
    "C65_named_let_partial",
    "C65_named_let_refuted"
   ],
   "note": "C65_let, C65_let_star, C65_do hold in both directions. C65_named_let_partial: when the inits do not mention the name; C65_named_let_refuted: the inits of a named let are evaluated in the scope of the name"
  },
  {
   "property": "C66",
   "status": "partial",
   "theorems": [
    "C66_rationalize_partial",
    "C66_rationalize_refuted",
    "C66_rationalize_unique"
   ],
   "note": "C66_rationalize_partial: for all x and e but those whose interval has 0 inside and reaches 1, where C66_rationalize_refuted shows that the value is wrong for every such x and e ((rationalize 1 3/2) is 2, not 0): the code tests the sign of the lower end twice. C66_rationalize_unique: the simplest number is unique when 0 is not in the interval"
  },
  {
   "property": "C67",
   "status": "partial",
   "theorems": [
    "C67_filter_partial",
    "C67_delete_partial",
    "C67_duplicates",
    "C67_while_partial",
    "C67_split",
    "C67_destructive_partial"
   ],
   "note": "C67_filter_partial, C67_delete_partial, C67_while_partial, C67_destructive_partial: for predicates that do not alter or allocate pairs; C67_duplicates and C67_split have no such gap but that the predicate of the former has no effect"
  },
  {
   "property": "C68",
   "status": "partial",
   "theorems": [
    "C68_search_partial",
    "C68_rows_partial"
   ],
   "note": "C68_search_partial, C68_rows_partial: for predicates that do not alter or allocate pairs"
  },
  {
   "property": "C69",
   "status": "partial",
   "theorems": [
    "C69_fold_partial",
    "C69_reduce_partial",
    "C69_pair_fold_partial",
    "C69_pair_fold_refuted",
    "C69_unfold_partial",
    "C69_map_partial",
    "C69_for_each_partial",
    "C69_unzip2"
   ],
   "note": "for procedures that do not alter or allocate pairs; map! and for-each of several lists are C56 or not proved. C69_pair_fold_refuted: pair-fold of several lists called by apply alters the list it is given, since append! writes to the list of the remaining arguments; otherwise C69_pair_fold_partial holds"
  },
  {
   "property": "C70",
   "status": "proved",
   "theorems": [
    "C70_compare",
    "C70_union",
    "C70_difference"
   ],
   "note": "for x=? without effects which is an equivalence (SRFI 1 asks for an equivalence); the procedures lset-...! are not modelled"
  },
  {
   "property": "C71",
   "status": "partial",
   "theorems": [
    "C71_history_partial",
    "C71_step_partial",
    "C71_file_round_trip",
    "C71_short_read_refuted",
    "C71_ready_refuted",
    "C71_end_of_file_refuted",
    "C71_read_into_refuted",
    "C71_closed_refuted"
   ],
   "note": "C71_history_partial leaves out the histories in which the program departs from R7RS; each departure is refuted: C71_short_read_refuted (read-bytevector of a bytevector port with fewer bytes left gives eof and so loses nothing but delivers nothing), C71_ready_refuted, C71_end_of_file_refuted (peek-u8 gives -1, read-bytevector an empty bytevector at the end of a file), C71_read_into_refuted (read-bytevector! does not return the count), C71_closed_refuted. Also left out: numbers of 2^64 and more, NUL in text, two ports on one file"
  },
  {
   "property": "C72",
   "status": "partial",
   "theorems": [
    "C72_values",
    "C72_call_with_values",
    "C72_end_to_end",
    "C72_continuation_refuted"
   ],
   "note": "C72_continuation_refuted: a continuation made by call/cc takes only the first of several values, so the definition of values given by R7RS 6.10 itself delivers one value to the consumer"
  },
  {
   "property": "C73",
   "status": "partial",
   "theorems": [
    "C73_if_letrec_partial",
    "C73_exit_refuted"
   ],
   "note": "C73_exit_refuted: (meevax continuation) does not import letrec, so that exit is compiled as a call of a variable letrec; its last operand is evaluated first and calls emergency-exit, for all states, before any after thunk. C73_if_letrec_partial: with letrec imported the same text would run the after thunks."
  },
  {
   "property": "C74",
   "status": "proved",
   "theorems": [
    "C74_for_each"
   ],
   "note": "on the compiled code of the library text, with map of C56"
  },
  {
   "property": "C75",
   "status": "partial",
   "theorems": [
    "C75_requests_partial",
    "C75_unknown",
    "C75_missing",
    "C75_status",
    "C75_exit_refuted",
    "C75_equals_refuted",
    "C75_path_refuted"
   ],
   "note": "C75_requests_partial is about argument lists of options with well-formed arguments. C75_exit_refuted: --help and --version do not end the run. C75_equals_refuted: a newline in --name=value makes the word a file to load; an empty value takes the next word. C75_path_refuted: -I . ends the process with an uncaught exception, and a directory with a space is cut at its first word"
  },
  {
   "property": "C76",
   "status": "proved",
   "theorems": [
    "C76_format"
   ],
   "note": ""
  },
  {
   "property": "C77",
   "status": "partial",
   "theorems": [
    "C77_order_partial",
    "C77_equal_partial",
    "C77_reflexive",
    "C77_infinite",
    "C77_same",
    "C77_equal_refuted",
    "C77_ratio_refuted",
    "C77_nan_refuted"
   ],
   "note": "for numbers other than NaN that are not a fraction and a double, and = not of two doubles. C77_equal_refuted: = of doubles is true within epsilon, so it is not transitive. C77_ratio_refuted: fractions are truncated to a double before they are compared. C77_nan_refuted: <= and >= hold of NaN; comparing it with a large integer ends the process"
  },
  {
   "property": "C78",
   "status": "partial",
   "theorems": [
    "C78_exact",
    "C78_inexact_representable",
    "C78_round_trip",
    "C78_inexact_partial",
    "C78_nearest_refuted",
    "C78_crash_refuted"
   ],
   "note": "C78_nearest_refuted: inexact truncates. C78_crash_refuted: exact of an infinity or NaN ends the process"
  },
  {
   "property": "C79",
   "status": "partial",
   "theorems": [
    "C79_classes",
    "C79_integer_partial",
    "C79_finite_partial",
    "C79_integer_refuted",
    "C79_finite_refuted",
    "C79_parity"
   ],
   "note": "C79_integer_refuted: (integer? +inf.0). C79_finite_refuted: (finite? +nan.0)"
  },
  {
   "property": "C80",
   "status": "partial",
   "theorems": [
    "C80_directed",
    "C80_special",
    "C80_round_partial",
    "C80_round_refuted"
   ],
   "note": "C80_round_refuted: round takes the larger of two integers that are equally near"
  },
  {
   "property": "C81",
   "status": "partial",
   "theorems": [
    "C81_remainder_partial",
    "C81_large_refuted",
    "C81_modulo_refuted"
   ],
   "note": "for doubles and small integers. C81_large_refuted: the remainder of a large integer is rounded to the nearest. C81_modulo_refuted: the sum inside modulo is rounded"
  },
  {
   "property": "C82",
   "status": "partial",
   "theorems": [
    "C82_small",
    "C82_negative",
    "C82_large_partial",
    "C82_large_refuted"
   ],
   "note": "C82_large_refuted: sqrt of a large integer that is not a square gives an exact integer, or ends the process"
  },
  {
   "property": "C83",
   "status": "partial",
   "theorems": [
    "C83_expt_partial",
    "C83_digits_refuted",
    "C83_negative_refuted"
   ],
   "note": "for powers below 2^53, under the premise that std::pow is exact where the result is a double. C83_digits_refuted, C83_negative_refuted: greater powers lose digits or end the process, negative exponents give wrong integers"
  },
  {
   "property": "C84",
   "status": "partial",
   "theorems": [
    "C84_abs",
    "C84_magnitude_partial",
    "C84_magnitude_refuted"
   ],
   "note": "C84_magnitude_refuted: magnitude gives a negative number back"
  },
  {
   "property": "C85",
   "status": "partial",
   "theorems": [
    "C85_parts_partial",
    "C85_refuted"
   ],
   "note": "for denominators below 2^1024; C85_refuted: otherwise the denominator is an infinity"
  },
  {
   "property": "C86",
   "status": "proved",
   "theorems": [
    "C86_arithmetic",
    "C86_division",
    "C86_nary",
    "C86_reciprocal",
    "C86_quotient",
    "C86_equal"
   ],
   "note": "parts exact; division by 0 ends the process"
  },
  {
   "property": "C87",
   "status": "partial",
   "theorems": [
    "C87_parts",
    "C87_real",
    "C87_tower_refuted",
    "C87_tower_partial",
    "C87_magnitude",
    "C87_angle_refuted"
   ],
   "note": "C87_tower_refuted: (make-rectangular 1 0) is integer? but not rational?; C87_angle_refuted: the arguments of atan2 are exchanged"
  },
  {
   "property": "C88",
   "status": "partial",
   "theorems": [
    "C88_max_partial",
    "C88_min_partial",
    "C88_nan_refuted"
   ],
   "note": "all numbers but NaN; C88_nan_refuted: with a NaN and a large integer the process ends"
  },
  {
   "property": "C89",
   "status": "proved",
   "theorems": [
    "C89_locate",
    "C89_accepted"
   ],
   "note": "names whose file name part is empty are excluded"
  },
  {
   "property": "C90",
   "status": "proved",
   "theorems": [
    "C90_include",
    "C90_all_or_nothing"
   ],
   "note": "the file system does not change meanwhile; what the evaluator does is a parameter"
  },
  {
   "property": "C91",
   "status": "partial",
   "theorems": [
    "C91_source_partial",
    "C91_sibling_partial",
    "C91_sibling_refuted"
   ],
   "note": "holds if the file was once opened by its canonical path; C91_sibling_refuted: (load \"dir/a.ss\") loses the directory, since input_file_port enters the path it was given and looks up the canonical one"
  },
  {
   "property": "C92",
   "status": "partial",
   "theorems": [
    "C92_body_refuted",
    "C92_body_empty",
    "C92_body_partial"
   ],
   "note": "C92_body_refuted, C92_body_empty: the expander passes the first name instead of the list of names, so that nothing is included"
  },
  {
   "property": "C93",
   "status": "partial",
   "theorems": [
    "C93_declarations",
    "C93_include_declarations",
    "C93_conditional",
    "C93_once",
    "C93_failed_refuted"
   ],
   "note": "C93_failed_refuted: after a failure the next import takes the library for loaded"
  },
  {
   "property": "C94",
   "status": "partial",
   "theorems": [
    "C94_classes",
    "C94_category_partial",
    "C94_category_refuted",
    "C94_ascii_partial",
    "C94_whitespace_refuted",
    "C94_generated"
   ],
   "note": "C94_category_refuted: code points between a First and a Last line of the file (ideographs, Hangul) have no category; C94_whitespace_refuted: tab, newline, return and next line are not whitespace"
  },
  {
   "property": "C95",
   "status": "partial",
   "theorems": [
    "C95_convert",
    "C95_back_partial",
    "C95_compare",
    "C95_fold_refuted"
   ],
   "note": "all but 23 (6) characters come back, exactly listed; C95_fold_refuted: char-foldcase is char-downcase, so that two characters with one upper-case form need not be char-ci=?"
  },
  {
   "property": "C96",
   "status": "partial",
   "theorems": [
    "C96_digit",
    "C96_digit_refuted"
   ],
   "note": "C96_digit_refuted: the generation takes the digit field, not the decimal field, so that a superscript two has a digit value"
  },
  {
   "property": "C97",
   "status": "partial",
   "theorems": [
    "C97_integer",
    "C97_integer_refuted"
   ],
   "note": "C97_integer_refuted: integer->char accepts surrogates, negative numbers and numbers beyond the last scalar value, and wraps bignums modulo 2^32"
  },
  {
   "property": "C98",
   "status": "partial",
   "theorems": [
    "C98_text_partial",
    "C98_text_refuted",
    "C98_ends",
    "C98_fuel",
    "C98_rho_refuted",
    "C98_car_refuted"
   ],
   "note": "the text is right for everything but vectors; C98_text_refuted: in a vector outside of pairs label 1 is declared for each ring; C98_ends is exact; C98_rho_refuted, C98_car_refuted: write never ends for a list that runs into a ring and for cycles through cars or vectors"
  },
  {
   "property": "C99",
   "status": "partial",
   "theorems": [
    "C99_read_partial",
    "C99_car_refuted",
    "C99_vector_refuted",
    "C99_nested_refuted",
    "C99_later_refuted",
    "C99_error_refuted"
   ],
   "note": "labels not nested and used behind a dot only; refuted: a label in a car or vector stays an internal object, nested rings are never read to the end, a label is unknown behind the labelled part, and an error inside leaves it declared"
  }
 ]
}