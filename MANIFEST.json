{
 "claims": [
  {
   "property": "C01",
   "status": "proved",
   "theorems": [
    "C01_single_index"
   ],
   "note": ""
  },
  {
   "property": "C02",
   "status": "proved",
   "theorems": [
    "C02_positive_step_slice"
   ],
   "note": ""
  },
  {
   "property": "C03",
   "status": "proved",
   "theorems": [
    "C03_negative_step_slice"
   ],
   "note": ""
  },
  {
   "property": "C04",
   "status": "partial",
   "theorems": [
    "C04_range_up_partial",
    "C04_range_down_partial",
    "C04_strict_above_zero_refuted",
    "C04_strict_after_last_refuted"
   ],
   "note": "True for every bound except two: `-1 < irange()` and `0 > irange().by(-k)` select the whole dimension (refuted by witness)."
  },
  {
   "property": "C05",
   "status": "proved",
   "theorems": [
    "C05_broadcast",
    "C05_broadcast_preorder"
   ],
   "note": ""
  },
  {
   "property": "C06",
   "status": "proved",
   "theorems": [
    "C06_axis_perm",
    "C06_c_order_is_reversal",
    "C06_c_order_ties_low_rank"
   ],
   "note": ""
  },
  {
   "property": "C07",
   "status": "partial",
   "theorems": [
    "C07_refuted",
    "C07_actual_behaviour"
   ],
   "note": "Refuted: the code overwrites each stride with the extent (shape_tools.cpp:122-123); C07_actual_behaviour says what it stores."
  },
  {
   "property": "C08",
   "status": "proved",
   "theorems": [
    "C08_permutation",
    "C08_agreeing_operands_sorted",
    "C08_one_operand_sorted",
    "C08_c_order_is_reversal"
   ],
   "note": ""
  },
  {
   "property": "C09",
   "status": "proved",
   "theorems": [
    "C09_append_writes_encoding",
    "C09_round_trip",
    "C09_representable"
   ],
   "note": ""
  },
  {
   "property": "C10",
   "status": "proved",
   "theorems": [
    "C10_utf8_accepts_exactly_wellformed",
    "C10_utf8_rejects_malformed",
    "C10_checked_decoders_exact"
   ],
   "note": ""
  },
  {
   "property": "C11",
   "status": "partial",
   "theorems": [
    "C11_checked_in_bounds_and_progress",
    "C11_noerror_partial",
    "C11_noerror_utf8_no_progress_refuted",
    "C11_noerror_utf16_out_of_bounds_refuted",
    "C11_partial_unit_refuted"
   ],
   "note": "Checked decoders: full. No-error decoders: full except (and refuted exactly at) a UTF-8 byte that cannot start a sequence (no progress) and a UTF-16 lead surrogate in the last unit (read past the end). A buffer ending inside a unit is read past its end by the 16/32-bit decoders."
  },
  {
   "property": "C12",
   "status": "proved",
   "theorems": [
    "C12_transcode_preserves_text",
    "C12_transcode_ascii_utf8_identity",
    "C12_transcode_rejects",
    "C12_transcode_noerror_total",
    "C12_text_unique"
   ],
   "note": ""
  },
  {
   "property": "C13",
   "status": "proved",
   "theorems": [
    "C13_round_trip",
    "C13_invalid_refused"
   ],
   "note": ""
  },
  {
   "property": "C14",
   "status": "partial",
   "theorems": [
    "C14_uint_in_range_exact_partial",
    "C14_uint_returns_only_numbers_partial",
    "C14_uint_nonnumber_throws",
    "C14_uint_overflow_detected_partial",
    "C14_uint_exponent_overflow_detected_partial",
    "C14_uint_overflow_refuted"
   ],
   "note": "Exact for every in-range number and every non-number throws; the overflow test `result < prev_result` misses wraps (uint8 \"300\" -> 44), and \".\"/\"e5\" are accepted as 0 (refuted by witness)."
  },
  {
   "property": "C15",
   "status": "partial",
   "theorems": [
    "C15_int_exact_partial",
    "C15_int_sound_partial",
    "C15_int_overflow_refuted"
   ],
   "note": "Exact whenever the digits denote less than 2^W; beyond that inherits C14's missed wrap (int8 \"-300\" -> -44)."
  },
  {
   "property": "C16",
   "status": "partial",
   "theorems": [
    "C16_store_exact_or_throw_partial",
    "C16_missing_tokens",
    "C16_nonnumber_throws",
    "C16_nocheck_wraps",
    "C16_edges_refuted"
   ],
   "note": "Exact-or-throw for digits below 2^64 except INT64_MIN, which negates int64 min (UB); beyond 2^64 inherits C14's missed wrap."
  },
  {
   "property": "C17",
   "status": "proved",
   "theorems": [
    "C17_json_number_exact",
    "C17_json_number_longest",
    "C17_json_number_fails",
    "C17_json_number_complete",
    "C17_json_number_safe"
   ],
   "note": ""
  },
  {
   "property": "C18",
   "status": "proved",
   "theorems": [
    "C18_name",
    "C18_name_fails",
    "C18_alpha_name",
    "C18_alpha_name_fails",
    "C18_skip_whitespace",
    "C18_skip_required_whitespace",
    "C18_skip_comments",
    "C18_skip_comments_total"
   ],
   "note": ""
  },
  {
   "property": "C19",
   "status": "proved",
   "theorems": [
    "C19_literal",
    "C19_no_match",
    "C19_malformed_throws",
    "C19_unescape",
    "C19_unescape_denotes",
    "C19_unescape_safe"
   ],
   "note": "Scanner exact; unescaping exact; an escape that is not a scalar value (e.g. JSON surrogate pairs) makes unescape_string throw."
  },
  {
   "property": "C20",
   "status": "proved",
   "theorems": [
    "C20_two_digits",
    "C20_four_digits",
    "C20_six_digits",
    "C20_one_or_two_digits"
   ],
   "note": ""
  },
  {
   "property": "C21",
   "status": "proved",
   "theorems": [
    "C21_find",
    "C21_contains",
    "C21_empty_needle"
   ],
   "note": ""
  },
  {
   "property": "C22",
   "status": "partial",
   "theorems": [
    "C22_rfind_partial",
    "C22_one_byte_one_byte",
    "C22_one_byte_refuted",
    "C22_empty"
   ],
   "note": "Exact for needles of two or more bytes (and for a one-byte haystack). The code is wrong for one-byte needles: the loop condition in string_search_1char_reverse is i <= 0, so a haystack of two or more bytes is never searched (C22_one_byte_refuted, all inputs)."
  },
  {
   "property": "C23",
   "status": "partial",
   "theorems": [
    "C23_count_partial",
    "C23_count_empty_needle",
    "C23_adjacent_refuted",
    "C23_overrun_refuted",
    "C23_spec_deterministic"
   ],
   "note": "Exact for needles of at most two bytes or whose last two bytes are equal, never too large for any needle. Code defects proved: after a match the loop falls through to the miss step, so every other needle is counted once in needle++needle (C23_adjacent_refuted); the memchr path passes the full length and reads past the end exactly when reads_beyond holds (C23_overrun_refuted)."
  },
  {
   "property": "C24",
   "status": "partial",
   "theorems": [
    "C24_replace_partial",
    "C24_empty_old",
    "C24_overrun_refuted",
    "C24_adjacent_refuted",
    "C24_spec_deterministic"
   ],
   "note": "In bounds and only occurrences replaced for all needles unless reads_beyond; every occurrence replaced for steady needles. Same two code defects as C23 (C24_adjacent_refuted, C24_overrun_refuted). dst.resize is taken as correct here; its own defect is C27."
  },
  {
   "property": "C25",
   "status": "partial",
   "theorems": [
    "C25_split_partial",
    "C25_empty_needle",
    "C25_overrun_refuted",
    "C25_spec_deterministic"
   ],
   "note": "join of the pieces gives the haystack for every needle unless reads_beyond (then the code reads past the end, C25_overrun_refuted); the pieces are the maximal split for steady needles."
  },
  {
   "property": "C26",
   "status": "proved",
   "theorems": [
    "C26_startswith",
    "C26_endswith",
    "C26_concat"
   ],
   "note": ""
  },
  {
   "property": "C27",
   "status": "partial",
   "theorems": [
    "C27_readable",
    "C27_values_partial",
    "C27_equal",
    "C27_resize_refuted",
    "C27_self_assign_refuted",
    "C27_self_append_refuted"
   ],
   "note": "All operations of the class over every history, inline and heap, except three uses the code gets wrong, each refuted: inline resize whose new size lacks a bit of the old, self assignment of an inline value over 8 bytes, append of a value to itself."
  },
  {
   "property": "C28",
   "status": "partial",
   "theorems": [
    "C28_storage_partial",
    "C28_defined_partial",
    "C28_resize_refuted"
   ],
   "note": "Every history without self append and (strings) inline resize to a size reading 15; the latter is refuted by a 14-byte string resized to 1."
  },
  {
   "property": "C29",
   "status": "partial",
   "theorems": [
    "C29_alloc_partial",
    "C29_held_partial",
    "C29_no_leak_partial",
    "C29_reset_refuted"
   ],
   "note": "Proved for every history of create/alloc/resize/finalize/reset with no reset after a failed allocation; after one, reset makes alloc hand out address 0 (refuted)."
  },
  {
   "property": "C30",
   "status": "partial",
   "theorems": [
    "C30_zeroinit",
    "C30_pod_partial",
    "C30_pod_move_refuted"
   ],
   "note": "Proved for the zero-initialising arena and for the POD arena in place; a POD resize that moves is undefined behaviour because the end pointer it reads was already overwritten (refuted, exact condition)."
  },
  {
   "property": "C31",
   "status": "partial",
   "theorems": [
    "C31_alloc",
    "C31_resize_partial",
    "C31_resize_in_place_refuted"
   ],
   "note": "Proved for alloc and for a resize that moves; a resize in place never clears the new bytes (refuted)."
  },
  {
   "property": "C32",
   "status": "partial",
   "theorems": [
    "C32_uint_add_partial",
    "C32_uint_add_word_partial",
    "C32_uint_mul_partial",
    "C32_uint_divrem_partial",
    "C32_uint_div_partial",
    "C32_uint_complement_partial",
    "C32_int_add_partial",
    "C32_int_neg_partial",
    "C32_int_mul_partial",
    "C32_uint_sub_exact_domain",
    "C32_uint_sub_word_exact_domain",
    "C32_int_sub_exact_domain",
    "C32_uint_neg_exact_domain",
    "C32_uint_not_exact_domain",
    "C32_int_add_assign_never_right",
    "C32_int_mul_min_diverges",
    "C32_refuted"
   ],
   "note": "+, *, /, %, ~ and int128 negation are right for all inputs; -, unary - and ! of uint128 and - of int128 are right exactly on the stated domains; int128 += is never right; int128 * diverges on the minimum."
  },
  {
   "property": "C33",
   "status": "proved",
   "theorems": [
    "C33_uint_order",
    "C33_int_order"
   ],
   "note": ""
  },
  {
   "property": "C34",
   "status": "proved",
   "theorems": [
    "C34_uint_print",
    "C34_int_print"
   ],
   "note": ""
  },
  {
   "property": "C35",
   "status": "proved",
   "theorems": [
    "C35_half_to_float_exact",
    "C35_half_to_double_exact"
   ],
   "note": ""
  },
  {
   "property": "C36",
   "status": "proved",
   "theorems": [
    "C36_float_to_half",
    "C36_double_to_half",
    "C36_roundtrip_float",
    "C36_roundtrip_double"
   ],
   "note": ""
  },
  {
   "property": "C37",
   "status": "partial",
   "theorems": [
    "C37_sort_partial",
    "C37_cycle",
    "C37_empty_refuted"
   ],
   "note": "Proved for every non-empty graph, acyclic (sorted) and cyclic (throws); for the empty graph the code forms an iterator before the output range (refuted)."
  },
  {
   "property": "C38",
   "status": "proved",
   "theorems": [
    "C38_most_specific"
   ],
   "note": ""
  },
  {
   "property": "C39",
   "status": "proved",
   "theorems": [
    "C39_construct",
    "C39_insert"
   ],
   "note": ""
  },
  {
   "property": "C40",
   "status": "partial",
   "theorems": [
    "C40_integers",
    "C40_floats_partial",
    "C40_complex",
    "C40_values",
    "C40_commutative_partial",
    "C40_float16_refuted",
    "C40_option",
    "C40_void",
    "C40_associative"
   ],
   "note": "Proved for every pair of builtin types except float16 with an integer, where the result depends on the order of the operands (refuted); commutative at every nesting without float16; option and void rules on all types."
  },
  {
   "property": "C41",
   "status": "partial",
   "theorems": [
    "C41_fresh",
    "C41_stable",
    "C41_lookup",
    "C41_once",
    "C41_rooted",
    "C41_builtin_ids",
    "C41_failed_refuted",
    "C41_pointer_refuted",
    "C41_empty_name_refuted"
   ],
   "note": "Fresh ids, stable names and bases, least-id lookup and single registration proved for every history. Refuted: a throwing registration leaves its singleton behind, entry pointers die at the first new_id, the empty name is found."
  },
  {
   "property": "C42",
   "status": "partial",
   "theorems": [
    "C42_safe_partial",
    "C42_freed_once",
    "C42_not_early",
    "C42_exact",
    "C42_ends",
    "C42_drains",
    "C42_effect",
    "C42_self_assign_refuted",
    "C42_member_assign_refuted",
    "C42_not_equal_refuted"
   ],
   "note": "Proved for any number of threads and every race-free interleaving: no access to a freed object, freed once, freed exactly when unreachable, counts exact when quiet, destruction ends, and each operation leaves its variables with the value it should. Refuted for aliasing assignment: p = p and p = p->member free the object and then touch it when p is the only reference."
  },
  {
   "property": "C43",
   "status": "partial",
   "theorems": [
    "C43_inside_and_aligned",
    "C43_disjoint",
    "C43_size_multiple_of_alignment",
    "C43_construct_frame",
    "C43_buffer",
    "C43_overflow_refuted"
   ],
   "note": "Proved for every concrete type whose data and arrmeta fit 63 bits: elements inside, aligned, pairwise disjoint, arrmeta inside, also in the single allocation of nd::empty. Refuted without the size bound: fixed_dim sizes are multiplied without an overflow check."
  },
  {
   "property": "C44",
   "status": "partial",
   "theorems": [
    "C44_int_from_machine_integer",
    "C44_uint_from_machine_integer_exact_domain",
    "C44_int_to_double_sign_refuted"
   ],
   "note": "int128 construction right; uint128 from a negative integer is not sign extended; int128 to double loses the sign of every negative value."
  },
  {
   "property": "C45",
   "status": "proved",
   "theorems": [
    "C45_is_overflow_exact"
   ],
   "note": ""
  },
  {
   "property": "C46",
   "status": "partial",
   "theorems": [
    "C46_append_in_bounds",
    "C46_checked_append_sound_partial",
    "C46_noerror_append_substitutes",
    "C46_checked_append_refuted"
   ],
   "note": "In-bounds for every value; valid-form-only for ASCII, UCS-2, UTF-8; refuted for UTF-16/UTF-32, which accept lone surrogates and values above U+10FFFF."
  },
  {
   "property": "C47",
   "status": "partial",
   "theorems": [
    "C47_token_no_ws",
    "C47_token",
    "C47_datashape_token",
    "C47_compare_literal",
    "C47_unsigned_int",
    "C47_datashape_number",
    "C47_signed_int_partial",
    "C47_signed_int_no_ws_refuted"
   ],
   "note": "Full, except that parse_int_no_ws (signed) accepts whitespace before the '-' (exact behaviour proved; 'no whitespace' refuted by witness)."
  },
  {
   "property": "C48",
   "status": "proved",
   "theorems": [
    "C48_parse_bool_checked",
    "C48_nocheck_agrees",
    "C48_nocheck_total"
   ],
   "note": "Checked: exact. nocheck: agrees on all accepted words and total; outside them it guesses (every 4-character text is true)."
  },
  {
   "property": "C49",
   "status": "partial",
   "theorems": [
    "C49_literal",
    "C49_no_match",
    "C49_safe",
    "C49_round_trip_partial",
    "C49_round_trip_refuted"
   ],
   "note": "Literals: exact. Print/parse round trip: holds exactly for text without characters above U+FFFF; with one, the printer writes \\U and the parser throws (both proved)."
  },
  {
   "property": "C50",
   "status": "proved",
   "theorems": [
    "C50_parse_na"
   ],
   "note": ""
  },
  {
   "property": "C51",
   "status": "proved",
   "theorems": [
    "C51_encoding_names"
   ],
   "note": ""
  },
  {
   "property": "C52",
   "status": "partial",
   "theorems": [
    "C52_order",
    "C52_transitive",
    "C52_ascii_partial",
    "C52_code_point_refuted"
   ],
   "note": "Strict total order and operator consistency proved; it is the order of signed chars, equal to the byte order on ASCII text and not beyond (refuted)."
  },
  {
   "property": "C53",
   "status": "proved",
   "theorems": [
    "C53_clip",
    "C53_map"
   ],
   "note": ""
  },
  {
   "property": "C54",
   "status": "partial",
   "theorems": [
    "C54_stable_partial",
    "C54_duplicate_refuted",
    "C54_ambiguous_refuted"
   ],
   "note": "Proved when one overload strictly dominates; refuted for duplicate signatures (an unrelated insert flips the answer) and for accepted sets with two incomparable best answers."
  },
  {
   "property": "C55",
   "status": "partial",
   "theorems": [
    "C55_answers_partial",
    "C55_unusable_refuted"
   ],
   "note": "Calls that had an answer keep it; calls that matched nothing become a null dereference (refuted)."
  },
  {
   "property": "C56",
   "status": "partial",
   "theorems": [
    "C56_builtin",
    "C56_order",
    "C56_option_refuted",
    "C56_trait_refuted"
   ],
   "note": "Builtin types: exact for every value of every source type. Refuted for option types and for the compile-time trait."
  },
  {
   "property": "C57",
   "status": "partial",
   "theorems": [
    "C57_destroys_each_value_once_partial",
    "C57_no_destructor_no_values",
    "C57_pointer_refuted"
   ],
   "note": "Proved for every concrete type without pointers to destructible values. Refuted for pointer types, which carry the destructor flag but do not implement data_destruct."
  },
  {
   "property": "C58",
   "status": "partial",
   "theorems": [
    "C58_construct_then_destruct",
    "C58_copy",
    "C58_failed_construction_partial",
    "C58_failed_construction_refuted"
   ],
   "note": "Construct/destruct and copy/destruct are balanced for every type. Failed construction is proved for types whose tuples have at most one field with references, and refuted beyond: the cleanup destroys earlier fields at the arrmeta of the failing one."
  },
  {
   "property": "C59",
   "status": "partial",
   "theorems": [
    "C59_indexing_partial",
    "C59_tuple_slice_refuted",
    "C59_ragged_refuted",
    "C59_pointer_refuted"
   ],
   "note": "Proved for every type, arrmeta and data on the stated domain (ragged dimensions indexed only after plain indices, a tuple slice followed only by full slices). Refuted beyond: a tuple slice drops the later indices, [:, k] on a ragged dimension neither checks nor wraps k, and a pointer to a ragged array writes past the result's arrmeta."
  },
  {
   "property": "C60",
   "status": "partial",
   "theorems": [
    "C60_match_sound_partial",
    "C60_match_exact_partial",
    "C60_match_complete_partial",
    "C60_match_total_partial",
    "C60_match_concrete",
    "C60_dim_discards_refuted",
    "C60_var_power_refuted",
    "C60_repeated_ellipsis_refuted",
    "C60_option_of_dims_refuted",
    "C60_kinds_refuted",
    "C60_two_ellipses_refuted"
   ],
   "note": "Soundness, exactness, completeness and totality are proved on explicit classes of patterns (no variables below Dim, a known number of dimensions after a power of var or after an ellipsis, ellipsis names used once) and for types without options of arrays; the exclusions are shown necessary by refutations."
  },
  {
   "property": "C61",
   "status": "partial",
   "theorems": [
    "C61_round_trip_partial",
    "C61_round_trip_wider_partial",
    "C61_substitute_instance_partial",
    "C61_variadic_refuted",
    "C61_nested_callable_refuted",
    "C61_keywords_refuted",
    "C61_unnamed_ellipsis_refuted"
   ],
   "note": "Proved for every pattern substitution can rebuild (no kinds, variadic parts, unnamed ellipses or keyword parameters; each refuted)."
  },
  {
   "property": "C62",
   "status": "partial",
   "theorems": [
    "C62_not_symbolic_partial",
    "C62_concrete_unchanged",
    "C62_no_variables_partial",
    "C62_exponent_refuted",
    "C62_fragment_refuted",
    "C62_kinds_refuted"
   ],
   "note": "Proved when the variables are concrete and the exponents bound; refuted for unbound exponents and for fragments holding Fixed."
  },
  {
   "property": "C63",
   "status": "proved",
   "theorems": [
    "C63_checked",
    "C63_nocheck_wraps"
   ],
   "note": "all integer widths and both signednesses, all checked modes; nocheck reduces modulo 2^bits"
  },
  {
   "property": "C64",
   "status": "partial",
   "theorems": [
    "C64_overflow_partial",
    "C64_fractional_partial",
    "C64_undefined_iff",
    "C64_boundary_refuted",
    "C64_complex"
   ],
   "note": "right for every value except one above a maximum the source format rounds (2^63, 2^31, 2^64 ...) and NaN in overflow mode, where the cast is undefined behaviour; exactly these (C64_undefined_iff)"
  },
  {
   "property": "C65",
   "status": "proved",
   "theorems": [
    "C65_inexact_lossless",
    "C65_fractional_lossless"
   ],
   "note": "every pair of types; int128/uint128 not modelled, NaN payloads not kept"
  },
  {
   "property": "C66",
   "status": "partial",
   "theorems": [
    "C66_representable_partial",
    "C66_nonfinite_refuted",
    "C66_nonfinite_real"
   ],
   "note": "proved for finite numbers; infinities are rejected when the source is complex and NaN by inexact mode"
  },
  {
   "property": "C67",
   "status": "proved",
   "theorems": [
    "C67_modes_ordered",
    "C67_typed",
    "C67_to_bool"
   ],
   "note": ""
  },
  {
   "property": "C68",
   "status": "partial",
   "theorems": [
    "C68_int_nearest",
    "C68_real_nearest",
    "C68_real_overflow",
    "C68_int_inexact_partial",
    "C68_int_inexact_refuted"
   ],
   "note": "rounding and overflow proved; inexact mode is undefined behaviour for integers whose rounding leaves the integer type (INT64_MAX to double)"
  },
  {
   "property": "C69",
   "status": "proved",
   "theorems": [
    "C69_strided",
    "C69_strided_writes",
    "C69_compose",
    "C69_option_to_value"
   ],
   "note": "element-granular memory; the element types that own memory (buffer reset) are not modelled"
  },
  {
   "property": "C70",
   "status": "partial",
   "theorems": [
    "C70_convert_partial",
    "C70_rest_unwritten_refuted"
   ],
   "note": "right up to 128 elements; from element 128 on nothing is written, for every callable (C70_rest_unwritten_refuted)"
  },
  {
   "property": "C71",
   "status": "partial",
   "theorems": [
    "C71_option_partial",
    "C71_moved_refuted",
    "C71_reread_refuted"
   ],
   "note": "right up to 128 elements and for stride 0; beyond it undefined behaviour when the first chunk ends with an available value, otherwise the first chunk is assigned again"
  },
  {
   "property": "C72",
   "status": "proved",
   "theorems": [
    "C72_common_shape",
    "C72_given_shape"
   ],
   "note": ""
  },
  {
   "property": "C73",
   "status": "partial",
   "theorems": [
    "C73_fixed_partial",
    "C73_exact",
    "C73_outer_one_refuted"
   ],
   "note": "right if in no argument a dimension of extent 1 has a longer one below it; otherwise the inner dimensions use the strides of the outer ones (exact characterisation proved, wrong result exhibited for shape [1; n])"
  },
  {
   "property": "C74",
   "status": "partial",
   "theorems": [
    "C74_var_partial",
    "C74_mismatch",
    "C74_scalar_refuted",
    "C74_fewer_dims_refuted",
    "C74_beside_var_refuted"
   ],
   "note": "right for supported combinations; a var array with a scalar, a var array of fewer dimensions, and a fixed dimension with inner dimensions beside a var one misread arrmeta"
  },
  {
   "property": "C75",
   "status": "partial",
   "theorems": [
    "C75_allocated",
    "C75_allocated_error",
    "C75_fresh",
    "C75_fresh_error",
    "C75_resolve_partial",
    "C75_given_refuted",
    "C75_inner_refuted"
   ],
   "note": "kernel proved for one dimension over scalars; the resolution picks the fixed-destination kernel for a given var destination with mixed operands, and leaves an arrmeta pointer unset with inner dimensions"
  },
  {
   "property": "C76",
   "status": "partial",
   "theorems": [
    "C76_marking_missing_partial",
    "C76_accepted_types",
    "C76_marking_missing_refuted",
    "C76_null_partial",
    "C76_null_refuted"
   ],
   "note": "proved for every type with a reserved value; refuted for string and bytes (clear() leaves a non-null begin(), so a marked string is never missing) and, for JSON null and missing texts, for uint32 (the builtin switch has no case and the old value stays)"
  },
  {
   "property": "C77",
   "status": "partial",
   "theorems": [
    "C77_missing_exact_partial",
    "C77_missing_refuted"
   ],
   "note": "exact for every type with a reserved value; for uint8, uint16, uint64, uint128 and float16 x.is_na() is true for every value while nd::is_na throws"
  },
  {
   "property": "C78",
   "status": "partial",
   "theorems": [
    "C78_missing_propagates_partial",
    "C78_present_stays_present_refuted"
   ],
   "note": "propagation proved for every operation and combination of arguments; two present int32 values can give a result that reads as missing (-2147483647 + -1)"
  },
  {
   "property": "C79",
   "status": "partial",
   "theorems": [
    "C79_missing_text_partial",
    "C79_missing_string_partial",
    "C79_missing_text_refuted",
    "C79_number_text",
    "C79_reserved_number_refuted"
   ],
   "note": "missing texts proved for every reserved type except uint32 (parsing keeps the old value) and bool (string assignment throws); numbers proved for 8..64 bit integers; the text -128 makes an int8 option missing; float texts go through an uninterpreted parser"
  },
  {
   "property": "C80",
   "status": "proved",
   "theorems": [
    "C80_string_order"
   ],
   "note": ""
  },
  {
   "property": "C81",
   "status": "partial",
   "theorems": [
    "C81_ascii_partial",
    "C81_utf8_order_partial",
    "C81_code_point_order_refuted"
   ],
   "note": "proved for ASCII; the exact order of all UTF-8 texts is proved: char is signed, so every non-ASCII character comes before all ASCII ones (refuted by U+00E9 < z)"
  },
  {
   "property": "C82",
   "status": "partial",
   "theorems": [
    "C82_binary_search_partial",
    "C82_other_type_refuted",
    "C82_int32_partial"
   ],
   "note": "soundness, completeness and termination proved for every comparison, and for int32 arrays and values; refuted when the value has another type than the elements (its first bytes are taken for an element)"
  },
  {
   "property": "C83",
   "status": "proved",
   "theorems": [
    "C83_masked_take",
    "C83_mask_size"
   ],
   "note": "for any element assignment that applies a function (C69); the block is allocated apart from the sources"
  },
  {
   "property": "C84",
   "status": "partial",
   "theorems": [
    "C84_indexed_take_kernel_partial",
    "C84_take_copies_first",
    "C84_take_refuted"
   ],
   "note": "the kernel is proved; nd::take does not reach it: the call graph is built in the wrong order and the call copies element 0 only (the project's tests of indexed take are commented out)"
  },
  {
   "property": "C85",
   "status": "partial",
   "theorems": [
    "C85_where_partial",
    "C85_nonempty_refuted"
   ],
   "note": "proved from an empty destination; a destination that holds elements is written beyond its end"
  },
  {
   "property": "C86",
   "status": "partial",
   "theorems": [
    "C86_iterator_partial",
    "C86_reversed_order",
    "C86_iterator_refuted"
   ],
   "note": "proved for positive strides; for negative strides < is reversed, for stride 0 the difference divides by zero, and assignment does not copy the stride"
  },
  {
   "property": "C87",
   "status": "partial",
   "theorems": [
    "C87_reduction_partial",
    "C87_new_result_partial",
    "C87_two_kept_refuted",
    "C87_unit_dimension_refuted",
    "C87_empty_refuted"
   ],
   "note": "proved for any destination with keepdims or at most one kept dimension, under regular strides, and for newly allocated results; refuted for two kept dimensions without keepdims, for a kept dimension of one element before the innermost kept one, and for empty outer dimensions; var dimensions and reductions of two arrays are not modelled"
  },
  {
   "property": "C88",
   "status": "partial",
   "theorems": [
    "C88_sum_partial",
    "C88_sum_wide_partial",
    "C88_sum_refuted",
    "C88_min",
    "C88_max",
    "C88_all"
   ],
   "note": "min, max and all proved; sum proved for narrow and unsigned types, and for int32 and int64 when the partial sums are representable (refuted otherwise)"
  },
  {
   "property": "C89",
   "status": "partial",
   "theorems": [
    "C89_axes_partial",
    "C89_shape",
    "C89_out_of_range_refuted"
   ],
   "note": "selection and shape proved; axes the array does not have, and negative ones, are ignored (refuted)"
  },
  {
   "property": "C90",
   "status": "partial",
   "theorems": [
    "C90_reads",
    "C90_type",
    "C90_unambiguous",
    "C90_print_spelled_partial",
    "C90_round_trip_partial",
    "C90_round_trip_refuted",
    "C90_junk_refuted"
   ],
   "note": "reading proved for the full grammar (reads, type, unambiguous); printing proved to be read back for printable types; refuted for empty variadic tuples and structs, Fixed**N, fixed_string of size 0 and type variables named like kinds; some texts that are no spelling are accepted (junk_refuted)"
  },
  {
   "property": "C91",
   "status": "partial",
   "theorems": [
    "C91_ends",
    "C91_defined_partial",
    "C91_consumes",
    "C91_proper",
    "C91_trailing",
    "C91_defined_refuted"
   ],
   "note": "termination, consumption, constraints of the result and refusal of trailing text proved for all texts; defined behaviour proved for numerals below 2^31, refuted above (atoi)"
  },
  {
   "property": "C92",
   "status": "partial",
   "theorems": [
    "C92_line_column_partial",
    "C92_unique",
    "C92_line_column_refuted"
   ],
   "note": "proved for all positions but the end of an empty or newline-terminated text, where it is refuted"
  },
  {
   "property": "C93",
   "status": "partial",
   "theorems": [
    "C93_scripts",
    "C93_no_redefinition",
    "C93_use_refuted"
   ],
   "note": "sequences and the refusal of redefinitions proved; defined names are never looked up (use_refuted)"
  },
  {
   "property": "C94",
   "status": "partial",
   "theorems": [
    "C94_validate_exact",
    "C94_validate_accepts_json",
    "C94_validate_total",
    "C94_validate_only_json_refuted"
   ],
   "note": "Exact: the validator accepts the grammar of RFC 8259 with VT and FF as whitespace and arbitrary bytes and \\U escapes in strings; so all JSON is accepted but not only JSON (refuted by a control character in a string). Total: a value or a parse_error."
  },
  {
   "property": "C95",
   "status": "partial",
   "theorems": [
    "C95_written_text_partial",
    "C95_tuple_refuted",
    "C95_int64_min_refuted",
    "C95_invalid_utf8_refuted"
   ],
   "note": "Proved for bools, 8-64 bit integers, UTF-8 strings, options of them, fixed and var dimensions and structs, nested without bound. Refuted: tuples throw, reading the smallest int64 back is undefined behaviour, a string whose next byte can start no character is written forever."
  },
  {
   "property": "C96",
   "status": "partial",
   "theorems": [
    "C96_reads_the_meaning",
    "C96_ideal_read",
    "C96_integers_partial",
    "C96_accepts_only_json",
    "C96_value_or_exception_partial",
    "C96_integers_refuted"
   ],
   "note": "Exact characterisation for all types of the subset and all texts, with the integer reading of C16; the ideal reading is a sub-case; accepts only what validate_json accepts; total without int64. Refuted: NA/null/empty in quotes is stored as the smallest value of a plain integer, escapes in quoted integers are refused, numbers from 2^64 may wrap, smallest int64 undefined, overflow reported without position. Floats, complex, fixed_string, type and the nocheck modes are not modelled."
  },
  {
   "property": "C97",
   "status": "partial",
   "theorems": [
    "C97_position_partial",
    "C97_position_refuted",
    "C97_marker"
   ],
   "note": "Line, column, both lines and the caret are right for all positions and line lengths; refuted at the end of an empty text or a text ending in a newline, where the report itself throws runtime_error."
  },
  {
   "property": "C98",
   "status": "proved",
   "theorems": [
    "C98_builtin_exact",
    "C98_builtin_throws",
    "C98_needs_no_check"
   ],
   "note": "Exact for all 17 x 17 pairs of number types against IEEE formats and integer ranges; the link to assignment is proved for the types of C63-C68."
  },
  {
   "property": "C99",
   "status": "partial",
   "theorems": [
    "C99_option_refuted",
    "C99_sound_partial",
    "C99_sound_exactly"
   ],
   "note": "Proved for every value but the missing one, for all types; refuted: int32 from ?int32 is called lossless. The wrong answers are exactly those with an option above the source's data and none above the destination's."
  },
  {
   "property": "C100",
   "status": "partial",
   "theorems": [
    "C100_transitive",
    "C100_reflexive_refuted",
    "C100_reflexive_exactly",
    "C100_answers"
   ],
   "note": "Transitivity and totality proved. Reflexivity is refuted (text types by design, and options or pointers to anything but a number); the exact set of reflexive types is proved."
  },
  {
   "property": "C101",
   "status": "partial",
   "theorems": [
    "C101_row_major_complete",
    "C101_one_operand",
    "C101_one_operand_starts",
    "C101_var_refused",
    "C101_two_operands",
    "C101_two_operands_refused",
    "C101_two_reads",
    "C101_broadcast_refuted",
    "C101_broadcast_partial",
    "C101_scalar_type_refuted"
   ],
   "note": "Proved for every shape and stride: one operand (all or the leading dimensions), two operands, two read operands, refusal of var dimensions and of shapes that do not broadcast. Refuted for stretched dimensions: a dimension of extent 1 keeps its default stride (the element size) and the iterator walks on with it; C101_broadcast_partial says exactly when the broadcast element is taken (stride 0 in every stretched dimension). The uniform type of a broadcast builtin scalar is never set, a scalar of another type is refused."
  },
  {
   "property": "C102",
   "status": "partial",
   "theorems": [
    "C102_equals_exact",
    "C102_same_object",
    "C102_var_sizes_refuted",
    "C102_nested_var_refuted"
   ],
   "note": "Proved for arrays of fixed dimensions and of one leading var dimension: true exactly for the same value. Refuted: two var arrays of different lengths throw type_error; an array with an inner var dimension is never found equal to a copy of itself."
  },
  {
   "property": "C103",
   "status": "partial",
   "theorems": [
    "C103_input_shapes",
    "C103_var_order_refuted",
    "C103_to_shape",
    "C103_incremental",
    "C103_merged_unique"
   ],
   "note": "Proved for known extents (broadcast_input_shapes), for strides (broadcast_to_shape) and with unknown extents (incremental_broadcast). Refuted: broadcast_input_shapes with var dimensions depends on the order and lets 5 and 7 pass together."
  },
  {
   "property": "C104",
   "status": "partial",
   "theorems": [
    "C104_valid_perm",
    "C104_refused_exactly",
    "C104_permute_exact_partial",
    "C104_permute_irreducible_partial",
    "C104_permuted_elements",
    "C104_after_var_dims_partial",
    "C104_permute_refuted",
    "C104_wrong_axes_refuted"
   ],
   "note": "Refuted: only permutations without a proper closed prefix are carried out. Exact on fixed dimensions with a builtin dtype (C104_permute_exact_partial: Ok with the permuted dimensions, or undefined behaviour), exact refusals, and the address theorem for every permutation; leading stationary var dimensions are covered by C104_after_var_dims_partial."
  },
  {
   "property": "C105",
   "status": "partial",
   "theorems": [
    "C105_transpose_partial",
    "C105_transpose_scalar_refuted",
    "C105_rotate_exact_partial",
    "C105_rotate_refuted"
   ],
   "note": "transpose proved for every array of one or more fixed dimensions; a scalar is undefined behaviour. rotate is exact: it works when one position is 0, and is undefined when neither is."
  },
  {
   "property": "C106",
   "status": "partial",
   "theorems": [
    "C106_reshape_result",
    "C106_reshape_exact_partial",
    "C106_c_order_contiguous",
    "C106_reshape_succeeds",
    "C106_size_mismatch",
    "C106_reshape_refuted"
   ],
   "note": "Exact: the result addresses consecutive memory from the data pointer, so it is right exactly when the argument is contiguous; C order suffices. Refuted for transposed and reversed arrays, an empty shape and two negative extents."
  },
  {
   "property": "C107",
   "status": "partial",
   "theorems": [
    "C107_new_axis",
    "C107_bad_position",
    "C107_negative_count_refuted",
    "C107_new_axis_adds"
   ],
   "note": "Proved for every position and count; a negative count recurses without end (refuted)."
  },
  {
   "property": "C108",
   "status": "partial",
   "theorems": [
    "C108_view_sound",
    "C108_var_view_sound",
    "C108_view_exact_partial",
    "C108_bytes_view_refuted",
    "C108_null_only_for_bytes"
   ],
   "note": "Sound and exact for fixed dimensions, sound for a leading var dimension. Refuted only for raw bytes, whose view is the null array. Symbolic types are not modelled."
  },
  {
   "property": "C109",
   "status": "partial",
   "theorems": [
    "C109_range_correct_partial",
    "C109_small_types_partial",
    "C109_zero_step_exact",
    "C109_range_unique",
    "C109_range_refuted"
   ],
   "note": "Proved for all types under an explicit no-overflow condition, for 8-32 bits except the most negative step. Refuted for the most negative step, distant int64_t bounds and uint64_t bounds across 2^63."
  },
  {
   "property": "C110",
   "status": "partial",
   "theorems": [
    "C110_comparison_correct_partial",
    "C110_same_type_correct",
    "C110_mixed_sign_exact",
    "C110_trichotomy",
    "C110_comparison_refuted",
    "C110_equality_not_transitive",
    "C110_tuple_equal",
    "C110_tuple_short_circuit"
   ],
   "note": "Proved for every pair of types whose common type is signed, for values that are not negative and for equal types; exact answer for the rest (C110_mixed_sign_exact). Trichotomy and the tuple comparisons are unrestricted. Refuted: int32 -1 is not less than uint32 1, and equality is not transitive across types."
  },
  {
   "property": "C111",
   "status": "partial",
   "theorems": [
    "C111_result_type",
    "C111_arithmetic_exact",
    "C111_narrow_never_overflows",
    "C111_arithmetic_refuted"
   ],
   "note": "C111_arithmetic_exact covers all types and values: exact when representable, else undefined (signed) or wrapped (unsigned). Refuted: never undefined (uint16 65535 * 65535)."
  },
  {
   "property": "C112",
   "status": "partial",
   "theorems": [
    "C112_zero_divisor_exact",
    "C112_divide_correct_partial",
    "C112_divide_mod_identity",
    "C112_divide_refuted"
   ],
   "note": "The zero divisor is decided exactly for all pairs of types; refuted: a signed or bool dividend with an unsigned zero divisor is not checked (needs_zero_check tests the first type twice). The quotient is exact where the operation type holds both operands, INT_MIN / -1 is undefined, and the divide/mod identity holds for all operands."
  },
  {
   "property": "C113",
   "status": "partial",
   "theorems": [
    "C113_bitwise_correct",
    "C113_right_shift_exact",
    "C113_left_shift_partial",
    "C113_left_shift_refuted"
   ],
   "note": "Bitwise operations and right_shift are exact for all operands; left_shift is characterised for all operands, and refuted for negative values, which are undefined in C++14."
  },
  {
   "property": "C114",
   "status": "partial",
   "theorems": [
    "C114_minus_exact",
    "C114_bitwise_not_correct",
    "C114_bool_unary",
    "C114_logical_correct",
    "C114_minus_refuted"
   ],
   "note": "Exact for all types; refuted for minus of the smallest int32 or int64 (undefined), unsigned values (wrap) and bool, where minus is the identity."
  },
  {
   "property": "C115",
   "status": "partial",
   "theorems": [
    "C115_compound_add_exact",
    "C115_accumulate_wrapping",
    "C115_accumulate_partial_sums",
    "C115_compound_div_exact",
    "C115_compound_refuted"
   ],
   "note": "+= is exact whenever the sum fits, accumulation is exact by induction on the elements, /= is exact where the quotient fits. Refuted: overflow wraps silently, and /= by zero is undefined while divide throws."
  },
  {
   "property": "C116",
   "status": "partial",
   "theorems": [
    "C116_outer_partial",
    "C116_every_index",
    "C116_no_index_twice",
    "C116_outer_refuted"
   ],
   "note": "Proved for up to three arguments with any number of dimensions. Refuted for every call with four or more arguments that are not all scalars: outer_entry_callable reads m_children[nsrc], which has entries for up to three arguments (C116_outer_refuted)."
  },
  {
   "property": "C117",
   "status": "proved",
   "theorems": [
    "C117_compose",
    "C117_compose_single",
    "C117_constant"
   ],
   "note": "compose (single and strided, over any number of chunks) and constant, for all functions."
  },
  {
   "property": "C118",
   "status": "proved",
   "theorems": [
    "C118_compound_reduces",
    "C118_compound_elementwise"
   ],
   "note": "Fold and element-by-element forms of both kernels."
  },
  {
   "property": "C119",
   "status": "proved",
   "theorems": [
    "C119_neighborhood",
    "C119_child_windows_inside"
   ],
   "note": "Any number of dimensions; the instantiation in neighborhood_callable.hpp is commented out in this version, so the kernel is reached only through its own interface."
  },
  {
   "property": "C120",
   "status": "partial",
   "theorems": [
    "C120_convert_partial",
    "C120_convert_refuted"
   ],
   "note": "Proved for up to 128 elements. Refuted beyond, for every input: the chunk loop advances neither the destination nor the converted sources, so nothing after the first 128 elements is written (C120_convert_refuted). The code that instantiates this kernel is commented out in this version."
  },
  {
   "property": "C121",
   "status": "partial",
   "theorems": [
    "C121_new_like_fills",
    "C121_new_like_total",
    "C121_keeps_order_partial",
    "C121_keeps_order_refuted",
    "C121_terminates_refuted",
    "C121_initialised_refuted"
   ],
   "note": "The elements fill the block for every source and every shape (C121_new_like_fills). The axis order is kept for strides that are not negative; refuted for negative ones (8, -16 counts as C order). Refuted: termination for elements of size zero (the loop at fixed_dim_type.cpp:477 does not change i), and eval of fixed dimensions over a pointer reads strides that were never written."
  },
  {
   "property": "C122",
   "status": "partial",
   "theorems": [
    "C122_classify_exact",
    "C122_ordered_is_reported",
    "C122_classify_partial",
    "C122_classify_refuted"
   ],
   "note": "C122_classify_exact gives the report for all strides; right in both directions for two strides that are not zero, and C or Fortran order arrays of any dimension are recognised. Refuted for three: 96, 4, 12 is reported as C order, because the recursion passes on the outer stride."
  },
  {
   "property": "C123",
   "status": "partial",
   "theorems": [
    "C123_substitute_partial",
    "C123_scalar_refuted",
    "C123_result_matches"
   ],
   "note": "Exact for every pattern and shape except the shape of a scalar with a pattern that has dimensions, where the first size of an empty shape is read (C123_scalar_refuted)."
  },
  {
   "property": "C124",
   "status": "partial",
   "theorems": [
    "C124_call_binds",
    "C124_nothing_dropped",
    "C124_required_partial",
    "C124_missing_bound",
    "C124_accepts",
    "C124_dst",
    "C124_required_refuted",
    "C124_any_keyword_refuted"
   ],
   "note": "Proved for every call, except that a required keyword may be missing when dst or dst_tp is passed: the special keywords are counted as keyword parameters (C124_required_refuted; at most as many are missing as special keywords are passed, C124_missing_bound; none without special keywords, C124_required_partial). A callable that is variadic in keywords still refuses keywords it does not name (C124_any_keyword_refuted)."
  },
  {
   "property": "C125",
   "status": "partial",
   "theorems": [
    "C125_call_types_partial",
    "C125_positional_keyword_refuted"
   ],
   "note": "Proved for the positional arguments, the keywords passed by name, and the destination, with the matching of MatchModel and the patterns C60 is about. Refuted for keyword parameters that are given by position: their type is not checked (C125_positional_keyword_refuted)."
  },
  {
   "property": "C126",
   "status": "partial",
   "theorems": [
    "C126_value16",
    "C126_value32",
    "C126_value64",
    "C126_element_partial",
    "C126_twice",
    "C126_strided_partial",
    "C126_pairwise_partial",
    "C126_overlap_refuted",
    "C126_elements_refuted",
    "C126_elements_exact",
    "C126_dst_size_refuted",
    "C126_pairwise_odd_refuted"
   ],
   "note": "The values, and single elements of every size in place or apart, are proved exactly, also in strided loops. Refuted: nd::byteswap works with the size of the whole array, so the elements of an array change places (C126_elements_refuted, exact description C126_elements_exact); a destination of a smaller type is written past its end; a source that overlaps the destination; pairwise swapping of elements of odd size."
  },
  {
   "property": "C127",
   "status": "proved",
   "theorems": [
    "C127_layout",
    "C127_object",
    "C127_spare"
   ],
   "note": "For allocations that succeed and objects smaller than 2^64 bytes; failing allocations are in C128."
  },
  {
   "property": "C128",
   "status": "partial",
   "theorems": [
    "C128_kernels_partial",
    "C128_kernels_complete",
    "C128_kernels_exact",
    "C128_kernels_refuted",
    "C128_graph_partial",
    "C128_graph_exact",
    "C128_graph_refuted"
   ],
   "note": "Proved when nothing fails, and for kernel builders at every failure that leaves room for one more destructor; exact for all failures (C128_kernels_exact, C128_graph_exact). Refuted: an exception before the child of a kernel that ends at the end of the buffer is made reads past the end; a closure whose constructor throws is destroyed; an allocation that fails in a call graph ends in a null pointer being read."
  },
  {
   "property": "C129",
   "status": "proved",
   "theorems": [
    "C129_history",
    "C129_no_leak"
   ],
   "note": ""
  },
  {
   "property": "C130",
   "status": "partial",
   "theorems": [
    "C130_refused_refuted",
    "C130_self_refuted",
    "C130_refused_partial"
   ],
   "note": "Refuted for every vector of more than staticN elements: after a refused init the destructor deletes the block a second time (C130_refused_refuted), and init from its own elements reads the deleted block (C130_self_refuted). Proved: as long as no vector has used the heap a refused init changes nothing."
  },
  {
   "property": "C131",
   "status": "partial",
   "theorems": [
    "C131_multi_partial",
    "C131_reinit_exact",
    "C131_reinit_refuted"
   ],
   "note": "Proved, and exact, for sequences of sizes that never go back from more than staticN to at most staticN (C131_multi_partial, C131_reinit_exact); going back leaves m_alloc_data pointing to the deleted block, which is deleted again (C131_reinit_refuted)."
  },
  {
   "property": "C132",
   "status": "partial",
   "theorems": [
    "C132_integers_read",
    "C132_integers_only_partial",
    "C132_too_large_partial",
    "C132_unsigned_minus",
    "C132_not_a_number",
    "C132_integers_refuted"
   ],
   "note": "Refuted: 300 for uint8 is returned as 44, and 1.0e2 and 100e-2 are refused (C132_integers_refuted). Proved: every integer written with zeros after the point or a small exponent that fits is read; whatever is returned is congruent to what is written, and equal to it when that is below 2^W; signed values that do not fit but are below 2^W, negative unsigned ones and everything else throw."
  },
  {
   "property": "C133",
   "status": "proved",
   "theorems": [
    "C133_booleans"
   ],
   "note": ""
  },
  {
   "property": "C134",
   "status": "partial",
   "theorems": [
    "C134_strings_partial",
    "C134_without_escapes_partial",
    "C134_escapes_refuted"
   ],
   "note": "Refuted for every literal with an escape: the text between the quotes is returned as written (C134_escapes_refuted). Proved: exactly the valid literals are accepted, with that value; exact for texts without backslashes."
  },
  {
   "property": "C135",
   "status": "partial",
   "theorems": [
    "C135_options",
    "C135_present_partial",
    "C135_missing_bool",
    "C135_present_refuted"
   ],
   "note": "Refuted for integers and strings: a value equal to the one that stands for missing (the smallest integer, the empty string) is returned as missing (C135_present_refuted). Proved: exact description of what is returned for every text; present values otherwise, and bool without exception."
  },
  {
   "property": "C136",
   "status": "partial",
   "theorems": [
    "C136_value_or_exception_partial",
    "C136_no_missing_value_refuted",
    "C136_aggregates_refuted"
   ],
   "note": "Refuted for structs, fixed and var dimensions: parse_callable::resolve adds nothing to the call graph, and a null function is called for every text (C136_aggregates_refuted); options of uint8, uint16 and uint64 always throw (C136_no_missing_value_refuted). Proved for scalars, options and types without an entry."
  },
  {
   "property": "C137",
   "status": "partial",
   "theorems": [
    "C137_parsers_agree_partial",
    "C137_parsers_agree_refuted",
    "C137_same_texts_refuted"
   ],
   "note": "Refuted for strings with escapes (C137_parsers_agree_refuted), and each accepts texts the other refuses (C137_same_texts_refuted). Proved: otherwise, whenever both return a value it is the same one."
  },
  {
   "property": "C138",
   "status": "partial",
   "theorems": [
    "C138_construct_refuted",
    "C138_construct_partial",
    "C138_other_arrays",
    "C138_get_categories_refuted"
   ],
   "note": "Refuted: the order and the assignment are taken from an empty kernel builder, so a null function is called for every list that is not empty (C138_construct_refuted), also by get_categories (C138_get_categories_refuted). Proved for any strict total order and an assignment in their place: distinct lists are accepted and read back, others throw; other arrays throw in any case."
  },
  {
   "property": "C139",
   "status": "partial",
   "theorems": [
    "C139_values_partial",
    "C139_presorted_refuted",
    "C139_wide_refuted"
   ],
   "note": "Refuted for presorted categories that are not sorted or distinct, which are not checked (C139_presorted_refuted), and beyond 2^32 categories (C139_wide_refuted). Proved for every type made from sorted categories, or through the constructor with a working order, of up to 2^32 categories."
  },
  {
   "property": "C140",
   "status": "proved",
   "theorems": [
    "C140_storage"
   ],
   "note": ""
  },
  {
   "property": "C141",
   "status": "proved",
   "theorems": [
    "C141_equal",
    "C141_equal_values"
   ],
   "note": ""
  },
  {
   "property": "C142",
   "status": "partial",
   "theorems": [
    "C142_factor_refuted",
    "C142_factor_partial"
   ],
   "note": "Refuted: a null function is called for every array that is not empty (C142_factor_refuted). Proved for any strict total order and an assignment in place of the null functions."
  },
  {
   "property": "C143",
   "status": "partial",
   "theorems": [
    "C143_print_partial",
    "C143_print_empty_refuted",
    "C143_read_back_refuted"
   ],
   "note": "Refuted: a type without categories throws when printed (C143_print_empty_refuted) and parse_type_args throws for every text (C143_read_back_refuted). Proved: all others print their categories in the order of their values."
  },
  {
   "property": "C144",
   "status": "partial",
   "theorems": [
    "C144_na_partial",
    "C144_na_refuted"
   ],
   "note": "Refuted: with exactly 256 categories every byte is a category (C144_na_refuted). Proved: exists unless the count is 256, 65536 or 2^32."
  },
  {
   "property": "C145",
   "status": "partial",
   "theorems": [
    "C145_stored_and_read_partial",
    "C145_stored_and_read_refuted"
   ],
   "note": "Refuted: a text with U+0000 fits and is read back only up to it (C145_stored_and_read_refuted). Proved for all texts without U+0000."
  },
  {
   "property": "C146",
   "status": "proved",
   "theorems": [
    "C146_checked_iff",
    "C146_checked_total"
   ],
   "note": ""
  },
  {
   "property": "C147",
   "status": "partial",
   "theorems": [
    "C147_nocheck_total",
    "C147_nocheck_cuts_partial",
    "C147_stray_byte_refuted",
    "C147_stray_byte_fills"
   ],
   "note": "Refuted: a byte that starts no UTF-8 sequence is not consumed, so it fills the rest of the buffer with question marks and the text after it is lost (C147_stray_byte_refuted, C147_stray_byte_fills). Proved: total and within bounds for all bytes; cuts as stated for all valid sources."
  },
  {
   "property": "C148",
   "status": "partial",
   "theorems": [
    "C148_checked_partial",
    "C148_checked_total",
    "C148_exact_fit_refuted",
    "C148_exact_fit_always_thrown",
    "C148_nocheck_cuts"
   ],
   "note": "Refuted: a text that fits exactly is refused when it is followed by padding in the source (C148_exact_fit_refuted, C148_exact_fit_always_thrown). Proved: exactly the texts with a byte to spare, or without padding, are accepted; unchecked copies cut."
  },
  {
   "property": "C149",
   "status": "partial",
   "theorems": [
    "C149_checked_partial",
    "C149_checked_total",
    "C149_agree",
    "C149_reading_refuted"
   ],
   "note": "Refuted: printing and unchecked reading never end at a byte that starts no UTF-8 sequence, read out of bounds at a last lead surrogate, and checked reading returns bytes that are not ASCII (C149_reading_refuted). Proved: checked conversion to a string for all bytes; all readers agree on every buffer that holds a text."
  },
  {
   "property": "C150",
   "status": "proved",
   "theorems": [
    "C150_char_set_get",
    "C150_char_encodings"
   ],
   "note": ""
  },
  {
   "property": "C151",
   "status": "partial",
   "theorems": [
    "C151_string_to_char_partial",
    "C151_empty_refuted",
    "C151_char_to_string"
   ],
   "note": "Refuted: the empty string is accepted as U+0000 (C151_empty_refuted). Proved: exactly the strings of one code point and the empty string; a char with U+0000 gives the empty string."
  },
  {
   "property": "C152",
   "status": "partial",
   "theorems": [
    "C152_shape_refuted",
    "C152_shape_partial",
    "C152_empty"
   ],
   "note": "Refuted: an empty list that should have lists in it has its first element read (C152_shape_refuted, C152_empty). Proved: holds for all other lists of every depth, and these are exactly the lists for which it is defined."
  },
  {
   "property": "C153",
   "status": "proved",
   "theorems": [
    "C153_even"
   ],
   "note": ""
  },
  {
   "property": "C154",
   "status": "partial",
   "theorems": [
    "C154_vector_refuted",
    "C154_list_refuted",
    "C154_ragged_partial",
    "C154_exact"
   ],
   "note": "Refuted: ragged vectors, and initializer lists ragged above the innermost level, put a kernel for a fixed dimension on a var dimension, which takes a pointer for a size (C154_vector_refuted, C154_list_refuted). Proved: initializer lists ragged at the innermost level are stored and read back at any depth; every other ragged list is undefined (C154_exact)."
  },
  {
   "property": "C155",
   "status": "proved",
   "theorems": [
    "C155_array"
   ],
   "note": ""
  },
  {
   "property": "C156",
   "status": "partial",
   "theorems": [
    "C156_vectors_refuted",
    "C156_never",
    "C156_one_partial",
    "C156_two_partial"
   ],
   "note": "Refuted: with two levels or more such a loop never ends with a defined result, for any vectors (C156_never): ++ on the last element dereferences the end of the outer vector; an empty row or a third level makes it undefined earlier. Proved: with one level; with two levels and no empty vector every element is reached in order up to that last ++."
  },
  {
   "property": "C157",
   "status": "proved",
   "theorems": [
    "C157_float32",
    "C157_complex",
    "C157_refused"
   ],
   "note": ""
  },
  {
   "property": "C158",
   "status": "partial",
   "theorems": [
    "C158_overflow_refuted",
    "C158_first_refuted",
    "C158_exact_partial"
   ],
   "note": "Refuted: for large numbers the first element is infinite (C158_overflow_refuted), and rounding can make it differ from start (C158_first_refuted). Proved: holds when the multiples of start and stop up to count - 1 are float64 numbers below 2^1023, for example for integers of moderate size."
  },
  {
   "property": "C159",
   "status": "partial",
   "theorems": [
    "C159_empty_refuted",
    "C159_concat_partial",
    "C159_empty_throws",
    "C159_refused"
   ],
   "note": "Refuted: when the second array is empty it always throws irange_out_of_bounds, because the range from the end of the result is refused (C159_empty_refuted, C159_empty_throws). Proved: holds for every non-empty second array; other dimensions or types are refused."
  },
  {
   "property": "C160",
   "status": "partial",
   "theorems": [
    "C160_exact",
    "C160_self_refuted",
    "C160_self_partial"
   ],
   "note": "Refuted: 2^600 divided by itself is not a finite number (C160_self_refuted). Proved: it is 1 exactly when the computed square of the absolute value is finite and not 0, in particular when the larger component is between 2^-500 and 2^500 in absolute value."
  },
  {
   "property": "C161",
   "status": "partial",
   "theorems": [
    "C161_own_real_refuted",
    "C161_scale_partial",
    "C161_own_real"
   ],
   "note": "Refuted: z *= z.m_real scales the imaginary part by the new real part (C161_own_real_refuted, C161_own_real for all z). Proved: holds for any other number, including z.m_imag. Results that are not finite are not covered."
  },
  {
   "property": "C162",
   "status": "partial",
   "theorems": [
    "C162_number_refuted",
    "C162_number_always",
    "C162_complex_partial"
   ],
   "note": "Refuted for a complex and a real number: != gives the same answer as ==, always (C162_number_refuted, C162_number_always). Proved between complex numbers."
  },
  {
   "property": "C163",
   "status": "proved",
   "theorems": [
    "C163_mixed"
   ],
   "note": "Over finite operands; a result that is not finite on one side is not finite on the other."
  },
  {
   "property": "C164",
   "status": "proved",
   "theorems": [
    "C164_laws"
   ],
   "note": "A result that is not finite is one outcome; the sign of zero is not modelled."
  },
  {
   "property": "C165",
   "status": "proved",
   "theorems": [
    "C165_gauss"
   ],
   "note": ""
  }
 ]
}