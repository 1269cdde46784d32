{
 "claims": [
  {
   "property": "C01",
   "status": "proved",
   "theorems": [
    "C01_calendar_epoch",
    "C01_calendar_step",
    "C01_calendar_fields_valid",
    "C01_utc_round_trip",
    "C01_utc_two_digit_year",
    "C01_make_day_carry",
    "C01_time_value_rebuilt",
    "C01_time_value_fields_rebuild",
    "C01_day_division_exact",
    "C01_utc_huge_year_overflow_refuted"
   ],
   "note": "Proved for every integer time value and every date with |year| <= 2e8 (the whole valid range is |year| <= 275760). Beyond the statement's range Date.UTC(1e9,0) overflows int64_t (refuted theorem). Doubles are modelled as exact integers; the only inexact operation in range, the division in day(), is shown to have the exact floor."
  },
  {
   "property": "C02",
   "status": "partial",
   "theorems": [
    "C02_time_fields_in_range",
    "C02_time_fields_recombine_iff",
    "C02_time_fields_negative_refuted"
   ],
   "note": "The property is false for the code: the getters truncate toward zero, so negative time values that are not whole hours do not recombine. The exact set on which it holds is proved."
  },
  {
   "property": "C03",
   "status": "proved",
   "theorems": [
    "C03_sort_any_comparator_permutation",
    "C03_sort_sorted_stable",
    "C03_array_sort_correct",
    "C03_array_sort_throw_unchanged",
    "C03_array_sort_total",
    "C03_typed_array_default_order",
    "C03_typed_array_default_exact"
   ],
   "note": "Index-level model of merge/sort with stateful, possibly throwing comparator. Array elements are read/written as plain data (no accessors); a comparator that mutates the typed array being sorted is not modelled."
  },
  {
   "property": "C04",
   "status": "partial",
   "theorems": [
    "C04_same_key_iff_actual",
    "C04_same_key_guarded",
    "C04_every_name_resolves",
    "C04_index_key",
    "C04_index_key_prints_back_guarded",
    "C04_same_key_refuted"
   ],
   "note": "Names such as '01' or ' 1' alias the index 1 (refuted); the exact equality condition is proved for every run, and the property in full for names that are not untidy spellings of an index."
  },
  {
   "property": "C05",
   "status": "partial",
   "theorems": [
    "C05_never_crashes_refuted",
    "C05_crash_exactly",
    "C05_finite_map"
   ],
   "note": "Refuted as stated: storing index 0, 1 or 2 while the tree form is empty writes through a null pointer. Proved: that is the only crash, and in every other history lookups and listings are those of the finite map."
  },
  {
   "property": "C06",
   "status": "proved",
   "theorems": [
    "C06_length_bounds_every_index"
   ],
   "note": "For every history of object operations that completes."
  },
  {
   "property": "C07",
   "status": "proved",
   "theorems": [
    "C07_truncation_exact",
    "C07_fixed_length_is_final"
   ],
   "note": "Truncation through defineProperty of length with a value and optionally writable:false; plain assignment goes through the same function."
  },
  {
   "property": "C08",
   "status": "proved",
   "theorems": [
    "C08_non_configurable_stable"
   ],
   "note": ""
  },
  {
   "property": "C09",
   "status": "proved",
   "theorems": [
    "C09_acyclic",
    "C09_cycle_refused",
    "C09_other_accepted"
   ],
   "note": "Proxies and module namespaces end the walk, as in the code."
  },
  {
   "property": "C10",
   "status": "proved",
   "theorems": [
    "C10_prevent_extensions",
    "C10_non_extensible_is_final"
   ],
   "note": ""
  },
  {
   "property": "C11",
   "status": "proved",
   "theorems": [
    "C11_hash_table_is_finite_map"
   ],
   "note": "Any hash function consistent with the key equivalence, any history. The equivalence/consistency of the concrete key functions (rjs_hash_op_value_key casts a double to size_t, undefined for negative/NaN) is a hypothesis."
  },
  {
   "property": "C12",
   "status": "proved",
   "theorems": [
    "C12_history",
    "C12_order",
    "C12_put",
    "C12_drop",
    "C12_lookup",
    "C12_visit",
    "C12_neighbours",
    "C12_ends",
    "C12_insert_frame",
    "C12_remove_frame",
    "C12_height",
    "C12_store_find",
    "C12_store_insert",
    "C12_store_remove",
    "C12_store_last"
   ],
   "note": "Pointer-level model of rjs_rbt.c (nodes at addresses, colour bits, rotations) and of the searches of rjs_object.c that use it; every history of insertions and removals from the empty tree, with the number of loop rounds bounded logarithmically; also discharges the list representation of the tree used by the store model."
  },
  {
   "property": "C13",
   "status": "partial",
   "theorems": [
    "C13_map_iteration_is_log_cursor",
    "C13_cursor_yields_next_present_entry",
    "C13_setter_use_after_free_refuted",
    "C13_setter_skips_entry_refuted"
   ],
   "note": "Proved for every interleaving, with the hash table model of C11 inside, provided no Array.prototype setter for index 0/1 runs during a key/value step. With such a setter the code reads a freed entry or skips an entry (refuted theorems). The -0 key normalisation is not covered."
  },
  {
   "property": "C14",
   "status": "proved",
   "theorems": [
    "C14_reachable_things_survive"
   ],
   "note": "Any finite graph, any roots, any mark stack capacity including none; termination included (the model's fuel is shown sufficient)."
  },
  {
   "property": "C15",
   "status": "proved",
   "theorems": [
    "C15_only_reachable_things_stay",
    "C15_collections_in_a_history"
   ],
   "note": "Exactly the reachable things stay, marks are clear afterwards; also for collections anywhere in a history."
  },
  {
   "property": "C16",
   "status": "partial",
   "theorems": [
    "C16_weak_map_value_kept_refuted",
    "C16_weak_map_value_actual"
   ],
   "note": "The code violates this: values of weak maps are not scanned, so a value only the map refers to is freed and get returns freed memory. The second theorem says exactly when the value stays."
  },
  {
   "property": "C17",
   "status": "partial",
   "theorems": [
    "C17_jobs_fifo_exactly_once",
    "C17_jobs_drain_terminates",
    "C17_reentrant_drain_refuted"
   ],
   "note": "Proved for all job bodies that do not themselves drain the queue. With a re-entrant drain (the script-callable solveJobs()) the property is false of the code: the running job runs twice and its node is freed twice (refuted theorem)."
  },
  {
   "property": "C18",
   "status": "proved",
   "theorems": [
    "C18_no_assertion_fails",
    "C18_settled_at_most_once",
    "C18_settled_stays",
    "C18_later_calls_ignored",
    "C18_first_call_decides",
    "C18_then_answer_decides"
   ],
   "note": "For all action sequences of an open machine in which the script is an adversary."
  },
  {
   "property": "C19",
   "status": "proved",
   "theorems": [
    "C19_jobs_are_due_jobs",
    "C19_promise_jobs_in_order",
    "C19_exactly_once",
    "C19_asynchronous",
    "C19_capability_at_most_once",
    "C19_capability_when_done",
    "C19_handler_result",
    "C19_no_handler",
    "C19_handler_called"
   ],
   "note": "Jobs are taken from the queue in order; a job that itself calls solveJobs (C17) is outside the model."
  },
  {
   "property": "C20",
   "status": "partial",
   "theorems": [
    "C20_add_exact_iff",
    "C20_sub_exact_iff",
    "C20_add_sub_small",
    "C20_negate_inc_dec_not",
    "C20_sub_exact_refuted",
    "C20_add_exact_refuted"
   ],
   "note": "Violated by the code: the borrow flag of the magnitude subtraction is never cleared. Exact characterisation (iff) of when + and - are right; neg, inc, dec, not always right."
  },
  {
   "property": "C21",
   "status": "partial",
   "theorems": [
    "C21_mul_exact_iff",
    "C21_exp_exact_iff",
    "C21_mul_exact_refuted",
    "C21_exp_exact_refuted",
    "C21_exp_of_one_throws_refuted"
   ],
   "note": "Violated: wrong sign for a < -1 with |b| = 1 mod 2^32, and for a < -1 to the power 1; 1n**(2n**32n) throws. Exact everywhere else."
  },
  {
   "property": "C22",
   "status": "partial",
   "theorems": [
    "C22_div_zero_throws",
    "C22_div_exact_partial",
    "C22_div_small_exact",
    "C22_div_exact_refuted",
    "C22_div_prompt_refuted"
   ],
   "note": "Violated for multi-limb divisors (inherits the subtraction defect, can also take an enormous number of iterations). Proved for |a| < 2^64, for |b| < 2^32 with any a, and whenever the subtractions met are exact."
  },
  {
   "property": "C23",
   "status": "proved",
   "theorems": [
    "C23_bitwise_twos_complement",
    "C23_bitwise_bits"
   ],
   "note": ""
  },
  {
   "property": "C24",
   "status": "partial",
   "theorems": [
    "C24_shift_exact_iff",
    "C24_shift_nonnegative",
    "C24_shift_far",
    "C24_shift_right_refuted",
    "C24_shift_left_refuted",
    "C24_shift_zero_refuted"
   ],
   "note": "Violated for some negative values (two's complement window loses its top limb) and 0n << 2n**32n. Exact iff given."
  },
  {
   "property": "C25",
   "status": "partial",
   "theorems": [
    "C25_as_uint_iff",
    "C25_as_int_iff",
    "C25_signed_representative",
    "C25_as_uint_refuted",
    "C25_as_int_refuted"
   ],
   "note": "Violated for negative values narrower than the requested width. Exact iff given."
  },
  {
   "property": "C26",
   "status": "proved",
   "theorems": [
    "C26_compare_order",
    "C26_same_value_equal",
    "C26_compare_number",
    "C26_compare_special",
    "C26_number_to_bigint_exact"
   ],
   "note": ""
  },
  {
   "property": "C27",
   "status": "proved",
   "theorems": [
    "C27_to_string_canonical",
    "C27_text_round_trip",
    "C27_parse_value"
   ],
   "note": "Reading back is proved for the radices the scanner supports (2..16)."
  },
  {
   "property": "C28",
   "status": "proved",
   "theorems": [
    "C28_every_integer_has_normal_form",
    "C28_operations_normal",
    "C28_division_normal",
    "C28_shift_power_normal",
    "C28_conversions_normal",
    "C28_normal_unique"
   ],
   "note": ""
  },
  {
   "property": "C29",
   "status": "partial",
   "theorems": [
    "C29_convert_exact",
    "C29_round_trip",
    "C29_bounded",
    "C29_to_buffer",
    "C29_buffer_overflow_refuted",
    "C29_overflow_actual",
    "C29_to_buffer_utf8_guarded",
    "C29_unpaired_surrogates"
   ],
   "note": "Built-in converter (ENC_CONV=internal). Round trip and exactness proved for all five encodings. The buffer bound holds for UTF-16/32 output and fails for UTF-8 output (utf8_from_uc ignores the room left); the exact condition is C29_overflow_actual."
  },
  {
   "property": "C30",
   "status": "proved",
   "theorems": [
    "C30_encode_decode",
    "C30_lone_surrogate",
    "C30_first_lone_surrogate"
   ],
   "note": ""
  },
  {
   "property": "C31",
   "status": "partial",
   "theorems": [
    "C31_refuted",
    "C31_out_of_bounds_refuted",
    "C31_overlong_refuted",
    "C31_surrogate_refuted",
    "C31_range_refuted",
    "C31_decodes_well_formed_guarded",
    "C31_accepted_actual",
    "C31_out_of_bounds_actual",
    "C31_rejected_actual"
   ],
   "note": "The claim is false for the code: a trailing %X reads past the end, and overlong, surrogate and out-of-range UTF-8 is accepted. Both deviations are characterised exactly."
  },
  {
   "property": "C32",
   "status": "partial",
   "theorems": [
    "C32_store_load_guarded",
    "C32_store_frame",
    "C32_load_meaning",
    "C32_load_store",
    "C32_byte_order",
    "C32_load_defined",
    "C32_min_element_refuted"
   ],
   "note": "Exact for all types, orders and offsets where the C conversions are defined; undefined for numbers of magnitude >= 2^63 in integer elements and for -2^63 in BigInt64 elements."
  },
  {
   "property": "C33",
   "status": "proved",
   "theorems": [
    "C33_views_in_bounds",
    "C33_views_fit",
    "C33_data_view_get",
    "C33_data_view_set",
    "C33_element_get",
    "C33_element_set",
    "C33_detached"
   ],
   "note": "Programs of buffer, DataView and TypedArray operations with user code in every conversion, detach included; element encodings are parameters. Threads on shared blocks are not interleaved."
  },
  {
   "property": "C34",
   "status": "proved",
   "theorems": [
    "C34_box_round_trip",
    "C34_box_injective",
    "C34_scan_exact",
    "C34_forged_patterns",
    "C34_buffer_never_forges",
    "C34_stack_pointers"
   ],
   "note": "Pointers are canonical 48-bit addresses; arithmetic results are assumed to be the default NaN patterns of C and x86."
  },
  {
   "property": "C35",
   "status": "partial",
   "theorems": [
    "C35_to_int_modular_guarded",
    "C35_truncated_unique",
    "C35_to_int_large_refuted",
    "C35_to_uint8_clamp"
   ],
   "note": "Exact: modular for every number whose integer part fits int64_t (and NaN, infinities); for all others the C cast is undefined, so the claim as stated is refuted. ToUint8Clamp holds for every double."
  },
  {
   "property": "C36",
   "status": "partial",
   "theorems": [
    "C36_left_shift_guarded",
    "C36_signed_right_shift_guarded",
    "C36_unsigned_right_shift_actual",
    "C36_unsigned_right_shift_refuted"
   ],
   "note": "<< and >> hold when the operands fit int64_t; >>> is undefined behaviour for negative, large or non-finite operands and for counts outside 0..31 (exact characterisation proved)."
  },
  {
   "property": "C37",
   "status": "partial",
   "theorems": [
    "C37_notify_exact",
    "C37_results_actual",
    "C37_matched_guarded",
    "C37_no_lost_wakeup",
    "C37_compare",
    "C37_no_use_after_free",
    "C37_spurious_refuted",
    "C37_late_refuted"
   ],
   "note": "False as stated: rjs_add_waiter does not check why pthread_cond_wait returned, so a spurious wake-up returns ok without notification, and notify counts a waiter whose time is already over. Proved for every schedule: notify takes the oldest waiters in order and returns their number, the exact results of the waits, no lost wake-up and no use of freed waiters; and the claim itself without these two kinds of wake-ups."
  },
  {
   "property": "C38",
   "status": "partial",
   "theorems": [
    "C38_linearizable_guarded",
    "C38_no_race_guarded",
    "C38_progress",
    "C38_torn_load_refuted",
    "C38_torn_store_refuted",
    "C38_race_refuted"
   ],
   "note": "False as stated: load and store copy bytes under the mutex while the other operations are lock-free C11 atomics, so a load can return and a store can leave a torn value, and the two kinds race. Proved for every schedule of programs that do not mix the two kinds (with race freedom), and for all operations on one-byte elements under sequential consistency. Memory is sequentially consistent in the model."
  },
  {
   "property": "C39",
   "status": "partial",
   "theorems": [
    "C39_index_of",
    "C39_last_index_of",
    "C39_js_indexOf",
    "C39_js_includes",
    "C39_js_startsWith",
    "C39_js_endsWith",
    "C39_js_lastIndexOf_guarded",
    "C39_js_lastIndexOf_undefined",
    "C39_js_lastIndexOf_refuted"
   ],
   "note": "Proved for both search primitives and every method; lastIndexOf with a pattern longer than the text converts a negative double to size_t (undefined), shown by the _refuted theorem and characterised exactly."
  },
  {
   "property": "C40",
   "status": "proved",
   "theorems": [
    "C40_compare_less",
    "C40_compare_greater",
    "C40_compare_equal",
    "C40_content_equal",
    "C40_strict_total_order"
   ],
   "note": "UTF-16 lexicographic strict total order; equality of contents is equality."
  },
  {
   "property": "C41",
   "status": "partial",
   "theorems": [
    "C41_trim_actual",
    "C41_trim_guarded",
    "C41_trim_refuted",
    "C41_trimmed_unique",
    "C41_pad"
   ],
   "note": "pad proved in full. trim also removes U+0085, which is not ECMAScript white space (refuted); exact description and guarded theorem proved."
  },
  {
   "property": "C42",
   "status": "proved",
   "theorems": [
    "C42_quote_conforms",
    "C42_quote_literal",
    "C42_quote_read_back",
    "C42_lexer_read_back"
   ],
   "note": "Strings of UTF-16 units; the lexer's loops and the whole parser are modelled, the identifier classes of ICU are a parameter constrained on ASCII."
  },
  {
   "property": "C43",
   "status": "partial",
   "theorems": [
    "C43_accepts_json",
    "C43_terminates",
    "C43_value_unique",
    "C43_actual",
    "C43_strict_refuted",
    "C43_undefined_refuted",
    "C43_string_token_closed"
   ],
   "note": "The strictness claim is false of the code: C43_strict_refuted lists 19 non-JSON texts that are accepted and C43_undefined_refuted two that reach undefined behaviour. Proved instead: every JSON text is accepted with its value, the parser ends on every text, and the accepted texts are exactly those whose tokens follow the relaxed grammar rvalue."
  },
  {
   "property": "C44",
   "status": "partial",
   "theorems": [
    "C44_substitution_guarded",
    "C44_expansion_unique",
    "C44_substitution_refuted"
   ],
   "note": "Full correctness when the match lies inside the subject; a custom exec result reaching past the end trips the range assertion for $' (refuted)."
  },
  {
   "property": "C45",
   "status": "proved",
   "theorems": [
    "C45_copy_within",
    "C45_set_from_view"
   ],
   "note": "User code runs in the argument conversions. The allocation of the temporary is assumed to succeed in C45_set_from_view (failure is an exception before any write)."
  },
  {
   "property": "C46",
   "status": "partial",
   "theorems": [
    "C46_each_registration_honoured_refuted",
    "C46_each_registration_honoured_fresh_tokens",
    "C46_every_fresh_history_is_described"
   ],
   "note": "The code violates this when a token in use is registered again: the older registration is overwritten. Proved for all histories that do not reuse a token in use."
  },
  {
   "property": "C47",
   "status": "partial",
   "theorems": [
    "C47_iso_round_trip_iff",
    "C47_iso_round_trip_negative_refuted"
   ],
   "note": "The property is false for the code (same truncation as C02). The exact set of time values that round-trip is proved."
  },
  {
   "property": "C48",
   "status": "proved",
   "theorems": [
    "C48_own_keys_in_order",
    "C48_orders_total"
   ],
   "note": ""
  },
  {
   "property": "C49",
   "status": "partial",
   "theorems": [
    "C49_int64_round_trip",
    "C49_uint64_round_trip",
    "C49_to_int64_iff",
    "C49_wrap64_representative",
    "C49_int64_min_refuted",
    "C49_from_int"
   ],
   "note": "Violated (undefined signed overflow) exactly on negative values congruent to 2^63 modulo 2^64, and when reading INT64_MIN back."
  },
  {
   "property": "C50",
   "status": "partial",
   "theorems": [
    "C50_number_of_bigint_iff",
    "C50_number_of_bigint_refuted"
   ],
   "note": "Violated outside the int64 range; exact iff given."
  },
  {
   "property": "C51",
   "status": "partial",
   "theorems": [
    "C51_repeat_guarded",
    "C51_repeat_bad_count",
    "C51_repeat_unsafe_iff",
    "C51_repeat_refuted"
   ],
   "note": "size_t overflow of n*length lets repeat write past its buffer (refuted); exact condition proved, and full correctness below 2^63 units."
  },
  {
   "property": "C52",
   "status": "proved",
   "theorems": [
    "C52_split",
    "C52_split_join",
    "C52_split_units",
    "C52_split_limit_zero_or_undefined"
   ],
   "note": "Separator without a Symbol.split method."
  },
  {
   "property": "C53",
   "status": "proved",
   "theorems": [
    "C53_iteration",
    "C53_codePointAt",
    "C53_codePointAt_outside",
    "C53_fromCodePoint",
    "C53_round_trip"
   ],
   "note": ""
  },
  {
   "property": "C54",
   "status": "proved",
   "theorems": [
    "C54_slice",
    "C54_slice_limits",
    "C54_substring",
    "C54_at",
    "C54_charAt",
    "C54_charCodeAt"
   ],
   "note": ""
  },
  {
   "property": "C55",
   "status": "proved",
   "theorems": [
    "C55_replace",
    "C55_template_in_bounds",
    "C55_replaceAll_template",
    "C55_replaceAll_function",
    "C55_matches_unique"
   ],
   "note": "Search values without Symbol.replace."
  },
  {
   "property": "C56",
   "status": "partial",
   "theorems": [
    "C56_bitwise_guarded",
    "C56_bitwise_large_refuted"
   ],
   "note": "Holds when the operands' integer parts fit int64_t; otherwise the cast in ToInt32 is undefined."
  },
  {
   "property": "C57",
   "status": "proved",
   "theorems": [
    "C57_to_index",
    "C57_to_index_undefined",
    "C57_to_integer_or_infinity"
   ],
   "note": "All doubles."
  },
  {
   "property": "C58",
   "status": "proved",
   "theorems": [
    "C58_freeze_seal",
    "C58_is_frozen_sealed"
   ],
   "note": ""
  },
  {
   "property": "C59",
   "status": "proved",
   "theorems": [
    "C59_define_property_conforms"
   ],
   "note": "For operations that do not hit the crash of C05."
  },
  {
   "property": "C60",
   "status": "proved",
   "theorems": [
    "C60_weak_references_never_dangle",
    "C60_entries_disappear_exactly_with_their_things"
   ],
   "note": "Over all histories from the empty heap."
  },
  {
   "property": "C61",
   "status": "partial",
   "theorems": [
    "C61_stringify_json",
    "C61_round_trip",
    "C61_undefined",
    "C61_number_gap",
    "C61_gap_refuted",
    "C61_string_gap"
   ],
   "note": "Proved for trees without BigInt, replacer, toJSON or cycles; a number keeps the text of rjs_to_string, assumed to be a signed JSON number. Refuted part: a space argument of -Infinity or below -2^63 reaches an undefined conversion."
  },
  {
   "property": "C62",
   "status": "proved",
   "theorems": [
    "C62_characters_exist",
    "C62_get_unget",
    "C62_reread",
    "C62_location",
    "C62_list_view"
   ],
   "note": "The int line and column counters are unbounded in the model. Line and column are claimed for reads and for a push-back followed by a read, not after several push-backs."
  },
  {
   "property": "C63",
   "status": "proved",
   "theorems": [
    "C63_all_calls_resolve_once",
    "C63_any_calls_reject_once"
   ],
   "note": "Array.prototype without index setters; fewer than 2^64-1 elements."
  },
  {
   "property": "C64",
   "status": "partial",
   "theorems": [
    "C64_settled_partial",
    "C64_settled_refuted",
    "C64_settled_never_refuted"
   ],
   "note": "False when an element calls both its functions (they do not share the already-called flag); proved when no element does."
  },
  {
   "property": "C65",
   "status": "partial",
   "theorems": [
    "C65_slice_same_type",
    "C65_slice_guarded",
    "C65_slice_overlap_refuted"
   ],
   "note": "Refuted: a species constructor that returns a view of the same memory gives memcpy with overlapping operands, and on a SharedArrayBuffer a second lock of a non-recursive mutex. Guarded theorems give the exact result and when the fault occurs. The element-wise loop for different types is covered only by C33."
  },
  {
   "property": "C66",
   "status": "partial",
   "theorems": [
    "C66_deadline_guarded",
    "C66_infinite",
    "C66_huge_refuted"
   ],
   "note": "Proved for timeouts below 2^64 milliseconds; from there on the conversion of the double to uint64_t is undefined behavior."
  },
  {
   "property": "C67",
   "status": "partial",
   "theorems": [
    "C67_invariants",
    "C67_nested_partial",
    "C67_has_refuted",
    "C67_delete_refuted",
    "C67_proto_refuted"
   ],
   "note": "Holds for a proxy of an ordinary object or array with any handler (C67_invariants) and for towers of proxies while no exception is lost (C67_nested_partial); refuted for a proxy of a proxy whose isExtensible trap throws: [[HasProperty]], [[Delete]] and [[GetPrototypeOf]] take RJS_ERR as true and go on."
  },
  {
   "property": "C68",
   "status": "proved",
   "theorems": [
    "C68_get_prototype_of",
    "C68_set_prototype_of",
    "C68_is_extensible",
    "C68_prevent_extensions",
    "C68_get_own_undefined",
    "C68_get_own_object",
    "C68_define",
    "C68_has",
    "C68_get",
    "C68_set",
    "C68_delete",
    "C68_own_keys",
    "C68_refusals",
    "C68_no_trap",
    "C68_revoked"
   ],
   "note": "[[Call]] and [[Construct]] are not modelled; looking up and calling the trap, reading its result object and ToBoolean are the script."
  },
  {
   "property": "C69",
   "status": "proved",
   "theorems": [
    "C69_machine_answer",
    "C69_deterministic",
    "C69_never_bad",
    "C69_memory",
    "C69_language"
   ],
   "note": "For patterns with back references the text has one code unit per character, or the flag u is absent; with u and pairs back references are in C70. The matcher is the one of the standard except for iterations that match the empty string (see C70)."
  },
  {
   "property": "C70",
   "status": "partial",
   "theorems": [
    "C70_conforms",
    "C70_found",
    "C70_empty_iteration_refuted",
    "C70_unicode_back_reference_refuted"
   ],
   "note": "Equal answers when what is repeated with a choice cannot be empty, without i and without U+0085 in the text; whether there is a match agrees for all patterns without back references. Refuted for empty iterations and for back references with u."
  },
  {
   "property": "C71",
   "status": "partial",
   "theorems": [
    "C71_exec",
    "C71_past_end",
    "C71_exec_conforms",
    "C71_holes",
    "C71_undefined_capture_refuted",
    "C71_half_pair_refuted"
   ],
   "note": "Leftmost match, lastIndex, captures, indices and names for every lastIndex on a character boundary. Refuted: groups without part are holes, lastIndex inside of a pair."
  },
  {
   "property": "C72",
   "status": "partial",
   "theorems": [
    "C72_members",
    "C72_canonicalize",
    "C72_ignore_case_class",
    "C72_ignore_case_char",
    "C72_ignore_case_dot",
    "C72_range_refuted",
    "C72_space_refuted",
    "C72_word_refuted",
    "C72_canonicalize_refuted",
    "C72_property_refuted"
   ],
   "note": "Exact without i except for U+0085; with i for fair items. Refuted for ranges, \\s, \\w, Canonicalize and \\p with i."
  },
  {
   "property": "C73",
   "status": "partial",
   "theorems": [
    "C73_grammar",
    "C73_compile",
    "C73_one_tree",
    "C73_last_dash_refuted",
    "C73_escaped_dash_refuted",
    "C73_class_property_refuted",
    "C73_lead_escape_refuted",
    "C73_escaped_name_refuted",
    "C73_overflow_refuted",
    "C73_pair_refuted"
   ],
   "note": "Proved for every derivation without the constructs the code gets wrong, which are refuted one by one: [\\w-], [\\-] with u, properties in classes, a lead surrogate escape before \\u{, numbers beyond the integer types, supplementary characters without u. C73_compile (both passes of rjs_regexp_initialize) lacks \\k<name> without u; C73_grammar covers it for the second pass."
  },
  {
   "property": "C74",
   "status": "proved",
   "theorems": [
    "C74_ends",
    "C74_tree",
    "C74_run"
   ],
   "note": "Every text; C74_run with the condition of C69 (no surrogate pairs with u, or no back references)."
  },
  {
   "property": "C75",
   "status": "partial",
   "theorems": [
    "C75_flags",
    "C75_source",
    "C75_source_refuted"
   ],
   "note": "Flags exactly; the source is the text itself without /, LF and CR; refuted: a / that is escaped already, U+2028."
  },
  {
   "property": "C77",
   "status": "proved",
   "theorems": [
    "C77_link_correct"
   ],
   "note": "Any closed finite graph, fuel at least its size; C77_witness, C77_witness_error."
  },
  {
   "property": "C78",
   "status": "proved",
   "theorems": [
    "C78_evaluate_correct",
    "C78_programs"
   ],
   "note": "For graphs without top level await (that is C79)."
  },
  {
   "property": "C79",
   "status": "partial",
   "theorems": [
    "C79_started_at_most_once",
    "C79_results_stay",
    "C79_starts_after_requested_refuted",
    "C79_no_assertion_fails_refuted",
    "C79_every_import_settles_refuted"
   ],
   "note": "At most once and permanence hold for every run; order, absence of failed assertions and settlement are refuted by concrete graphs."
  },
  {
   "property": "C80",
   "status": "partial",
   "theorems": [
    "C80_resolve_export",
    "C80_names_checked_at_linking",
    "C80_ambiguous_refuted"
   ],
   "note": "Everything but: an ambiguous name always answers AMBIGUOUS (refuted for ambiguity below a star export)."
  },
  {
   "property": "C81",
   "status": "partial",
   "theorems": [
    "C81_namespace_names",
    "C81_namespace_get",
    "C81_no_ambiguous_names_refuted"
   ],
   "note": "Keys are exactly the names that resolve; ambiguous ones can be among them because of C80."
  },
  {
   "property": "C82",
   "status": "proved",
   "theorems": [
    "C82_loose_equality",
    "C82_strict_equality",
    "C82_inequality"
   ],
   "note": "Script code, text to number conversion are parameters of the theorems; big integers are integers (C26 covers the limbs)."
  },
  {
   "property": "C83",
   "status": "partial",
   "theorems": [
    "C83_relational_actual",
    "C83_relational",
    "C83_dates_refuted"
   ],
   "note": "False as stated: objects are converted with hint default, so dates compare as strings (C83_dates_refuted). C83_relational_actual gives the exact behaviour; C83_relational proves the claim for operands without @@toPrimitive."
  },
  {
   "property": "C84",
   "status": "proved",
   "theorems": [
    "C84_addition",
    "C84_arithmetic"
   ],
   "note": "The arithmetic on doubles and the text conversions are parameters; running out of memory is left out."
  },
  {
   "property": "C85",
   "status": "partial",
   "theorems": [
    "C85_instanceof",
    "C85_typeof",
    "C85_not_callable_refuted",
    "C85_operand_refuted"
   ],
   "note": "The operators are proved; false for Function.prototype[@@hasInstance] on a receiver that is not callable, and the left operand's variable is overwritten."
  },
  {
   "property": "C86",
   "status": "partial",
   "theorems": [
    "C86_cache_transparent",
    "C86_no_wild_access",
    "C86_stale_index_refuted",
    "C86_wrong_variable_refuted",
    "C86_out_of_bounds_refuted",
    "C86_eval_function_refuted",
    "C86_deleted_binding_refuted",
    "C86_deleted_property_refuted"
   ],
   "note": "Proved for all runs in which environments get exactly the bindings their scopes declare, at most 65536 per scope and chains below 65535, and no property of a global object is deleted.  Refuted when a direct eval adds variables or functions, when such a binding is deleted and when a global property is deleted.  Import bindings are not modelled."
  },
  {
   "property": "C87",
   "status": "partial",
   "theorems": [
    "C87_reuse_unseen",
    "C87_captured_refuted",
    "C87_plain_env_refuted"
   ],
   "note": "Proved when nothing still in use holds the old environment; refuted when a closure holds it and for functions with parameter expressions."
  },
  {
   "property": "C88",
   "status": "partial",
   "theorems": [
    "C88_for_in_is_standard",
    "C88_for_in_once",
    "C88_for_in_static",
    "C88_for_in_once_refuted",
    "C88_for_in_shadow_refuted",
    "C88_symbol_first_refuted"
   ],
   "note": "Holds for every list of answers in which symbols come last, no index string is listed after another string and no name has both forms; refuted otherwise (names visited twice, hidden names shown, strings after a symbol left out)."
  },
  {
   "property": "C89",
   "status": "proved",
   "theorems": [
    "C89_arguments_are_standard",
    "C89_arguments_determined"
   ],
   "note": "The answers to every sequence of operations are those of the specification, which determines them. Parameter bindings are taken to be present (a tail call that empties the environment is C87); getters, setters, the prototype and other receivers are answers, what they do are further operations."
  },
  {
   "property": "C90",
   "status": "partial",
   "theorems": [
    "C90_reading_methods",
    "C90_search_methods",
    "C90_with",
    "C90_search_refuted",
    "C90_negative_refuted",
    "C90_species_refuted"
   ],
   "note": "Every world whose lengths are at most 2^53-1. Violated for start indices outside int64_t (undefined behaviour), for IsArray errors that a get handler hides, and with ignores failed definitions; proved without these. flat: depths up to 2^53."
  },
  {
   "property": "C91",
   "status": "partial",
   "theorems": [
    "C91_changing_methods",
    "C91_splice_contents",
    "C91_unshift_contents",
    "C91_splice_refuted",
    "C91_insert_refuted"
   ],
   "note": "copyWithin, fill, pop, push, reverse and shift in every world. splice and unshift do extra operations (refuted); on plain arrays without elements outside the length they leave the right contents."
  },
  {
   "property": "C92",
   "status": "partial",
   "theorems": [
    "C92_function_body",
    "C92_stack_discipline",
    "C92_finally_jump_refuted",
    "C92_stale_return_refuted",
    "C92_stale_close_refuted",
    "C92_old_error_refuted",
    "C92_lost_error_refuted"
   ],
   "note": "Equivalence in both directions for all function bodies that are fine: no return is left pending when a finally block jumps or throws into a catch, and iterators' return methods leave the error register alone (or there is nothing to close). Outside these conditions the interpreter differs; the five refutations show each kind. Generators, tail calls and register allocation are not modelled."
  },
  {
   "property": "C93",
   "status": "partial",
   "theorems": [
    "C93_completion_value",
    "C93_stack_discipline",
    "C93_catch_value_refuted"
   ],
   "note": "Equivalence for scripts without catch clauses under the conditions of C92; with a catch clause the value of the try block leaks (refutation)."
  },
  {
   "property": "C94",
   "status": "partial",
   "theorems": [
    "C94_accepted_valid",
    "C94_valid_accepted",
    "C94_label_refuted"
   ],
   "note": "Every accepted program has targets for its jumps. Every valid program is accepted unless a break in an else branch, catch or finally names a label of that if or try statement; those are rejected (refutation)."
  },
  {
   "property": "C95",
   "status": "proved",
   "theorems": [
    "C95_conforms",
    "C95_no_assertion",
    "C95_finished"
   ],
   "note": ""
  },
  {
   "property": "C96",
   "status": "partial",
   "theorems": [
    "C96_conforms_actual",
    "C96_conforms_guarded",
    "C96_answers_in_order",
    "C96_no_assertion",
    "C96_nothing_forgotten",
    "C96_drained_refuted",
    "C96_tail_refuted",
    "C96_star_refuted"
   ],
   "note": "Order, exactly-once answers and progress hold for all runs. The code is the standard machine with three deviations (C96_conforms_actual): a drained next(v) is answered with v, return f() is not awaited, an invalid return value during yield* is thrown in the body; without them it conforms (C96_conforms_guarded)."
  },
  {
   "property": "C97",
   "status": "partial",
   "theorems": [
    "C97_text_partial",
    "C97_text_actual",
    "C97_refuted",
    "C97_shortest_refuted",
    "C97_special",
    "C97_buffer"
   ],
   "note": "Proved for all doubles except those with exponent 2..22 (2^54 to 2^75), where the claim is false (C97_refuted, C97_shortest_refuted); for those C97_text_actual gives what holds. The multi-precision arithmetic of rjs_dtoa.c is modelled by exact integers; its quick paths for small digit counts by the exact results."
  },
  {
   "property": "C98",
   "status": "partial",
   "theorems": [
    "C98_fixed_actual",
    "C98_fixed_partial",
    "C98_fixed_refuted",
    "C98_zero",
    "C98_zero_refuted",
    "C98_other",
    "C98_exponential_actual",
    "C98_exponential_partial",
    "C98_exponential_all",
    "C98_precision_actual",
    "C98_precision_partial",
    "C98_digits_refuted",
    "C98_buffer"
   ],
   "note": "Exact behaviour proved (ties to even); agrees with the standard unless the number is a tie above an even digit string, where the claim is false (C98_fixed_refuted, C98_digits_refuted); the sign of -0 in toFixed is wrong (C98_zero_refuted)."
  },
  {
   "property": "C99",
   "status": "partial",
   "theorems": [
    "C99_integer_partial",
    "C99_actual",
    "C99_other",
    "C99_fraction_refuted",
    "C99_undefined_refuted"
   ],
   "note": "Proved for integers below 2^63; fractions and larger numbers violate the claim (C99_fraction_refuted, C99_undefined_refuted)."
  },
  {
   "property": "C100",
   "status": "partial",
   "theorems": [
    "C100_expression_accepted",
    "C100_parser_answers",
    "C100_tree_unique",
    "C100_new_super_refuted",
    "C100_new_new_refuted",
    "C100_delete_chain_refuted"
   ],
   "note": "Proved for token lists without the neighbours 'new new' and 'new super', and in strict mode without delete or with neither '?.' nor a constant operand; outside of that the code violates the claim (refuted theorems). Object and array literals, functions, classes, templates with substitutions, arrow functions with a parameter list, yield and import are tokens or left out."
  },
  {
   "property": "C101",
   "status": "partial",
   "theorems": [
    "C101_only_expressions",
    "C101_parser_exact",
    "C101_trailing_comma_refuted",
    "C101_new_chain_refuted"
   ],
   "note": "Proved for token lists without 'new new', without a comma before ')', without a constant before &&, ||, ?: (or null/undefined before ??) and without 'new' together with '?.'; the code accepts more than the grammar otherwise (refuted theorems). Same fragment of the grammar as C100."
  },
  {
   "property": "C102",
   "status": "partial",
   "theorems": [
    "C102_values_kept",
    "C102_receiver_refuted",
    "C102_target_refuted",
    "C102_typeof_refuted"
   ],
   "note": "Proved for constants, names, parentheses, comma lists, unary and binary operators, conditionals and assignments to names, with 'undefined' bound to undefined; where a reference counts (call receiver, assignment target, typeof, delete) the code violates the claim (refuted theorems)."
  },
  {
   "property": "C103",
   "status": "partial",
   "theorems": [
    "C103_convert_partial",
    "C103_complete",
    "C103_sign_refuted",
    "C103_comment_refuted",
    "C103_escape_refuted",
    "C103_space_refuted",
    "C103_radix_refuted"
   ],
   "note": "Exact (iff) for strings without '/', backslash and U+0085, without white space after a leading sign, of at most 19000 characters, radix integers up to 2^53; complete without the first three guards. Each guard but the length is needed (refuted theorems). The arithmetic of rjs_strtod is taken to round correctly. Identifier characters outside of ASCII are a parameter."
  },
  {
   "property": "C104",
   "status": "partial",
   "theorems": [
    "C104_convert_partial",
    "C104_complete",
    "C104_refuted"
   ],
   "note": "Exact for strings without '/', backslash and U+0085 and without white space after a leading sign; complete for all strings. The code accepts more (refuted)."
  },
  {
   "property": "C106",
   "status": "partial",
   "theorems": [
    "C106_parse_int_partial",
    "C106_radix",
    "C106_never_infinite",
    "C106_fraction_refuted",
    "C106_exponent_refuted",
    "C106_empty_refuted",
    "C106_overflow_refuted",
    "C106_rounding_refuted"
   ],
   "note": "True for radix 10 and 0 if neither a point nor an exponent follows the digits, for the other radices up to 2^53; the code violates the rest (refuted theorems)."
  },
  {
   "property": "C107",
   "status": "partial",
   "theorems": [
    "C107_parse_float_partial",
    "C107_parse_float_total",
    "C107_overflow_refuted",
    "C107_errno_refuted",
    "C107_infinity_refuted"
   ],
   "note": "For strings without U+0085 of at most 19000 characters in which I begins Infinity the value is the standard's, except that an overflow gives NaN and a stale errno turns Infinity into NaN (float_result). The arithmetic of rjs_strtod is taken to round correctly."
  },
  {
   "property": "C108",
   "status": "partial",
   "theorems": [
    "C108_round_trip_partial",
    "C108_refuted"
   ],
   "note": "Proved for all doubles with exponent e <= 1 or e >= 23 (m * 2^e), the zeros, the infinities and NaN; false for some others (refuted)."
  },
  {
   "property": "C105",
   "status": "partial",
   "theorems": [
    "C105_sound_partial",
    "C105_complete_partial",
    "C105_octal_refuted",
    "C105_octal_property_refuted",
    "C105_separated_refuted",
    "C105_radix_refuted"
   ],
   "note": "Sound and complete, strict and sloppy, except for legacy octal literals followed by a point or exponent and separators after legacy decimal integers (refuted); values up to 19000 characters and, with a radix, up to 2^53 (refuted beyond). The arithmetic of rjs_strtod is taken to round correctly; identifier characters outside of ASCII are a parameter."
  },
  {
   "property": "C109",
   "status": "partial",
   "theorems": [
    "C109_string_actual",
    "C109_string_partial",
    "C109_empty_braces_refuted"
   ],
   "note": "Exact for all inputs with \\u{} counted as a string of the code; standard for all inputs without \\u{}; the full property is refuted by \\u{}."
  },
  {
   "property": "C110",
   "status": "partial",
   "theorems": [
    "C110_template_partial",
    "C110_raw",
    "C110_undefined",
    "C110_empty_braces_refuted",
    "C110_undefined_refuted",
    "C110_property_refuted"
   ],
   "note": "Exact for inputs without \\u{} and without a digit after a \\u{ value that is too large; both exceptions are refuted."
  },
  {
   "property": "C111",
   "status": "partial",
   "theorems": [
    "C111_regexp_partial",
    "C111_complete",
    "C111_class_refuted"
   ],
   "note": "Exact for inputs without \\]; refuted for \\] inside a class."
  },
  {
   "property": "C112",
   "status": "proved",
   "theorems": [
    "C112_longest",
    "C112_total"
   ],
   "note": ""
  },
  {
   "property": "C113",
   "status": "proved",
   "theorems": [
    "C113_table",
    "C113_reserved"
   ],
   "note": ""
  },
  {
   "property": "C114",
   "status": "proved",
   "theorems": [
    "C114_braces"
   ],
   "note": ""
  },
  {
   "property": "C115",
   "status": "proved",
   "theorems": [
    "C115_reads_unique",
    "C115_max",
    "C115_min"
   ],
   "note": ""
  },
  {
   "property": "C116",
   "status": "proved",
   "theorems": [
    "C116_round",
    "C116_sign",
    "C116_classes"
   ],
   "note": ""
  },
  {
   "property": "C117",
   "status": "partial",
   "theorems": [
    "C117_power_partial",
    "C117_power_refuted"
   ],
   "note": "All operands except -Infinity and -0 with finite exponents beyond int64_t, where the behaviour is undefined; pow of the C library is a parameter with the stated contract."
  },
  {
   "property": "C118",
   "status": "partial",
   "theorems": [
    "C118_clz32_partial",
    "C118_imul_partial",
    "C118_large_refuted"
   ],
   "note": "For arguments whose integer part fits int64_t (as C35)."
  },
  {
   "property": "C119",
   "status": "partial",
   "theorems": [
    "C119_random_partial",
    "C119_random_refuted"
   ],
   "note": "Below 1 unless rand() returns RAND_MAX."
  },
  {
   "property": "C120",
   "status": "partial",
   "theorems": [
    "C120_set_partial",
    "C120_map_partial",
    "C120_entries_partial",
    "C120_actual",
    "C120_refuted"
   ],
   "note": "Equal to the standard for iterators that do not fail by themselves; C120_actual is exact for all: a failed iterator is closed too. The flag of the error register is covered by C92 to C94."
  },
  {
   "property": "C121",
   "status": "partial",
   "theorems": [
    "C121_from_partial",
    "C121_actual",
    "C121_refuted"
   ],
   "note": "As C120; also the length of the result must be settable. Fewer than 2^53 - 1 values."
  },
  {
   "property": "C122",
   "status": "proved",
   "theorems": [
    "C122_from_like",
    "C122_of",
    "C122_list"
   ],
   "note": ""
  },
  {
   "property": "C123",
   "status": "partial",
   "theorems": [
    "C123_element",
    "C123_rest_partial",
    "C123_rest_refuted"
   ],
   "note": "Elements in full; the rest element unless the getter value throws."
  },
  {
   "property": "C124",
   "status": "partial",
   "theorems": [
    "C124_until_over_partial",
    "C124_stays_over_partial",
    "C124_resumes_refuted"
   ],
   "note": "Up to the first end or error in every world; afterwards only while the array does not grow."
  },
  {
   "property": "C125",
   "status": "partial",
   "theorems": [
    "C125_every_text",
    "C125_token_partial",
    "C125_end",
    "C125_open_comment",
    "C125_hashbang_partial",
    "C125_no_hashbang",
    "C125_white_space_refuted"
   ],
   "note": "U+0085 is skipped as white space (refuted); all other cases are proved."
  },
  {
   "property": "C126",
   "status": "proved",
   "theorems": [
    "C126_newline_before",
    "C126_newline_before_end",
    "C126_line"
   ],
   "note": "For tokens that do not start with U+0085, with which no token of the language starts (C125)."
  },
  {
   "property": "C127",
   "status": "partial",
   "theorems": [
    "C127_plain_partial",
    "C127_actual",
    "C127_order_refuted",
    "C127_error_refuted",
    "C127_absent_refuted"
   ],
   "note": "Refuted: errors are lost, absent properties can be taken for enumerable, and properties are defined before all descriptors are read. Proved if reading has no effects and no errors."
  },
  {
   "property": "C128",
   "status": "proved",
   "theorems": [
    "C128_own_properties",
    "C128_own_keys",
    "C128_assign"
   ],
   "note": "For all worlds of objects."
  },
  {
   "property": "C129",
   "status": "proved",
   "theorems": [
    "C129_to_descriptor",
    "C129_from_descriptor",
    "C129_define_property",
    "C129_get_descriptor",
    "C129_get_descriptors"
   ],
   "note": "For all worlds of objects and all old contents of the structure."
  },
  {
   "property": "C130",
   "status": "partial",
   "theorems": [
    "C130_to_string_partial",
    "C130_to_string_refuted"
   ],
   "note": "Refuted for tags with U+0000; proved for all others."
  },
  {
   "property": "C131",
   "status": "proved",
   "theorems": [
    "C131_get_own",
    "C131_get",
    "C131_define_own",
    "C131_has_delete",
    "C131_other_keys"
   ],
   "note": "Code and relations of the standard agree in both directions."
  },
  {
   "property": "C132",
   "status": "partial",
   "theorems": [
    "C132_set_partial",
    "C132_keys_partial",
    "C132_set_refuted",
    "C132_keys_refuted"
   ],
   "note": "Refuted for other receivers and detached buffers; proved otherwise."
  },
  {
   "property": "C133",
   "status": "proved",
   "theorems": [
    "C133_syntax_error",
    "C133_type_error",
    "C133_declared",
    "C133_outcomes"
   ],
   "note": "For an ordinary global object. That the functions are among the variable names is how the parser fills the tables (read, not modelled)."
  },
  {
   "property": "C134",
   "status": "partial",
   "theorems": [
    "C134_state",
    "C134_answer_partial",
    "C134_answer_refuted"
   ],
   "note": "The answer for a name that no record holds is false instead of true (refuted); proved for names that a record holds. Lexical bindings are those of scripts, never deletable."
  },
  {
   "property": "C135",
   "status": "partial",
   "theorems": [
    "C135_found",
    "C135_exact_partial",
    "C135_exact_refuted"
   ],
   "note": "Every error of the standard is found; a with scope that holds the name is an error too, which the standard does not have (refuted). Exact if no with scope holds one of the names."
  },
  {
   "property": "C136",
   "status": "proved",
   "theorems": [
    "C136_names",
    "C136_brand"
   ],
   "note": "Private names are numbers that are never used again."
  },
  {
   "property": "C137",
   "status": "proved",
   "theorems": [
    "C137_get",
    "C137_set",
    "C137_initialize",
    "C137_twice",
    "C137_field",
    "C137_in",
    "C137_occupied"
   ],
   "note": "A call of a getter or setter is an outcome; its result is not modelled."
  },
  {
   "property": "C138",
   "status": "proved",
   "theorems": [
    "C138_call",
    "C138_construct",
    "C138_no_constructor",
    "C138_bind",
    "C138_length"
   ],
   "note": "The name of the bound function and errors of reading length are not modelled."
  },
  {
   "property": "C139",
   "status": "proved",
   "theorems": [
    "C139_safe",
    "C139_stable",
    "C139_injective",
    "C139_unregistered",
    "C139_collect"
   ],
   "note": "Failing allocation and ToString of the key are not modelled."
  },
  {
   "property": "C140",
   "status": "partial",
   "theorems": [
    "C140_steps",
    "C140_aggregate_steps",
    "C140_error",
    "C140_aggregate_partial",
    "C140_aggregate_kind_refuted",
    "C140_text"
   ],
   "note": "Refuted in one point: an AggregateError is no error object (C140_aggregate_kind_refuted). Everything else holds."
  }
 ]
}