{
 "claims": [
  {
   "property": "C01",
   "status": "proved",
   "theorems": [
    "C01_immediates_keep_identity",
    "C01_integer_store_read"
   ],
   "note": "Closed under the global context."
  },
  {
   "property": "C02",
   "status": "partial",
   "theorems": [
    "C02_float_roundtrip_refuted",
    "C02_float_roundtrip_partial"
   ],
   "note": "The property is false for exactly one bit pattern, 0x3000000000000000 (2**-255), which is stored as the word of 0.0; proved for all others (iff)."
  },
  {
   "property": "C03",
   "status": "proved",
   "theorems": [
    "C03_truthiness",
    "C03_truthiness_words"
   ],
   "note": ""
  },
  {
   "property": "C04",
   "status": "proved",
   "theorems": [
    "C04_add_sub_mul_neg_exact",
    "C04_bitwise_exact"
   ],
   "note": "Generic operator path; closed under the global context."
  },
  {
   "property": "C05",
   "status": "proved",
   "theorems": [
    "C05_floor_division"
   ],
   "note": "Interpreter/generic path. The compiled fast path is C43 (refuted for -2^62 / -1)."
  },
  {
   "property": "C06",
   "status": "partial",
   "theorems": [
    "C06_shift_refuted",
    "C06_shift_partial"
   ],
   "note": "False for receivers of more than 2^32 bits shifted right by >= 2^32; proved for all receivers of at most 2^32 bits."
  },
  {
   "property": "C07",
   "status": "partial",
   "theorems": [
    "C07_power_refuted",
    "C07_power_partial"
   ],
   "note": "False for bases 0/1/-1 with exponents outside i32 (refused) and for big bases with exponents <= -2^32 (wrong value); proved elsewhere."
  },
  {
   "property": "C08",
   "status": "partial",
   "theorems": [
    "C08_comparison_refuted",
    "C08_comparison_partial",
    "C08_strict_sound_partial",
    "C08_nonfinite"
   ],
   "note": "False for small Integers above 2^53 (converted to double first); exact for big Integers and for |n| <= 2^53; strict < and > answered true are always right."
  },
  {
   "property": "C09",
   "status": "proved",
   "theorems": [
    "C09_ordered_map"
   ],
   "note": "Every history of ordered-map operations (insert, update, lookup, ordered/swap removal, positional ops, tombstones and compaction) returns what the association-list spec returns; hash function, table order, growth points arbitrary. Comparison assumed a pure equivalence consistent with the hash."
  },
  {
   "property": "C10",
   "status": "proved",
   "theorems": [
    "C10_representation_independent"
   ],
   "note": "Every history (stores, look-ups, deletions, shift, clear, identity mode, default, dup, replace, iterations) answers what a representation-free specification answers, for arbitrary keys, digests, probing order and growth. eql?/hash are pure. The header byte arithmetic is tied to the model by HashProofs.byte_flags."
  },
  {
   "property": "C100",
   "status": "partial",
   "theorems": [
    "C100_bindings_partial",
    "C100_binding_yield_refuted",
    "C100_binding_given_refuted",
    "C100_binding_param_refuted",
    "C100_same_object_refuted"
   ],
   "note": "With Bindings made where no frame around holds a block of a running frame. Elsewhere refuted: Binding moves the frame but not its block. The identity of the block parameter is refuted."
  },
  {
   "property": "C101",
   "status": "proved",
   "theorems": [
    "C101_resume",
    "C101_no_crash"
   ],
   "note": "All histories of one thread without transfer, with enumerators' own fibers; a fiber is killed at most once, while it waits for no other fiber, and then only ends."
  },
  {
   "property": "C102",
   "status": "partial",
   "theorems": [
    "C102_transfer_partial",
    "C102_no_crash_partial",
    "C102_sticky_refuted",
    "C102_stale_refuted",
    "C102_raise_refuted",
    "C102_root_refuted",
    "C102_kill_refuted",
    "C102_inside_refuted",
    "C102_kill_dead_refuted"
   ],
   "note": "With transfer, where control is given by transfer only from a fiber that nobody resumed or that the root is waiting for through resumes, and without enumerators. Elsewhere refuted: the flag set by transfer is never cleared, the fiber to return to is remembered too early, and five more cases."
  },
  {
   "property": "C103",
   "status": "partial",
   "theorems": [
    "C103_numeral",
    "C103_integers_partial",
    "C103_zero_with_precision_refuted",
    "C103_marked_zero_refuted",
    "C103_signed_octal_refuted",
    "C103_no_panic_refuted"
   ],
   "note": "Integers of any size, all flags, widths and precisions, except where the code differs: zeros with a precision, more than 65535 zeros, a marked zero with a precision, a signed marked octal with a precision."
  },
  {
   "property": "C104",
   "status": "partial",
   "theorems": [
    "C104_directives_partial",
    "C104_index_refuted",
    "C104_star_range_refuted",
    "C104_width_range_refuted"
   ],
   "note": "All formats written from directives whose numbers are C integers, with a number behind the precision only where a numbered star stands before; conversions are arbitrary functions. Named references are not modelled."
  },
  {
   "property": "C105",
   "status": "partial",
   "theorems": [
    "C105_text_partial",
    "C105_width_refuted"
   ],
   "note": "Text of characters below 128; with others the width is counted in bytes (refuted)."
  },
  {
   "property": "C106",
   "status": "partial",
   "theorems": [
    "C106_exact",
    "C106_nearest_partial",
    "C106_nearest_refuted"
   ],
   "note": "All finite floats but zero: exact without a precision or with 13 to 65535 digits; with fewer digits the nearest, except when the digits kept are all f and round up, where the carry is lost (refuted). Ties are left open. The sign and the width are added by code of C103's kind, not modelled here."
  },
  {
   "property": "C107",
   "status": "partial",
   "theorems": [
    "C107_tr_partial",
    "C107_paths",
    "C107_caret_refuted",
    "C107_escape_refuted",
    "C107_empty_refuted",
    "C107_unread_refuted"
   ],
   "note": "All receivers but the empty one, all sets whose ranges do not end with a backslash, replacements without a leading caret and without impossible ranges; the other cases differ from Ruby (four refuted). That the ASCII path agrees with the character paths is proved for all arguments."
  },
  {
   "property": "C108",
   "status": "partial",
   "theorems": [
    "C108_sets_partial",
    "C108_escape_refuted",
    "C108_empty_refuted"
   ],
   "note": "All receivers and sets whose ranges do not end with a backslash, delete on a receiver that is not empty; the two other cases are refuted."
  },
  {
   "property": "C109",
   "status": "partial",
   "theorems": [
    "C109_succ_partial",
    "C109_gap_refuted"
   ],
   "note": "All ASCII strings (but DEL) that end with a letter or digit, or whose last letter or digit is not at the end of its alphabet or has another one beside it. The remaining case differs from Ruby (refuted). Strings beyond ASCII are not modelled."
  },
  {
   "property": "C11",
   "status": "partial",
   "theorems": [
    "C11_stuck_refuted",
    "C11_unprotected_refuted",
    "C11_iteration_partial"
   ],
   "note": "Proved when iterations end newest first (or at most three run) and Hash#replace is not called inside an iteration. False otherwise: replace inside each unbalances the counter (new keys refused forever); a fourth iteration that outlives three older ones is not protected."
  },
  {
   "property": "C110",
   "status": "partial",
   "theorems": [
    "C110_cursor_partial",
    "C110_peek",
    "C110_rewind",
    "C110_fed_at_end_refuted",
    "C110_own_array_refuted",
    "C110_raw_refuted"
   ],
   "note": "All deterministic producers that yield or raise first and only yield to their enumerator, all histories of calls. A producer that ends at once with a fed value, the array that peek hands out, and Fiber.yield inside a producer differ from Ruby (three refuted). Producers that use their own enumerator are not modelled."
  },
  {
   "property": "C111",
   "status": "partial",
   "theorems": [
    "C111_calendar",
    "C111_fields_partial",
    "C111_usec_partial",
    "C111_refused",
    "C111_no_panic",
    "C111_local",
    "C111_local_once",
    "C111_local_refuted",
    "C111_hour24_refuted",
    "C111_float_refuted",
    "C111_rational_refuted",
    "C111_year_refuted"
   ],
   "note": "All instants for the calendar; all in-range Integer and Rational fields within chrono's years. Hour 24, negative Float seconds, huge Rational seconds, far years and clock readings shown twice differ from Ruby (five refuted). chrono is taken by its contract."
  },
  {
   "property": "C112",
   "status": "partial",
   "theorems": [
    "C112_add_partial",
    "C112_sub_partial",
    "C112_diff_partial",
    "C112_order",
    "C112_hash",
    "C112_at_partial",
    "C112_round_partial",
    "C112_diff_refuted",
    "C112_add_refuted",
    "C112_sub_refuted",
    "C112_exact_refuted",
    "C112_panic_refuted"
   ],
   "note": "All times and all exact numbers whose nanoseconds fit 64 bits. Differences beyond 292 years and results past chrono's years panic, longer steps raise, and parts of nanoseconds are lost (five refuted)."
  },
  {
   "property": "C113",
   "status": "partial",
   "theorems": [
    "C113_round_trip_partial",
    "C113_payload_partial",
    "C113_payload_refuted",
    "C113_year_refuted",
    "C113_gap_refuted",
    "C113_legacy_refuted"
   ],
   "note": "All times of the years 1900 to 67435 whose clock reading the local zone does not skip. Other years, skipped readings, the payload of non-UTC times and the old format differ from Ruby (four refuted)."
  },
  {
   "property": "C114",
   "status": "partial",
   "theorems": [
    "C114_offset",
    "C114_letters",
    "C114_only_partial",
    "C114_colons_refuted",
    "C114_format",
    "C114_format_read",
    "C114_format_width",
    "C114_subsec",
    "C114_milli_refuted",
    "C114_iso_partial",
    "C114_utc_refuted",
    "C114_year_refuted",
    "C114_second_refuted"
   ],
   "note": "All offset texts, letters, offsets, sub-second widths, and all times with an offset of whole minutes. Misplaced colons, %L's width, Z as UTC, years past 32 bits and second 60 differ from Ruby (five refuted)."
  },
  {
   "property": "C115",
   "status": "partial",
   "theorems": [
    "C115_reading",
    "C115_slice",
    "C115_writing",
    "C115_sizes",
    "C115_no_panic_partial",
    "C115_set_value_panic_refuted",
    "C115_clear_panic_refuted",
    "C115_invalid_write_refuted",
    "C115_middle_refuted",
    "C115_dup_refuted"
   ],
   "note": "All histories of the modelled methods from any Strings. set_value and clear do not check that their slice is still there (panic, silent success), a freed slice invalidates slices of it, and dup of a slice aliases it (five refuted)."
  },
  {
   "property": "C116",
   "status": "partial",
   "theorems": [
    "C116_locked",
    "C116_snapshot",
    "C116_free",
    "C116_transfer",
    "C116_resize",
    "C116_dup_locked_refuted",
    "C116_dup_readonly_refuted"
   ],
   "note": "All histories. dup copies the lock and the read-only flag (two refuted)."
  },
  {
   "property": "C117",
   "status": "partial",
   "theorems": [
    "C117_get",
    "C117_set_partial",
    "C117_set_refused",
    "C117_values",
    "C117_mask",
    "C117_mask_in_place",
    "C117_order_partial",
    "C117_negative_get_refuted",
    "C117_negative_set_refuted",
    "C117_u64_refuted",
    "C117_count_refuted",
    "C117_order_refuted",
    "C117_overlap_refuted"
   ],
   "note": "All widths up to 8 bytes, all contents and offsets. Negative offsets, u64 values from 2^63, counts past the end, the order of buffers of different sizes and overlapping copies differ from Ruby (six refuted)."
  },
  {
   "property": "C118",
   "status": "partial",
   "theorems": [
    "C118_cover",
    "C118_overlap",
    "C118_empty",
    "C118_cover_range",
    "C118_covered_inhabited",
    "C118_covered_numbers",
    "C118_covered_integers",
    "C118_cover_range_refuted"
   ],
   "note": "Integers of any size, Floats as exact numbers, infinities, open ends. cover? of a range with a Float begin and an exclusive Integer end covers too much (one refuted)."
  },
  {
   "property": "C119",
   "status": "partial",
   "theorems": [
    "C119_each",
    "C119_each_ends",
    "C119_each_endless",
    "C119_reverse",
    "C119_reverse_is_reverse",
    "C119_reverse_ends",
    "C119_size",
    "C119_size_infinite",
    "C119_elements",
    "C119_elements_small_partial",
    "C119_count",
    "C119_last",
    "C119_first",
    "C119_first_total",
    "C119_max_n",
    "C119_step",
    "C119_min",
    "C119_max_closed",
    "C119_max_open",
    "C119_max_refuted",
    "C119_max_float_refuted",
    "C119_max_n_refuted",
    "C119_map_refuted",
    "C119_map_big_refuted",
    "C119_count_refuted",
    "C119_last_refuted"
   ],
   "note": "All ranges with an Integer begin (reverse_each and max: also without one). map, flat_map, all?, count and last raise for Float ends and Integers from 2^62; max and max(n) with a Float begin (seven refuted)."
  },
  {
   "property": "C12",
   "status": "proved",
   "theorems": [
    "C12_sorted_stable"
   ],
   "note": "All arrays, all strict weak orders on the elements; the array and scratch memory are explicit and bounds-checked. sort_by (Rust standard sort) is not modelled; the block must not resize the receiver of sort!."
  },
  {
   "property": "C120",
   "status": "partial",
   "theorems": [
    "C120_least",
    "C120_any",
    "C120_ends",
    "C120_fast",
    "C120_keys",
    "C120_keys_back",
    "C120_key_order",
    "C120_key_order_back",
    "C120_float_partial",
    "C120_float_ends",
    "C120_endless_refuted",
    "C120_zero_refuted",
    "C120_zeros_refuted"
   ],
   "note": "All blocks that are monotone as Ruby asks. Zero ends of Float ranges and an everywhere-zero block without a begin (three refuted)."
  },
  {
   "property": "C121",
   "status": "partial",
   "theorems": [
    "C121_combination",
    "C121_repeated_combination",
    "C121_elements",
    "C121_combination_size",
    "C121_repeated_combination_size",
    "C121_block",
    "C121_block_small",
    "C121_stop_refuted"
   ],
   "note": "All lengths and all n; the loop ends. StopIteration raised by the block is swallowed (one refuted)."
  },
  {
   "property": "C122",
   "status": "partial",
   "theorems": [
    "C122_permutation",
    "C122_repeated_permutation",
    "C122_permutation_size",
    "C122_repeated_permutation_size",
    "C122_same_size",
    "C122_copy_refuted"
   ],
   "note": "All lengths and all n; the loop ends. The size of the receiver is read again during the loop (one refuted)."
  },
  {
   "property": "C123",
   "status": "partial",
   "theorems": [
    "C123_product",
    "C123_product_small_partial",
    "C123_product_big_refuted",
    "C123_product_panic_refuted",
    "C123_product_copy_refuted",
    "C123_bsearch_total",
    "C123_find_minimum",
    "C123_find_first",
    "C123_find_any",
    "C123_find_any_mirrored_partial",
    "C123_find_any_refuted"
   ],
   "note": "product: all arrays the block does not change, up to a million rows (three refuted). bsearch: all monotone blocks; find-any works only with the signs reversed (one refuted)."
  },
  {
   "property": "C124",
   "status": "partial",
   "theorems": [
    "C124_each_slice",
    "C124_slices_unique",
    "C124_slices_all",
    "C124_each_cons",
    "C124_refused",
    "C124_chunk",
    "C124_chunk_reserved",
    "C124_chunk_while",
    "C124_slice_when",
    "C124_cuts_unique",
    "C124_cuts_all",
    "C124_slice_before",
    "C124_slice_after",
    "C124_nil_before_refuted",
    "C124_nil_after_refuted",
    "C124_size_refuted",
    "C124_size_inexact_refuted"
   ],
   "note": "All receivers and blocks. A nil pattern is not matched and the size goes through Float (four refuted)."
  },
  {
   "property": "C125",
   "status": "partial",
   "theorems": [
    "C125_take",
    "C125_partition",
    "C125_group_by",
    "C125_group_by_order",
    "C125_uniq",
    "C125_uniq_order",
    "C125_min",
    "C125_max",
    "C125_min_by",
    "C125_max_by",
    "C125_minmax",
    "C125_minmax_by",
    "C125_empty",
    "C125_incomparable",
    "C125_by_refuted",
    "C125_zip",
    "C125_zip_refuted",
    "C125_cycle",
    "C125_cycle_stop_refuted",
    "C125_sum_integers",
    "C125_sum_infinity_refuted",
    "C125_sum_kahan_refuted"
   ],
   "note": "All receivers and blocks; comparisons that order by a rank. Five refuted: incomparable keys, an endless argument of zip, StopIteration in cycle, sums of Floats."
  },
  {
   "property": "C126",
   "status": "partial",
   "theorems": [
    "C126_eq",
    "C126_eq_refuted",
    "C126_ne_partial",
    "C126_ne_refuted",
    "C126_ne_self_refuted",
    "C126_orders",
    "C126_orders_nil",
    "C126_clamp",
    "C126_clamp_bounds",
    "C126_clamp_exclusive",
    "C126_clamp_refuted",
    "C126_between",
    "C126_between_refuted"
   ],
   "note": "All answers of <=>. Five refuted: what <=> raises, != and nil, clamp and between? without an order."
  },
  {
   "property": "C127",
   "status": "partial",
   "theorems": [
    "C127_new",
    "C127_index",
    "C127_index_refuted",
    "C127_add",
    "C127_delete",
    "C127_add_q",
    "C127_delete_q",
    "C127_union",
    "C127_union_order",
    "C127_union_refuted",
    "C127_difference",
    "C127_intersection",
    "C127_intersection_identity",
    "C127_symmetric"
   ],
   "note": "All sets, elements and arguments, with eql? or by identity. Subclasses are lost (two refuted)."
  },
  {
   "property": "C128",
   "status": "partial",
   "theorems": [
    "C128_subset",
    "C128_superset",
    "C128_proper_subset",
    "C128_proper_superset",
    "C128_eq",
    "C128_order_partial",
    "C128_order_refuted",
    "C128_intersect_partial",
    "C128_intersect_enum",
    "C128_intersect_endless_refuted",
    "C128_intersect_raise_refuted",
    "C128_disjoint",
    "C128_hash"
   ],
   "note": "All pairs of sets that compare in the same way. Three refuted: mixed ways to compare, endless and failing arguments."
  },
  {
   "property": "C129",
   "status": "partial",
   "theorems": [
    "C129_merge",
    "C129_subtract",
    "C129_replace",
    "C129_replace_enum",
    "C129_by_identity",
    "C129_delete_if",
    "C129_keep_if",
    "C129_reject",
    "C129_select",
    "C129_collect",
    "C129_dup_partial",
    "C129_dup_refuted",
    "C129_dup_class_refuted",
    "C129_divide_partial",
    "C129_divide_refuted",
    "C129_reset_refuted"
   ],
   "note": "All sets, blocks and arguments. Four refuted: dup by identity and of subclasses, divide by equal answers, reset."
  },
  {
   "property": "C13",
   "status": "proved",
   "theorems": [
    "C13_permutation"
   ],
   "note": "All comparators (stateful, inconsistent, raising, reading the array); no out-of-bounds access, termination, permutation also after an error."
  },
  {
   "property": "C130",
   "status": "partial",
   "theorems": [
    "C130_force",
    "C130_prefix",
    "C130_flat_map_refuted"
   ],
   "note": "All chains of the fifteen stages, all sources and blocks. flat_map ignores to_ary (refuted)."
  },
  {
   "property": "C131",
   "status": "proved",
   "theorems": [
    "C131_first_n",
    "C131_first",
    "C131_take",
    "C131_take_while",
    "C131_endless"
   ],
   "note": "All chains, all sources, also endless ones."
  },
  {
   "property": "C132",
   "status": "partial",
   "theorems": [
    "C132_size",
    "C132_size_ruby_partial",
    "C132_size_refuted"
   ],
   "note": "All chains. with_index has no size (refuted)."
  },
  {
   "property": "C133",
   "status": "partial",
   "theorems": [
    "C133_uncontended_partial",
    "C133_exclusion_partial",
    "C133_try_exclusion",
    "C133_synchronize",
    "C133_exclusion_refuted",
    "C133_exit_refuted",
    "C133_exit_free_refuted",
    "C133_wait_refuted"
   ],
   "note": "All interleavings of calls. enter never waits: exclusion is refuted, and proved for histories without contention and for try_enter."
  },
  {
   "property": "C134",
   "status": "partial",
   "theorems": [
    "C134_new_partial",
    "C134_new_false_partial",
    "C134_new_length",
    "C134_keyword_init_false_refuted",
    "C134_inherited_refuted",
    "C134_string_keys_refuted",
    "C134_string_keys_init_refuted"
   ],
   "note": "All argument lists. Subclasses, keyword_init: false and String keys are refuted."
  },
  {
   "property": "C135",
   "status": "partial",
   "theorems": [
    "C135_aref_partial",
    "C135_aset_partial",
    "C135_aset_frozen",
    "C135_aset_aref_partial",
    "C135_to_a_partial",
    "C135_to_h_partial",
    "C135_values_at_partial",
    "C135_float_refuted",
    "C135_override_refuted",
    "C135_size_member_refuted",
    "C135_endless_refuted",
    "C135_frozen_order_refuted"
   ],
   "note": "All objects and indices. Redefined readers, a member named size, Floats and endless exclusive Ranges are refuted."
  },
  {
   "property": "C136",
   "status": "partial",
   "theorems": [
    "C136_values",
    "C136_values_error",
    "C136_values_object",
    "C136_new_partial",
    "C136_positional",
    "C136_round_trip",
    "C136_with",
    "C136_with_unknown",
    "C136_deconstruct_keys",
    "C136_deconstruct_many",
    "C136_default_refuted",
    "C136_override_refuted"
   ],
   "note": "All members, arguments, keywords and keys. new with a redefined initialize and deconstruct_keys with a redefined reader are refuted."
  },
  {
   "property": "C137",
   "status": "proved",
   "theorems": [
    "C137_transform_keys",
    "C137_injective",
    "C137_transform_keys_bang",
    "C137_transform_values",
    "C137_slice",
    "C137_except",
    "C137_compact",
    "C137_compact_bang",
    "C137_rehash"
   ],
   "note": "All Hashes, mappings and blocks; blocks are functions and do not change the Hash."
  },
  {
   "property": "C138",
   "status": "partial",
   "theorems": [
    "C138_min_by_partial",
    "C138_min_by_ruby_partial",
    "C138_min_nil_refuted",
    "C138_min_mixed_refuted"
   ],
   "note": "All Hashes and blocks that answer Integers; nil is refuted."
  },
  {
   "property": "C139",
   "status": "partial",
   "theorems": [
    "C139_any",
    "C139_all",
    "C139_any_plain",
    "C139_count_partial",
    "C139_flat_map_partial",
    "C139_min_by_partial",
    "C139_flat_map_one_refuted",
    "C139_flat_map_to_ary_refuted",
    "C139_min_by_one_refuted",
    "C139_count_both_refuted"
   ],
   "note": "All Hashes and blocks of one and two parameters. flat_map and min_by with one parameter, to_ary in flat_map, and count with an argument and a block are refuted."
  },
  {
   "property": "C14",
   "status": "partial",
   "theorems": [
    "C14_stray_brace_refuted",
    "C14_leading_period_refuted",
    "C14_fnmatch_partial",
    "C14_braces_partial",
    "C14_terminates"
   ],
   "note": "All patterns, names and flags without EXTGLOB: exactly the specified language. With EXTGLOB: exactly the union of the expansions for well-formed nested braces. Refuted: a stray '}' turns expansion off; '*.a' matches '.a' against the documented leading-period rule (the language used in the positive theorems lets a star give the period to a literal)."
  },
  {
   "property": "C140",
   "status": "partial",
   "theorems": [
    "C140_map",
    "C140_map_partial",
    "C140_map_shrink_refuted",
    "C140_reverse_each_partial",
    "C140_reverse_each_shrink_refuted",
    "C140_rindex",
    "C140_drop_while_partial",
    "C140_drop_while_any",
    "C140_reverse_each_count",
    "C140_drop_while_shrink_refuted"
   ],
   "note": "All Arrays and blocks, as functions of a state, the Array and the element. rindex holds for all blocks; map is characterised for all; map, reverse_each and drop_while agree if the block does not shorten the Array and are refuted otherwise."
  },
  {
   "property": "C141",
   "status": "partial",
   "theorems": [
    "C141_value_sel",
    "C141_values_at_partial",
    "C141_values_at_range_refuted",
    "C141_fetch_values",
    "C141_assoc_partial",
    "C141_rassoc_partial",
    "C141_assoc_to_ary_refuted",
    "C141_tally"
   ],
   "note": "All Arrays, Integer indices and Ranges of Integers. fetch_values and tally hold fully; values_at with a Range that begins before the Array and assoc with a bad to_ary are refuted."
  },
  {
   "property": "C142",
   "status": "proved",
   "theorems": [
    "C142_cleanpath_leads",
    "C142_cleanpath_clean",
    "C142_cleanpath_idem",
    "C142_cleanpath_unique",
    "C142_cleanpath_unique_rel",
    "C142_plus",
    "C142_relative_leads",
    "C142_relative_abs",
    "C142_relative_some",
    "C142_relative_mixed",
    "C142_relative_round",
    "C142_conservative_leads",
    "C142_conservative_dots",
    "C142_conservative_front",
    "C142_parent",
    "C142_join"
   ],
   "note": "All paths as lists of names, in a tree without symbolic links (with any for cleanpath(true)); the spelling of separators is not modelled."
  },
  {
   "property": "C143",
   "status": "proved",
   "theorems": [
    "C143_divmod",
    "C143_div_zero",
    "C143_remainder",
    "C143_step_limit",
    "C143_step_endless",
    "C143_step_zero"
   ],
   "note": "All rationals with exact operations for the divisions, all Integers for step; Floats and coercions are not modelled."
  },
  {
   "property": "C144",
   "status": "partial",
   "theorems": [
    "C144_insert_partial",
    "C144_insert_index_refuted",
    "C144_concat_partial",
    "C144_concat_self_refuted",
    "C144_prepend_partial",
    "C144_prepend_self_refuted",
    "C144_chop_crlf",
    "C144_chop",
    "C144_delete_suffix",
    "C144_delete_suffix_not",
    "C144_partition",
    "C144_partition_not",
    "C144_rpartition",
    "C144_rpartition_not"
   ],
   "note": "All Strings as lists of characters. chop, delete_suffix, partition and rpartition with a String hold fully; the index in insert's message and the receiver as an argument of concat and prepend are refuted."
  },
  {
   "property": "C145",
   "status": "partial",
   "theorems": [
    "C145_uniform",
    "C145_half",
    "C145_first",
    "C145_range",
    "C145_float_partial",
    "C145_float_uniform",
    "C145_negative_refuted"
   ],
   "note": "All Integers and all sequences of draws, if bytes is uniform; negative Integers are refuted, Float arguments are not modelled."
  },
  {
   "property": "C146",
   "status": "proved",
   "theorems": [
    "C146_forms",
    "C146_empty",
    "C146_slashes",
    "C146_plain",
    "C146_root",
    "C146_deep",
    "C146_level",
    "C146_negative"
   ],
   "note": "All paths, as lists of characters, and all levels; conversions of the arguments are not modelled."
  },
  {
   "property": "C15",
   "status": "partial",
   "theorems": [
    "C15_rand_in_range_partial",
    "C15_draw_in_range_partial",
    "C15_rejection_exact",
    "C15_float_in_range",
    "C15_reproducible",
    "C15_nested_refuted",
    "C15_shuffle_permutation",
    "C15_twister_draws",
    "C15_shuffle_reaches_all",
    "C15_shuffle_safe"
   ],
   "note": "MT19937 checked against published vectors. Range, exact rejection criterion, replayed = live generator for every history, shuffle is a permutation and reaches all arrangements. False when converting the argument uses the same generator (to_int calling rand). Missing: termination of the rejection loop for the concrete twister (probabilistic)."
  },
  {
   "property": "C16",
   "status": "partial",
   "theorems": [
    "C16_exact_partial",
    "C16_compare",
    "C16_compare_integer_partial",
    "C16_power_refuted",
    "C16_not_equal_refuted"
   ],
   "note": "All expressions over construction, + - * / ** -@ abs: exact value (over Q) in lowest terms, ZeroDivisionError exactly when undefined; exponents below 2^32. False: exponents are truncated to 32 bits (Rational(1,2)**2**32 = 1); Rational(2**62) != 2**62 is true."
  },
  {
   "property": "C17",
   "status": "partial",
   "theorems": [
    "C17_floor_partial",
    "C17_ceil_partial",
    "C17_truncate_partial",
    "C17_round_partial",
    "C17_round_negative_refuted",
    "C17_round_half_refuted",
    "C17_floor_refuted",
    "C17_ceil_refuted",
    "C17_digits_refuted"
   ],
   "note": "Proved against the definitions over Q where right; false for: round of negative numbers with a fraction above one half (Rational(-5,3).round = -1), round with negative digits and half down/even on non-integers, floor/ceil with negative digits on non-integers of the wrong sign, digit counts of 2^32 and more."
  },
  {
   "property": "C18",
   "status": "partial",
   "theorems": [
    "C18_same_iff_partial",
    "C18_name",
    "C18_name_never_changes",
    "C18_total",
    "C18_round_trip_partial",
    "C18_all_symbols_partial",
    "C18_proper",
    "C18_literal",
    "C18_marshal_partial",
    "C18_reserved",
    "C18_special_gvar",
    "C18_two_locks",
    "C18_ascii_compatible",
    "C18_ivar_partial",
    "C18_unnamed_refuted",
    "C18_invalid_utf8_refuted",
    "C18_named_by_string_refuted",
    "C18_named_by_invalid_refuted",
    "C18_marshal_refuted",
    "C18_ivar_refuted"
   ],
   "note": "Proved for every interning history and every well-formed String through to_sym and literals. False: five unnamed slots appear in all_symbols as distinct Symbols named ''; invalid UTF-8 collapses with binary; String arguments and Marshal.load intern some names differently; binary attribute names collide."
  },
  {
   "property": "C19",
   "status": "partial",
   "theorems": [
    "C19_reachable_kept_partial",
    "C19_reachability_kept_partial",
    "C19_live_partial",
    "C19_alloc_keeps_partial",
    "C19_replace_refuted",
    "C19_replace_aborts_refuted"
   ],
   "note": "Generational collector (remembered set, ageing, promotion, page salvage) proved safe for every history of barriered stores and collections. False: String#replace copies a shared buffer's owner into an old String without a barrier; a minor collection frees it while reachable and the next major one aborts."
  },
  {
   "property": "C20",
   "status": "partial",
   "theorems": [
    "C20_major_exact_partial",
    "C20_available_partial",
    "C20_minor_exact_partial",
    "C20_start_is_major",
    "C20_major_comes",
    "C20_kind_exact",
    "C20_threshold",
    "C20_minors_counted"
   ],
   "note": "Exact survivors of both kinds of collection, for histories without the unbarriered String#replace (after which a major collection may abort, see C19)."
  },
  {
   "property": "C21",
   "status": "partial",
   "theorems": [
    "C21_fresh_cell_partial",
    "C21_free_list_partial",
    "C21_free_pages_partial",
    "C21_compiled_alloc",
    "C21_compiled_fallback",
    "C21_sweep_bits",
    "C21_mask_page",
    "C21_replace_refuted"
   ],
   "note": "Proved for every barriered history, the compiled fast path and the bitmap word loop; false after an unbarriered String#replace (a new object lands on a reachable cell)."
  },
  {
   "property": "C22",
   "status": "partial",
   "theorems": [
    "C22_in_region_partial",
    "C22_pages_taken_partial",
    "C22_exhausted_refuted"
   ],
   "note": "Proved while at most 8192 pages are taken; false beyond: new_page never compares with MAX_PAGES and hands out memory past the region."
  },
  {
   "property": "C23",
   "status": "partial",
   "theorems": [
    "C23_exclusion",
    "C23_polling_alive_refuted"
   ],
   "note": "Exclusion proved for every history when Thread#alive? is the builtin (no switch point inside it); with a Thread subclass that defines alive? in Ruby, two threads hold the lock."
  },
  {
   "property": "C24",
   "status": "partial",
   "theorems": [
    "C24_waiter_ready_partial",
    "C24_unlock_wakes",
    "C24_registered",
    "C24_killed_waiter_refuted",
    "C24_owner_dies_refuted",
    "C24_report_race_refuted"
   ],
   "note": "Proved for orderly histories; false when the woken waiter is killed, when the owner ends while holding, and when the waiter is writing a report inside Thread.stop."
  },
  {
   "property": "C25",
   "status": "partial",
   "theorems": [
    "C25_conserved",
    "C25_push_appends",
    "C25_nil",
    "C25_delivered_partial",
    "C25_interrupted_pop_refuted",
    "C25_interrupted_sized_pop_refuted"
   ],
   "note": "Conservation, order and nil results proved for every history; delivery proved unless an interrupt arrives between taking the item and returning it, where the item is lost (two witnesses)."
  },
  {
   "property": "C26",
   "status": "partial",
   "theorems": [
    "C26_sleep_starts",
    "C26_sleep_step_partial",
    "C26_sleep_lasts_partial",
    "C26_permit_refuted",
    "C26_stale_limit_refuted"
   ],
   "note": "Proved for every history without fork and without time-limited fd waits, for a sleep that does not find a kept wake-up; false otherwise: a kept permit or the stale limit of an earlier fd wait ends the sleep early."
  },
  {
   "property": "C27",
   "status": "partial",
   "theorems": [
    "C27_queue_partial",
    "C27_queued_twice_refuted",
    "C27_panic_refuted",
    "C27_fork_refuted"
   ],
   "note": "Proved for every history without fork and without time-limited fd waits (with completeness of the queue); false otherwise: two due limits queue one thread twice and the scheduler panics when it has ended meanwhile; fork keeps dead threads queued."
  },
  {
   "property": "C28",
   "status": "partial",
   "theorems": [
    "C28_lanes",
    "C28_gc_kept",
    "C28_signal_kept",
    "C28_tick_kept_partial",
    "C28_gc_observed",
    "C28_tick_observed",
    "C28_pend",
    "C28_tick_erased_refuted"
   ],
   "note": "GC and signal requests are kept in every interleaving until answered, and the next poll sees every lane. Ticks are kept unless the poll that has consumed the tick raises from its signal: then the tick is erased (refuted)."
  },
  {
   "property": "C29",
   "status": "partial",
   "theorems": [
    "C29_kept_partial",
    "C29_poll_calls",
    "C29_lowest",
    "C29_two_signals_refuted"
   ],
   "note": "Kept until its handler is called unless it is drained together with a lower-numbered signal; then it is dropped (refuted). Eventually = at the next poll on the main thread."
  },
  {
   "property": "C30",
   "status": "partial",
   "theorems": [
    "C30_alive_partial",
    "C30_ticks",
    "C30_stops",
    "C30_race_refuted",
    "C30_fork_refuted",
    "C30_fork_forever"
   ],
   "note": "Proved without fork when no count of two or more meets a timer that has read stop and not finished; both cases are refuted."
  },
  {
   "property": "C31",
   "status": "partial",
   "theorems": [
    "C31_own_result",
    "C31_once",
    "C31_kept",
    "C31_no_leak",
    "C31_woken_partial",
    "C31_solo_woken_partial",
    "C31_delivered",
    "C31_polls",
    "C31_lost_wakeup_refuted",
    "C31_stuck_stays"
   ],
   "note": "Own result, at most once, kept while waiting: every history. The wake-up is lost when a thread resumed for another completion empties the shared pipe after the completion of a thread that parked meanwhile (refuted); proved otherwise."
  },
  {
   "property": "C32",
   "status": "partial",
   "theorems": [
    "C32_conserved_partial",
    "C32_prefix",
    "C32_complete",
    "C32_no_underflow",
    "C32_bounded",
    "C32_flushed",
    "C32_through",
    "C32_drains",
    "C32_nonblock_refuted",
    "C32_dropped_refuted"
   ],
   "note": "Order, completeness and bounds proved for every answer of the kernel. False: write_nonblock overtakes what is in the buffer, and an IO that is collected unclosed never drains its buffer."
  },
  {
   "property": "C33",
   "status": "partial",
   "theorems": [
    "C33_position_partial",
    "C33_reads_partial",
    "C33_stream_partial",
    "C33_unget",
    "C33_interrupted_partial",
    "C33_signals",
    "C33_seek_partial",
    "C33_pos",
    "C33_eof_partial",
    "C33_seek_stale_refuted",
    "C33_gets_interrupted_refuted",
    "C33_nonblock_order_refuted",
    "C33_stdin_refuted",
    "C33_stdin_eof_refuted"
   ],
   "note": "Proved for every division of the reads and every interrupt, outside the cases listed in RbufSpec.plain/restores; each of those is refuted by a trace."
  },
  {
   "property": "C34",
   "status": "proved",
   "theorems": [
    "C34_roundtrip",
    "C34_unpack1",
    "C34_bytes",
    "C34_count"
   ],
   "note": ""
  },
  {
   "property": "C35",
   "status": "proved",
   "theorems": [
    "C35_roundtrip",
    "C35_base64_text",
    "C35_qp_text",
    "C35_uu_text"
   ],
   "note": ""
  },
  {
   "property": "C36",
   "status": "partial",
   "theorems": [
    "C36_roundtrip_partial",
    "C36_ber",
    "C36_uleb",
    "C36_sleb_range",
    "C36_ber_format",
    "C36_uleb_format",
    "C36_sleb_format",
    "C36_ber_large_refuted",
    "C36_uleb_large_refuted",
    "C36_utf8_large_refuted"
   ],
   "note": "Proved for w below 2^63, R below 2^64, r for all 64-bit integers (others are refused), U below 2^21. Beyond: w and R come back reduced, U cannot be read (refuted for every such value)."
  },
  {
   "property": "C37",
   "status": "partial",
   "theorems": [
    "C37_partial",
    "C37_yields",
    "C37_total",
    "C37_positioned_refuted"
   ],
   "note": "Proved when the first directive yields a value; when it only moves the position unpack1 is nil (refuted for every such template)."
  },
  {
   "property": "C38",
   "status": "partial",
   "theorems": [
    "C38_roundtrip_partial",
    "C38_huge_refuted"
   ],
   "note": "Every Integer below 2^35-16 bits (4 GB of digits); at 2^36 bits the word count wraps and a BigInt loads as 0 (refuted)."
  },
  {
   "property": "C39",
   "status": "partial",
   "theorems": [
    "C39_dump",
    "C39_roundtrip_partial",
    "C39_roundtrip_text_partial",
    "C39_float_text",
    "C39_big_refuted",
    "C39_encoding_refuted",
    "C39_regexp_refuted",
    "C39_ivar_refuted",
    "C39_identity_refuted",
    "C39_symbol_refuted",
    "C39_nested_refuted",
    "C39_subclass_refuted",
    "C39_huge_string_refuted"
   ],
   "note": "Any graph with sharing and cycles of nil, booleans, 31-bit and big Integers, Floats, Symbols, Strings in the basic encodings, Arrays, Hashes with scalar keys and plain objects, dumps below 2 GB; Floats over the dtoa crate and str::parse as oracles. Each exclusion is refuted by a witness."
  },
  {
   "property": "C40",
   "status": "partial",
   "theorems": [
    "C40_order_kept",
    "C40_ancestors_partial",
    "C40_reaches",
    "C40_nodup",
    "C40_idempotent",
    "C40_cyclic",
    "C40_result_partial",
    "C40_others_partial",
    "C40_no_panic_partial",
    "C40_terminates",
    "C40_order_refuted",
    "C40_position_refuted",
    "C40_superclass_refuted",
    "C40_object_refuted",
    "C40_panic_refuted"
   ],
   "note": "Order kept, nothing duplicated, idempotent, raises exactly on cycles, for every history. The module's ancestors are all there for class receivers (modules: refuted); exact result when the missing ancestors come first and nothing was prepended; otherwise M's order, the position and the superclass are refuted; a module with repeated ancestors can crash."
  },
  {
   "property": "C41",
   "status": "partial",
   "theorems": [
    "C41_lookup_partial",
    "C41_every_table",
    "C41_one_answer",
    "C41_lookup_module_partial",
    "C41_module_positions",
    "C41_cache_partial",
    "C41_define_partial",
    "C41_undef_partial",
    "C41_remove",
    "C41_remove_raises",
    "C41_visibility_partial",
    "C41_alias_partial",
    "C41_refined",
    "C41_not_refined",
    "C41_boolean_partial",
    "C41_method_defined_partial",
    "C41_orphan_refuted",
    "C41_wrap_refuted",
    "C41_remove_undefined_refuted",
    "C41_method_defined_refuted",
    "C41_boolean_visibility_refuted",
    "C41_allocate_refuted"
   ],
   "note": "Proved for every history of class operations, def, undef, remove, visibility, alias and lookups without 2^32 operations in a row that look nothing up. False: a visibility declaration outlives its definition; the cache after 2^32 changes; remove_method of an undefined method; method_defined? of a module; visibility for booleans; Class.allocate then initialize."
  },
  {
   "property": "C42",
   "status": "partial",
   "theorems": [
    "C42_reference",
    "C42_done_partial",
    "C42_stays_partial",
    "C42_exit_partial",
    "C42_few_partial",
    "C42_no_crash",
    "C42_self_division_refuted",
    "C42_victim_refuted",
    "C42_old_result_refuted"
   ],
   "note": "The reference allocator is right for all programs and operators. Compiled blocks of Integer arithmetic, comparisons, literals and moves that reach their end are right for all programs and values without x / x on one slot and without -2^62 / -1; a block leaves exactly where an operand or result is no small integer, with right operands and, unless the result overflowed, a right frame. False: x / x is computed wrongly; after an overflow the variable whose register the result took is lost."
  },
  {
   "property": "C43",
   "status": "partial",
   "theorems": [
    "C43_compiled_integer_refuted",
    "C43_compiled_arith_partial",
    "C43_compiled_div_partial",
    "C43_compiled_shift_partial",
    "C43_compiled_const_shift",
    "C43_constant_folding"
   ],
   "note": "Two wrong fast paths found (Div of -2^62 by -1; x86_64 >> by a negative count equal to the leading-zero count); agreement proved everywhere else."
  },
  {
   "property": "C44",
   "status": "partial",
   "theorems": [
    "C44_eql_same_key_refuted",
    "C44_eql_same_key_partial"
   ],
   "note": "False for Hash keys with the same pairs in a different order (eql? but different digests, so the look-up misses); proved for all values without a multi-pair Hash inside. Cyclic values and user-defined eql?/hash are not modelled."
  },
  {
   "property": "C45",
   "status": "partial",
   "theorems": [
    "C45_rooted_during_sort_refuted",
    "C45_rooted_during_sort_partial"
   ],
   "note": "False: during insertion the element being moved is only in the block's second argument. Proved: array + scratch + second argument always cover the input."
  },
  {
   "property": "C46",
   "status": "partial",
   "theorems": [
    "C46_kernel_range_partial",
    "C46_random_range_partial",
    "C46_full_range_refuted",
    "C46_unreachable_refuted",
    "C46_float_overflow_refuted",
    "C46_float_excluded_end_refuted"
   ],
   "note": "Proved for Integer ranges of fewer than 2^63 elements. False: rand(-2**62..2**62-1) is nil; Random#rand(-2**62..2**62-2) never answers a non-negative number; rand(-1e308..1e308) is never finite; rand(1.0...1.0.next_float) can answer the excluded end."
  },
  {
   "property": "C47",
   "status": "partial",
   "theorems": [
    "C47_sample_distinct_partial",
    "C47_shrinking_refuted"
   ],
   "note": "Proved for every generator that leaves the array alone. False (panic) for a duck-typed generator that shortens the receiver during sample."
  },
  {
   "property": "C48",
   "status": "partial",
   "theorems": [
    "C48_rational_rationalize",
    "C48_float_rationalize_partial",
    "C48_float_rationalize_refuted"
   ],
   "note": "Termination and minimality proved for Rational#rationalize and for Float#rationalize with a tolerance smaller than the receiver; false otherwise (0.25.rationalize(1/2r) is 1/2, not 0)."
  },
  {
   "property": "C49",
   "status": "partial",
   "theorems": [
    "C49_freed_exact_partial",
    "C49_live_plus_free_partial",
    "C49_old_count_partial",
    "C49_alloc_counts_partial",
    "C49_stat_refuted"
   ],
   "note": "Exact while no page is given back; false otherwise: objects on salvaged pages are never counted in total_freed_objects."
  },
  {
   "property": "C50",
   "status": "partial",
   "theorems": [
    "C50_deliver_exact",
    "C50_deliver_none",
    "C50_interrupt_wakes",
    "C50_inherit_refuted"
   ],
   "note": "Delivery order, masking and waking are exact; a new thread starts without masks, so the inheritance part is false. The class search that computes the mask is abstracted as a function from exception class to timing."
  },
  {
   "property": "C51",
   "status": "partial",
   "theorems": [
    "C51_release_partial",
    "C51_release_refuted"
   ],
   "note": "unlock past its entry frees the lock in one step; a raise delivered at its entry leaves the lock held by a live thread."
  },
  {
   "property": "C52",
   "status": "proved",
   "theorems": [
    "C52_sleep_reacquires"
   ],
   "note": ""
  },
  {
   "property": "C53",
   "status": "partial",
   "theorems": [
    "C53_consumer_partial",
    "C53_producer_partial",
    "C53_registered",
    "C53_signalled_killed_refuted",
    "C53_producer_killed_refuted"
   ],
   "note": "Proved when no thread is interrupted inside the queue's methods; two refutations with a kill/raise."
  },
  {
   "property": "C54",
   "status": "proved",
   "theorems": [
    "C54_bounded"
   ],
   "note": ""
  },
  {
   "property": "C55",
   "status": "partial",
   "theorems": [
    "C55_write_partial",
    "C55_read_ahead_refuted"
   ],
   "note": "Proved when nothing is read ahead or pushed back; otherwise the write lands behind the read-ahead bytes (refuted)."
  },
  {
   "property": "C56",
   "status": "partial",
   "theorems": [
    "C56_record_partial",
    "C56_bits",
    "C56_hex",
    "C56_strip",
    "C56_cstrings_refuted"
   ],
   "note": "Any sequence of the directives in PackSpec.field. Two Z* in a row lose the second string (refuted). Not covered: f, p, P, @ and X."
  },
  {
   "property": "C57",
   "status": "partial",
   "theorems": [
    "C57_terminates",
    "C57_no_panic_partial",
    "C57_panic_refuted"
   ],
   "note": "Load stops on all bytes and its result does not dangle; no panic on bytes below 128; a negative length panics (refuted). Native stack depth is not modelled."
  },
  {
   "property": "C58",
   "status": "partial",
   "theorems": [
    "C58_order_kept",
    "C58_result_partial",
    "C58_weave",
    "C58_reaches_partial",
    "C58_reaches_refuted",
    "C58_singleton_refuted",
    "C58_mixed_refuted",
    "C58_front_refuted"
   ],
   "note": "Exact result for modules without repeated ancestors; reaches including classes that are not singletons and have no prepends themselves. The other cases are refuted."
  },
  {
   "property": "C59",
   "status": "partial",
   "theorems": [
    "C59_before",
    "C59_refuted"
   ],
   "note": "False: include does not reach classes that already have the module (refuted); including in the other order works."
  },
  {
   "property": "C60",
   "status": "partial",
   "theorems": [
    "C60_inline_cache_partial",
    "C60_inline_body_partial",
    "C60_compiled_body_partial",
    "C60_compiled_partial",
    "C60_protected_refuted",
    "C60_refused_refuted",
    "C60_private_refuted",
    "C60_compiled_protected_refuted"
   ],
   "note": "Proved for histories shorter than 2^32: interpreted sites for everything but protected calls with a receiver, compiled sites for public methods and self calls; what runs is always the body that is found. False for protected calls and for methods made private after compilation."
  },
  {
   "property": "C61",
   "status": "partial",
   "theorems": [
    "C61_unique",
    "C61_kth_partial",
    "C61_last",
    "C61_body_in",
    "C61_owner",
    "C61_foreign",
    "C61_progress",
    "C61_undef_refuted"
   ],
   "note": "Exact when the running body has one position, and for the k-th of several when the rest of the chain answers or has no further position; otherwise an undef is jumped over (refuted). How the executor counts k is not modelled."
  },
  {
   "property": "C62",
   "status": "partial",
   "theorems": [
    "C62_bit_partial",
    "C62_tail",
    "C62_reversed",
    "C62_len_partial",
    "C62_span_partial",
    "C62_beginless",
    "C62_compiled",
    "C62_folded",
    "C62_unique",
    "C62_bit_refuted",
    "C62_len_refuted",
    "C62_span_refuted",
    "C62_span_negative_refuted"
   ],
   "note": "Single bits, tails, lengths and spans proved where the theorems' bounds hold, and compiled code agrees with the interpreter. False: a bit beyond 2^64 of a negative number, a length of 64 of a negative small integer, spans from bit 64 or from negative positions (each refuted)."
  },
  {
   "property": "C63",
   "status": "partial",
   "theorems": [
    "C63_pow_partial",
    "C63_unit_refuted",
    "C63_min_refuted",
    "C63_big_exponent_refuted",
    "C63_big_modulus_refuted"
   ],
   "note": "Proved for moduli and exponents within the theorem's bounds. False: exponent 0 with modulus 1, modulus -2^63, big exponents and big moduli."
  },
  {
   "property": "C64",
   "status": "partial",
   "theorems": [
    "C64_floor_partial",
    "C64_ceil_partial",
    "C64_truncate_partial",
    "C64_keep",
    "C64_round_partial",
    "C64_wrap_refuted"
   ],
   "note": "floor, ceil and truncate for digit counts that survive the cast to u32; round for digit counts from -2^30 (below, the argument is refused). False beyond: 15.floor(-2**32) is 15."
  },
  {
   "property": "C65",
   "status": "proved",
   "theorems": [
    "C65_bit_length",
    "C65_gcd",
    "C65_lcm",
    "C65_digits",
    "C65_sqrt",
    "C65_ceildiv",
    "C65_remainder"
   ],
   "note": ""
  },
  {
   "property": "C66",
   "status": "partial",
   "theorems": [
    "C66_to_s",
    "C66_roundtrip_to_i",
    "C66_roundtrip_integer",
    "C66_roundtrip_auto",
    "C66_to_i",
    "C66_to_i_prefix",
    "C66_to_i_none_partial",
    "C66_integer_partial",
    "C66_integer_auto",
    "C66_integer_octal",
    "C66_integer_sound_partial",
    "C66_gap_refuted",
    "C66_two_signs_refuted",
    "C66_prefix_gap_refuted",
    "C66_nbsp_refuted",
    "C66_integer_nbsp_refuted",
    "C66_foreign_prefix_refuted",
    "C66_underscore_refuted"
   ],
   "note": "Printing, both round trips and the reading of well-formed text proved for all Integers and bases. False: blanks after a sign or prefix are skipped, Unicode blanks count, a prefix of another base is refused, and 0_10 is decimal."
  },
  {
   "property": "C67",
   "status": "partial",
   "theorems": [
    "C67_counted",
    "C67_unique",
    "C67_size_partial",
    "C67_first",
    "C67_first_endless",
    "C67_last_partial",
    "C67_last_n_partial",
    "C67_each_partial",
    "C67_each_endless",
    "C67_to_a_partial",
    "C67_block",
    "C67_block_endless",
    "C67_float_agree",
    "C67_float_block",
    "C67_endless_refused",
    "C67_zero_refused",
    "C67_clamp_refuted",
    "C67_big_size_refuted",
    "C67_big_terms_refuted",
    "C67_float_block_refuted",
    "C67_mixed_refuted"
   ],
   "note": "Small-integer sequences of fewer than 2^63 terms are exact in all methods, with a block all Integers are; on Floats size, to_a, first, last and each agree with each other. False: 2^63 terms are counted as one less; big Integers are counted and computed in f64; (0.0..0.3).step(0.1) has three terms but four with a block; Float start with a big Integer step gives two different terms."
  },
  {
   "property": "C68",
   "status": "partial",
   "theorems": [
    "C68_safe",
    "C68_slice_partial",
    "C68_descending_refuted"
   ],
   "note": "Never reads outside the array, for all endpoints and steps, arrays below 2^61 elements. The slice is the right one except for descending sequences that exclude an end that is missing or -1 (refuted; Ruby does the same)."
  },
  {
   "property": "C69",
   "status": "partial",
   "theorems": [
    "C69_to_i",
    "C69_integer_partial",
    "C69_floor",
    "C69_ceil",
    "C69_truncate_partial",
    "C69_round",
    "C69_floor_digits_partial",
    "C69_ceil_digits_partial",
    "C69_round_digits_partial",
    "C69_undefined",
    "C69_integer_refuted",
    "C69_far_refuted",
    "C69_wrap_refuted",
    "C69_digits_refuted",
    "C69_floor_above_refuted",
    "C69_truncate_refuted"
   ],
   "note": "to_i, floor, ceil, truncate and round without digits are exact for all Floats and modes; floor, ceil and round to negative digits within the bounds of the theorems. False: Integer(2.0**63); (-1.0).floor(-309) is 0; digit counts of -2**32 wrap; 1.5.floor(400) is NaN; 0.8999999999999999.floor(1) is above its argument; truncate to negative digits gives no multiple or raises."
  },
  {
   "property": "C70",
   "status": "partial",
   "theorems": [
    "C70_modulo",
    "C70_divmod_refuted"
   ],
   "note": "The modulo is the exact one, rounded once at most. False: divmod's quotient is the floor of the rounded quotient (1.0.divmod(0.1) is 10 with a remainder) and saturates at 2^63-1."
  },
  {
   "property": "C71",
   "status": "proved",
   "theorems": [
    "C71_positional",
    "C71_unique"
   ],
   "note": ""
  },
  {
   "property": "C72",
   "status": "partial",
   "theorems": [
    "C72_call_partial",
    "C72_determined",
    "C72_order_refuted",
    "C72_splat_block_refuted",
    "C72_splat_to_ary_refuted",
    "C72_no_keywords_refuted"
   ],
   "note": "Every call whose pairs come before its double splats; for blocks taking a lone argument apart, when it is written as the only argument or as the only element of the only splat. False: f(**h, a: 2) with an a in h binds h's; yield(*[], [1, 2]) and yield(*[x]) with x.to_ary are not taken apart; keywords in flight to a **nil method vanish."
  },
  {
   "property": "C73",
   "status": "partial",
   "theorems": [
    "C73_compiled_partial",
    "C73_types_partial",
    "C73_post_refuted",
    "C73_type_refuted",
    "C73_arity_refuted",
    "C73_unknown_refuted",
    "C73_duplicate_refuted",
    "C73_define_method_refuted"
   ],
   "note": "Compiled calls agree with the specification, and the types assumed for the slots hold, for sites without duplicate or unknown keywords, without extra arguments to |a,| and to block parameters after optional ones. Each exclusion is refuted by a witness, one of them a wrong type; define_method methods use the block's rules."
  },
  {
   "property": "C74",
   "status": "partial",
   "theorems": [
    "C74_yield",
    "C74_simple",
    "C74_forwarded_partial",
    "C74_lazy_partial",
    "C74_deferred_partial",
    "C74_invoked_partial",
    "C74_invoker_effects",
    "C74_flag_refuted",
    "C74_to_ary_refuted",
    "C74_consumed_refuted",
    "C74_reversed_refuted",
    "C74_error_refuted"
   ],
   "note": "yield without splats and keywords is exact; forwarding is, unless the forwarded arguments end in a flagged Hash; builtin callers are, without unknown keywords and #to_ary. False: forwarding keeps the flag; a builtin caller ignores #to_ary, removes the keywords from the Hash it was given, may reverse its arguments and reports an unknown keyword before a missing argument."
  },
  {
   "property": "C75",
   "status": "partial",
   "theorems": [
    "C75_compiled_partial",
    "C75_one_class_partial",
    "C75_arguments_partial",
    "C75_refuses_partial",
    "C75_splat_partial",
    "C75_splat_name_partial",
    "C75_classes_refuted",
    "C75_booleans_refuted",
    "C75_method_missing_refuted",
    "C75_numbers_refuted",
    "C75_keywords_refuted",
    "C75_empty_refuted",
    "C75_operand_refuted"
   ],
   "note": "For all histories below 2^32 steps the compiled cache runs the right body if the receivers the guard admits agree on the name, so for one class. False: behind a guard for several classes, or for true and false, the first receiver's method runs on the others; compiled sends never call method_missing, swap the numbers of the ArgumentError, pass keywords in flight as an argument, and crash when the splat is an emptied Array or no Array."
  },
  {
   "property": "C76",
   "status": "partial",
   "theorems": [
    "C76_generate_partial",
    "C76_round_trip_partial",
    "C76_fixnum_refuted",
    "C76_nan_refuted",
    "C76_keys_refuted",
    "C76_encoding_refuted"
   ],
   "note": "Every nesting of nil, booleans, fixnums, finite Floats, UTF-8 Strings, Arrays and Hashes with String keys is written in RFC 8259 syntax and read back as the same value, given that the Float formatter writes numbers that read back. False: 2**62 comes back as a String; NaN is written; 1 and \"1\" become one member; Strings that are not UTF-8 are replaced by U+FFFD."
  },
  {
   "property": "C77",
   "status": "partial",
   "theorems": [
    "C77_reads_partial",
    "C77_meaning_partial",
    "C77_truncated",
    "C77_total",
    "C77_only_json_partial",
    "C77_strings_refuted",
    "C77_trailing_refuted",
    "C77_big_refuted",
    "C77_surrogates_refuted",
    "C77_depth_refuted"
   ],
   "note": "Every RFC 8259 text whose Integers fit 64 bits is read as what it says; every truncated text but a number is refused; the parser always ends; text without backslashes and control characters is only accepted if it is JSON. False: unknown escapes, a plus sign in \\u, control characters, bad UTF-8 and trailing text are accepted; 2**63 is read as a Float; an escape behind a high surrogate vanishes; there is no nesting limit."
  },
  {
   "property": "C78",
   "status": "partial",
   "theorems": [
    "C78_layout_partial",
    "C78_round_trip_partial",
    "C78_finite",
    "C78_ascii_partial",
    "C78_symbol_refuted",
    "C78_top_refuted",
    "C78_ascii_refuted",
    "C78_limits_refuted"
   ],
   "note": "Under every layout of blanks, ascii_only and script_safe the same values are written as JSON that says the same, or NestingError is raised exactly above the limit; NaN is never written unless allowed; ascii_only is ASCII. False: Symbols and other objects inside are written without escapes, and raise at the top; dump has limits and pretty_generate has none."
  },
  {
   "property": "C79",
   "status": "partial",
   "theorems": [
    "C79_reads_back_partial",
    "C79_plain_partial",
    "C79_reader_refuted",
    "C79_order_refuted"
   ],
   "note": "All histories of reflective, interpreted and compiled accesses, singleton classes, freezing and copies, if copied objects have the same layout in their real class and compiled attr_readers do not read always frozen instances; names listed up to order. False: a compiled attr_reader on an always frozen instance returns what is in r15; instance_variables lists in the order of the class's table."
  },
  {
   "property": "C80",
   "status": "partial",
   "theorems": [
    "C80_inside_partial",
    "C80_compile_refuted"
   ],
   "note": "No access of compiled code leaves the object's table, whatever is copied or gets a singleton class. False: compiling a method with an instance variable for an always frozen class fails an assertion and ends the process."
  },
  {
   "property": "C81",
   "status": "partial",
   "theorems": [
    "C81_copies_partial",
    "C81_dup_refuted",
    "C81_clone_refuted"
   ],
   "note": "dup and clone copy the variables, and change nothing else, if the set slots have the same names in the class and the real class. False: variables first assigned after the singleton class was made are lost, change their name, or appear when another object is assigned."
  },
  {
   "property": "C82",
   "status": "partial",
   "theorems": [
    "C82_dispatch_partial",
    "C82_compiled_partial",
    "C82_singleton_refuted",
    "C82_helper_refuted",
    "C82_fiber_refuted"
   ],
   "note": "Both directions, for every program and policy, when no singleton class is made, no conversion inside an instruction redefines methods and no fiber is resumed; exceptions, blocks and loop entry are not in the model. False otherwise: behind def x.foo the method of the class still runs; a to_s that redefines a method is not noticed; a method recompiled in a fiber validates the outdated code of the frame that resumed the fiber."
  },
  {
   "property": "C83",
   "status": "partial",
   "theorems": [
    "C83_units_partial",
    "C83_enter_partial",
    "C83_guard"
   ],
   "note": "Every program of the model and every policy, including singleton classes, fibers and redefining conversions. Missing: exceptions, blocks, loop compilation and recompiled specialized callees; the version is not a 32 bit number."
  },
  {
   "property": "C84",
   "status": "partial",
   "theorems": [
    "C84_exits_partial",
    "C84_only_partial",
    "C84_load",
    "C84_return_refuted",
    "C84_else_refuted",
    "C84_retry_refuted",
    "C84_break_refuted",
    "C84_nested_refuted",
    "C84_hidden_refuted",
    "C84_local_refuted",
    "C84_dropped_refuted",
    "C84_stale_refuted",
    "C84_again_refuted"
   ],
   "note": "Every program that loads and every run that ends without meeting one of the noted situations. Each of those is refuted: a raise in an ensure body run for a return is rescued by the begin's own clauses and the body runs twice; a raise in else skips the ensure; retry skips ensures; a break in a copied ensure body leaves the wrong loop; ensure inside ensure ends an unwinding's body early; a rescue without ensure hides the outer ensure from throw; return x returns what the ensure assigns; unwindings are dropped by a block's break and come back in later frames. Missing: $!, fatal errors, fibers, lambdas, runs that do not end."
  },
  {
   "property": "C85",
   "status": "partial",
   "theorems": [
    "C85_tidy_partial"
   ],
   "note": "A condition on the text alone: ensure bodies of actions that never raise, no retry out of a begin with ensure, no else next to ensure, no rescue without ensure inside an ensure region. Missing as for C84."
  },
  {
   "property": "C86",
   "status": "partial",
   "theorems": [
    "C86_at",
    "C86_slice",
    "C86_range",
    "C86_ends",
    "C86_fetch",
    "C86_rotate",
    "C86_mul_partial",
    "C86_mul_refuted",
    "C86_transpose_partial",
    "C86_transpose_refuted",
    "C86_product_partial",
    "C86_product_small",
    "C86_product_refuted",
    "C86_product_empty_refuted",
    "C86_bsearch",
    "C86_flatten",
    "C86_flatten_level_partial",
    "C86_flatten_only",
    "C86_flatten_refuted"
   ],
   "note": "Every Array and every 64 bit index, length, range, count and level. Missing, each refuted: repetition beyond what can be allocated panics; transpose of [[], [1]] is [] instead of IndexError; product is refused above about a million rows and, wrongly, when a later factor is empty; flatten with a level refuses recursive arrays. bsearch for monotone find-minimum blocks only."
  },
  {
   "property": "C87",
   "status": "partial",
   "theorems": [
    "C87_store_partial",
    "C87_huge_refuted",
    "C87_slice_assign_partial",
    "C87_conv_nil_refuted",
    "C87_range_assign_partial",
    "C87_range_refuted",
    "C87_range_conv_refuted",
    "C87_pop",
    "C87_shift",
    "C87_append",
    "C87_insert",
    "C87_delete_at",
    "C87_slice_bang",
    "C87_slice_bang_range_partial",
    "C87_slice_bang_refuted",
    "C87_fill_partial",
    "C87_fill_range_partial",
    "C87_fill_refuted",
    "C87_delete",
    "C87_compact",
    "C87_frozen"
   ],
   "note": "Every Array below the largest capacity, every index, range and right-hand side, and no change at all of a frozen Array. Missing, each refuted: an index near 2^63 panics; a[0..2**63-1] = v inserts at the front; a[range] = x ignores x.to_ary; a to_ary answering nil stores nothing; slice! with a range past the end returns [] instead of nil; fill with the range ..2**63-1 does nothing."
  },
  {
   "property": "C88",
   "status": "partial",
   "theorems": [
    "C88_each_safe",
    "C88_each_same",
    "C88_each_append",
    "C88_each_ends",
    "C88_index",
    "C88_retain_partial",
    "C88_retain_safe_partial",
    "C88_retain_refuted",
    "C88_retain_value_refuted",
    "C88_fill_safe_partial",
    "C88_fill_same",
    "C88_fill_refuted",
    "C88_product_safe_partial",
    "C88_product_refuted",
    "C88_held_safe_partial",
    "C88_held_same",
    "C88_held_moved_refuted",
    "C88_held_cleared_refuted",
    "C88_held_grown_refuted"
   ],
   "note": "each and its kin never read outside the Array whatever the block does, visit appended elements and end if the block does not lengthen it. In-place filters, fill and product with a block, and the methods that hold a slice (zip, min, max, minmax, inject) are right and safe for callbacks that leave the Array alone and safe for those that do not shorten (or move) it. False otherwise: panics, a value assigned by the block is lost, or freed memory is read."
  },
  {
   "property": "C89",
   "status": "partial",
   "theorems": [
    "C89_read",
    "C89_len",
    "C89_store_partial",
    "C89_store_wrong",
    "C89_frozen_refuted",
    "C89_twice_refuted",
    "C89_shl",
    "C89_slice",
    "C89_rotate"
   ],
   "note": "Compiled reads, lengths, <<, slice assignment and rotate! agree with the interpreter for every layout of the object. False for compiled a[i] = v: it changes a frozen Array, and an index below the first element wraps a second time."
  },
  {
   "property": "C90",
   "status": "partial",
   "theorems": [
    "C90_safe_partial",
    "C90_answers_partial",
    "C90_exact_partial",
    "C90_name_refuted",
    "C90_valid_refuted",
    "C90_compiled_refuted",
    "C90_slice_refuted",
    "C90_splice_refuted",
    "C90_splice_encoding_refuted"
   ],
   "note": "In every history of the modelled operations, interpreted or compiled, a string treated as ASCII or UTF-8 without a check is that, provided class names printed by interpolation are ASCII; false otherwise. valid_encoding? and ascii_only? answer what a fresh look at the bytes would in histories without the listed operations (repeat and reverse of broken text, integers appended to UTF-16/32 or beyond ASCII to US-ASCII, slices that leave only ASCII...), each of which has a counterexample. ISO-2022-JP is excluded there."
  },
  {
   "property": "C91",
   "status": "partial",
   "theorems": [
    "C91_split_unique",
    "C91_length_partial",
    "C91_index_partial",
    "C91_slice_partial",
    "C91_range_partial",
    "C91_bytes_partial",
    "C91_valid_partial",
    "C91_valid_wide_partial",
    "C91_ascii",
    "C91_pair_refuted",
    "C91_surrogate_refuted",
    "C91_far_refuted",
    "C91_lead_refuted",
    "C91_wrap_refuted",
    "C91_empty_refuted",
    "C91_byteslice_refuted",
    "C91_reentry_refuted"
   ],
   "note": "length, chars, s[i], s[i, n], s[a..b] and byteslice denote the characters (bytes) of the encoding: every string in UTF-8, US-ASCII, UTF-32 and the byte encodings, well-formed ones in EUC-JP and Shift_JIS, UTF-16 without surrogate pairs. False: surrogate pairs count twice, surrogates and code points beyond Unicode are valid, EUC-JP lead bytes swallow ASCII, huge lengths wrap (one crashes), s[i, 0] is UTF-8, byteslice(1..-10), byteslice whose argument conversion shortens the string."
  },
  {
   "property": "C92",
   "status": "partial",
   "theorems": [
    "C92_add_partial",
    "C92_interpolation_partial",
    "C92_compiled_append",
    "C92_compiled_append_int",
    "C92_compiled_setbyte",
    "C92_equal_partial",
    "C92_compare_partial",
    "C92_lexicographic",
    "C92_lex_unique",
    "C92_antisymmetric",
    "C92_join_refuted",
    "C92_compare_refuted",
    "C92_ordinal_refuted",
    "C92_transitive_refuted",
    "C92_pad_refuted",
    "C92_interpolation_refuted"
   ],
   "note": "+, << and interpolation give the bytes and the encoding of Ruby's compatibility rule and raise when it has no answer, for strings whose classification is exact (C90_exact). Compiled <<, << with an Integer and setbyte always agree with the interpreter. == and <=> are content comparison under that rule; <=> is the dictionary order of the bytes and antisymmetric. False: strings sliced to ASCII are refused or compare unequal, Shift_JIS and Windows-31J compare as equal, <=> is not transitive, padding keeps US-ASCII, objects interpolated into UTF-16."
  },
  {
   "property": "C93",
   "status": "partial",
   "theorems": [
    "C93_unseen_partial",
    "C93_frozen_partial",
    "C93_no_leak",
    "C93_slice",
    "C93_read_into_refuted",
    "C93_call_refuted",
    "C93_append_self_refuted",
    "C93_append_self_short"
   ],
   "note": "Slices, snapshots, copies, literals, mutation by copy, replace, freeze and collection in any order: no freed memory is read and each name shows its own bytes, provided no frozen string is overwritten (IO#readpartial and relatives, String#replace whose argument's to_str freezes the receiver) or handed to a C function; both refuted. Frozen strings keep their bytes under the same condition. Without condition: no buffer outlives its users, long slices copy nothing. append_as_bytes of a string to itself is refuted."
  },
  {
   "property": "C94",
   "status": "partial",
   "theorems": [
    "C94_reads_partial",
    "C94_lookup",
    "C94_lookup_missing",
    "C94_in_class",
    "C94_in_class_private",
    "C94_path",
    "C94_put",
    "C94_names",
    "C94_keyword_refuted",
    "C94_autoload_refuted",
    "C94_private_refuted",
    "C94_hook_refuted",
    "C94_check_refuted",
    "C94_context_refuted"
   ],
   "note": "Lookup itself follows the order Ruby gives (classes around, ancestors, Object; in a class without Object and without private names). Every reference, interpreted or compiled, in every history whose unannounced changes (class/module keyword, autoload, visibility, re-entered class body) touch no cached name and whose values do not come from const_missing. Each of those cases is refuted without the condition, and so is X ||= after class X."
  },
  {
   "property": "C95",
   "status": "partial",
   "theorems": [
    "C95_guard_partial",
    "C95_salvage_partial",
    "C95_folded",
    "C95_helper_refuted",
    "C95_salvage_refuted"
   ],
   "note": "Runs of compiled code with one guard for several constants, and the re-validation of a unit, after such histories, provided what keeps the guard (string interpolation, splat, hash literal, global variables) does not move the version. Refuted without it, and for re-validation after a definition by keyword."
  },
  {
   "property": "C96",
   "status": "partial",
   "theorems": [
    "C96_defined_partial",
    "C96_private_refuted",
    "C96_toplevel_refuted",
    "C96_behind_refuted"
   ],
   "note": "defined? of a name, of a name in one written class, or of a name in a computed class, with hooks and autoload of the class excluded. Longer paths are refuted (private or top-level class on the way), and so is a private constant behind one of Object."
  },
  {
   "property": "C97",
   "status": "partial",
   "theorems": [
    "C97_compiled_partial",
    "C97_only_partial",
    "C97_plain_partial",
    "C97_operand_refuted",
    "C97_receiver_refuted",
    "C97_block_operand_refuted",
    "C97_opassign_refuted",
    "C97_attr_refuted",
    "C97_and_refuted",
    "C97_and_break_refuted",
    "C97_and_raise_refuted",
    "C97_setter_refuted",
    "C97_splat_refuted",
    "C97_splat_self_refuted",
    "C97_splat_again_refuted",
    "C97_multi_refuted",
    "C97_unary_refuted",
    "C97_value_refuted",
    "C97_loop_refuted"
   ],
   "note": "All expressions of the modelled forms under conditions on the text of the program (GenSpec.ok): a local variable that is an operand is not assigned by a later operand, a destination is not read or left while its value is computed. A simpler sufficient form is given (plain). Each condition is refuted without it. Evaluations that do not end are not compared."
  },
  {
   "property": "C98",
   "status": "proved",
   "theorems": [
    "C98_labels"
   ],
   "note": "For all expressions."
  },
  {
   "property": "C99",
   "status": "proved",
   "theorems": [
    "C99_closures",
    "C99_never_stuck"
   ],
   "note": "All sequences of what running frames do with variables and blocks, without Binding; one execution context, interpreter."
  }
 ]
}