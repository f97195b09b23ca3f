{
 "claims": [
  {
   "property": "C01",
   "status": "proved",
   "theorems": [
    "C01_nextPowerOf2_least",
    "C01_nextPowerOf2_out_of_range"
   ],
   "note": "full statement, incl. exact results outside 1..2^30"
  },
  {
   "property": "C02",
   "status": "proved",
   "theorems": [
    "C02_capacity_grows",
    "C02_capacity_at_max"
   ],
   "note": "full statement"
  },
  {
   "property": "C03",
   "status": "partial",
   "theorems": [
    "C03_ensureSize_correct_partial",
    "C03_ensureSize_with_correct_partial",
    "C03_ensureSize_terminates_partial",
    "C03_ensureEntry_partial",
    "C03_ensureSize_terminates_refuted",
    "C03_ensureEntry_refuted"
   ],
   "note": "full statement false: sizes above 2^30 may loop forever, index MAX_INT wraps (both refuted with witnesses); proved: whenever it returns the result is right, and it returns for sizes up to 2^30"
  },
  {
   "property": "C04",
   "status": "proved",
   "theorems": [
    "C04_byte_round_trip_LE",
    "C04_byte_round_trip_BE",
    "C04_short_round_trip_LE",
    "C04_short_round_trip_BE",
    "C04_char_round_trip_LE",
    "C04_char_round_trip_BE",
    "C04_int_round_trip_LE",
    "C04_int_round_trip_BE",
    "C04_long_round_trip_LE",
    "C04_long_round_trip_BE",
    "C04_boolean_round_trip"
   ],
   "note": "all integer types and boolean, both byte orders, every array and fitting position"
  },
  {
   "property": "C05",
   "status": "proved",
   "theorems": [
    "C05_byte_layout_LE",
    "C05_byte_layout_BE",
    "C05_short_layout_LE",
    "C05_short_layout_BE",
    "C05_char_layout_LE",
    "C05_char_layout_BE",
    "C05_int_layout_LE",
    "C05_int_layout_BE",
    "C05_long_layout_LE",
    "C05_long_layout_BE",
    "C05_byte_read_write_LE",
    "C05_byte_read_write_BE",
    "C05_short_read_write_LE",
    "C05_short_read_write_BE",
    "C05_char_read_write_LE",
    "C05_char_read_write_BE",
    "C05_int_read_write_LE",
    "C05_int_read_write_BE",
    "C05_long_read_write_LE",
    "C05_long_read_write_BE",
    "C05_mirror"
   ],
   "note": "integer types (a boolean byte other than 0/1 is not a two's-complement value and is outside the claim)"
  },
  {
   "property": "C06",
   "status": "partial",
   "theorems": [
    "C06_byte_throws_LE_partial",
    "C06_byte_throws_BE_partial",
    "C06_short_throws_LE_partial",
    "C06_short_throws_BE_partial",
    "C06_char_throws_LE_partial",
    "C06_char_throws_BE_partial",
    "C06_int_throws_LE_partial",
    "C06_int_throws_BE_partial",
    "C06_long_throws_LE_partial",
    "C06_long_throws_BE_partial",
    "C06_byte_clean_LE",
    "C06_byte_clean_BE",
    "C06_short_clean_LE_partial",
    "C06_short_clean_BE_partial",
    "C06_char_clean_LE_partial",
    "C06_char_clean_BE_partial",
    "C06_int_clean_LE_partial",
    "C06_int_clean_BE_partial",
    "C06_long_clean_LE_partial",
    "C06_long_clean_BE_partial",
    "C06_boolean_clean",
    "C06_writeBE_refuted",
    "C06_writeLE_refuted"
   ],
   "note": "full statement false (big-endian past the end, little-endian before the start tear: refuted); proved: always throws, changes confined to the window, exactly which side is clean"
  },
  {
   "property": "C07",
   "status": "proved",
   "theorems": [
    "C07_pack_unpack",
    "C07_unpack_pack",
    "C07_pack_injective",
    "C07_four_bytes"
   ],
   "note": "full statement"
  },
  {
   "property": "C08",
   "status": "partial",
   "theorems": [
    "C08_float_order",
    "C08_double_order_partial",
    "C08_double_refuted",
    "C08_byte_short_char_order",
    "C08_long_order",
    "C08_boolean_order",
    "C08_int_exact_partial",
    "C08_int_order_partial",
    "C08_int_refuted",
    "C08_comparator_for",
    "C08_int_comparator_for_partial"
   ],
   "note": "byte, short, char, long, boolean, float (natural order incl. NaN) proved; int proved when differences fit an int, refuted otherwise; double proved for all but NaN, refuted with NaN."
  },
  {
   "property": "C09",
   "status": "partial",
   "theorems": [
    "C09_small_abs_order",
    "C09_int_abs_order_partial",
    "C09_long_abs_order_partial",
    "C09_comparator_for",
    "C09_abs_min_refuted"
   ],
   "note": "refuted at MIN_VALUE; int: the single wrong ordered pair characterised exactly; long: proved off MIN_VALUE; byte, short, char fully proved"
  },
  {
   "property": "C10",
   "status": "proved",
   "theorems": [
    "C10_calendar",
    "C10_accepted_dates",
    "C10_accepted_times",
    "C10_sql_date",
    "C10_date_round_trip",
    "C10_time_round_trip",
    "C10_monotone",
    "C10_parse_back"
   ],
   "note": "years 0..214747, more than claimed"
  },
  {
   "property": "C11",
   "status": "proved",
   "theorems": [
    "C11_unique_and_increasing",
    "C11_mutual_exclusion"
   ],
   "note": "full statement, small-step machine with any number of threads"
  },
  {
   "property": "C12",
   "status": "partial",
   "theorems": [
    "C12_clock_step_back_refuted",
    "C12_clock_step_back_between_calls_partial",
    "C12_sequential_partial"
   ],
   "note": "refuted when the clock steps back while a call waits out an exhausted sequence; proved when it steps back only between calls"
  },
  {
   "property": "C13",
   "status": "proved",
   "theorems": [
    "C13_ids_parse_back",
    "C13_nodes_never_collide"
   ],
   "note": "full statement"
  },
  {
   "property": "C14",
   "status": "partial",
   "theorems": [
    "C14_vector_is_list_partial",
    "C14_constructor",
    "C14_append_at_limit_refuted"
   ],
   "note": "proved for up to 2^30 elements; at 2^30 elements append never returns (refuted)"
  },
  {
   "property": "C15",
   "status": "partial",
   "theorems": [
    "C15_total_map_partial",
    "C15_set_outcome_partial",
    "C15_not_power_of_two_refuted",
    "C15_capacity_overflow_refuted"
   ],
   "note": "proved for every power-of-two chunk size and index below 2^31 - chunkSize; refuted for every chunk size that is not a power of two and at the capacity limit"
  },
  {
   "property": "C16",
   "status": "partial",
   "theorems": [
    "C16_cells_independent_partial",
    "C16_rejected_set_changes_nothing_partial",
    "C16_field_range",
    "C16_not_power_of_two_refuted",
    "C16_row_overflow_refuted"
   ],
   "note": "proved for power-of-two chunk sizes while (row+1)*numFields stays below 2^31 - chunkSize; refuted for other chunk sizes and for row*numFields overflow"
  },
  {
   "property": "C17",
   "status": "partial",
   "theorems": [
    "C17_deque_is_list_partial",
    "C17_constructor",
    "C17_constructor_refuted"
   ],
   "note": "Matches the list for every history without a failed add; adds can throw ResizeException from 2^29-1 elements on, and the constructor throws NegativeArraySizeException above 2^30 (refuted there)."
  },
  {
   "property": "C18",
   "status": "partial",
   "theorems": [
    "C18_failed_add_refuted",
    "C18_adds_do_not_fail_below_limit_partial"
   ],
   "note": "Refuted: after a failed add the deque iterates as empty while size() says 2^29. Proved: adds do not fail below 2^29-1 elements."
  },
  {
   "property": "C19",
   "status": "partial",
   "theorems": [
    "C19_lists_independent_partial",
    "C19_without_clear",
    "C19_other_ids_untouched",
    "C19_large_id_refuted"
   ],
   "note": "Proved for every history; adds to list ids of 2^30 or more may never return (refuted there). Without clear, every add with a smaller id answers while fewer than 2^30 elements are held (C19_without_clear); with clear, up to 2^30 adds."
  },
  {
   "property": "C20",
   "status": "partial",
   "theorems": [
    "C20_iterators_partial",
    "C20_negative_id_refuted"
   ],
   "note": "Proved for every history and every id >= 0; a negative id throws ArrayIndexOutOfBoundsException instead of iterating nothing (refuted)."
  },
  {
   "property": "C21",
   "status": "partial",
   "theorems": [
    "C21_storage_reuse_partial",
    "C21_clear_leaks_refuted"
   ],
   "note": "Proved for histories without clear(); clear() does not reset maxEntry, so entries are never reused after it (refuted)."
  },
  {
   "property": "C22",
   "status": "proved",
   "theorems": [
    "C22_peek_minimum",
    "C22_peek_empty"
   ],
   "note": "Every total-preorder comparator, every history of permitted calls, via refinement to a finite map entry -> key; heap order is an invariant."
  },
  {
   "property": "C23",
   "status": "proved",
   "theorems": [
    "C23_key_of_entry",
    "C23_value_of_entry",
    "C23_value_or_default",
    "C23_size",
    "C23_calls_succeed"
   ],
   "note": "Keys, values and size are those given by the call history; every permitted call succeeds and stays within the reachable states."
  },
  {
   "property": "C24",
   "status": "proved",
   "theorems": [
    "C24_drain_sorts",
    "C24_drain_unique"
   ],
   "note": "The drain loop terminates and yields every live entry once, keys in non-decreasing order; the loop is deterministic."
  },
  {
   "property": "C25",
   "status": "proved",
   "theorems": [
    "C25_set_comparator"
   ],
   "note": "For any old comparator and any new total preorder."
  },
  {
   "property": "C26",
   "status": "partial",
   "theorems": [
    "C26_remove_dead_partial",
    "C26_refuted"
   ],
   "note": "Refuted for entries never handed out (below the capacity, above the peak): removeAt succeeds and a live entry is lost. Proved for every other entry."
  },
  {
   "property": "C27",
   "status": "partial",
   "theorems": [
    "C27_is_valid_partial",
    "C27_for_each_partial",
    "C27_refuted"
   ],
   "note": "Refuted: isValidEntry is true for entries never handed out, throws for negative ones; forEachEntry misses live entries >= getSize(). Exact for the remaining entries."
  },
  {
   "property": "C28",
   "status": "partial",
   "theorems": [
    "C28_default_value_partial",
    "C28_refuted"
   ],
   "note": "Refuted: a clear while removed entries are pending leaves stale values. Proved for histories without such a clear."
  },
  {
   "property": "C29",
   "status": "proved",
   "theorems": [
    "C29_entry_reuse",
    "C29_dense"
   ],
   "note": "Which entry insert returns, and entries below the peak since the last clear."
  },
  {
   "property": "C30",
   "status": "proved",
   "theorems": [
    "C30_constructor",
    "C30_last_write_wins",
    "C30_any_state",
    "C30_every_call"
   ],
   "note": "for every capacity, load factor, hash/equality pair consistent on the keys used; by-key histories against a finite map, all other calls against the entries the calls establish"
  },
  {
   "property": "C31",
   "status": "proved",
   "theorems": [
    "C31_membership",
    "C31_remove",
    "C31_found_until_taken"
   ],
   "note": ""
  },
  {
   "property": "C32",
   "status": "proved",
   "theorems": [
    "C32_entry_stable",
    "C32_entries_distinct"
   ],
   "note": ""
  },
  {
   "property": "C33",
   "status": "partial",
   "theorems": [
    "C33_dense_partial",
    "C33_reuse_refuted",
    "C33_dense_refuted"
   ],
   "note": "holds whenever 2*capacity*loadFactor >= 1 (every load factor >= 1/2, and every smaller one with a large enough initial capacity); refuted below: a rebuild drops the free list after its first entry"
  },
  {
   "property": "C34",
   "status": "proved",
   "theorems": [
    "C34_size",
    "C34_visits"
   ],
   "note": ""
  },
  {
   "property": "C35",
   "status": "proved",
   "theorems": [
    "C35_iterate",
    "C35_complete"
   ],
   "note": ""
  },
  {
   "property": "C36",
   "status": "partial",
   "theorems": [
    "C36_fail_fast_partial",
    "C36_fail_fast_refuted"
   ],
   "note": "holds for fewer than 2^32 changes without clear(); refuted for clear(), which resets the counter to 0"
  },
  {
   "property": "C37",
   "status": "partial",
   "theorems": [
    "C37_copy_equal_partial",
    "C37_same_future_partial",
    "C37_copy_refuted",
    "C37_allocation_refuted"
   ],
   "note": "queries always equal when both use the same functions; future allocation equal when entries are reused (C33) and the source is below the capacity limit; refuted otherwise: functions are not copied, a tiny load factor loses entries"
  },
  {
   "property": "C38",
   "status": "proved",
   "theorems": [
    "C38_clear"
   ],
   "note": ""
  },
  {
   "property": "C39",
   "status": "proved",
   "theorems": [
    "C39_reserve",
    "C39_free_next"
   ],
   "note": ""
  },
  {
   "property": "C40",
   "status": "proved",
   "theorems": [
    "C40_default_value"
   ],
   "note": ""
  },
  {
   "property": "C41",
   "status": "proved",
   "theorems": [
    "C41_remove_while_visiting"
   ],
   "note": ""
  },
  {
   "property": "C42",
   "status": "proved",
   "theorems": [
    "C42_failed_add"
   ],
   "note": "also covers the IndexOutOfBounds that replaces ResizeException when entries were lost"
  },
  {
   "property": "C43",
   "status": "partial",
   "theorems": [
    "C43_double_partial",
    "C43_float_partial",
    "C43_double_map_partial",
    "C43_float_map_partial",
    "C43_nan_refuted"
   ],
   "note": "Proved for every float/double key that is not NaN (0.0 and -0.0 are one key). NaN refuted: not contained after add, each add takes a new entry."
  },
  {
   "property": "C44",
   "status": "proved",
   "theorems": [
    "C44_constructor",
    "C44_set_of_pairs",
    "C44_every_call",
    "C44_put_known",
    "C44_keys_at"
   ],
   "note": "All histories whose modifying calls returned; contains/size/lookup always return and agree with a plain set of pairs."
  },
  {
   "property": "C45",
   "status": "partial",
   "theorems": [
    "C45_values_partial",
    "C45_entries_partial",
    "C45_two_directions_partial",
    "C45_iteration_ends",
    "C45_unknown_key_refuted"
   ],
   "note": "Exact when the iteration returns (when it does: C47_no_exception_partial); every iteration ends.  forEachValue of a key beyond the heads array throws (refuted)."
  },
  {
   "property": "C46",
   "status": "proved",
   "theorems": [
    "C46_count"
   ],
   "note": "count() always returns and is the number of associations."
  },
  {
   "property": "C47",
   "status": "partial",
   "theorems": [
    "C47_no_exception_partial",
    "C47_exception_refuted",
    "C47_half_done_refuted",
    "C47_negative_refuted"
   ],
   "note": "No call throws while at most initialMappingCapacity entries were ever held at once and keys are below 2^30.  Refuted beyond: with the default constructor the 17th left key cannot be iterated or removed; put can throw half done."
  },
  {
   "property": "C48",
   "status": "partial",
   "theorems": [
    "C48_pairs_unaffected_partial",
    "C48_count_refuted"
   ],
   "note": "Pairs and iteration unaffected; counts are changed (refuted)."
  },
  {
   "property": "C49",
   "status": "proved",
   "theorems": [
    "C49_pairs_permuted"
   ],
   "note": ""
  },
  {
   "property": "C50",
   "status": "proved",
   "theorems": [
    "C50_sorts"
   ],
   "note": "termination is stated by a bound on the recursion depth; the JVM's stack size is not modelled"
  },
  {
   "property": "C51",
   "status": "partial",
   "theorems": [
    "C51_rejects_partial",
    "C51_overflow_refuted"
   ],
   "note": "false for ranges whose end overflows int (C51_overflow_refuted)"
  },
  {
   "property": "C52",
   "status": "proved",
   "theorems": [
    "C52_predicates",
    "C52_boolean_predicates",
    "C52_string_predicates"
   ],
   "note": "full statement"
  },
  {
   "property": "C53",
   "status": "partial",
   "theorems": [
    "C53_string_order_partial",
    "C53_string_consistent",
    "C53_string_insensitive",
    "C53_comparator_for",
    "C53_generic",
    "C53_string_null_refuted"
   ],
   "note": "compare(non-null, null) throws NullPointerException (refuted); non-null strings fully proved"
  },
  {
   "property": "C54",
   "status": "proved",
   "theorems": [
    "C54_bit_flags",
    "C54_bit_flags_range"
   ],
   "note": "full statement"
  },
  {
   "property": "C55",
   "status": "proved",
   "theorems": [
    "C55_node_names_accepted",
    "C55_node_ids_exact"
   ],
   "note": "full statement"
  },
  {
   "property": "C56",
   "status": "partial",
   "theorems": [
    "C56_int_heap_partial",
    "C56_int_heap_refuted"
   ],
   "note": "Refuted for full-range ints (wrap-around of a - b). Proved for keys of magnitude below 2^30."
  },
  {
   "property": "C57",
   "status": "proved",
   "theorems": [
    "C57_first_entry"
   ],
   "note": "Every reachable heap."
  },
  {
   "property": "C58",
   "status": "partial",
   "theorems": [
    "C58_full_heap_partial",
    "C58_huge_full_partial",
    "C58_capacity_zero_refuted",
    "C58_large_capacity_refuted"
   ],
   "note": "Refuted for capacity 0 (accepts no key) and for capacities between 2^29 and 2^30 (C58_large_capacity_refuted: the insert that should grow the full heap shrinks it, throws and loses keys). Proved at capacity 2^29, and for capacities of 2^30 and more as long as nothing was removed (C58_huge_full_partial)."
  },
  {
   "property": "C59",
   "status": "proved",
   "theorems": [
    "C59_remove_while_iterating"
   ],
   "note": "Any selection of entries, both directions, whenever the iteration returns (it does under the conditions of C47_no_exception_partial)."
  },
  {
   "property": "C60",
   "status": "proved",
   "theorems": [
    "C60_nothing_lost"
   ],
   "note": ""
  },
  {
   "property": "C61",
   "status": "partial",
   "theorems": [
    "C61_byte_short_char_partial",
    "C61_long_partial",
    "C61_int_partial",
    "C61_int_refuted"
   ],
   "note": "false for int keys more than 2^31 apart (C61_int_refuted); proved for byte, short, char, long, and for int keys whose differences fit an int"
  },
  {
   "property": "C62",
   "status": "partial",
   "theorems": [
    "C62_float_abs_order",
    "C62_double_abs_order_partial",
    "C62_float_methods",
    "C62_double_methods_partial",
    "C62_double_refuted"
   ],
   "note": "Float proved for all values incl. NaN; double for all but NaN (NaN compares equal to everything: refuted)."
  },
  {
   "property": "C63",
   "status": "proved",
   "theorems": [
    "C63_predicates"
   ],
   "note": "All float and double values."
  },
  {
   "property": "C64",
   "status": "proved",
   "theorems": [
    "C64_round_trip",
    "C64_layout",
    "C64_read_write"
   ],
   "note": "All floats and doubles incl. NaN payloads, all arrays and positions."
  },
  {
   "property": "C65",
   "status": "proved",
   "theorems": [
    "C65_cast_to_int",
    "C65_double_exact",
    "C65_float_nearest",
    "C65_cast_monotone"
   ],
   "note": "All ints, floats and doubles. (Beside it: an int above 2^24 does not survive the cast to float and back.)"
  },
  {
   "property": "C66",
   "status": "proved",
   "theorems": [
    "C66_epsilon",
    "C66_tolerance"
   ],
   "note": "All pairs of doubles; the tolerance is the double nearest 1e-10."
  },
  {
   "property": "C67",
   "status": "partial",
   "theorems": [
    "C67_sort_double_partial",
    "C67_sort_float",
    "C67_heap_double_partial",
    "C67_heap_float",
    "C67_sort_nan_refuted",
    "C67_heap_nan_refuted"
   ],
   "note": "Float proved for all values incl. NaN; double for keys other than NaN; with a NaN the sort and heap are wrong (refuted)."
  },
  {
   "property": "C68",
   "status": "partial",
   "theorems": [
    "C68_equivalence_refuted",
    "C68_refuted",
    "C68_separated_partial"
   ],
   "note": "Refuted: EqEpsilon is not transitive and HashImpl differs for close keys. Proved when no two keys used are within the tolerance."
  },
  {
   "property": "C69",
   "status": "proved",
   "theorems": [
    "C69_narrow",
    "C69_bool"
   ],
   "note": "integer and boolean casts"
  },
  {
   "property": "C70",
   "status": "proved",
   "theorems": [
    "C70_parse_exact",
    "C70_round_trip",
    "C70_text_unique",
    "C70_bool_and_char"
   ],
   "note": "the digits are those of Character.digit, any function agreeing with it on ASCII; parseFloat and parseDouble are not modelled"
  },
  {
   "property": "C71",
   "status": "partial",
   "theorems": [
    "C71_box_partial",
    "C71_char_refuted",
    "C71_null",
    "C71_generic_null",
    "C71_integral",
    "C71_floating",
    "C71_floating_narrow",
    "C71_integral_to_floating",
    "C71_booleans",
    "C71_strings",
    "C71_unbox_number",
    "C71_dates",
    "C71_text",
    "C71_refused"
   ],
   "note": "false for char: CharType.convert throws on a Character (C71_char_refuted). Everything else is proved; other Number classes than the six boxes, and the text of floats, are not modelled"
  },
  {
   "property": "C72",
   "status": "proved",
   "theorems": [
    "C72_int_keys",
    "C72_byte_keys",
    "C72_short_keys",
    "C72_char_keys",
    "C72_long_keys",
    "C72_bool_keys",
    "C72_string_keys",
    "C72_object_keys"
   ],
   "note": "All key types other than float and double (C43)."
  },
  {
   "property": "C73",
   "status": "partial",
   "theorems": [
    "C73_constructor",
    "C73_count",
    "C73_iterate_partial",
    "C73_returns_partial",
    "C73_iterate_refuted"
   ],
   "note": "Proved for every call that returns and for up to 128 links; beyond 128 links iterate can throw ArrayIndexOutOfBoundsException (C73_iterate_refuted, caused by C47). Histories in which an add threw are not covered."
  },
  {
   "property": "C74",
   "status": "partial",
   "theorems": [
    "C74_constructor",
    "C74_answers_partial",
    "C74_returns_partial",
    "C74_enrolled_refuted",
    "C74_empty_class_refuted"
   ],
   "note": "Proved for every call that returns and for up to 16 enrolments and 16 classes; beyond, listing can throw (C74_enrolled_refuted, C74_empty_class_refuted, caused by C45/C47)."
  },
  {
   "property": "C75",
   "status": "proved",
   "theorems": [
    "C75_constructor",
    "C75_process",
    "C75_expired_reported",
    "C75_none_left",
    "C75_add_ack",
    "C75_accounted"
   ],
   "note": "The latch and waitForNext are not modelled; calls are atomic, as the methods synchronise on the heap."
  },
  {
   "property": "C76",
   "status": "partial",
   "theorems": [
    "C76_ack_partial",
    "C76_late_ack_refuted"
   ],
   "note": "Proved for acknowledgements of items that wait; false when an item is acknowledged after it was reported and its entry reused (C76_late_ack_refuted)."
  },
  {
   "property": "C77",
   "status": "proved",
   "theorems": [
    "C77_library_floats",
    "C77_ends",
    "C77_returns",
    "C77_library_integers",
    "C77_self_equality_needed"
   ],
   "note": "Sorting ends, with at most 3*len^2 comparator calls, for every comparator (stateful, inconsistent, throwing) that finds an element equal to itself and never diverges; every comparator of the library is one; without self-equality the sort may not end."
  },
  {
   "property": "C78",
   "status": "proved",
   "theorems": [
    "C78_constructor",
    "C78_rows",
    "C78_reuse"
   ],
   "note": "Any key type with decidable equality, chunk sizes that are powers of two, load factor times twice the capacity at least 1; R is the largest number of keys held at a time (at most 2^29, rows times fields within an int)."
  },
  {
   "property": "C79",
   "status": "proved",
   "theorems": [
    "C79_protocol",
    "C79_count",
    "C79_owner"
   ],
   "note": "reset, next, remove and currentEntry in any order, interleaved with collection calls; iterators handed to another collection"
  },
  {
   "property": "C80",
   "status": "partial",
   "theorems": [
    "C80_create",
    "C80_create_with_partial",
    "C80_create_with_refuted",
    "C80_fill",
    "C80_fill_all",
    "C80_resize",
    "C80_copyOf_with",
    "C80_growth_partial"
   ],
   "note": "Proved except: create(size, value) does not write a value that is equal to but different from the type's default, refuted by C80_create_with_refuted (FloatArray.create(2, -0.0f) holds 0.0f); growth only up to 2^30 (above, C03_ensureSize_terminates_refuted)."
  },
  {
   "property": "C81",
   "status": "proved",
   "theorems": [
    "C81_table",
    "C81_presized",
    "C81_nan_limit",
    "C81_heap"
   ],
   "note": "Hash_Cap, Heap_Cap. C81_nan_limit shows that the bound on the load factor cannot be dropped."
  },
  {
   "property": "C82",
   "status": "proved",
   "theorems": [
    "C82_calls_bounded",
    "C82_compared_keys"
   ],
   "note": "C82_calls_bounded and C82_compared_keys for every comparator, including those that throw; the examples attain the bounds of insert and removeAt."
  },
  {
   "property": "C83",
   "status": "proved",
   "theorems": [
    "C83_handles",
    "C83_calls_return",
    "C83_insert",
    "C83_drain",
    "C83_drain_ends",
    "C83_same_as_function"
   ],
   "note": "C83_handles, C83_calls_return, C83_insert, C83_drain, C83_drain_ends (needs a comparator that returns), C83_same_as_function."
  },
  {
   "property": "C84",
   "status": "partial",
   "theorems": [
    "C84_lookup",
    "C84_cut_short",
    "C84_clear",
    "C84_insert_refuted",
    "C84_removeAt_refuted",
    "C84_resetKey_refuted",
    "C84_setComparator_refuted",
    "C84_null_string_refuted"
   ],
   "note": "False of the code for insert, removeAt, resetKey and setComparator (C84_*_refuted, each with a comparator that never throws again; C84_null_string_refuted with StringType.Asc). Proved: look-ups change nothing (C84_lookup), size, keys and values after a call cut short (C84_cut_short), clear() makes the heap usable again after any calls at all (C84_clear with C83)."
  },
  {
   "property": "C85",
   "status": "proved",
   "theorems": [
    "C85_every_call",
    "C85_search",
    "C85_add_calls",
    "C85_silent",
    "C85_known_keys",
    "C85_agrees"
   ],
   "note": "The calls of both functions, as a list, for every history of plain calls (C85_every_call gives the complete effect of each call); bounds, order of arguments, silence of the other methods, provenance of keys; agreement with the model of C30-C42 for functions without effects. The functions are assumed not to call back into the collection."
  },
  {
   "property": "C86",
   "status": "proved",
   "theorems": [
    "C86_entries",
    "C86_lookup",
    "C86_contains",
    "C86_get",
    "C86_add",
    "C86_reserve_limit"
   ],
   "note": "For all functions and all histories in which no add or put failed since construction or clear(). C86_reserve_limit shows that removeAtAndReserve followed by freeReservedEntry breaks it when the functions do not find the key."
  },
  {
   "property": "C87",
   "status": "proved",
   "theorems": [
    "C87_origin",
    "C87_search_unchanged",
    "C87_add_unchanged",
    "C87_add_left",
    "C87_clear",
    "C87_rebuild_limit"
   ],
   "note": "All ways a call can fail, and what is left. C87_rebuild_limit is the witness that a rebuild cut short loses entries while size() still counts them, until clear()."
  },
  {
   "property": "C88",
   "status": "proved",
   "theorems": [
    "C88_iterators_keep_their_place",
    "C88_deque_unaffected",
    "C88_consume",
    "C88_removed_under_iterator"
   ],
   "note": "positions of all live iterators tracked through every call (lspec); C88_removed_under_iterator shows the limit of the claim is needed"
  },
  {
   "property": "C89",
   "status": "proved",
   "theorems": [
    "C89_each_as_alone",
    "C89_no_interference",
    "C89_fail_fast",
    "C89_all_pairs"
   ],
   "note": "any number of iterators, any interleaving; fail-fast proved for removals through iterators (C36 shows it is not general for other modifications)"
  },
  {
   "property": "C90",
   "status": "proved",
   "theorems": [
    "C90_entries",
    "C90_keys",
    "C90_values",
    "C90_adding_limit",
    "C90_ahead_limit"
   ],
   "note": "consumers are arbitrary programs that call the collection; limits shown for consumers that add keys or remove entries still to come"
  },
  {
   "property": "C91",
   "status": "proved",
   "theorems": [
    "C91_vector",
    "C91_deque",
    "C91_growth_limit",
    "C91_ahead_limit",
    "C91_behind_limit",
    "C91_clear_limit"
   ],
   "note": ""
  },
  {
   "property": "C92",
   "status": "proved",
   "theorems": [
    "C92_iterators",
    "C92_collection_unaffected",
    "C92_complete",
    "C92_removed_limit"
   ],
   "note": "C92_iterators (answers), C92_collection_unaffected, C92_complete; C92_removed_limit shows why the next entry must not be removed"
  },
  {
   "property": "C93",
   "status": "proved",
   "theorems": [
    "C93_each",
    "C93_everything",
    "C93_nested_limit"
   ],
   "note": "C93_each, C93_everything; C93_nested_limit shows why the loop's iterator must be left alone"
  },
  {
   "property": "C94",
   "status": "partial",
   "theorems": [
    "C94_heap_partial",
    "C94_same_entries",
    "C94_no_removals",
    "C94_remove_refuted"
   ],
   "note": "forEachEntry bounds the entry number by the current size, so an entry that stays in the heap is skipped if removals bring the size down to its number (C94_remove_refuted); everything else, and the full claim when nothing was removed, is proved"
  },
  {
   "property": "C95",
   "status": "proved",
   "theorems": [
    "C95_each",
    "C95_remove_selected",
    "C95_ahead_limit"
   ],
   "note": "polite consumers make only calls that are allowed for what they have been given; limit: removing an entry still to come (C95_ahead_limit)"
  },
  {
   "property": "C96",
   "status": "partial",
   "theorems": [
    "C96_heap_slots",
    "C96_heap_partial",
    "C96_heap_refuted",
    "C96_hash_keys_partial",
    "C96_hash_values_partial",
    "C96_iterator_refuted",
    "C96_clear_refuted",
    "C96_vector",
    "C96_primitive_refuted",
    "C96_deque",
    "C96_hydra"
   ],
   "note": "Proved in full for vectors, deques (C96_vector, C96_deque; adds that fail for lack of capacity excepted) and hydra deques (C96_hydra); primitive vectors do keep cleared values (C96_primitive_refuted), which holds nothing reachable. For heaps the content of every slot after any history is characterised (C96_heap_slots); the claim holds unless clear is called with removed entries pending (C96_heap_partial), where it is false (C96_heap_refuted). For sets and maps it holds for keys unless an entry iterator removes or clear is called with only reserved entries left (C96_hash_keys_partial), for values unless the latter or a value was put in an entry not in use (C96_hash_values_partial); the exceptions are real (C96_iterator_refuted, C96_clear_refuted)."
  },
  {
   "property": "C97",
   "status": "proved",
   "theorems": [
    "C97_vector",
    "C97_deque",
    "C97_hydra",
    "C97_heap",
    "C97_table",
    "C97_store_limit"
   ],
   "note": "vectors, deques, heaps, hydra deques, sets and maps; chunk stores are quadratic (C97_store_limit)"
  },
  {
   "property": "C98",
   "status": "proved",
   "theorems": [
    "C98_few_keys"
   ],
   "note": "Comparator without state; the depth of the recursion is the model's fuel."
  },
  {
   "property": "C99",
   "status": "proved",
   "theorems": [
    "C99_sort_like_copy",
    "C99_sort",
    "C99_copy_self"
   ],
   "note": "The sort is modelled anew over a state with one array; copyFrom(this) reads the fields it is changing."
  },
  {
   "property": "C100",
   "status": "partial",
   "theorems": [
    "C100_heap_insert",
    "C100_heap_refuted",
    "C100_short_partial",
    "C100_distinct_partial",
    "C100_refuted"
   ],
   "note": "False for sorts of seven or more pairs (C100_refuted: sorted input, values moved) and for four equal keys in a heap (C100_heap_refuted). Proved: the sort is stable for fewer than seven pairs and when no two keys are equal; peek() changes on insertion only for a smaller key."
  },
  {
   "property": "C101",
   "status": "proved",
   "theorems": [
    "C101_collisions",
    "C101_int",
    "C101_consecutive",
    "C101_long",
    "C101_stride_limit",
    "C101_halves_limit"
   ],
   "note": "Comparisons counted in the log of calls of hashCode and areEqual (HashC_Model); C101_collisions for every key type, C101_int and C101_long for keys within an interval of length capacity(), the limits by witness."
  },
  {
   "property": "C102",
   "status": "proved",
   "theorems": [
    "C102_vector",
    "C102_deque",
    "C102_hydra",
    "C102_heap",
    "C102_hash",
    "C102_bi",
    "C102_store",
    "C102_matrix",
    "C102_table",
    "C102_skip",
    "C102_mapping_limit"
   ],
   "note": "Every query of every modelled collection, in every state and however it ends; C102_skip for histories; C102_mapping_limit: withLeft is not a query."
  },
  {
   "property": "C103",
   "status": "proved",
   "theorems": [
    "C103_round_trip",
    "C103_layout",
    "C103_replace",
    "C103_any_bytes",
    "C103_too_long"
   ],
   "note": "All eight primitive types, both endiannesses, records of any length (Record_Spec, Record_Props)."
  },
  {
   "property": "C104",
   "status": "proved",
   "theorems": [
    "C104_hash",
    "C104_order_limit",
    "C104_heap",
    "C104_heap_limit",
    "C104_deque",
    "C104_vector",
    "C104_hydra",
    "C104_store",
    "C104_matrix"
   ],
   "note": "Deques, vectors, hydra deques (entry numbers of adds left out), stores, matrix stores, sets and maps (entry numbers included), heaps of capacity 1 or more (entries asked about were handed out). C104_order_limit: the order of forEach does depend on capacity and hash function. C104_heap_limit: asked about an entry it never handed out, a heap shows its capacity."
  },
  {
   "property": "C105",
   "status": "partial",
   "theorems": [
    "C105_works_partial",
    "C105_refuted"
   ],
   "note": "Proved for every reachable heap that never held more than 2^29 entries. Refuted beyond 2^30 entries (C105_refuted: created with room for 2^30 + 1 entries, resetKey of entry 2^30 throws ArrayIndexOutOfBoundsException)."
  },
  {
   "property": "C106",
   "status": "proved",
   "theorems": [
    "C106_hash",
    "C106_visits",
    "C106_put_order",
    "C106_heap",
    "C106_sort"
   ],
   "note": "C106_hash, C106_visits, C106_put_order, C106_heap, C106_sort"
  },
  {
   "property": "C107",
   "status": "partial",
   "theorems": [
    "C107_hash_partial",
    "C107_bi_partial",
    "C107_removeAt_refuted",
    "C107_count_refuted",
    "C107_heap_partial",
    "C107_default_value_refuted"
   ],
   "note": "Proved except for three refuted clauses: removeAt of a negative entry of a set or map returns silently (C107_removeAt_refuted), Mapping.count() without counts throws IllegalStateException instead of the documented IllegalArgumentException (C107_count_refuted), the heap's setDefaultValue throws RuntimeException instead of the documented UnsupportedOperationException (C107_default_value_refuted). The promised exceptions of vectors, deques, hydra deques and stores are part of C14-C19; removeAt of inactive heap entries is C26."
  },
  {
   "property": "C108",
   "status": "proved",
   "theorems": [
    "C108_queue",
    "C108_drain"
   ],
   "note": "Sched_Props: C108_queue (every call), C108_drain (polling until empty)."
  },
  {
   "property": "C109",
   "status": "proved",
   "theorems": [
    "C109_queues",
    "C109_fifo"
   ],
   "note": "Keyq_Props: C109_queues (every call), C109_fifo (per key, pushed = polled ++ listed)."
  },
  {
   "property": "C110",
   "status": "proved",
   "theorems": [
    "C110_search"
   ],
   "note": "Bfs_Props: C110_search (ends, shortest distances, exactly the keys within reach), C110_case a graph of 80 keys."
  },
  {
   "property": "C111",
   "status": "proved",
   "theorems": [
    "C111_cheapest"
   ],
   "note": "Dij_Props: C111_cheapest (ends, costs of cheapest paths, -1 exactly where no path leads), C111_case a graph of 17 keys. Costs must not be negative."
  },
  {
   "property": "C112",
   "status": "proved",
   "theorems": [
    "C112_merge"
   ],
   "note": "At most 2^29 runs and fewer than 2^30 items, so that the heap and the shared storage stay within the sizes for which they are proved."
  },
  {
   "property": "C113",
   "status": "proved",
   "theorems": [
    "C113_best"
   ],
   "note": "k at most 2^29, the size to which the heap is proved to grow."
  },
  {
   "property": "C114",
   "status": "proved",
   "theorems": [
    "C114_set_of_pairs",
    "C114_goes_on",
    "C114_every_call",
    "C114_returns"
   ],
   "note": "The sides may be out of step with the set after a throw (C47_half_done_refuted); the claim is about the calls answered from the set."
  },
  {
   "property": "C115",
   "status": "proved",
   "theorems": [
    "C115_code",
    "C115_mirror",
    "C115_common_key",
    "C115_absent",
    "C115_grid"
   ],
   "note": ""
  }
 ]
}