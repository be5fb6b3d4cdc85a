{
 "claims": [
  {
   "property": "C01",
   "status": "partial",
   "theorems": [
    "C01_forward_slice",
    "C62_range",
    "C62_slice_partial",
    "C62_refuted"
   ],
   "note": "Lists: proved for every reachable list of at most 2^30 elements and every slice with step >= 0. Strings: every s[a:b] of every text and every forward slice of an ASCII text; steps above 1 that leave a text that is not ASCII read outside it (refutation)."
  },
  {
   "property": "C02",
   "status": "partial",
   "theorems": [
    "C02_backward_slice_partial",
    "C02_backward_slice_refuted",
    "C02_backward_slice_unsafe_refuted"
   ],
   "note": "False of the code when a bound lies before the first element, or for an empty list (refutations). Proved elsewhere."
  },
  {
   "property": "C03",
   "status": "proved",
   "theorems": [
    "C03_list_refines_sequence",
    "C03_list_memory_safe"
   ],
   "note": "All histories over 20 operations inside history_ok (at most 2^30 elements, 32-bit indices, slices on which C02/C05 hold)."
  },
  {
   "property": "C04",
   "status": "partial",
   "theorems": [
    "C04_indexing_partial",
    "C04_indexing_refuted",
    "C04_delitem_refuted"
   ],
   "note": "Proved for indices that fit 32 bits; false for others because the index is truncated to int. del l[i] never raises."
  },
  {
   "property": "C05",
   "status": "partial",
   "theorems": [
    "C05_setslice_partial",
    "C05_delslice_partial",
    "C05_delslice_refuted"
   ],
   "note": "Deletion with negative step has undefined behaviour (refutation); assignment inherits the C02 limits."
  },
  {
   "property": "C06",
   "status": "proved",
   "theorems": [
    "C06_list_comparison",
    "C06_lex_total_order"
   ],
   "note": ""
  },
  {
   "property": "C07",
   "status": "partial",
   "theorems": [
    "C07_range_partial",
    "C07_range_step0",
    "C07_range_refuted"
   ],
   "note": "False when the step points away from stop and |stop-start| < |step|; proved otherwise, provided stop-start does not overflow 64 bits."
  },
  {
   "property": "C08",
   "status": "proved",
   "theorems": [
    "C08_dict_refines_map",
    "C08_runtime_get"
   ],
   "note": "All histories over 17 operations with at most 2^28 entries, every hash compatible with equality."
  },
  {
   "property": "C09",
   "status": "proved",
   "theorems": [
    "C09_dict_iteration"
   ],
   "note": "Dicts not modified during the iteration."
  },
  {
   "property": "C10",
   "status": "partial",
   "theorems": [
    "C10_dict_comparison_partial",
    "C10_dict_comparison_large",
    "C10_dict_comparison_refuted",
    "C10_dict_greater_refuted"
   ],
   "note": "False when the left dict is small and the right one hashed, and for > and >= (refutations). ==, !=, <, <= proved otherwise."
  },
  {
   "property": "C11",
   "status": "partial",
   "theorems": [
    "C11_dict_safe_partial",
    "C11_dict_safe_refuted"
   ],
   "note": "Deleting a key from a rebuilt small table writes before the index array (refutation). Proved for histories that delete by key only from dicts with three or more entries."
  },
  {
   "property": "C12",
   "status": "partial",
   "theorems": [
    "C12_set_refines_partial",
    "C12_set_refuted"
   ],
   "note": "All histories over 20 operations on any number of sets, hashes below 2^63, at most 2^28 elements per set; false for an element whose hash is 2^64-1 (refutation)."
  },
  {
   "property": "C13",
   "status": "partial",
   "theorems": [
    "C13_set_terminates_partial",
    "C13_set_terminates_refuted"
   ],
   "note": "Proved for hashes below 2^63; with hashes 2^64-8 and 2^64-16 lookup and insertion never return (refutation)."
  },
  {
   "property": "C14",
   "status": "proved",
   "theorems": [
    "C14_sorted"
   ],
   "note": "All lists shorter than 2^62 and all strict weak orders."
  },
  {
   "property": "C15",
   "status": "proved",
   "theorems": [
    "C15_arithmetic",
    "C15_shifts",
    "C15_comparisons"
   ],
   "note": "Nine integer types, boxed and unboxed operators."
  },
  {
   "property": "C16",
   "status": "partial",
   "theorems": [
    "C16_conversion_partial",
    "C16_bigint_int",
    "C16_conversion_refuted"
   ],
   "note": "i16() and i8() check the bounds of i32 and silently wrap (refutation, for every value concerned). Proved for the other seven types, from every integer type, bool and bigint."
  },
  {
   "property": "C17",
   "status": "partial",
   "theorems": [
    "C17_division_partial",
    "C17_division_refuted",
    "C17_zero_refuted",
    "C17_overflow_refuted"
   ],
   "note": "Division truncates, so floor and sign of remainder fail for operands of opposite signs (refutation); boxed % and divmod by zero and min/-1 are undefined. Division law, agreement and the same-sign case proved."
  },
  {
   "property": "C18",
   "status": "partial",
   "theorems": [
    "C18_pow_partial",
    "C18_pow_refuted",
    "C18_round_partial",
    "C18_round_refuted"
   ],
   "note": "Power proved for 0 <= e < 2^63; unboxed negative exponents are not rejected. round proved while 10^k and the result fit; otherwise wrong, undefined or non-terminating (refutations)."
  },
  {
   "property": "C19",
   "status": "partial",
   "theorems": [
    "C19_hash_partial",
    "C19_hash_refuted"
   ],
   "note": "i32, i16, i8 and float hash the address of the box; complex distinguishes 0.0 and -0.0 (refutations). Proved for all other types and tuples of them."
  },
  {
   "property": "C20",
   "status": "partial",
   "theorems": [
    "C20_fifo_partial",
    "C20_fifo_no_await",
    "C20_fifo_one_thread_per_queue",
    "C20_fifo_refuted"
   ],
   "note": "False of the code: an actor that awaits is handed over before its messages are sent (refutation). Proved for all schedules without that race, which includes all schedules of programs without await and of runs with one worker per ready queue."
  },
  {
   "property": "C21",
   "status": "proved",
   "theorems": [
    "C21_C23_C26_legal",
    "C21_one_place",
    "C21_at_most_once",
    "C21_nothing_lost",
    "C21_mail_not_forgotten",
    "C21_threads_not_stuck"
   ],
   "note": "All programs and schedules, any number of threads, database off. Executed means that the runtime comes to rest only when every message has finished or waits for its time or is behind an await that is not over."
  },
  {
   "property": "C22",
   "status": "proved",
   "theorems": [
    "C22_one_at_a_time",
    "C22_history"
   ],
   "note": "All programs and schedules."
  },
  {
   "property": "C23",
   "status": "proved",
   "theorems": [
    "C23_await_outcome",
    "C23_not_forgotten",
    "C21_C23_C26_legal"
   ],
   "note": "All programs and schedules."
  },
  {
   "property": "C24",
   "status": "partial",
   "theorems": [
    "C24_visible_when_committed_partial",
    "C24_visible_when_committed_no_await",
    "C24_visible_when_committed_one_thread_per_queue",
    "C24_visible_when_committed_refuted"
   ],
   "note": "False of the code because of the same race as C20 (refutation); proved for the same schedules."
  },
  {
   "property": "C25",
   "status": "partial",
   "theorems": [
    "C25_not_early",
    "C25_due_order",
    "C25_not_lost",
    "C25_sent_order_partial",
    "C25_sent_order_refuted"
   ],
   "note": "Never early, once, not lost and in due order: all schedules. Calls of one actor due at the same time: in the order sent for schedules without the race of C20, refuted otherwise."
  },
  {
   "property": "C26",
   "status": "proved",
   "theorems": [
    "C26_outcome",
    "C26_innermost_handler",
    "C26_handler_gets_exception",
    "C26_actor_continues",
    "C23_await_outcome",
    "C21_nothing_lost"
   ],
   "note": "All programs and schedules."
  },
  {
   "property": "C27",
   "status": "proved",
   "theorems": [
    "C27_keys",
    "C27_unique",
    "C27_bootstrap",
    "C27_fresh_after_recovery"
   ],
   "note": "All schedules of the spin lock, up to 2^64 allocations. Recovery restores the counter to the least key found, keys are then fresh."
  },
  {
   "property": "C28",
   "status": "proved",
   "theorems": [
    "C28_no_sleep_with_work",
    "C28_ready_actor_is_taken"
   ],
   "note": "All schedules; at least one worker, affinities to existing queues, sequentially consistent memory, no shutdown."
  },
  {
   "property": "C29",
   "status": "partial",
   "theorems": [
    "C29_round_trip",
    "C29_list_partial",
    "C29_list_refuted"
   ],
   "note": "Single strings below 10^9 bytes (the documented limit): proved. Appending after a string that contains a byte 0 overwrites it (refutation); lists proved otherwise."
  },
  {
   "property": "C30",
   "status": "proved",
   "theorems": [
    "C30_safe",
    "C30_sound",
    "C30_prefix_free"
   ],
   "note": "All buffers."
  },
  {
   "property": "C31",
   "status": "proved",
   "theorems": [
    "C31_round_trip",
    "C31_too_large",
    "C31_any_input"
   ],
   "note": "All row lists whose sizes are C ints, all byte strings up to INT_MAX bytes. Class ids inside the rows are checked by deserialize only as far as C32 says."
  },
  {
   "property": "C32",
   "status": "partial",
   "theorems": [
    "C32_serializes_partial",
    "C32_round_trip_partial",
    "C32_refuted"
   ],
   "note": "All finite graphs with sharing and cycles of bool, float, str, bytes, bytearray, bigint, list, tuple, dict, set and user instances. Refuted: boxed integers and bytearrays referenced more than once, ranges, tables with deleted entries, dicts that never had an element."
  },
  {
   "property": "C33",
   "status": "partial",
   "theorems": [
    "C33_round_trip_partial",
    "C33_small_rows_partial",
    "C33_refuted"
   ],
   "note": "Framing is faithful whenever the debug text built beside it fits its 1024-byte stack buffer (always up to 44 words); larger states overrun that buffer (refutation)."
  },
  {
   "property": "C34",
   "status": "partial",
   "theorems": [
    "C34_find_partial",
    "C34_rfind_partial",
    "C34_index_partial",
    "C34_rindex_partial",
    "C34_contains",
    "C34_count_partial",
    "C34_count_empty_partial",
    "C34_negative_refuted",
    "C34_bound_refuted",
    "C34_count_refuted"
   ],
   "note": "All texts and patterns, all non-negative int bounds. Refuted: a negative bound counts from one past the end; a bound is truncated to 32 bits; the empty pattern is counted per byte."
  },
  {
   "property": "C35",
   "status": "partial",
   "theorems": [
    "C35_getitem_partial",
    "C35_iter_partial",
    "C35_sync",
    "C35_find_item",
    "C35_index_refuted",
    "C35_nul_refuted"
   ],
   "note": "All texts; indices that fit an int; iteration over texts without NUL. Refuted otherwise: s[2^32] is s[0]; iteration stops at NUL."
  },
  {
   "property": "C36",
   "status": "partial",
   "theorems": [
    "C36_split_partial",
    "C36_split_empty",
    "C36_join",
    "C36_roundtrip_partial",
    "C36_partition",
    "C36_rpartition",
    "C36_replace_partial",
    "C36_add",
    "C36_mul",
    "C36_splits_unique",
    "C36_split_refuted",
    "C36_count_refuted",
    "C36_empty_refuted"
   ],
   "note": "All texts, separators and limits except limit 0 of split (undefined, refuted); replace for non-empty patterns and non-negative counts. Refuted: negative count corrupts the buffer, replacing the empty pattern cuts multi-byte characters."
  },
  {
   "property": "C37",
   "status": "partial",
   "theorems": [
    "C37_lstrip",
    "C37_rstrip_partial",
    "C37_strip_partial",
    "C37_refuted"
   ],
   "note": "lstrip: proved. rstrip and strip: proved unless nothing remains; then one byte is kept in a string of length 0 (refutation)."
  },
  {
   "property": "C38",
   "status": "partial",
   "theorems": [
    "C38_startswith_partial",
    "C38_prefix_partial",
    "C38_endswith_partial",
    "C38_endswith_shape_partial",
    "C38_suffix_refuted",
    "C38_end_refuted",
    "C38_nul_refuted"
   ],
   "note": "startswith with any non-negative start, endswith with ASCII suffixes and any non-negative bounds, both without NUL; what endswith answers for other suffixes is characterised exactly. Refuted: 'a\u00e9'.endswith('a\u00e9') is False; startswith ignores its end; NUL never matches."
  },
  {
   "property": "C39",
   "status": "partial",
   "theorems": [
    "C39_history_partial",
    "C39_levels",
    "C39_refuted"
   ],
   "note": "All histories (with copies) and all random levels, for keys within a window of 2^31 and below LONG_MAX. Outside: keys are compared by the low 32 bits of their difference, LONG_MAX is not found, deleting -1 frees the header, the range query never returns a range (refutation)."
  },
  {
   "property": "C40",
   "status": "partial",
   "theorems": [
    "C40_history_partial",
    "C40_compare",
    "C40_order",
    "C40_null",
    "C40_join_partial",
    "C40_increment",
    "C40_init",
    "C40_refuted"
   ],
   "note": "Order laws: proved. Histories and merge: for clocks whose array has room for all nodes (up to 15 nodes) and counters below 2^31; beyond, the merge reads past the array and truncates counters (refutation). The merge is the join in the pointwise order; compare calls clocks over different node sets incomparable (refutation)."
  },
  {
   "property": "C41",
   "status": "proved",
   "theorems": [
    "C41_collision_free",
    "C41_onto",
    "C41_range"
   ],
   "note": "All 32-bit inputs."
  },
  {
   "property": "C42",
   "status": "partial",
   "theorems": [
    "C42_exactly_once_partial",
    "C42_read",
    "C42_consume",
    "C42_replay_partial",
    "C42_replay_refuted",
    "C42_refuted"
   ],
   "note": "All histories of subscribe, unsubscribe, enqueue, read, peek and consume by any number of consumers, up to 2^31-2 entries, positive chunk sizes: every request is answered, reads return each entry once and in order, consumption never passes reading. Replay works only before anything is consumed; otherwise the server aborts (refutation). Also refuted: consume heads move back, a chunk size of 0 or a missing queue ends the server, enqueue is not atomic for threads. Queue groups are not modelled."
  },
  {
   "property": "C43",
   "status": "partial",
   "theorems": [
    "C43_atomic_partial",
    "C43_progress",
    "C43_read",
    "C43_validate",
    "C43_exclusive",
    "C43_serializable_refuted",
    "C43_delete_after_write_refuted",
    "C43_far_keys_refuted",
    "C43_twice_refuted",
    "C43_delete_cell_refuted",
    "C43_delete_queues_refuted",
    "C43_commit_answer_refuted",
    "C43_consume_refuted",
    "C43_overlap_refuted",
    "C43_unvalidated_refuted"
   ],
   "note": "All interleavings of any number of transactions on one server: commits take effect whole and in order, open and aborted transactions have no effect, reads show exactly what is committed, validation refuses exactly the transactions that change what another validated one changes. Serializability itself is refuted (lost update). Domain of the positive theorems: within a transaction no thing is changed twice and no row deleted after its cells were written, keys within 2^30, no creation or deletion of queues; outside it the refutations apply."
  },
  {
   "property": "C44",
   "status": "partial",
   "theorems": [
    "C44_history_partial",
    "C44_unique",
    "C44_stable",
    "C44_factor_refuted",
    "C44_status_refuted",
    "C44_announce_refuted",
    "C44_lost_refuted"
   ],
   "note": "All histories of adding, marking live or dead and locating with ids whose positions lie within a window of 2^31: the first live server going round is returned, the live count is exact. Refuted: a factor above 1 returns one server; status 2 and status changes by announcement spoil the count and the search never ends; positions further apart lose servers."
  },
  {
   "property": "C45",
   "status": "partial",
   "theorems": [
    "C45_one_crash_partial",
    "C45_no_crash_partial",
    "C45_restart_partial",
    "C45_progress_partial",
    "C45_second_crash_refuted",
    "C45_window_refuted",
    "C45_refused_refuted",
    "C45_workers_refuted",
    "C45_await_refuted"
   ],
   "note": "For every program without await, one worker thread, no refused commit and one crash anywhere but between the read and the commit of a save: what is committed before and after the crash is together a crash-free execution, nothing is lost, repeated or stuck. Each of the five restrictions is needed: without it the claim is refuted. Actors created while running, timers and exceptions are not in this model."
  },
  {
   "property": "C46",
   "status": "partial",
   "theorems": [
    "C46_quote",
    "C46_alphabet",
    "C46_roundtrip_partial",
    "C46_injective",
    "C46_unquote_partial",
    "C46_nul_refuted",
    "C46_percent_refuted"
   ],
   "note": "Quoting: every text and safe set, exactly which bytes are escaped and how; injective. Unquoting undoes it for all texts without NUL (with NUL it is refuted: decoding stops there); unquoting of every other text is characterised up to NUL. Case conversion is an argument assumed right on hexadecimal digits; UTF-8 iteration is modelled after the documentation of utf8proc."
  },
  {
   "property": "C47",
   "status": "partial",
   "theorems": [
    "C47_old",
    "C47_labels",
    "C47_equal",
    "C47_diff_partial",
    "C47_aligned",
    "C47_refuted",
    "C47_minimal_refuted"
   ],
   "note": "For all line lists: the operations exist, consume exactly the old lines, carry true positions, and are all Keep exactly for equal texts. They produce the new lines if unique common lines are not moved past each other in the parts the algorithm anchors (straight); for crossing unique lines this is refuted, as is the documented minimality."
  },
  {
   "property": "C48",
   "status": "partial",
   "theorems": [
    "C48_enumerate",
    "C48_map",
    "C48_zip",
    "C48_filter",
    "C48_max_partial",
    "C48_max_default_refuted",
    "C48_min",
    "C48_sum"
   ],
   "note": "max with a default on a non-empty iterable is wrong (refutation); everything else proved."
  },
  {
   "property": "C49",
   "status": "proved",
   "theorems": [
    "C49_tuple_comparison",
    "C49_tuple_total_order"
   ],
   "note": ""
  },
  {
   "property": "C50",
   "status": "proved",
   "theorems": [
    "C50_sorted_any_comparison"
   ],
   "note": "Any pure comparison functions, lists shorter than 2^62."
  },
  {
   "property": "C51",
   "status": "partial",
   "theorems": [
    "C51_isdisjoint_partial",
    "C51_isdisjoint_refuted"
   ],
   "note": "False when the sets are disjoint: StopIteration escapes, for every pair of disjoint sets. Proved when they are not."
  },
  {
   "property": "C52",
   "status": "partial",
   "theorems": [
    "C52_float_to_int_partial",
    "C52_float_to_int_refuted"
   ],
   "note": "Floats of magnitude 2^52 and more with an odd mantissa lose their last bit (refutation); proved otherwise."
  },
  {
   "property": "C53",
   "status": "partial",
   "theorems": [
    "C53_parse_partial",
    "C53_rejects",
    "C53_parse_refuted"
   ],
   "note": "Negative numbers whose digit count is a multiple of the digits per word lose their sign (refutation, for every such number); a NUL byte ends the text (refutation). Proved for all other texts and bases. The arithmetic of the external library BSDNT is taken as exact."
  },
  {
   "property": "C54",
   "status": "partial",
   "theorems": [
    "C54_lshift",
    "C54_rshift_partial",
    "C54_rshift_refuted",
    "C54_negative_count"
   ],
   "note": "<< proved. >> rounds negative numbers toward zero and is undefined for counts of at least the number of bits in the words (refutation, for every such case); proved otherwise. 0 shifted by a negative count does not raise."
  },
  {
   "property": "C55",
   "status": "partial",
   "theorems": [
    "C55_and_partial",
    "C55_or_partial",
    "C55_xor_partial",
    "C55_small",
    "C55_invert",
    "C55_bitwise_refuted"
   ],
   "note": "Some negative results are wrong or not normalised (refutations); proved for results within the bounds stated, in particular for all operands in the range of 64-bit integers."
  },
  {
   "property": "C56",
   "status": "partial",
   "theorems": [
    "C56_no_null_dereference_partial",
    "C56_no_null_dereference_no_await",
    "C56_no_null_dereference_one_thread_per_queue",
    "C56_no_null_dereference_refuted"
   ],
   "note": "False of the code because of the same race as C20 (refutation); proved for the same schedules."
  },
  {
   "property": "C57",
   "status": "partial",
   "theorems": [
    "C57_idle_worker_refuted",
    "C28_ready_actor_is_taken"
   ],
   "note": "False of the code: a worker that has just dequeued still counts itself as idle and wakes itself (refutation). Proved instead: the actor is taken when the busy worker returns."
  },
  {
   "property": "C58",
   "status": "proved",
   "theorems": [
    "C58_exclusive",
    "C58_one_owner",
    "C58_begin_fails",
    "C58_begin_returns",
    "C58_end"
   ],
   "note": "All schedules, any number of workers, shutdown at any point. Wake-up of sleeping threads by libuv is not modelled."
  },
  {
   "property": "C59",
   "status": "partial",
   "theorems": [
    "C59_str_partial",
    "C59_str_refuted",
    "C59_round_trip_partial"
   ],
   "note": "For 10^18 <= |n| < 2^64 a buffer on the stack overflows (refutation, for every such n); proved for all others. The round trip fails for the negative numbers of C53."
  },
  {
   "property": "C60",
   "status": "partial",
   "theorems": [
    "C60_framing",
    "C60_too_long",
    "C60_answers_partial",
    "C60_answers_refuted"
   ],
   "note": "Framing: proved for all ways to split the stream. Recognition: memcmp with the length of the request answers prefixes of the names and reads past the constant (refutation); proved otherwise. Sending and socket errors are not modelled."
  },
  {
   "property": "C61",
   "status": "partial",
   "theorems": [
    "C61_node_id_partial",
    "C61_node_id_refuted"
   ],
   "note": "Injective on addresses that agree in their upper 16 bits; addresses that differ only there collide (refutation). IPv6 is not modelled."
  },
  {
   "property": "C62",
   "status": "partial",
   "theorems": [
    "C62_slice_partial",
    "C62_range",
    "C62_refuted"
   ],
   "note": "Every s[a:b] of every text; every slice of an ASCII text within the domain of C02; stepped slices of other texts whose next position stays inside. Otherwise memory outside the text is read (refutation)."
  },
  {
   "property": "C63",
   "status": "partial",
   "theorems": [
    "C63_words",
    "C63_splitlines",
    "C63_lines_all",
    "C63_ljust_partial",
    "C63_rjust_partial",
    "C63_center_partial",
    "C63_zfill_partial",
    "C63_fill_refused",
    "C63_expandtabs_partial",
    "C63_width_refuted",
    "C63_tabs_refuted"
   ],
   "note": "Words and lines: proved (the classification of white space is an argument). Padding for int widths (larger widths are truncated, refutation). Tabs for ASCII texts; otherwise the buffer is overrun, bytes are left unwritten and columns count bytes (refutation)."
  },
  {
   "property": "C64",
   "status": "partial",
   "theorems": [
    "C64_eq_partial",
    "C64_order_partial",
    "C64_hash_partial",
    "C64_nul_refuted"
   ],
   "note": "All pairs of strings without NUL; order for shortest encodings. chr(0) == '' (refutation)."
  },
  {
   "property": "C65",
   "status": "partial",
   "theorems": [
    "C65_wakeup",
    "C65_refuted"
   ],
   "note": "Outside transactions: exactly who is notified is proved for all histories. A read in a transaction does not clear the flag, and the next entry is not announced (refutation)."
  },
  {
   "property": "C66",
   "status": "partial",
   "theorems": [
    "C66_read",
    "C66_row",
    "C66_all",
    "C66_range_partial",
    "C66_range_refuted",
    "C66_cell_range_refuted",
    "C66_cell_refuted",
    "C66_delete_refuted",
    "C66_no_clustering_refuted",
    "C66_deep_refuted"
   ],
   "note": "All histories over one table with at least one clustering key, writes with exactly the schema's keys, primary keys above the comparator's reach of LONG_MAX excluded: cells, rows and the whole table read exactly. Row ranges contain everything in range and at most the next row beyond (without it: refuted). On the server, reads of cell ranges, reads of cells with fewer columns than the schema and deletions of missing rows abort; columns of rows without clustering keys are lost; writes below the schema's depth go elsewhere (refutations). Secondary indexes are not modelled."
  },
  {
   "property": "C67",
   "status": "partial",
   "theorems": [
    "C67_hunks_partial",
    "C67_full_partial",
    "C67_empty",
    "C67_no_context_refuted",
    "C67_from_empty_refuted",
    "C67_strip_refuted",
    "C67_newline_refuted"
   ],
   "note": "Hunks patch the old into the new lines for non-empty texts, context >= 1 and straight texts (see C47), up to whitespace stripped at the end of the output. Refuted: context 0, empty old text, trailing whitespace, texts that differ in the last newline. Emptiness is exactly equality of lines."
  },
  {
   "property": "C68",
   "status": "proved",
   "theorems": [
    "C68_parse",
    "C68_unique",
    "C68_print",
    "C68_injective",
    "C68_total",
    "C68_identity_refuted",
    "C68_rfc_refuted"
   ],
   "note": "All texts and all parts; isalpha is an argument assumed right on ASCII, int() is any partial function. Beyond the claim: URIs of RFC 3986 with a user, an IPv6 host, an empty port or without '//' are refused (C68_rfc_refuted), and the '/' added makes printing differ from the text read (C68_identity_refuted)."
  },
  {
   "property": "C69",
   "status": "partial",
   "theorems": [
    "C69_find_partial",
    "C69_index_partial",
    "C69_count_partial",
    "C69_partition",
    "C69_split_partial",
    "C69_join",
    "C69_split_join_partial",
    "C69_replace_partial",
    "C69_strip",
    "C69_startswith_partial",
    "C69_endswith_partial",
    "C69_remove",
    "C69_lines",
    "C69_words_partial",
    "C69_negative_refuted",
    "C69_split_refuted",
    "C69_replace_refuted",
    "C69_endswith_refuted",
    "C69_words_refuted"
   ],
   "note": "All bytes with lengths within int and bounds from 0 to 2^31-1 or absent. Negative bounds, a split limit of 0, negative replace counts, split() of bytes ending in white space or with a limit, and endswith with a start, a NUL or a long pattern are refuted."
  },
  {
   "property": "C70",
   "status": "partial",
   "theorems": [
    "C70_getitem",
    "C70_slice_partial",
    "C70_order",
    "C70_concat",
    "C70_pad_partial",
    "C70_fill_refused",
    "C70_zfill_partial",
    "C70_values_partial",
    "C70_classes_partial",
    "C70_capitalize",
    "C70_from_hex",
    "C70_hex_partial",
    "C70_expandtabs_partial",
    "C70_hex_refuted",
    "C70_upper_refuted",
    "C70_title_refuted",
    "C70_values_refuted",
    "C70_expandtabs_refuted",
    "C70_width_refuted"
   ],
   "note": "Indexing, order, concatenation, padding, capitalize and from_hex for all arguments in range; slices within the domain of C02. hex overruns its buffer for every non-empty value, lower and upper ignore their argument, isupper is never true, istitle holds without letters, membership and construction truncate, expandtabs of bytes above 127 overruns (refutations)."
  },
  {
   "property": "C71",
   "status": "proved",
   "theorems": [
    "C71_request",
    "C71_response",
    "C71_incomplete",
    "C71_any",
    "C71_refuted"
   ],
   "note": "Messages below 2^31 bytes; str.lower is assumed right on ASCII. Outside the stated form (chunk extensions, trailers, other case of chunked, tabs, bad lengths, unknown start lines) C71_refuted shows what goes wrong."
  },
  {
   "property": "C72",
   "status": "proved",
   "theorems": [
    "C72_client",
    "C72_any",
    "C72_refuted"
   ],
   "note": "For responses after which the connection stays open; responses to HEAD and bytes left when a connection is replaced are refuted."
  },
  {
   "property": "C73",
   "status": "partial",
   "theorems": [
    "C73_order_partial",
    "C73_each_partial",
    "C73_answers",
    "C73_answered",
    "C73_refuted",
    "C73_stuck_refuted"
   ],
   "note": "Order, wholeness and no loss always; every request is handed on when it is complete only if no piece ends two of them (refuted otherwise). Once two requests wait, nothing is ever answered (refuted)."
  },
  {
   "property": "C74",
   "status": "proved",
   "theorems": [
    "C74_request",
    "C74_response",
    "C74_refuted"
   ],
   "note": "Proper names and values, no name twice, for requests no Content-Length in the dict. A dict used twice keeps the old length and line breaks in values make headers (refuted)."
  },
  {
   "property": "C75",
   "status": "proved",
   "theorems": [
    "C75_add",
    "C75_sub",
    "C75_since",
    "C75_inverse",
    "C75_there",
    "C75_order",
    "C75_unix",
    "C75_parts",
    "C75_comparable",
    "C75_watch",
    "C75_parts_refuted",
    "C75_wrap_refuted",
    "C75_order_refuted"
   ],
   "note": "For instants and durations with less than a second of attoseconds and results of 64 bits of seconds; outside that, and for instants of different clocks, the refuted theorems show what happens."
  },
  {
   "property": "C76",
   "status": "partial",
   "theorems": [
    "C76_str",
    "C76_human",
    "C76_zone",
    "C76_iso",
    "C76_iso_inj",
    "C76_rfc1123",
    "C76_str_refuted",
    "C76_zone_refuted",
    "C76_rfc1123_refuted",
    "C76_asctime_refuted"
   ],
   "note": "True from the origin on and for zones not west of Greenwich. Negative times, western zones, GMT for other zones and str_asctime are refuted."
  },
  {
   "property": "C77",
   "status": "proved",
   "theorems": [
    "C77_range",
    "C77_even",
    "C77_half",
    "C77_order",
    "C77_choice",
    "C77_randstr",
    "C77_sample",
    "C77_bigint",
    "C77_list",
    "C77_refuted",
    "C77_sample_refuted",
    "C77_bigint_refuted"
   ],
   "note": "Ranges up to RAND_MAX; wider ones never end, empty ones divide by zero, ones beyond 64 bits give min only (refuted). Whether rand() itself is even is not part of the code."
  },
  {
   "property": "C78",
   "status": "partial",
   "theorems": [
    "C78_bytearray_refines_sequence_partial",
    "C78_bytearray_memory_safe_partial",
    "C78_append_value",
    "C78_delslice_refuted",
    "C78_contains_refuted",
    "C78_setslice_refuted"
   ],
   "note": "For all histories, except that slice assignment always raises StopIteration, deleting with a negative step is undefined, membership looks at the low eight bits only (all three refuted), and backward slices as in C02. append and insert take values modulo 256."
  },
  {
   "property": "C79",
   "status": "partial",
   "theorems": [
    "C79_order_partial",
    "C79_order_total",
    "C79_delitem_refuted",
    "C79_nul_refuted"
   ],
   "note": "For values without NUL bytes and histories in which every deletion of an item is followed by an append; both conditions are needed (refuted without)."
  },
  {
   "property": "C80",
   "status": "proved",
   "theorems": [
    "C80_glob_matches",
    "C80_answer_is_definite",
    "C80_escaped_is_literal",
    "C80_star_within_segment",
    "C80_directories_refuted",
    "C80_single_separator_refuted"
   ],
   "note": "For all patterns and paths, with the recursion depth that is enough stated. What the comments say about **/ (whole directories) does not hold, and ? and negated classes match the separator: refuted with witnesses."
  },
  {
   "property": "C81",
   "status": "partial",
   "theorems": [
    "C81_relative_leads_to_target",
    "C81_relative_is_shortest",
    "C81_round_trip",
    "C81_relative_needs_absolute",
    "C81_resolve_partial",
    "C81_follow_unique",
    "C81_resolve_refuted",
    "C81_absolute_rel_refuted"
   ],
   "note": "get_relative_path and the round trip for all absolute paths without '.' and '..' in the target. resolve_relative_path for relative paths in which two slashes do not follow each other; with a//../b it gives the wrong directory (refuted), and an absolute second argument is returned although ValueError is documented (refuted)."
  },
  {
   "property": "C82",
   "status": "partial",
   "theorems": [
    "C82_declarations_checked",
    "C82_command_line_means",
    "C82_help_shows_usage",
    "C82_missing_argument_refused",
    "C82_bad_integer_refused",
    "C82_plain_arguments_dealt",
    "C82_unknown_option_refuted",
    "C82_missing_sub_argument_refuted",
    "C82_parser_reuse_refuted",
    "C82_double_dash_sub_refuted",
    "C82_flag_value_and_star_refuted"
   ],
   "note": "All parsers built by the API and all command lines whose items each parser recognises or leaves alone, with distinct names along the chain of sub-commands. Not true of the code, with witnesses: unknown options and superfluous arguments are accepted, a missing argument of a sub-command is not reported, a parser cannot be used twice, -- is forgotten before a sub-command, --flag=false sets the flag, nargs '*' drops its arguments. The usage text is not modelled."
  },
  {
   "property": "C83",
   "status": "partial",
   "theorems": [
    "C83_encode_exact",
    "C83_roundtrip",
    "C83_pretty_same_tree",
    "C83_decode_keeps_everything",
    "C83_text_refuted",
    "C83_attribute_value_refuted",
    "C83_attribute_prefix_refuted",
    "C83_root_tail_refuted"
   ],
   "note": "The encoder for all trees of texts; the round trip through a reference reader of XML (elements, attributes, namespaces, predefined entities, CDATA, comments), not libxml2, for all trees whose names are names, whose prefixes are declared and whose texts XML can express literally. Not true of the code, with witnesses: texts with ]]> or control characters give ill-formed documents, carriage returns and white space in attribute values change, an empty text disappears, attributes differing only in prefix get the same value, a root with a tail is no document."
  },
  {
   "property": "C84",
   "status": "partial",
   "theorems": [
    "C84_roundtrip",
    "C84_list_roundtrip",
    "C84_unsupported_refused",
    "C84_supported_encoded",
    "C84_last_member_counts",
    "C84_no_array_refused",
    "C84_no_json_refused",
    "C84_other_root_refuted",
    "C84_infinite_refuted",
    "C84_nul_refuted",
    "C84_bigint_refuted"
   ],
   "note": "For every library that reads what it writes (yyjson is an argument; a library as required is given), all values without the character NUL in strings, without infinities and with big integers that C53 and C59 cover. Not true of the code, with witnesses: decode takes any document that is no object for an empty one, infinities dereference NULL, strings are cut at NUL, big integers from 10^18 to 2^64 overflow a buffer and negative ones of 36 digits come back positive."
  },
  {
   "property": "C85",
   "status": "partial",
   "theorems": [
    "C85_control_flow_partial",
    "C85_no_for_no_stray",
    "C85_breaks_in_loops_partial",
    "C85_while_else_refuted",
    "C85_stop_iteration_refuted",
    "C85_break_outside_loop_refuted"
   ],
   "note": "All bodies in which no break or continue leaves the else part of a while loop, and all runs in which no StopIteration leaves the body of a for loop; valid C for all bodies without finally parts. The rest is not true of the code, with witnesses: such a break applies to the wrong loop, such a StopIteration is lost, and a loop with two breaks in a try with a finally part gives a break outside of a loop."
  },
  {
   "property": "C86",
   "status": "partial",
   "theorems": [
    "C86_distinct_partial",
    "C86_strings_distinct_partial",
    "C86_local_identifier",
    "C86_global_identifier",
    "C86_ascii_kept",
    "C86_modules_refuted",
    "C86_methods_refuted",
    "C86_keywords_refuted",
    "C86_unicode_refuted",
    "C86_complx_refuted"
   ],
   "note": "Different names stay different if no part has a capital letter before an underscore or a $, and if names are derived to the left (witness attributes with derived names inside are not covered). Without that it is not true of the code, with witnesses: the escape that nstr once had is commented out."
  },
  {
   "property": "C87",
   "status": "partial",
   "theorems": [
    "C87_success_is_a_majority",
    "C87_minority_status",
    "C87_no_quorum_is_true",
    "C87_no_lost_wakeup",
    "C87_unsubscribe_sleeps_refuted",
    "C87_majority_is_enough_partial",
    "C87_majority_is_enough_refuted",
    "C87_query_woken_by_error_refuted",
    "C87_successes_share_a_server",
    "C87_more_servers_refuted",
    "C87_replies_fit",
    "C87_replies_fit_refuted",
    "C87_queue_read_is_recent",
    "C87_query_is_recent_refuted",
    "C87_query_partial"
   ],
   "note": "Success means a majority, 'no quorum' is true when it is decided, no wake-up is lost, successes meet (with at most as many servers as the replication factor), queue reads are recent. Not true of the code, with witnesses: a majority of favourable answers is not always enough (it is if no server answers with an error), queries return the first answer instead of the newest, and with more servers than the replication factor successes need not meet and the array of answers is overrun."
  },
  {
   "property": "C88",
   "status": "partial",
   "theorems": [
    "C88_committed",
    "C88_not_committed",
    "C88_all_or_nothing",
    "C88_conflicting",
    "C88_durable_partial",
    "C88_durable_refuted",
    "C88_returns_partial",
    "C88_commit_never_returns",
    "C88_returns_refuted",
    "C88_server_survives_partial",
    "C88_server_survives_refuted"
   ],
   "note": "The meaning of the result, atomicity on each server and the exclusion of conflicting transactions are proved in full. Durability on a majority is proved if each write reaches all servers on which the transaction was begun, return if a majority that still holds the transaction is heard in one round, survival for servers that saw the beginning; beyond that they are not true of the code, with witnesses."
  },
  {
   "property": "C89",
   "status": "proved",
   "theorems": [
    "C89_same_result",
    "C89_same_exception",
    "C89_same_divergence",
    "C89_no_crash"
   ],
   "note": "For programs of procedures, with break and continue inside of loops. Statements without calls are given their meaning as a whole (C85); else parts of loops, finally parts (rewritten by the pass of C85 before this one) and assignments to attributes are left out of the language, and expressions contain no calls of procedures: they have been taken out before (CPS.hs pre)."
  },
  {
   "property": "C90",
   "status": "partial",
   "theorems": [
    "C90_same_meaning_partial",
    "C90_short_circuit",
    "C90_calls_are_statements",
    "C90_argument_order_refuted",
    "C90_elif_refuted",
    "C90_exception_order_refuted"
   ],
   "note": "Proved for statements in which what stands to the left of a call cannot be changed by it and raises nothing, and in which elif conditions make no calls with effects. The code violates the rest: an attribute read to the left of a call is read after it, an exception to the left comes after the call's effects, and the calls in all conditions of an if are made before the first condition is looked at."
  },
  {
   "property": "C91",
   "status": "partial",
   "theorems": [
    "C91_string_partial",
    "C91_bytes_partial",
    "C91_raw_partial",
    "C91_nul_refuted",
    "C91_high_refuted",
    "C91_joined_line_refuted",
    "C91_rejected_refuted",
    "C91_bytes_refuted",
    "C91_raw_refuted",
    "C91_adjacent_refuted"
   ],
   "note": "Proved for all literals without the forms the code treats wrongly. The code violates the rest: strings end at a NUL, escapes of bytes over 127 raise an exception, octal escapes take digits from the next line, an escaped backslash before a hexadecimal escape and adjacent literals make the C compiler reject the program, and so do universal escapes of ASCII characters; bytes literals lose bytes after octal escapes; raw strings do not end after two backslashes."
  },
  {
   "property": "C92",
   "status": "partial",
   "theorems": [
    "C92_incremental_partial",
    "C92_hash_partial",
    "C92_nothing_to_do",
    "C92_circle_refuted",
    "C92_star_refuted"
   ],
   "note": "Proved for all histories, and all type checkers that ask only for names that have to exist and whose questions are covered by the names in their result, for modules whose signatures mention each other in a circle only through their own name. The code violates the rest: with longer circles the names of the members are not part of the group's hash, and a new name that hides another through an import of all names is not noticed. Implementation hashes and generated code are not modelled."
  },
  {
   "property": "C93",
   "status": "partial",
   "theorems": [
    "C93_format_partial",
    "C93_wrong_arguments",
    "C93_interpolation_partial",
    "C93_repr_refuted",
    "C93_escaped_percent_refuted",
    "C93_hex_refuted",
    "C93_width_refuted",
    "C93_nul_refuted",
    "C93_star_refuted",
    "C93_percent_in_text_refuted",
    "C93_spec_refuted"
   ],
   "note": "Proved for all sequences of text, simple escapes, %% and conversions of integers, floating point numbers and strings, with flags, widths, precisions and stars, and for interpolated strings of text and values with alignment, width, zero padding and precision. The code violates the rest: %r, %a and %ls are undefined in C, a percent sign written as an escape is read as a conversion, widths count bytes, strings end at a character 0, percent signs in interpolated strings are conversions, and types, signs and fill characters after the colon are ignored or rejected."
  },
  {
   "property": "C94",
   "status": "proved",
   "theorems": [
    "C94_ancestors",
    "C94_one_instance",
    "C94_specific_first",
    "C94_monotone",
    "C94_parents_in_order",
    "C94_paths",
    "C94_attribute",
    "C94_attribute_exists",
    "C94_override",
    "C94_accepted",
    "C94_layout",
    "C94_layout_prefix",
    "C94_slots"
   ],
   "note": "Proved for all lists of declarations in which parents are declared before their heirs, with any parameters and type arguments. Bounds of parameters and the types of attributes are left out."
  },
  {
   "property": "C95",
   "status": "partial",
   "theorems": [
    "C95_sound",
    "C95_terminates",
    "C95_most_general_partial",
    "C95_no_options",
    "C95_error",
    "C95_idempotent",
    "C95_equations",
    "C95_levels",
    "C95_options_refuted",
    "C95_infinite_refuted"
   ],
   "note": "Proved for all types made of variables, classes, functions, tuples, rows, options and effects, after any earlier equations; without options errors and most general results are exact. With options the code misses solutions, because an option of an option is an option: ?a = ?int gives a = int only, and a = ?a is rejected as infinite. Wildcards and type aliases are not modelled."
  },
  {
   "property": "C96",
   "status": "partial",
   "theorems": [
    "C96_sound",
    "C96_reflexive",
    "C96_answer",
    "C96_terminates",
    "C96_terminates_closed",
    "C96_heirs",
    "C96_bound",
    "C96_parts",
    "C96_transitive_partial",
    "C96_exact_partial",
    "C96_transitive_refuted",
    "C96_option_refuted"
   ],
   "note": "Proved for all types over all class hierarchies: what is accepted is a subtype, every type is accepted for itself, heirs are accepted, and compound types are accepted exactly if their parts are. The comparison ends if bounds of parameters mention earlier parameters only. The exact answer and transitivity are proved for types without parameters if no class inherits from list, dict or set; both fail otherwise: with class L(list[int]), L is accepted for list[int] and this for list[value], but L is not accepted for list[value]; a parameter A is not accepted for ?A. Wildcards and type aliases are not modelled."
  },
  {
   "property": "C97",
   "status": "partial",
   "theorems": [
    "C97_upper_partial",
    "C97_lower_partial",
    "C97_upper_all_partial",
    "C97_lower_all_partial",
    "C97_same",
    "C97_classes",
    "C97_common",
    "C97_nearest",
    "C97_none",
    "C97_effects",
    "C97_none_refuted",
    "C97_function_refuted"
   ],
   "note": "Proved for types of all depths over all class hierarchies, with type parameters, functions, positional tuples, options and effects; classes without arguments and no keyword components. None is excluded where a subtype is chosen, because there the claim is false: below None and int the code chooses None, and so above (None) -> int and (int) -> int it chooses (None) -> int. The constraints themselves are checked later, so such a choice leads to an error message. Wildcards, unknown types and type aliases are not modelled."
  }
 ]
}