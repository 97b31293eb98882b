{
 "claims": [
  {
   "property": "C01",
   "status": "partial",
   "theorems": [
    "C01_map_semantics_partial",
    "C01_no_eviction_partial"
   ],
   "note": "Refinement of the engine model (hash table, LRU lists, reference counts, allocator with eviction) to a map with expiry. Domain (runs_ok): prefix part of stored keys < 256 bytes, clock < 2^32-1, only immediate flushes that find no item pulled out of its LRU list in the current second, tail repair not run."
  },
  {
   "property": "C02",
   "status": "partial",
   "theorems": [
    "C02_one_winner_partial",
    "C02_stored_means_unchanged_partial"
   ],
   "note": "Domain (runs_ok): prefix part of stored keys < 256 bytes, clock < 2^32-1, only immediate flushes that find no item pulled out of its LRU list in the current second, tail repair not run."
  },
  {
   "property": "C03",
   "status": "partial",
   "theorems": [
    "C03_visible_not_expired_partial",
    "C03_invisible_to_all_partial",
    "C03_expires_partial",
    "C03_zero_never_expires_partial"
   ],
   "note": "Domain (runs_ok): prefix part of stored keys < 256 bytes, clock < 2^32-1, only immediate flushes that find no item pulled out of its LRU list in the current second, tail repair not run."
  },
  {
   "property": "C04",
   "status": "partial",
   "theorems": [
    "C04_arithmetic_partial",
    "C04_not_a_number_partial",
    "C04_creates_partial",
    "C04_refuted"
   ],
   "note": "False as stated: stored item data has no terminating NUL, for values >= 2^63 the parser looks for '-' behind the item (C04_refuted). Domain (runs_ok): prefix part of stored keys < 256 bytes, clock < 2^32-1, only immediate flushes that find no item pulled out of its LRU list in the current second, tail repair not run."
  },
  {
   "property": "C05",
   "status": "partial",
   "theorems": [
    "C05_flush_all_partial",
    "C05_flush_prefix_partial",
    "C05_delayed_flush_refuted",
    "C05_refuted",
    "C05_long_prefix_refuted"
   ],
   "note": "False as stated: a later delayed flush revives items, referenced items pulled out of the LRU list survive, prefix length is truncated to 8 bits (the three _refuted theorems). Domain (runs_ok): prefix part of stored keys < 256 bytes, clock < 2^32-1, only immediate flushes that find no item pulled out of its LRU list in the current second, tail repair not run."
  },
  {
   "property": "C06",
   "status": "partial",
   "theorems": [
    "C06_list_answers_as_sequence_partial",
    "C06_refuted"
   ],
   "note": "Refinement of the pointer-level list to a sequence specification for every command history; missing: index -2^31 of lop insert, whose negation is undefined behaviour in C (C06_refuted)"
  },
  {
   "property": "C07",
   "status": "proved",
   "theorems": [
    "C07_count_within_maximum",
    "C07_insert_on_full_list"
   ],
   "note": "for every command history, including attribute changes and changes of the server limit"
  },
  {
   "property": "C08",
   "status": "partial",
   "theorems": [
    "C08_answers_as_a_set_partial",
    "C08_never_fails_partial",
    "C08_refuted"
   ],
   "note": "Every operation sequence answers as a finite set would, for any hash function (run that does not leave the table). Never fails when no 65 inserted values agree on the low 28 hash bits; refuted without that: 71 elements with one hash drive the tree to depth 8, where the slot index is negative (out of bounds)."
  },
  {
   "property": "C09",
   "status": "proved",
   "theorems": [
    "C09_get_returns_distinct_members",
    "C09_get_answers"
   ],
   "note": "For every random choice; that get never runs out of the table or loops is part of C08_never_fails_partial."
  },
  {
   "property": "C10",
   "status": "partial",
   "theorems": [
    "C10_answers_as_a_map_partial",
    "C10_never_fails_partial",
    "C10_repeated_field_refuted",
    "C10_refuted"
   ],
   "note": "Every operation sequence answers as a finite map from field to value, for any hash function. Never fails when no 65 inserted fields agree on the low 28 hash bits and no get names a field twice; refuted otherwise: mop get k 3 2 with a repeated field on a map of one field writes past elem_array, and 71 same-hash fields index a node with a negative number."
  },
  {
   "property": "C11",
   "status": "proved",
   "theorems": [
    "C11_total_order",
    "C11_lexicographic",
    "C11_numbers",
    "C11_tests_agree",
    "C11_binary_tests_agree"
   ],
   "note": "Comparison functions of coll_btree.c and range classification."
  },
  {
   "property": "C12",
   "status": "partial",
   "theorems": [
    "C12_every_history",
    "C12_fails_only_at_full_depth_partial",
    "C12_get",
    "C12_insert_present",
    "C12_insert_new",
    "C12_update",
    "C14_delete"
   ],
   "note": "Every history of the modelled commands on the node structure (splits, merges, root growth and shrinkage) answers as a sorted list; missing: that a tree never reaches the depth (7) at which a further root split fails an assertion."
  },
  {
   "property": "C13",
   "status": "proved",
   "theorems": [
    "C13_balanced",
    "C13_count_attribute"
   ],
   "note": "For every state reached by a history of commands."
  },
  {
   "property": "C14",
   "status": "proved",
   "theorems": [
    "C14_get",
    "C14_delete",
    "C14_count",
    "C14_selects_unique"
   ],
   "note": "Every range, filter accepted by the parser, offset and count."
  },
  {
   "property": "C15",
   "status": "proved",
   "theorems": [
    "C15_position",
    "C15_get_by_position",
    "C15_round_trip",
    "C15_position_with_get"
   ],
   "note": ""
  },
  {
   "property": "C16",
   "status": "proved",
   "theorems": [
    "C16_filter",
    "C16_bitwise",
    "C16_update",
    "C12_update"
   ],
   "note": "An eflag too short for the addressed bytes passes NE only (statement of C16 says so)."
  },
  {
   "property": "C17",
   "status": "proved",
   "theorems": [
    "C17_never_more_than_maxcount",
    "C17_full_insert"
   ],
   "note": "maxcount attribute values > 0 (the engine rejects or replaces 0)."
  },
  {
   "property": "C18",
   "status": "partial",
   "theorems": [
    "C18_span_partial",
    "C18_refuted"
   ],
   "note": "Proved for numeric bkeys and for binary bkeys all of the length of maxbkeyrange; C18_refuted: with binary bkeys of different lengths a successful insert leaves bkeys further apart than maxbkeyrange."
  },
  {
   "property": "C19",
   "status": "partial",
   "theorems": [
    "C19_no_trim_no_signal",
    "C19_smallest_trim_signalled",
    "C19_largest_trim_signalled",
    "C19_range_trim_refuted",
    "C19_spurious_refuted"
   ],
   "note": "Signalled while attributes are unchanged; refuted parts: drops caused by maxbkeyrange are not signalled and clear the mark; a query touching only the outermost element may be marked although its range ends there; queries limited by count do not look at the far end."
  },
  {
   "property": "C20",
   "status": "proved",
   "theorems": [
    "C20_elements",
    "C20_sorted",
    "C20_missed",
    "C20_trimmed",
    "C20_duplicated",
    "C20_errors",
    "C20_fits"
   ],
   "note": "New smget interface (duplicate and unique modes), all keys, trees, ranges, filters, offsets; the old interface (mode 0) is not modelled. What happens with NUL bytes in keys, repeated keys and wrapped limits is C40."
  },
  {
   "property": "C21",
   "status": "proved",
   "theorems": [
    "C21_map"
   ],
   "note": "Any hash function, any table size, missing memory for growth at any time. Reference counts of buckets are unbounded (uint16_t in the code)."
  },
  {
   "property": "C22",
   "status": "partial",
   "theorems": [
    "C22_exactly_once_partial",
    "C22_call_partial",
    "C22_ends_partial",
    "C22_crowded_refuted"
   ],
   "note": "Exactly once (stronger than at least once) for all interleavings; missing: keys in chains longer than the reply array, which the code loses (C22_crowded_refuted). hashpower <= 17 (16 in the code)."
  },
  {
   "property": "C23",
   "status": "partial",
   "theorems": [
    "C23_stats",
    "C23_named",
    "C23_count",
    "C23_safe",
    "C23_refused",
    "C23_long_prefix_refuted",
    "C23_large_collection_refuted"
   ],
   "note": "Proved for every history with prefixes shorter than 256 bytes, items below 4 GiB and totals below 2^64. Outside it the property is false: a prefix of 256 bytes or more is cut to its length modulo 256, and deleting a collection of 4 GiB or more trips an assertion (both shown)."
  },
  {
   "property": "C24",
   "status": "partial",
   "theorems": [
    "C24_roundtrip",
    "C24_framed",
    "C24_snapshot_elem_partial",
    "C24_snapshot_btree_partial",
    "C24_snapshot_elem_refuted",
    "C24_snapshot_btree_refuted",
    "C24_range_removal_refuted",
    "C24_long_flush_refuted"
   ],
   "note": "byte-level model of every write/construct/redo function of cmdlogrec.c; the round trip holds for every log record. Not for snapshot elements over 10 bytes (the collection pointer is stored over bytes 10..17), elements of B+trees with a maxbkeyrange in a snapshot, removal of a maxbkeyrange, and flush of a 255-byte prefix: refuted."
  },
  {
   "property": "C25",
   "status": "partial",
   "theorems": [
    "C25_prefix_partial",
    "C25_flushed_partial",
    "C25_drain_partial",
    "C25_switch_partial",
    "C25_no_abort_partial",
    "C25_room_partial",
    "C25_abort_refuted",
    "C25_stale_flag_refuted"
   ],
   "note": "Every schedule of writers, flusher, checkpoint and fsync thread over the ring buffer, the queue of flush requests, dual writing and file switching: contents are a prefix at any time, exact when drained, draining always possible, waiting for room ends. Missing: the queue of flush requests is assumed not to overflow; a checkpoint is assumed not to start while the flusher still holds data of a failed one (otherwise refuted); no failed assertion only without failed checkpoints (otherwise refuted)."
  },
  {
   "property": "C26",
   "status": "partial",
   "theorems": [
    "C26_durable_partial",
    "C26_straddle_refuted"
   ],
   "note": "Proved for every schedule of writers, flusher, checkpoint and fsync thread without a successful checkpoint after the write: when a command is answered everything logged before it and the first byte of its record are durable, and the whole record if the fsync covered its last byte. Refuted as stated: the commit test compares with the start of the record and flush requests are cut at 32768 bytes, so an answered record may be only partly on disk. Not proved: a checkpoint that ends between the write and the crash (the snapshot file is never fsynced)."
  },
  {
   "property": "C27",
   "status": "partial",
   "theorems": [
    "C27_recovery",
    "C27_all"
   ],
   "note": "any cut of any log of single-record and grouped commands, byte-level replay loop, arbitrary effect of each operation and lack of memory. Not modelled: that every engine command logs exactly one such unit; files of 2 GB and more (int offsets)."
  },
  {
   "property": "C28",
   "status": "partial",
   "theorems": [
    "C28_recovery_partial",
    "C28_lost_refuted",
    "C28_fails_refuted",
    "C28_forged_refuted"
   ],
   "note": "holds when the first crash is not inside a BEGIN/END group and the new records cover the torn one; refuted otherwise: the dangling BEGIN swallows later records or makes recovery fail, and the rest of a torn record is replayed as records (the file is not truncated)"
  },
  {
   "property": "C29",
   "status": "partial",
   "theorems": [
    "C29_checkpoint_complete_partial",
    "C29_after_checkpoint_partial",
    "C29_failed_checkpoint",
    "C29_flush_refuted",
    "C29_maxcount_refuted",
    "C29_first_call_refuted"
   ],
   "note": "Model of log records, replay and checkpoint scan (items captured under the lock, written later, commands in between). For every interleaving, every key: snapshot plus new log restores the live item, if on that key there is no flush before the scan has met it, no collection attribute changed between capture and writing, no command before the first scan step while the key is taken for passed, no maxbkeyrange setattr and no expiry case of C31. Each exclusion is a refutation here or under C31, C49, except x_max = 0."
  },
  {
   "property": "C30",
   "status": "partial",
   "theorems": [
    "C30_files_kept_partial",
    "C30_removals_work_partial",
    "C30_sweep_others_partial",
    "C30_sweep_refuted",
    "C30_reachable_refuted"
   ],
   "note": "Model of checkpoint.c (thread rounds, file creation/removal, sweep, crash at every directory change). Both files of the last completed checkpoint are kept in every history in which the sweep removes nothing (in particular when no removal fails). Refuted in general: the sweep compares the 14 digit time with atoi() of the name, so it deletes the current files as well."
  },
  {
   "property": "C31",
   "status": "partial",
   "theorems": [
    "C31_last_value_partial",
    "C31_deleted_stays_away_partial",
    "C31_nothing_expired",
    "C31_old_value_refuted",
    "C31_prolonged_refuted"
   ],
   "note": "The last value stored is back iff not expired at recovery, deleted keys stay away, over all calm histories incl. checkpoints. Refuted: overwriting with a value that expires before recovery brings the old value back; setattr prolonging an expiry that has passed at recovery loses the item."
  },
  {
   "property": "C32",
   "status": "partial",
   "theorems": [
    "C32_no_overlap",
    "C32_contents",
    "C32_layout",
    "C32_blocks_returned",
    "C32_refused",
    "C32_small_item_size_max_refuted"
   ],
   "note": "Proved for item_size_max >= 256 KB (default 1 MB), every history, every malloc that returns fresh memory, with or without preallocation: areas in use are disjoint and inside slabs, keep what was written, tile the blocks with no two free neighbours, totals exact, blocks without areas are given back. Missing: item_size_max of 20 KB to 256 KB, which the server accepts, and for which the claim is false (C32_small_item_size_max_refuted). The class size table is a parameter (multiples of 8)."
  },
  {
   "property": "C33",
   "status": "partial",
   "theorems": [
    "C33_digits_accepted_iff_in_range",
    "C33_strtoull_exact_partial",
    "C33_strtoll_exact_partial",
    "C33_strtol_exact_partial",
    "C33_strtoul_exact_partial",
    "C33_print_read_roundtrip",
    "C33_refuted"
   ],
   "note": "Exact acceptance set of all four parsers for every text; the English statement is false of the code: text without digits that starts with white space is accepted as 0 and some negative texts are accepted by the unsigned parser (C33_refuted)."
  },
  {
   "property": "C34",
   "status": "proved",
   "theorems": [
    "C34_hex_parse_exact",
    "C34_hex_roundtrip",
    "C34_hex_print_exact"
   ],
   "note": "All byte strings, all size limits."
  },
  {
   "property": "C35",
   "status": "partial",
   "theorems": [
    "C35_accepted_patterns",
    "C35_glob_match_partial",
    "C35_refuted"
   ],
   "note": "Termination, absence of out-of-pattern reads and glob correctness for all admitted patterns and all keys without backslash/NUL; false for keys with a backslash (C35_refuted)."
  },
  {
   "property": "C36",
   "status": "partial",
   "theorems": [
    "C36_line_partial",
    "C36_get_keys",
    "C36_detokenize",
    "C36_nul_refuted"
   ],
   "note": "tokenize_command is characterised for every line and limit (words, NUL termination, rest); missing: the rest is not handed on when its first byte is NUL (refuted). Keys of get: all words of every line without NUL bytes."
  },
  {
   "property": "C37",
   "status": "partial",
   "theorems": [
    "C37_one_piece",
    "C37_blocks_exact_partial",
    "C37_blocks_else_partial",
    "C37_good_list",
    "C37_good_comma_list",
    "C37_no_boundary",
    "C37_line_end",
    "C37_request",
    "C37_admits",
    "C37_extra_refuted",
    "C37_abort_refuted"
   ],
   "note": "proper lists are accepted with their keys for every block length, and the exact set of accepted texts is proved; refusing every malformed list fails at block boundaries (refuted: extra text accepted, abort)"
  },
  {
   "property": "C38",
   "status": "partial",
   "theorems": [
    "C38_references_partial",
    "C38_held_bytes_stay_partial",
    "C38_refuted",
    "C38_leak_refuted",
    "C38_held_list_elements_stay"
   ],
   "note": "False in two corners: tail repair frees referenced items (C38_refuted), incr on a collection leaks a reference (C38_leak_refuted). Domain (runs_ok): prefix part of stored keys < 256 bytes, clock < 2^32-1, only immediate flushes that find no item pulled out of its LRU list in the current second, tail repair not run."
  },
  {
   "property": "C39",
   "status": "partial",
   "theorems": [
    "C39_lru_lists_partial",
    "C39_victims_partial"
   ],
   "note": "Victims stated for item allocation; appends, incr and collection creation use the same mem_alloc (mem_alloc_oldest, mem_alloc_good). Domain (runs_ok): prefix part of stored keys < 256 bytes, clock < 2^32-1, only immediate flushes that find no item pulled out of its LRU list in the current second, tail repair not run."
  },
  {
   "property": "C40",
   "status": "partial",
   "theorems": [
    "C20_request_limit_refuted",
    "C20_request_limit_partial",
    "C20_nul_key_refuted",
    "C20_repeated_key_refuted",
    "C20_spurious_trim_refuted"
   ],
   "note": "The code violates the claim: the 32-bit sum offset+count wraps past the limit, keys are compared with strncmp (NUL ends them), a repeated key makes the request fail, and a spurious trim report is possible. The limit itself is proved when the sum does not wrap; different NUL-free keys are covered by C20."
  },
  {
   "property": "C41",
   "status": "partial",
   "theorems": [
    "C41_small_count_partial",
    "C41_any_count_refuted"
   ],
   "note": "True for counts up to 200; refuted above: the uint32 subtraction count - scan_total wraps and an assertion fails."
  },
  {
   "property": "C42",
   "status": "partial",
   "theorems": [
    "C42_exactly_once",
    "C42_at_most_once",
    "C42_visited_partial",
    "C42_visited_refuted"
   ],
   "note": "The visited-area question is wrong before the first batch (uninitialised table index); everything else holds."
  },
  {
   "property": "C43",
   "status": "partial",
   "theorems": [
    "C43_exactly_once_partial",
    "C43_ends_partial",
    "C43_call_partial",
    "C43_crowded_refuted"
   ],
   "note": "Proved for every interleaving, except that the reserved prefix arcus is never shown and that calls are assumed not to overrun their array; a call works if the array has room for one whole hash chain more than requested. The chain loop does not check the array: with 204801 prefixes some call with the default count writes past it (shown for every hash function). The loop of default_prefixscan around the call is not modelled."
  },
  {
   "property": "C44",
   "status": "partial",
   "theorems": [
    "C44_items",
    "C44_sticky_partial",
    "C44_sticky_refuted"
   ],
   "note": "curr_items and bytes proved. The sticky numbers are proved for histories in which no replacement changes whether an item is sticky; otherwise false: store with exptime -1, store again without, delete leaves sticky_items 1 (shown)."
  },
  {
   "property": "C45",
   "status": "partial",
   "theorems": [
    "C45_newest_partial",
    "C45_complete",
    "C45_clock_back_refuted"
   ],
   "note": "A restart uses the checkpoint completed last, for every history with forward clock and without sweep; refuted when the local clock is set back between two checkpoints. Incomplete snapshots are never used, whatever the directory holds."
  },
  {
   "property": "C46",
   "status": "partial",
   "theorems": [
    "C46_shutdown_refuted",
    "C46_one_request_partial"
   ],
   "note": "Refuted: the shutdown flushes one request only. Proved: if at most one request waits and no switch of files is pending, the log file is complete after it."
  },
  {
   "property": "C47",
   "status": "proved",
   "theorems": [
    "C47_limit",
    "C47_limit_total",
    "C47_preallocated"
   ],
   "note": "limit 0 means no limit; item_size_max >= 256 KB."
  },
  {
   "property": "C48",
   "status": "proved",
   "theorems": [
    "C48_chunks"
   ],
   "note": "item_size_max >= 256 KB."
  },
  {
   "property": "C49",
   "status": "partial",
   "theorems": [
    "C49_log_restores_key_partial",
    "C49_flush_scope",
    "C49_delayed_flush_refuted",
    "C49_trimmed_mark_refuted",
    "C49_range_unset_refuted",
    "C49_bkey_type_refuted",
    "C49_plain_item_refuted",
    "C49_list_range_refuted"
   ],
   "note": "All five item types, all commands that change them, at every moment of every history whose commands on the key are carried by the log (no maxbkeyrange setattr, no collection attribute on a plain item, no delayed flush of a present key, expiry cases of C31). The trimmed mark of a B+tree is not part of what is restored. Refutations for the excluded cases."
  },
  {
   "property": "C50",
   "status": "partial",
   "theorems": [
    "C50_answers_partial",
    "C50_closed_partial",
    "C50_split_refuted",
    "C50_end_of_stream_refuted"
   ],
   "note": "Proved for every stream whose lines respect the limits of the server (line_ok) and every schedule; the closing theorem excludes the end of the stream met right after a read that filled the buffer. Without these conditions the claim is false for the code: the two refutations."
  },
  {
   "property": "C51",
   "status": "partial",
   "theorems": [
    "C51_framing",
    "C51_replies",
    "C51_connection_partial",
    "C51_client_partial"
   ],
   "note": "Framing and replies proved for all requests; through the connection for lines within the limits (lines_ok). The data block of a line that is refused for its format is read as commands, as in memcached; such requests announce no data in the model."
  },
  {
   "property": "C52",
   "status": "partial",
   "theorems": [
    "C52_no_lost_wakeup_partial",
    "C52_memory_partial",
    "C52_idle"
   ],
   "note": "For streams whose lines respect the limits. Waiting for the command log, failing allocation of buffers and the binary protocol are not modelled. The scan over leading blanks is bounded by the data in the model; in the code it may read behind the data."
  },
  {
   "property": "C53",
   "status": "partial",
   "theorems": [
    "C53_pipeline",
    "C53_client_partial",
    "C53_response_fits",
    "C53_rejected_line_refuted",
    "C53_query_order_refuted"
   ],
   "note": "Proved for pipelines of well-formed pipable commands of any length and any statuses. With a malformed line or a query inside, the code deviates: the two refutations."
  },
  {
   "property": "C54",
   "status": "partial",
   "theorems": [
    "C54_one_owner",
    "C54_owner_partial",
    "C54_scrub_partial",
    "C54_agree_partial",
    "C54_someone_partial",
    "C54_in_use",
    "C54_rebuild_refuted",
    "C54_empty_refuted",
    "C54_stuck_refuted"
   ],
   "note": "Proved for every non-empty list that is in use and every digest function. Fails while a new list is being taken over (C54_rebuild_refuted: shared nodes are renumbered before the lock is taken), for an empty cluster (C54_empty_refuted), and after a failed allocation followed by the list in use (C54_stuck_refuted: the server answers unknown although the list is accepted)."
  },
  {
   "property": "C55",
   "status": "partial",
   "theorems": [
    "C55_moves",
    "C55_answers_partial",
    "C55_kept_partial"
   ],
   "note": "C55_moves is unconditional for the assignment; the theorems about the answers of servers need both servers to know their list (no failed allocation) and no change in progress, see C54."
  },
  {
   "property": "C56",
   "status": "partial",
   "theorems": [
    "C56_change",
    "C56_survives_partial",
    "C56_stops",
    "C56_replace_refuted"
   ],
   "note": "Results and counts are proved for all histories. Survival is proved when servers only join, only leave, or few are known; C56_replace_refuted: replacing two of eleven servers in one step stops the server (assertion), C56_stops says when in general."
  },
  {
   "property": "C57",
   "status": "partial",
   "theorems": [
    "C57_documented",
    "C57_nothing_else_partial",
    "C57_one_meaning",
    "C57_no_leftovers_partial",
    "C57_others_accepted",
    "C57_trailing_refuted",
    "C57_smget_refuted"
   ],
   "note": "Parser of the collection commands is equal to a grammar. The converse is partial since the code accepts more than documented: the additional forms are the relation lax (refuted theorems give lines), and filter lists with a 101st value of 31 bytes are excluded (they overwrite the structure, C58)."
  },
  {
   "property": "C58",
   "status": "partial",
   "theorems": [
    "C58_no_fault",
    "C58_inside_partial",
    "C58_inside_refuted"
   ],
   "note": "No line follows a missing token. Nothing outside the filter structure is written unless a filter list has a 101st value and values of 31 bytes; with it 25 bytes behind the structure are overwritten and the line is accepted with arbitrary operation numbers (refuted)."
  },
  {
   "property": "C59",
   "status": "partial",
   "theorems": [
    "C59_sets_partial",
    "C59_all_or_nothing",
    "C59_wrong_line",
    "C59_words",
    "C59_missing",
    "C59_limits_kept",
    "C59_limits_kept_always",
    "C59_foreign_refuted"
   ],
   "note": "All items, lines and sequences of commands. Missing: attributes the type of the item does not have are answered OK (and change nothing) instead of not found, which is refuted. The look-up of the item is in Kv."
  },
  {
   "property": "C60",
   "status": "partial",
   "theorems": [
    "C60_values",
    "C60_one_value",
    "C60_reads_only",
    "C60_missing",
    "C60_unknown",
    "C60_foreign_partial",
    "C60_foreign_refuted",
    "C60_time_left",
    "C60_shows_what_was_set"
   ],
   "note": "All items and all names. Refuted for minbkey and maxbkey of items other than b+trees: the reply shows uninitialised memory and may overrun the buffer."
  },
  {
   "property": "C61",
   "status": "partial",
   "theorems": [
    "C61_counts_partial",
    "C61_named_partial",
    "C61_hyphen_refuted",
    "C61_last_prefix_refuted"
   ],
   "note": "Proved for histories whose keys have prefixes of name characters, do not start with a hyphen, and use fewer than 10000 prefixes. Otherwise false: a key without prefix that starts with a hyphen is counted or not depending on what came before; the 10000th prefix loses its operation and switches the statistics off."
  },
  {
   "property": "C62",
   "status": "proved",
   "theorems": [
    "C62_dump",
    "C62_named"
   ],
   "note": "Every history, every hash function and delimiter, every list of (non-empty) names."
  },
  {
   "property": "C63",
   "status": "partial",
   "theorems": [
    "C63_documented_partial",
    "C63_nothing_else_partial",
    "C63_others_accepted",
    "C63_one_meaning",
    "C63_refused",
    "C63_not_passed_over",
    "C63_flush_refuted",
    "C63_noreply_refuted",
    "C63_extra_refuted"
   ],
   "note": "Exact up to the listed deviations: one documented line (flush_prefix noreply) is treated differently and the lines of 'ignores' are accepted in addition; the refutations show them."
  },
  {
   "property": "C64",
   "status": "partial",
   "theorems": [
    "C64_dialogue_partial",
    "C64_set_get"
   ],
   "note": "Eviction switched off, no flush lines (C05), prefix part of stored keys below 256 bytes, data blocks of the announced length, clock below 2^31 - 30 days; splitting into words and reading data blocks are C-level models of their own."
  },
  {
   "property": "C65",
   "status": "partial",
   "theorems": [
    "C65_prefix",
    "C65_counts",
    "C65_skip",
    "C65_no_abort_partial",
    "C65_no_race",
    "C65_finishes_partial",
    "C65_complete_partial",
    "C65_abort_refuted",
    "C65_stop_refuted",
    "C65_stuck_refuted"
   ],
   "note": "Order, counts and reasons for leaving out are proved for every interleaving. Missing because the code violates them: no abort when the buffer is full while its head is 0 (C65_abort_refuted); completeness and end after a stop between the look of the flush thread and its test (C65_stop_refuted, C65_stuck_refuted)."
  },
  {
   "property": "C66",
   "status": "partial",
   "theorems": [
    "C66_lines_partial",
    "C66_lines_refuted"
   ],
   "note": "Every length but exactly 400 bytes, where the code cuts the line feed."
  },
  {
   "property": "C67",
   "status": "proved",
   "theorems": [
    "C67_lists",
    "C67_destroy",
    "C67_room"
   ],
   "note": "Requests within the limits the callers keep (an item fits in a block, at least one item, only non-empty lists merged); C67_zero_items and C67_empty_merge show that the limits are needed. Counts do not wrap in the model."
  },
  {
   "property": "C68",
   "status": "partial",
   "theorems": [
    "C68_shown_partial",
    "C68_room",
    "C68_distinct"
   ],
   "note": "Every answer of start, stop, show equals the one of the specification for every history; room in the buffers; kept lines differ. Missing: a stop and start between the unlocked test of the threshold and the lock; 2^32 or more requests in one history."
  }
 ]
}
