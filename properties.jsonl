{"id": "C01", "title": "Key-value commands behave like a map with expiry", "statement": "After any sequence of set/add/replace/cas/append/prepend/incr/decr/delete/touch-by-setattr/get commands issued at non-decreasing times (no eviction, no flush), a get returns exactly the value, flags and cas that a plain finite map updated by the successful commands would hold for that key, and misses exactly when the map has no entry or the entry's expiry time has passed; every command's status code is the one the map dictates.", "quantifier": "every finite sequence of commands, keys, values, flags, expiry times and clock values", "why_tests_cant": "a test executes one history; the claim is about all histories and all interleavings of expiry with commands", "anchors": ["engines/default/items.c:do_item_store_set,do_item_store_add,do_item_store_replace,do_item_store_cas,do_item_store_attach,do_add_delta,item_delete", "engines/default/item_base.c:do_item_get,do_item_isvalid,do_item_link,do_item_replace,do_item_unlink"]}
{"id": "C02", "title": "At most one client wins a cas race", "statement": "If several clients obtained the same cas unique for a key, then in every interleaving of their cas commands with any other commands at most one of those cas commands is answered STORED; a cas that is answered STORED implies that the item was not changed between the gets that fetched the unique and the cas.", "quantifier": "every interleaving of any number of clients' gets, cas and other mutations", "why_tests_cant": "races depend on the schedule; a test sees one schedule", "anchors": ["engines/default/items.c:do_item_store_cas", "engines/default/item_base.c:get_cas_id,do_item_link,do_item_replace"]}
{"id": "C03", "title": "Expired items are never returned", "statement": "An item stored with expiry time e > 0 is never returned, counted as existing, incremented, appended to or replaced by a command executed at time >= e; an item with expiry 0 never disappears by passage of time.", "quantifier": "every history and every clock value", "why_tests_cant": "depends on all times and all intermediate commands", "anchors": ["engines/default/item_base.c:do_item_isvalid,do_item_get"]}
{"id": "C04", "title": "incr/decr arithmetic", "statement": "incr on a numeric item stores and returns (value + delta) mod 2^64; decr stores and returns max(value - delta, 0); the stored text is the decimal representation of the returned number, so a following get, incr or decr sees that number; a non-numeric item is answered with an error and left unchanged; with an initial value the command creates the item holding that value when it is absent and returns it.", "quantifier": "every 64-bit value, delta and every stored byte string", "why_tests_cant": "2^128 operand pairs", "anchors": ["engines/default/items.c:do_add_delta,item_arithmetic", "util.c:safe_strtoull"]}
{"id": "C05", "title": "flush_all hides everything stored before it", "statement": "After flush_all (no delay) has been answered OK, no item stored before it is ever returned again, whatever commands (including later flush_all or flush_prefix commands, delayed or not) follow; items stored in later seconds are not affected by it.", "quantifier": "every history of stores, accesses, flushes and clock values", "why_tests_cant": "depends on the order of later flushes and on the clock", "anchors": ["engines/default/items.c:do_item_flush_expired", "engines/default/item_base.c:do_item_isvalid"]}
{"id": "C06", "title": "List insert/get/delete have sequence semantics", "statement": "lop insert at index i (>= 0 from the head, < 0 from the tail), lop get and lop delete of an index or of an index range return and remove exactly the elements that the corresponding slice of a sequence would, in request order (ascending or descending), and leave the others in their relative order; out-of-range requests are answered NOT_FOUND_ELEMENT / OUT_OF_RANGE without change.", "quantifier": "every list content, every pair of signed 32-bit indexes and every sequence of commands", "why_tests_cant": "index arithmetic with negative and clamped indexes over unbounded lists", "anchors": ["engines/default/coll_list.c:do_list_elem_find,adjust_list_range,do_list_elem_get,do_list_elem_delete,do_list_elem_insert,do_list_elem_link,do_list_elem_unlink"]}
{"id": "C07", "title": "A list never exceeds maxcount and its overflow action decides what is lost", "statement": "In every reachable state a list holds at most maxcount elements; an insert on a full list is refused unchanged under the error action, and under head_trim/tail_trim loses exactly one element at the head/tail.", "quantifier": "every sequence of inserts, deletes and attribute changes", "why_tests_cant": "boundary at every possible maxcount and history", "anchors": ["engines/default/coll_list.c:do_list_elem_insert,do_list_elem_delete,list_elem_insert", "engines/default/items.c:do_item_setattr_exec"]}
{"id": "C08", "title": "Set elements behave like a mathematical set for every hash function", "statement": "sop insert/exist/delete answer exactly as a mathematical set would: insert of a present element is refused, exist is true iff inserted and not deleted since, delete of an absent element is refused; the element count equals the set's cardinality, whatever the 32-bit hash of the elements.", "quantifier": "every sequence of inserts/deletes and every assignment of hash values to elements", "why_tests_cant": "collision patterns drive tree splits and merges; tests hit almost none", "anchors": ["engines/default/coll_set.c:do_set_elem_find,do_set_elem_link,do_set_elem_unlink,do_set_node_link,do_set_node_unlink,do_set_elem_traverse_delete"]}
{"id": "C09", "title": "Reading a set returns every element once", "statement": "sop get of n elements returns min(n, size) distinct elements of the set, all of them when n = 0 or n >= size; with delete, exactly the returned elements are gone afterwards and the others stay.", "quantifier": "every set, every count and every hash assignment", "why_tests_cant": "same as above", "anchors": ["engines/default/coll_set.c:do_set_elem_traverse_dfs_bycnt,do_set_elem_traverse_sampling,do_set_elem_get"]}
{"id": "C10", "title": "Map fields behave like a finite map for every hash function", "statement": "mop insert/upsert/update/delete/get answer exactly as a finite map from field to value would: get after upsert returns the value, insert of an existing field is refused unless upsert, update of an absent field is refused, delete removes exactly the given fields, other fields keep their values; the field count equals the map's size.", "quantifier": "every sequence of commands and every hash assignment", "why_tests_cant": "collision patterns drive tree splits and merges", "anchors": ["engines/default/coll_map.c:do_map_elem_find,do_map_elem_link,do_map_elem_unlink,do_map_elem_replace,do_map_node_link,do_map_node_unlink,do_map_elem_traverse_delete_byfield"]}
{"id": "C11", "title": "B+tree keys have one total order", "statement": "Comparison of bkeys (64-bit numbers or byte strings) is a strict total order in which byte strings compare lexicographically with a proper prefix first, and the range tests used by get/delete/count agree with that order.", "quantifier": "every pair and triple of bkeys", "why_tests_cant": "infinite domain", "anchors": ["engines/default/coll_btree.c:UINT64_COMP,BINARY_COMP,BKEY_COMP,do_bkey_range_type", "engines/default/coll_btree.c:BINARY_ISLT etc"]}
{"id": "C12", "title": "The B+tree is a sorted map", "statement": "bop insert/upsert/update/delete/get on a single bkey answer exactly as a finite map from bkey to (eflag, value) would, whatever the number and order of inserts and deletes (node splits, merges, root growth and shrinkage included).", "quantifier": "every sequence of commands and bkeys", "why_tests_cant": "structure-changing cases appear only at particular sizes and orders", "anchors": ["engines/default/coll_btree.c:do_btree_find_leaf,do_btree_elem_link,do_btree_elem_unlink,do_btree_node_split,do_btree_node_merge,do_btree_node_sbalance,do_btree_node_mbalance"]}
{"id": "C13", "title": "B+tree nodes stay balanced and counts stay exact", "statement": "In every reachable state all leaves are at the same depth, no node other than an empty root is empty or exceeds its capacity, each recorded sub-count equals the number of elements below it, and the element count attribute equals the number of elements.", "quantifier": "every sequence of inserts, deletes and range deletes", "why_tests_cant": "invariant over histories", "anchors": ["engines/default/coll_btree.c:do_btree_incr_path,do_btree_decr_path,do_btree_node_split,do_btree_node_merge,do_btree_consistency_check"]}
{"id": "C14", "title": "B+tree range get/delete/count return exactly the selected elements", "statement": "bop get/delete/count over a range return, in the requested direction, exactly the elements whose bkey lies in the range and whose eflag satisfies the filter, after skipping offset of them and limited to count; delete removes exactly those and count counts exactly those.", "quantifier": "every content, range (ascending, descending, single), filter, offset and count", "why_tests_cant": "product of unbounded domains", "anchors": ["engines/default/coll_btree.c:do_btree_elem_get,do_btree_elem_delete,do_btree_elem_count,do_btree_find_first,do_btree_find_next,do_btree_find_prev"]}
{"id": "C15", "title": "Position and bkey lookups agree", "statement": "bop position returns the 0-based rank of the bkey in ascending or descending order; bop gbp from..to returns the elements of these ranks in that order; hence gbp of the position of a bkey returns that bkey; bop pwg returns the neighbours around the position.", "quantifier": "every content and every bkey/position", "why_tests_cant": "depends on sub-counts in every tree shape", "anchors": ["engines/default/coll_btree.c:do_btree_posi_find,do_btree_elem_get_by_posi,do_btree_posi_find_with_get,do_btree_elem_get_by_posi"]}
{"id": "C16", "title": "eflag filter and eflag update follow their definition", "statement": "An element whose eflag is long enough passes the filter iff (eflag bytes at offset, combined with the bitwise operand) stands in the requested relation to the compare operand (EQ/NE against a list of values: member / not member); an element whose eflag is too short passes only NE; eflag update with a bitwise operator changes exactly the addressed bytes by that operator.", "quantifier": "every eflag, offset, operator and operand", "why_tests_cant": "byte-level domain is infinite", "anchors": ["engines/default/coll_btree.c:do_btree_elem_filter,do_btree_elem_update", "engines/default/coll_btree.c:BINARY_AND etc"]}
{"id": "C17", "title": "A B+tree never exceeds maxcount and trims at the proper end", "statement": "In every reachable state a B+tree holds at most maxcount elements; an insert into a full one loses exactly the smallest (largest) element under smallest_trim (largest_trim) or is refused when the new element would itself be the one to trim, and is refused under error.", "quantifier": "every sequence of inserts and attribute changes", "why_tests_cant": "history invariant", "anchors": ["engines/default/coll_btree.c:do_btree_overflow_check,do_btree_overflow_trim,do_btree_elem_insert"]}
{"id": "C18", "title": "maxbkeyrange bounds the span of bkeys", "statement": "When maxbkeyrange is set, after every successful insert the difference between the largest and smallest bkey of the B+tree does not exceed it.", "quantifier": "every content, every (numeric or binary) maxbkeyrange and every inserted bkey", "why_tests_cant": "mixed-length binary keys are rarely tested", "anchors": ["engines/default/coll_btree.c:do_btree_overflow_check,do_btree_overflow_trim", "engines/default/coll_btree.c:BKEY_DIFF,BINARY_DIFF"]}
{"id": "C19", "title": "Trimmed elements are signalled", "statement": "If elements have been dropped by smallest_trim/largest_trim, a later range query whose range reaches into the dropped end is answered with the TRIMMED/OUT_OF_RANGE indication; without any trim the indication never appears.", "quantifier": "every history", "why_tests_cant": "history dependent flag", "anchors": ["engines/default/coll_btree.c:do_btree_overlapped_with_trimmed_space,do_btree_elem_get", "engines/default/coll_btree.h:COLL_META_FLAG_TRIMMED"]}
{"id": "C20", "title": "smget is a sorted merge", "statement": "bop smget over a list of distinct keys (without NUL bytes) returns exactly the elements that sorting the union of the per-key range results by bkey (ties by key) would give at positions offset..offset+count-1 (for unique mode, after keeping the first element per bkey); it reports every key that is missing, unreadable or trimmed at the near end of the range as missed with its reason, every key trimmed at the far end inside the answer with its last bkey in order, DUPLICATED exactly if two elements of the answer share a bkey, and fails exactly for a key of another type or a bkey of the other kind.", "quantifier": "every set of keys, contents, ranges, filters, offset, count, both orders and both modes", "why_tests_cant": "k-way merge with early cut-off over unbounded inputs", "anchors": ["engines/default/coll_btree.c:do_btree_smget_scan_sort,do_btree_smget_elem_sort,do_btree_smget_adjust_trim,btree_elem_smget"]}
{"id": "C21", "title": "Hash table lookups survive incremental expansion", "statement": "A key inserted and not deleted is found, and a deleted or never inserted key is not found, at every stage of incremental table growth; the item count equals the number of stored keys.", "quantifier": "every sequence of insert/delete/replace/lookup interleaved with every growth stage", "why_tests_cant": "growth happens at 98304+ items and then over many steps", "anchors": ["engines/default/assoc.c:assoc_find,assoc_insert,assoc_replace,assoc_delete,assoc_expand,redistribute,GET_HASH_BUCKET,GET_HASH_TABIDX"]}
{"id": "C22", "title": "SCAN returns every key that stays", "statement": "A full SCAN (repeat scan key <cursor> until cursor 0) returns at least once every key that is present during the whole iteration, even when the table grows between calls, and returns only present keys.", "quantifier": "every table content, every growth schedule between calls and every count", "why_tests_cant": "needs particular interleavings of growth and cursor", "anchors": ["engines/default/assoc.c:assoc_scan_direct", "engines/default/items.c:item_scan_direct"]}
{"id": "C23", "title": "Prefix statistics equal what is stored", "statement": "stats prefixlist lists exactly the prefixes under which something is stored (and, for keys without one, <null>), each once, with the number and total size of the items in all and per type; asking for some prefixes lists exactly those; the number of prefixes is right. An item is refused for its prefix only if the name is invalid or memory is short, and only if nothing is stored under that prefix.", "quantifier": "every sequence of item insertions, deletions, replacements and size changes, for every hash function (prefixes are one level deep: DEFAULT_PREFIX_MAX_DEPTH is 1)", "why_tests_cant": "accounting invariants over histories", "anchors": ["engines/default/prefix.c:prefix_link,prefix_unlink,prefix_bytes_incr,prefix_bytes_decr,_prefix_delete,_prefix_insert"]}
{"id": "C24", "title": "Records written to the log come back unchanged", "statement": "Every change-log and snapshot record (item link, unlink, setattr, flush, list/set/map/btree element insert and delete, logical range delete, snapshot element) that is written to disk is decoded at recovery to the same operation with the same key, field, bkey, eflag, value and attributes.", "quantifier": "every record content and size", "why_tests_cant": "byte layout over unbounded contents", "anchors": ["engines/default/cmdlogrec.c:lrec_*_write,lrec_*_redo,lrec_construct_*", "engines/default/chkpt_snapshot.c:chkpt_snapshot_file_apply"]}
{"id": "C25", "title": "The log file receives the records in order, exactly once", "statement": "Whatever the interleaving of log writes and flushes and wrap-arounds of the log buffer, the bytes written to the command log file are the concatenation of the records in the order they were produced, a prefix of it at any time, and all of it after everything is flushed.", "quantifier": "every sequence of record sizes, flush requests and interleavings", "why_tests_cant": "ring buffer boundary conditions", "anchors": ["engines/default/cmdlogbuf.c:do_log_buff_write,do_log_buff_flush,cmdlog_buff_flush"]}
{"id": "C26", "title": "Synchronous logging: an acknowledged write survives a crash", "statement": "With sync (fsync) logging, once a write command is answered, a crash at any later moment followed by recovery preserves its effect.", "quantifier": "every schedule of writers, flusher, fsync thread and every crash point", "why_tests_cant": "crash points and schedules cannot be enumerated by tests", "anchors": ["engines/default/cmdlogmgr.c:cmdlog_waiter_end,do_cmdlog_callback_and_free_waiters,cmdlog_gcommit_thread_main", "engines/default/cmdlogbuf.c:do_log_buff_flush", "engines/default/cmdlogfile.c:cmdlog_file_sync"]}
{"id": "C27", "title": "Recovery yields the effect of a prefix of the commands", "statement": "After a crash that leaves any prefix of the log bytes on disk, recovery produces exactly the state after some prefix of the executed commands, with multi-element deletes applied entirely or not at all.", "quantifier": "every history and every byte at which the log can be cut", "why_tests_cant": "one crash point per byte of every possible log", "anchors": ["engines/default/cmdlogfile.c:cmdlog_file_apply,do_redo_pending_lrec", "engines/default/cmdlogmgr.c:cmdlog_generate_operation_range"]}
{"id": "C28", "title": "Recovery can be repeated", "statement": "If the server crashes, recovers, executes more commands and crashes again, the second recovery produces a state that includes all commands logged after the first recovery.", "quantifier": "every history with two crash points", "why_tests_cant": "needs two crashes at particular byte positions", "anchors": ["engines/default/cmdlogfile.c:cmdlog_file_apply"]}
{"id": "C29", "title": "Checkpoint plus log equals the live data", "statement": "When a checkpoint taken concurrently with commands completes, the snapshot followed by the new command log restores exactly the data that were live, i.e. every change made during the scan is either in the snapshot or in the new log.", "quantifier": "every interleaving of the snapshot scan with commands", "why_tests_cant": "schedule dependent", "anchors": ["engines/default/chkpt_snapshot.c:do_snapshot_action", "engines/default/cmdlogmgr.c:NEED_DUAL_WRITE", "engines/default/assoc.c:assoc_scan_in_visited_area,assoc_scan_next", "engines/default/items.c:item_scan_getnext"]}
{"id": "C30", "title": "Cleaning up old checkpoint files keeps the current one", "statement": "The sweep of stale checkpoint files never removes the snapshot and command log files of the last completed checkpoint.", "quantifier": "every pair of checkpoint times and every directory content", "why_tests_cant": "depends on file naming and on a failed earlier removal", "anchors": ["engines/default/checkpoint.c:do_chkpt_sweep_files"]}
{"id": "C31", "title": "Expiry and overwritten values survive recovery", "statement": "After recovery at any later time a key holds the last value written to it if that has not expired, and nothing if it has expired or was deleted; never an older, overwritten value.", "quantifier": "every history with expiry times and every recovery time", "why_tests_cant": "depends on the wall clock at recovery", "anchors": ["engines/default/cmdlogrec.c:lrec_it_link_redo,CONVERT_ABS_EXPTIME,CONVERT_REL_EXPTIME", "engines/default/item_clog.c:CLOG_GE_ITEM_UNLINK"]}
{"id": "C32", "title": "Memory blocks handed out never overlap", "statement": "The small-memory allocator never hands out two blocks that share a byte, merges freed neighbours, and its used/free totals are exact.", "quantifier": "every sequence of allocations and frees", "why_tests_cant": "history invariant", "anchors": ["engines/default/slabs.c:do_smmgr_alloc,do_smmgr_free"]}
{"id": "C33", "title": "Decimal parsing", "statement": "A numeric argument is accepted exactly when it is an (optionally white-space led, optionally signed) decimal number in the type's range terminated by white space or end; the parsed value is the number written.", "quantifier": "every byte string", "why_tests_cant": "infinite domain", "anchors": ["util.c:safe_strtoull,safe_strtoll,safe_strtoul,safe_strtol"]}
{"id": "C34", "title": "Hexadecimal bkeys and eflags round-trip", "statement": "A binary bkey/eflag printed by the server and sent back denotes the same bytes; parsing accepts exactly even-length hexadecimal strings within the size limit.", "quantifier": "every byte string and every input text", "why_tests_cant": "infinite domain", "anchors": ["util.c:safe_strtohexa,safe_hexatostr"]}
{"id": "C35", "title": "Pattern matching of the scan command follows the glob definition", "statement": "A key is selected by a scan pattern iff it matches the pattern in which * stands for any string, ? for any character and \\* \\? \\\\ for themselves.", "quantifier": "every pattern and key", "why_tests_cant": "infinite domain; greedy matching with a single backup is only correct by an argument", "anchors": ["util.c:string_pattern_match"]}
{"id": "C36", "title": "Command line tokenizing", "statement": "A command line is split into exactly the space separated words of the line, at most max-1 of them with the rest of the line kept as the last token; words are unchanged bytes of the line.", "quantifier": "every line and every token limit", "why_tests_cant": "infinite domain", "anchors": ["mc_util.c:tokenize_command,detokenize"]}
{"id": "C37", "title": "Key lists may be split over network buffers anywhere", "statement": "The keys of a multi-key request are the space (or comma) separated words of the received byte stream, exactly as many as announced, independent of how the stream was divided into memory blocks; malformed lists are refused.", "quantifier": "every byte stream and every division into blocks", "why_tests_cant": "division points are arbitrary", "anchors": ["mc_util.c:tokenize_keys,tokenize_mblocks,tokenize_sblocks,check_sblock_tail_string"]}
{"id": "C38", "title": "References protect items from being freed", "statement": "While a client holds a reference to an item (between get and release) its memory is not freed or reused, even if the item is deleted, replaced, expired, flushed or evicted meanwhile; once unlinked and released by everybody it is freed exactly once.", "quantifier": "every interleaving of commands of all clients", "why_tests_cant": "lifetime bugs depend on the interleaving", "anchors": ["engines/default/item_base.h:ITEM_REFCOUNT_INCR,ITEM_REFCOUNT_DECR", "engines/default/item_base.c:do_item_release,do_item_unlink,do_item_replace,do_item_free", "engines/default/items.c:item_arithmetic"]}
{"id": "C39", "title": "LRU order and eviction", "statement": "Eviction removes only unreferenced (and non-sticky) items; the LRU list always contains exactly the linked items that are not pulled out because of being referenced, ordered by last access.", "quantifier": "every sequence of accesses and allocations", "why_tests_cant": "history invariant", "anchors": ["engines/default/item_base.c:item_link_q,item_unlink_q,do_item_mem_alloc,do_item_evict"]}
{"id": "C40", "title": "smget accepts every request its limits allow, and no other", "statement": "bop smget lets a request through exactly if count > 0 and offset + count <= 2000; different keys are never confused, a key listed twice does not end the request, and a key is reported as trimmed only if elements of its range were trimmed.", "quantifier": "every key list including keys with arbitrary bytes, every 32-bit offset and count", "why_tests_cant": "depends on arithmetic wrap-around, on byte values inside keys and on coincidences between range ends and tree edges", "anchors": ["memcached.c:process_bop_smget_complete / process_bop_command (13068-13098, 6220-6222)", "engines/default/coll_btree.c:do_btree_comp_hkey,do_btree_smget_scan_sort,do_btree_overlapped_with_trimmed_space"]}
{"id": "C41", "title": "SCAN accepts every count it allows", "statement": "scan key <cursor> count <n> with 1 <= n <= 2000 answers with keys or an error and never stops the server.", "quantifier": "every table content, every cursor text and every count up to 2000", "why_tests_cant": "depends on how many keys share a hash chain at the point where a batch of 200 ends", "anchors": ["engines/default/default_engine.c:default_keyscan", "engines/default/assoc.c:assoc_scan_direct", "memcached.c:process_keyscan_command"]}
{"id": "C42", "title": "Background scans visit every key exactly once", "statement": "A background scan of the table (checkpoint, scrub, dump) returns every key that stays stored while it runs exactly once, whatever is inserted, deleted or replaced meanwhile and while the table grows; several scans do not disturb each other; a scan asked whether it has passed a key says so exactly if it has returned it.", "quantifier": "every sequence of table operations and calls of any number of scans, with every batch size and every growth stage", "why_tests_cant": "depends on interleavings of scan steps, inserts and table growth", "anchors": ["engines/default/assoc.c:assoc_scan_init,assoc_scan_next,assoc_scan_in_visited_area,assoc_scan_final,redistribute"]}
{"id": "C43", "title": "SCAN PREFIX returns every prefix exactly once", "statement": "A scan prefix iteration started at cursor 0 and continued until cursor 0 is returned ends, returns no prefix twice, returns every prefix under which something is stored at each of its calls, and returns no other prefix; no call fails.", "quantifier": "every history, every number of calls and counts, and any operations of other clients between the calls, for every hash function", "why_tests_cant": "depends on interleavings of scan calls with prefix creation and removal, and on how full a hash chain gets", "anchors": ["engines/default/prefix.c:prefix_scan_direct,_prefix_scan_direct,prefix_release", "engines/default/default_engine.c:default_prefixscan", "memcached.c:process_prefixscan_command"]}
{"id": "C44", "title": "Item statistics equal what is stored", "statement": "curr_items and bytes are the number and total size of the stored items, sticky_items and sticky_bytes those of the sticky ones, so that the sticky limit refuses items only when that much sticky data is stored.", "quantifier": "every sequence of item insertions, deletions, replacements and collection size changes", "why_tests_cant": "accounting invariants over histories", "anchors": ["engines/default/item_base.c:do_item_stat_link,do_item_stat_unlink,do_item_stat_replace,do_item_stat_bytes_incr,do_item_stat_bytes_decr,item_stats_sticky"]}
{"id": "C45", "title": "A restart uses the newest completed checkpoint", "statement": "After a crash at any point of a checkpoint, of a removal of old files or between them, a restart uses the snapshot and command log of the checkpoint that was completed last; never an incomplete snapshot and never an older checkpoint; it starts from nothing only if no checkpoint was ever completed.", "quantifier": "every history of checkpoints, failures of file operations, crashes and restarts", "why_tests_cant": "crash points and failure combinations cannot be enumerated", "anchors": ["engines/default/checkpoint.c:chkpt_recovery_analysis,chkpt_recovery_redo,do_checkpoint,chkpt_thread_main", "engines/default/chkpt_snapshot.c:chkpt_snapshot_check_file_validity"]}
{"id": "C46", "title": "A regular shutdown writes the whole command log", "statement": "When the server is shut down in the regular way, every change it answered before is in the command log file, also with asynchronous logging.", "quantifier": "every history and every content of the log buffer at the shutdown", "why_tests_cant": "depends on how much is waiting in the log buffer when the flush thread stops", "anchors": ["engines/default/cmdlogbuf.c:cmdlog_buf_final,cmdlog_buf_flush_thread_stop", "engines/default/cmdlogmgr.c:cmdlog_mgr_final"]}
{"id": "C47", "title": "The memory limit bounds what the server takes", "statement": "Whatever is allocated and freed and however the limit is changed, the memory obtained for items never exceeds the limit by more than the fixed reserve of the slab classes and a reserve of the small-item class of at most 5 per cent; with preallocation it never exceeds the limit at the start.", "quantifier": "every history of allocations, frees and limit changes, every class table and every malloc", "why_tests_cant": "a bound over all histories; the reserves are granted only when the limit has been passed", "anchors": ["engines/default/slabs.c:do_slabs_newslab,slabs_define_rsvd_count,grow_slab_list,slabs_set_memlimit,slabs_init"]}
{"id": "C48", "title": "Slab statistics account for every chunk", "statement": "At any time, in each slab class the number of chunks is the number of areas in use plus the number of free chunks, the requested bytes are the sum of the sizes in use, and the total malloced is the sum of the slabs obtained.", "quantifier": "every history of allocations, frees and limit changes", "why_tests_cant": "history invariant", "anchors": ["engines/default/slabs.c:do_slabs_alloc,do_slabs_free,do_slabs_newslab,do_slabs_stats"]}
{"id": "C49", "title": "Replaying the command log restores the live data", "statement": "When the server restarts, replaying the command log gives each key the item it had: same type, flags, expiry time, attributes and elements (list order, sets and maps by content, B+tree by bkey); nothing is missing and nothing removed comes back.", "quantifier": "every history of commands on items of all types, flushes, evictions and passing time, every recovery time", "why_tests_cant": "history invariant over all commands and recovery times", "anchors": ["engines/default/item_clog.c", "engines/default/cmdlogmgr.c:cmdlog_generate_*", "engines/default/cmdlogrec.c:lrec_*_redo", "engines/default/items.c:item_apply_*", "engines/default/coll_list.c:list_apply_*", "engines/default/coll_set.c:set_apply_*", "engines/default/coll_map.c:map_apply_*", "engines/default/coll_btree.c:btree_apply_*"]}
{"id": "C50", "title": "Replies do not depend on how the network splits the stream", "statement": "For a given stream of bytes from a client, the bytes the server sends back are determined by that stream and the state of the data: however the stream is split into packets, however long the pauses are and however little of the output the client's socket accepts at a time, what has been sent is always a beginning of one and the same answer, and when the connection is closed the answer is complete for every complete request.", "quantifier": "every byte stream, every split of the input into reads and of the output into writes, every interleaving of readiness events", "why_tests_cant": "the splits and interleavings are unbounded; tests use few packets", "anchors": ["memcached.c:drive_machine,try_read_network,try_read_command_ascii,transmit,conn_nread,conn_swallow,conn_mwrite"]}
{"id": "C51", "title": "Requests are framed by length and answered one by one in order", "statement": "A data block may hold any bytes, including line ends and text that looks like commands: only its announced length counts. Each request is answered once, in the order of the requests, and a request with noreply is executed but not answered.", "quantifier": "every sequence of well-formed requests with any data, every split of the stream", "why_tests_cant": "all byte contents of data blocks and all request sequences", "anchors": ["memcached.c:try_read_command_ascii,process_command_ascii,complete_nread,conn_nread,conn_swallow,out_string,set_noreply_maybe"]}
{"id": "C52", "title": "A connection neither hangs nor overruns its buffers", "statement": "When the server waits for more input from a client, it has answered every complete request received so far and has sent the whole answer; no read or write goes beyond the connection's buffers and the list of output parts, whatever they grew or shrank to.", "quantifier": "every stream, split, schedule and number of requests served per event", "why_tests_cant": "lost wake-ups and stale pointers depend on schedules and buffer growth", "anchors": ["memcached.c:conn_new_cmd,conn_waiting,conn_shrink,add_iov,ensure_iov_space,add_msghdr,transmit,event_handler"]}
{"id": "C53", "title": "Command pipelining works as documented", "statement": "Commands sent with 'pipe' are executed in order and answered together by RESPONSE n, the n statuses in order, and END; when a command fails badly, more than 500 commands come, or the statuses exceed their buffer, no further command of the pipeline is executed, and the response ends with the corresponding PIPE_ERROR. The responses always fit in the response buffer.", "quantifier": "every sequence of piped commands and every status text", "why_tests_cant": "all lengths of pipelines and combinations of failures", "anchors": ["memcached.c:pipe_response_save,pipe_response_done,out_string,check_and_handle_pipe_state,set_pipe_maybe", "docs/ascii-protocol/ch09-command-pipelining.md"]}
{"id": "C54", "title": "Exactly one server of a cluster claims a key", "statement": "Once a list of servers is in use, a server answers that a key is its own exactly when consistent hashing over that list assigns the key to it; servers with the same list agree, whatever lists they had before, in whatever order the names came and whatever host names they carried; 'scrub stale' removes only items whose key belongs to another server.", "quantifier": "every list of up to 65536 distinct server names, every key, every digest function, every history of accepted, unchanged, invalid and failed list changes, and every point of time in it", "why_tests_cant": "all name sets, all points on the ring including equal ones, all histories with reuse of node records, and races between a change and a question", "anchors": ["cluster_config.c:cluster_config_key_is_mine,cluster_config_reconfigure,do_continuum_find,do_continuum_build,do_hashring_replace,gen_node_continuum,hash_ketama", "engines/default/items.c:scrub stale"]}
{"id": "C55", "title": "A change of the cluster moves only the keys it must", "statement": "When servers join or leave, a key changes its server only if its old server left or its new server joined; a server keeps all its keys when nobody joins.", "quantifier": "every pair of server lists and every key", "why_tests_cant": "all lists and all keys", "anchors": ["cluster_config.c:gen_node_continuum,do_continuum_find,compare_cont_item_ptr"]}
{"id": "C56", "title": "Every change of the server list is taken over", "statement": "A new list of servers is reported as unchanged exactly when it has the same servers, otherwise with the right numbers of servers that joined and left, and it comes into use; the server survives every change.", "quantifier": "every sequence of server lists and allocation failures", "why_tests_cant": "the free list of node records depends on the whole history", "anchors": ["cluster_config.c:do_nodearray_build_for_replace,do_node_free_list_prepare,do_nodearray_release,do_node_item_build"]}
{"id": "C57", "title": "A collection command line means what the protocol says", "statement": "Every line lop/sop/mop/bop of the documented form, with every optional part present or absent, is accepted and handed over as the request it spells (keys, ranges, filters, attributes, counts, reply mode); no other line is accepted; a line has only one meaning, and nothing of an earlier command of the connection gets into it.", "quantifier": "every line, every earlier history of the connection", "why_tests_cant": "optional parts are told apart by token counts and by trying to parse; the combinations are unbounded and the filter structure of the connection is reused without being cleared", "anchors": ["memcached.c:process_lop_command,process_sop_command,process_mop_command,process_bop_command,get_efilter_from_tokens,get_coll_create_attr_from_tokens,get_bkey_range_from_str,set_pipe_noreply_maybe"]}
{"id": "C58", "title": "No collection command line corrupts the server", "statement": "Whatever line a client sends, reading it follows no missing token and writes nothing outside the structure reserved for the element flag filter.", "quantifier": "every line and every earlier content of the structure", "why_tests_cant": "the damage depends on token counts and on the number and width of the values in a list", "anchors": ["memcached.c:get_efilter_from_tokens,process_bop_command", "memcached.h:coll_efilter,coll_eupdate"]}
{"id": "C59", "title": "setattr changes all the attributes it names or none", "statement": "setattr with acceptable values makes exactly the named attributes of the item what the line says (of a repeated one the last) and leaves the others; if a word or a value is not acceptable the item stays as it is and the reply tells what is wrong with the first such word, or bad value; afterwards the item is within its limits (number of elements, overflow actions of its type, distance of the bkeys), and a sticky item stays sticky.", "quantifier": "every item, every line of words, every sequence of commands, every content of the stack", "why_tests_cant": "the checks depend on the elements, on the order and repetition of the words and on the values already there; the structure that is filled is not initialised", "anchors": ["memcached.c:process_setattr_command,realtime", "items.c:do_item_setattr", "coll_list.c:list_coll_setattr", "coll_set.c:set_coll_setattr", "coll_map.c:map_coll_setattr", "coll_btree.c:btree_coll_setattr"]}
{"id": "C60", "title": "getattr shows the attributes of the item", "statement": "getattr replies with one line per named attribute (or all attributes of the type), in the order of the names, each with the value the item has, in particular what setattr set and the time that is left; an attribute the type does not have is answered not found; the reply depends on nothing but the item and the clock, and it fits in the buffer of the function.", "quantifier": "every item, every list of names, every content of the stack", "why_tests_cant": "the structure that is printed is not initialised, so wrong output depends on earlier calls; the length of the reply depends on all values together", "anchors": ["memcached.c:process_getattr_command,attr_to_printable_buffer,lefttime", "items.c:do_item_getattr", "coll_btree.c:btree_coll_getattr", "coll_list.c:list_coll_getattr"]}
{"id": "C61", "title": "Operation counts per key prefix are exact", "statement": "While 'stats detail' is on, every command on a key adds exactly one to the count of its operation (and to the hit count if it hit) of exactly one line of 'stats prefixes operation': the line of the key's prefix, which is what stands in front of the first delimiter that is not the first byte, or <null>. The reply lists every prefix operated on since it was last flushed or the statistics were reset, once, with these counts modulo 2^64 under their documented letters; a request with names lists the named ones in that order; more prefixes than allowed are refused. The order of commands on different keys does not matter.", "quantifier": "every history of commands, flushes, resets and switches; every hash function of the prefix table; every list of names", "why_tests_cant": "collisions in the table, counts over long histories and the interplay of switching off, flushing and the limit on prefixes depend on the whole history", "anchors": ["stats_prefix.c:stats_prefix_find,do_stats_prefix_insert,do_stats_prefix_delete,stats_prefix_record_get,stats_prefix_dump", "memcached.c:process_stats_prefix,process_stats_detail"]}
{"id": "C62", "title": "The prefix statistics stay bounded and their reply fits", "statement": "Whatever was executed, 'stats prefixes operation' never stops the server: the text of all prefixes, or of the named ones, with counts of up to twenty digits, is shorter than the buffer that was allocated from the number of prefixes and the total length of their names; every prefix appears at most once and there are never more than 10000.", "quantifier": "every history of commands, flushes, resets and switches, every key, every list of names", "why_tests_cant": "the length of the buffer relies on a running total of name lengths that must be right after every sequence of insertions and deletions", "anchors": ["stats_prefix.c:do_stats_prefix_insert,do_stats_prefix_delete,stats_prefix_dump"]}
{"id": "C63", "title": "Key-value command lines mean what the documents say", "statement": "A line of words is taken as a get, gets, set, add, replace, append, prepend, cas, incr, decr, delete, touch, flush_all or flush_prefix request exactly if it has the documented form: key of at most 16000 bytes, numbers in the range of their type, length of data from 0 to 2147483645, delay not negative, optional noreply at the end; it then carries exactly these values, and no line has two meanings. Every other line of these commands is answered with CLIENT_ERROR, and nothing is left unanswered unless noreply was asked for.", "quantifier": "every list of words", "why_tests_cant": "the words are arbitrary byte strings and optional arguments shift the meaning of positions; acceptance of undocumented forms is only found by considering all lines", "anchors": ["memcached.c:process_get_command,process_update_command,process_arithmetic_command,process_delete_command,process_flush_command,process_touch_command,process_command_ascii,set_noreply_maybe", "docs/ascii-protocol/ch04-command-key-value.md"]}
{"id": "C64", "title": "The text of every reply is that of a map", "statement": "For every sequence of key-value lines with their data blocks and any passing of time, every reply (the bytes sent, and whether any are sent) is the one a plain map from keys to value, flags, expiry time and unique number gives: STORED/NOT_STORED/EXISTS/NOT_FOUND/DELETED/TOUCHED/numbers/VALUE blocks as documented, values byte for byte, times relative up to 30 days, absolute beyond, -1 sticky; a refused line or a wrong data block changes nothing. In particular after a set answered with STORED the next get of the key returns exactly the flags and bytes that were sent.", "quantifier": "every sequence of lines, data blocks and waiting times; every behaviour of the memory allocator; every mapping of items to slab classes", "why_tests_cant": "the replies depend on the whole history and on when memory runs out", "anchors": ["memcached.c:process_get_single,complete_update_ascii,process_arithmetic_command,process_delete_command,process_touch_command,realtime", "engines/default/items.c:item_alloc,item_store,item_get,item_arithmetic,item_delete,item_setattr"]}
{"id": "C65", "title": "The command log holds the commands, in order, each once", "statement": "Between 'cmdlog start' and 'cmdlog stop', whatever the interleaving of the threads that execute commands with the thread that writes the files, the files one after the other hold a beginning of the texts of the commands in the order in which they were entered, nothing twice and nothing mixed; the shown counts are the numbers of commands entered and left out; a command is left out only when the buffer is full; logging never stops the server; after a stop the thread ends and the files hold everything that was entered.", "quantifier": "every sequence of starts, stops, commands of any text and steps of the flush thread in any interleaving, every result of open and write", "why_tests_cant": "the outcome depends on the interleaving of threads and on a 10 MB ring buffer being full at the wrong time", "anchors": ["cmdlog.c:cmdlog_write,cmdlog_flush_thread,cmdlog_start,cmdlog_stop"]}
{"id": "C66", "title": "One record of the command log is one line", "statement": "The record of a command without line feed is one line of at most 399 bytes that ends with a line feed: the time, address and command if they fit, else their first 396 bytes followed by '..'.", "quantifier": "every text of a command", "why_tests_cant": "it fails for one length only", "anchors": ["cmdlog.c:cmdlog_write"]}
{"id": "C67", "title": "Memory blocks of requests never overlap and are never lost", "statement": "A worker thread keeps the data that follows a request (values, lists of keys or fields) in memory blocks taken from its pool. However many requests take, extend and give back blocks, in any order and whenever memory runs out: the blocks of a request, found by following its chain, are exactly those it was given, no block belongs to two requests or to a request and the pool, the blocks hold all items asked for, each item within one block, no internal assertion fails, and when all requests are finished every block ever allocated is released once.", "quantifier": "every sequence of takes (any number and size of items that fits in a block), merges and releases; every point at which malloc fails; any size of pool and block", "why_tests_cant": "a wrong pointer shows only in a later request, after a certain order of releases", "anchors": ["mc_util.c:mblck_pool_create,mblck_list_alloc,mblck_list_merge,mblck_list_free,mblck_pool_destroy"]}
{"id": "C68", "title": "The detection of long queries shows exactly the long queries since its start", "statement": "'lqdetect show' gives, for each of the ten commands watched, the number of requests since the last successful 'lqdetect start' whose cost reached the threshold, and one whole line (time, address, cost, command, key, query) for each of the first twenty of them that differ: for 'sop get', 'mop delete' and 'mop get' without a number of elements by key and query, else by query. No line is cut, nothing of an earlier detection or of unset memory is shown, the reply fits its buffer, a key over 250 bytes is shown by its first 124 and last 123 bytes, and the detection stops by itself exactly when every command has twenty lines.", "quantifier": "every sequence of fewer than 2^32 starts (any threshold), stops, requests (any key, query, cost, unset memory) and shows", "why_tests_cant": "depends on the history of earlier detections, on lengths that add up to one byte less than the room, and on memory that is not set", "anchors": ["lqdetect.c:is_command_duplicated,do_lqdetect_write,do_lqdetect_save_cmd,lqdetect_start,lqdetect_stop,lqdetect_result_get"]}
