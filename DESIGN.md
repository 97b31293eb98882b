# Formal model of naver/arcus-memcached in Rocq (Coq 8.16.1)

## 1. Method

* The C code is read as text and transcribed function by function into small
  total Gallina functions in `rocq/theories/*Model.v`.  Every definition cites
  the file and lines it models and says what it simplifies.
* Small separate specifications are in `*Spec.v` (plain lists, maps, arithmetic);
  they do not use the helper functions of the model.
* The property theorems are in `*Props.v` with `Print Assumptions` beneath them,
  together with an `Example` (or a `_refuted` run) that shows a concrete
  non-trivial case meeting the hypotheses.
* A property that the code violates is recorded as a theorem with suffix
  `_refuted` (a concrete reachable counterexample in the model) next to a
  theorem about the part that does hold (suffix `_partial`).
* Undefined behaviour, failed assertions and out-of-bounds accesses are explicit
  outcomes (`None`, a `bad` flag), and the theorems say when they cannot occur.
* Locks: all item operations of the default engine run under the single cache
  lock (`LOCK_CACHE`), so a concurrent execution of clients is an interleaving of
  these atomic functions: "for every list of operations" covers "for every
  schedule".  In the log buffer, whose threads do not hold that lock, every
  critical section is a step of its own.
* Seeded errors: the models were edited in scratch copies as a realistic bug would
  and rebuilt; `seeded/LOG.jsonl` has one line per attempt with the theorems that
  failed (`failed` is empty for an edit that survived).  `note` says what became of survivors and marks edits that
  turned out not to falsify any claim.

## 2. What is modelled, module by module

| files | code | not modelled |
|-------|------|--------------|
| Util* | `util.c` number parsers, hexadecimal text, name check, glob match; `memcached.c` check of a scan pattern | safe_* of floats |
| List* | `coll_list.c` on pointer level (heap of elements with prev/next, reference counts) | key lookup, expiry, log hooks, prefix statistics |
| Ht*, Set*, Map* | `coll_set.c`, `coll_map.c`: 16-way hash trees, chains, splits, random get, delete, update | memory accounting, element reference counts |
| Bt* | `coll_btree.c`: nodes with 32 slots, element counts, split, merge, balance, range scans, positions, eflag filters, trimming, overflow actions | memory accounting; an update in place or by replacement is an argument; `bop mget` |
| Smget* | `coll_btree.c` smget, new interface | the old interface (mode 0) |
| Kv* | `items.c`, `item_base.c`: items, LRU lists, reference counts, eviction, reclaim, store/cas/arith/get/delete/flush/touch, collections as opaque items | sizes of slabs (the allocator answers are arguments), scrubber |
| Assoc* | `assoc.c` and `default_keyscan` of `default_engine.c` | statistics |
| Pfx* | `prefix.c`, item statistics of `item_base.c` | nested prefixes (compiled out: depth 1), outer loop of `default_prefixscan` |
| Rec* | `cmdlogrec.c`: bytes of every log and snapshot record, redo | big endian machines |
| Rcv* | `cmdlogfile.c` replay, write position after a replay | files of 2 GB and more (int offsets), read errors |
| Lb* | `cmdlogbuf.c` and file switching of `cmdlogfile.c` | sleeping and waking of the flush thread, write errors |
| Sy* | `cmdlog_file_sync`, group commit test of `cmdlogmgr.c` | fsync errors, the list of waiters (a waiter is represented by the test that releases it) |
| Tok* | `tokenize_command`, `detokenize`, `tokenize_keys`, `tokenize_mblocks` with segments, `tokenize_sblocks` of `mc_util.c`; loop of `process_get_command`, checks of `process_mget_command` | pointers into blocks (a token is the bytes it points to), block pool, int widths of lengths |
| Slb* | `slabs.c`: slab classes (`do_slabs_newslab`, `do_slabs_alloc`, `do_slabs_free`, reserves, `slabs_set_memlimit`), small-memory manager (`do_smmgr_*`: blocks, head and tail words, free and used lists per class, splitting, merging, return of blocks), over addresses | floating-point computation of class sizes (any list of sizes that are multiples of 8), `realloc` of slot arrays (succeeds), test environment variables, statistics text |
| Rp* | which record each command logs (`item_clog.c`, `cmdlogmgr.c`: `cmdlog_generate_*`, dual writing), what the replay of a record does (`cmdlogrec.c` redo functions, `*_apply_*` of `items.c` and `coll_*.c`), the checkpoint scan with capture and later writing of items (`items.c`, `chkpt_snapshot.c`), over logical items of all five types | bytes of records (Rec*), memory exhaustion during replay, expiry times as absolute times of one clock, B+tree maxbkeyrange only as far as the refutations need |
| Cn* | an ASCII client connection of `memcached.c`: read buffer (growth, shrinking, moving), state machine `conn_new_cmd` to `conn_mwrite`, event loop with `reqs_per_event`, output parts (`add_iov`, `add_msghdr`, `transmit`), data blocks in parts, swallowing, noreply, pipelining; what a line asks for and what the engine answers are arbitrary functions | binary protocol, UDP, SASL, waiting for the command log, failing allocation of buffers, socket errors other than EAGAIN and end of file |
| Kt* | `cluster_config.c`: digest points of a server, ring, `cluster_config_reconfigure` with node records, reference counts and free list, `cluster_config_key_is_mine`; a change is two steps (built, put in use) so that questions may come in between | MD5 (any function to 16 bytes), memory areas of the arrays, wrap of 16-bit reference counts, ZooKeeper |
| Ck* | `checkpoint.c`: thread rounds, file names, creation, removal, sweep, choice at restart, crash between any two directory changes | content of the snapshot |
| Arg* | `memcached.c` from the tokens of a lop, sop, mop or bop line to the request handed to the engine: bkeys, eflags, ranges, filters (structure as memory that keeps its old contents), creation attributes, optional parts, reply modes, limits | tokenizer (Tok*), check of rights with SASL, the key and field lists that follow as data |
| At* | `memcached.c` getattr and setattr from tokens to reply (197-247, 13204-13512, dispatch 13668-13675), `items.c` 737-884, the getattr and setattr functions of the four collections; the structure on the stack is a parameter (`junk`), and so is a write behind its buffer (`Overrun`) | look-up of the item (Kv*), LRU move of an item that becomes sticky or not, overflow action forced by an environment variable; the tree is its number of elements, first and last bkey; SASL check |
| Ps* | `stats_prefix.c`: table of prefixes with chains, insertion, deletion, reset, all counts, the text with its buffer size and assertions; the switches and the limit of `memcached.c` 8065-8077, 8455-8502 | failed `malloc`; the lock (every function runs under it); which command reports which operation and hit (arguments of the history) |
| Kl* | key-value lines of the text protocol: `memcached.c` 8595-8676, 8733-9059, 13507-13559, dispatch 13600-13712, and the texts of the replies (2986-3080, 3311-3441), on top of the Kv engine model and the time conversion of At | splitting into words (Tok) and reading of the data block (Cn); mget; rights; statistics; objects that are too large; LRU effect of the keys in front of a too long one in a get |
| Cl* | the command log `cmdlog.c`: record text (395-415), ring buffer under its lock (417-441), flush thread (136-228) with its look at the buffer without lock split from its write and its update, rotation, start, stop, quit | dates and file names, sleeping and waking of the flush thread (it may run at any time), failed `malloc` and `pthread_create`; lengths of the path |
| Mb* | pools of memory blocks `mc_util.c` 27-162 with next pointers in a heap: create, grow with failing malloc, take, merge, give back, destroy, with their assertions and null pointers | the bytes in the blocks (Tok reads them), wrap of the counts at 2^32 blocks |
| Lq* | detection of long queries `lqdetect.c` 83-183, 214-233, 243-284, 320-344 and the test of the threshold in 346-471: counts, text buffers that keep their old bytes, test of repetition with the field of the argument that is not set, shortened keys, stop by overflow, the text of show | the query texts of lists and trees (given, at most 191 bytes), dates and text of `lqdetect stats`, failed malloc, bytes 0 in keys; test of the threshold and the lock taken as one step |

Not modelled at all: `thread.c`, the binary protocol and most of the
protocol parser of `memcached.c`, ZooKeeper code, the other statistics, the demo engine, SASL.

## 3. Per property

| id | model | how it is proved |
|----|-------|------------------|
| C01-C04 | Kv | refinement of the engine state to a map with expiry and versions, induction over the operation list |
| C05 | Kv | invariant for immediate flushes; three refutations |
| C06, C07 | List | refinement of the heap to a sequence, induction over the command list |
| C08-C10 | Set, Map | invariant of the hash tree and refinement to sets and maps for any hash function; refutations for colliding hashes and repeated fields |
| C11, C16 | Bt | algebraic laws of the comparison functions, filter against its bitwise meaning |
| C12-C15, C17-C19 | Bt | refinement of the level/node structure to a sorted list for every history |
| C20, C40 | Smget | merge of the per-key scans against sorting of the concatenation; four refutations |
| C21, C22, C41, C42 | Assoc | invariant of table and expansion; coverage by reversed-bit cursor and by placeholder under every interleaving |
| C23, C43, C44 | Pfx | counters equal sums over the items; scan coverage |
| C24 | Rec | byte level round trip of every record; refutations for snapshot elements, removed maxbkeyrange, long flush |
| C25, C46 | Lb | invariant relating ring, queue, files and the records accepted so far, for every interleaving of the critical sections; variant for draining |
| C26 | Sy | trace invariant: some earlier moment's files are covered by what is durable; refutation (record across a 32 KiB boundary) |
| C27, C28 | Rcv | induction over the replayed bytes for any cut; refutations for a second crash |
| C30, C45 | Ck | invariant over all rounds, faults and crashes; refutations (truncated time in the sweep, clock set back) |
| C33-C35 | Util | equality with a specification for all byte strings; refutations |
| C38, C39 | Kv | invariant: references, LRU order and victims; refutations (tail repair, leak) |
| C36 | Tok | induction over the line: buffer, tokens, rest; keys of get by induction over the rounds; refutation (NUL byte) |
| C37 | Tok | invariant of the block loop; exact set of accepted texts for every block length; refutations at block boundaries |
| C32 | Slb | invariant over the words of the memory itself (tags of head and tail words, linked lists, class ranges) by induction over the history: areas in use never share an address and lie in slabs, keep their contents, tile the blocks with no two free neighbours, totals exact, empty blocks are given back, when a request is refused; refutation (item size limit below 256 KB) |
| C47, C48 | Slb | limit: invariant per class of slabs obtained beyond the limit; chunks: invariant of C32 |
| C50-C52 | Cn | one invariant over all runs: sent bytes followed by the answer to what is in the buffers and on the way are the answer to the whole stream (a function of the bytes alone); lines up to the limits of the code (`line_ok`), engine that provides enough memory for a block (`engine_ok`). Refutations: a line over the limits is answered or closes the connection depending on packets; end of stream after a read that filled the buffer drops commands |
| C54-C56 | Kt | invariant over all histories of list changes: reference counts equal occurrences, free and used records cover all records, the array is strictly ordered by name and the ring is its sorted points; binary search finds the next point; specification: nearest point clockwise, ties to the first name. Refutations for questions during a change, the empty cluster, recovery from a failed allocation, replacing servers with an exhausted free list |
| C57, C58 | Arg | specification: a grammar (relation between lists of words and requests, ArgSpec.v) with optional parts by concatenation; numbers as in UtilSpec. Soundness and completeness of the parser for every line and every earlier memory, hence one meaning per line; `Fault` (NULL token) is never reached; memory behind the filter is unchanged. Partial: forms accepted beyond the documents are listed as the relation `lax`, and the 101st value of 31 bytes in a filter is excluded (`narrow`). Refutations for both |
| C59, C60 | At | specification: relation `asks` from a word to a change, `fine` (which values are refused), `after` (record with the last change of each kind), `shows` (attribute to text); the loops of the code are proved equal to these for every list of words; induction over sequences of commands for the limits; length bound 86 bytes a line |
| C61, C62 | Ps | specification: `tally` over the history, relation `prefix_of`; simulation between table and tally for any hash function; format string against the list of letters; invariant that the running totals are the number of entries and the sum of the name lengths; induction over histories |
| C63 | Kl | specification: relation `says` between words and requests (grammar of the documents) with the number relations of Arg, and the list `ignores` of what is accepted in addition; both directions by cases; functional; counterexamples |
| C64 | Kl | specification: relation `answers` between map, request, reply text and new map; the engine steps of each request composed through the refinement of Kv (eviction off, so that steps are exact), times through At, induction over the sequence; set followed by get derived from it |
| C65 | Cl | specification: fold over events and answers (`logged`, `counted`), files concatenated; invariant `J` (geometry of the ring, what the flush thread may assume at each place, entered = written ++ pending) by induction over events in any order; for the end after a stop the invariants `B` (head is a multiple of 4096 while in use, end of the wrapped part beyond it) and `K`, and a decreasing rank; abort and lost text as concrete or inductively built histories |
| C66 | Cl | record text against `entry`, all lengths but 400; counterexample at 400 |
| C67 | Mb | specification without pointers: free sequence and one sequence of blocks per list (`anext`), lists known to the user by their status; refinement relation `R` (chains by `follows`, tails, counts, free and given blocks a permutation of all allocated ones), preserved by every operation, induction over the history; destruction by induction over the chain |
| C68 | Lq | specification: relation `bnext` of a book (counts and kept requests per command) and shown texts; refinement `rel` by induction over the history: entries by `ent`, length of a line at most 499, offsets at most 499 per line, decimal texts read in one way so that equal texts are equal queries; the relation has one answer (`books_one`). A stop and a start between the test of the threshold and the lock are not covered (then a request below the new threshold can be shown), hence _partial |
| C53 | Cn | the pipe state is followed through every sequence of piped commands against a specification written from the documentation; refutations for a refused line and for a query inside a pipeline |
| C29, C31, C49 | Rp | invariant per key, by induction over the events: replaying the old log and snapshot, and, during a scan, the future snapshot with the new log, gives the live item as it will be seen at the recovery time; holds for every interleaving with other keys; refutations for each excluded case |

## 4. Trusted base

* Coq's kernel (including `vm_compute`).
* `Print Assumptions` answers "Closed under the global context" for every theorem
  named in MANIFEST.json.  No axioms are added.  The check of the whole development lists seven
  library axioms, `Coq.ssr.ssrunder.Under_rel.{Under_rel, Under_rel_from_rel, Under_relE, Over_rel,
  over_rel, over_rel_done, under_rel_done}`; they come with the standard library modules loaded by
  `Lia`/`Zify` and no theorem depends on them.
* The transcription of C into Gallina, with the simplifications stated in the
  comments of the models and the table above.
* The assumptions about the environment in the comments: little endian 64-bit
  machine, C library functions (`strtoull`, `strncmp`, `alphasort`, `atoi`) as specified, file
  writes that do not fail, fsync that keeps what it has secured.

Domains.  Where a theorem of the Kv family says `runs_ok`, histories are restricted to: prefix part of
stored keys below 256 bytes, clock below 2^32-1, immediate flushes that find no item which
was pulled out of its LRU list in the current second, no tail repair.  Theorems about the B+tree
assume filters accepted by the parser.  The log buffer theorems assume that the
queue of flush requests has room (it is sized for 16-byte records) and records
smaller than the buffer.  The allocator theorems take `malloc` to return fresh memory aligned to 8 or
nothing, areas whose first word (reference count and class of an item) is not zero while in use,
frees with the size of the allocation, and `item_size_max` of at least 256 KB.

## 5. Behaviour of the code that contradicts the properties

Shown in Coq (`_refuted` theorems):

* C04 stored values are not NUL terminated; for values of 2^63 and more the parser looks for '-' behind the item.
* C05 a later delayed flush revives items already flushed; items held by a reader and pulled out of
  the LRU list survive a flush; the length of a prefix is kept in 8 bits.
* C06 index -2^31 of `lop insert` is negated (undefined behaviour).
* C08, C10 elements with equal hash drive the hash tree past its depth; `mop get` with a repeated field overruns its array.
* C18, C19 maxbkeyrange with bkeys of different lengths; drops caused by maxbkeyrange are not signalled.
* C22, C41-C43 SCAN loses keys of crowded chains, a count over 200 fails an assertion, the first
  question to a new scan reads an uninitialised index, prefix scan overruns its array.
* C23, C44 prefixes of 256 bytes and more, collections of 4 GiB, replacing a sticky item.
* C24 snapshot elements over 10 bytes and B+tree elements of trees with a maxbkeyrange are damaged, removal of a
  maxbkeyrange is not replayed, a flush record with a long prefix is cut.
* C25 the size of the next file is not reset when a checkpoint fails: the next good one aborts the server; a stale dual
  write flag puts records of a failed checkpoint into the next file.
* C26 a command is answered when the first byte of its record is synced; the rest may still be in memory.
* C28 a crash inside a BEGIN/END group followed by more logging loses or forges commands.
* C29 `flush_all` during a checkpoint also removes, at recovery, what was stored afterwards under keys the scan had not met; `setattr maxcount`
  between capture and writing of a collection, or a command before the first step of the scan, loses the collection.
* C31 an overwrite with an expiry that passes before the recovery brings the older value back; an item whose life was prolonged by
  `setattr` is lost when the first expiry has passed.
* C49 delayed flushes are not logged; nor is the trimmed mark set by a refused insert; unsetting maxbkeyrange, or setting one of the other bkey type,
  is replayed wrongly and the next insert removes the B+tree; collection attributes set on a plain item, or maxbkeyrange on a list, set or map, are accepted live
  and remove the item at recovery.
* C30, C45 the sweep compares file times with `atoi` and removes the files in use; a clock set back selects an old checkpoint.
* C33, C35 white space is read as the number 0; keys with a backslash do not match the scan patterns that name them.
* C36 a NUL byte at the start of the untokenized rest drops the other keys of a `get` line silently.
* C32 the server accepts `-I` from 20 KB, but with less than 256 KB a slab of blocks has no block: the allocator hands out 256 KB at an area obtained with `malloc(0)`; areas overlap and lie outside of any memory obtained (`C32_small_item_size_max_refuted`).
* C37 when a block ends or starts with the delimiter just after the announced number of keys, the rest of the list is ignored and
  the request accepted; a last block holding only the delimiter fails an assertion (remote stop of the server by one `mget`).
* C38 tail repair frees items in use; `incr` on a collection leaks a reference.
* C40 the limit offset+count wraps; NUL bytes end keys in comparisons; a repeated key fails.
* C50 whether a line of more than 1024 bytes with more than 100 leading blanks (or a non-get line over 24 KB) is answered or closes the connection
  depends on the packets; commands are dropped when the client closes right after a read that filled the buffer exactly.
* C53 a line refused before its last word is read (unknown command, too many tokens) clears the pipe state: the rest of the pipeline is executed as a new one;
  a query inside a pipeline is answered before the statuses of the commands in front of it.
* C54 while a new server list is taken over, shared nodes are renumbered outside `ketama_lock`: a server may disown a key that is its own before and after, and
  `scrub stale` then removes it; with an empty list the first element of an empty ring is read; after a failed allocation a return to the list in use is
  "unchanged" and the server never answers again.
* C56 `do_node_free_list_prepare` counts nodes in use as available: replacing servers in one step (two of eleven that were given at once, or one of eleven that
  joined one by one) fails an assertion in every server of the cluster.
* C57 words behind the end are ignored in `sop exist`, `mop update`, `mop delete ... drop`, `bop incr`/`decr` with an initial value and eflag; `create` without a maximum
  count is accepted with `noreply` only; `bop smget` compares offset + count with the limit after the sum went over 2^32 (offset 4294967295 is accepted).
* C58 the 101st value of a filter list is stored behind the array of 100: with values of 31 bytes it overwrites the lengths, offset and operation numbers of the filter and
  25 bytes of the structure behind; a line of 6.6 KB (24 KB are allowed) is accepted with operation numbers that index the function tables out of bounds.
* C59 setattr of an attribute the type of the item does not have (maxcount, overflowaction, readable of a kv item, maxbkeyrange of a list, set or map) answers OK and does nothing; the documents say `ATTR_ERROR not found` (C59_foreign_refuted).
* C60 `getattr <key> minbkey` or `maxbkey` of an item that is not a b+tree prints the uninitialised structure on the stack: the reply leaks memory and varies; with a length byte of 255 two such names write more than the 1024 bytes of the buffer (C60_foreign_refuted).
* C61 the name check of a new entry looks at the first byte of the key even if there is no prefix: a key without prefix that starts with a hyphen is counted only if another
  key without prefix was used before, so the order of two commands changes the counts (C61_hyphen_refuted). The 10000th prefix is listed with zeros, its operation is lost and the
  statistics are switched off (C61_last_prefix_refuted); from then on flush_prefix leaves the counts of the prefix. The documents (ch12) name pgs/pgh as counts of `bop gbp`; the
  code prints `bop pwg` there and `bop gbp` as gps/gph.
* C63 `flush_all <delay> <word>` with a word that is not `noreply` (a misspelling of it, say) ignores the delay and flushes at once (C63_flush_refuted), likewise `flush_prefix`; it may
  even be that the delay is no number. `flush_prefix noreply` flushes the prefix of that name and sends no answer (C63_noreply_refuted). set, add, replace, append, prepend, cas, incr,
  decr and touch ignore one word too many (C63_extra_refuted). A storage line that is refused because of a bad number or key does not swallow its data block, which
  is then read as commands (seen in the code; the data block is an argument of the model).
* C64 a `set` that finds no memory removes the old value (stated in the specification).
* C65 if the commands fill the 10 MB buffer of the command log before the flush thread has released its first block (head is 0:
  slow disk, first write), `cmdlog_write` wraps and then fails its own assertion `last == 0`: the server stops (`C65_abort_refuted`).
* C65 a command entered between the flush thread's look at the buffer and its test of the switch is lost when the log is stopped in
  that gap and the buffer was empty at the look: the thread ends as after a complete log, and the command is not counted as skipped (`C65_stop_refuted`).
  In the same gap, a writer that wraps the buffer leaves the head at the end of the wrapped part; the thread then spins, the rest is never written and a new start is refused for ever (`C65_stuck_refuted`).
* C65 a stop for the number of files, and the end of the server, drop what is still in the buffer (stated: only a beginning is promised). A file change may split a line.
* C66 a record of exactly 400 bytes loses its line feed and is not marked as cut (`>` instead of `>=`, `C66_lines_refuted`).
* C46 the shutdown writes one flush request only.

Noted while reading, without a theorem: the snapshot file is never fsynced
(`chkpt_snapshot.c`), so after the old files are removed a power failure may lose
everything; `int` file offsets end at 2 GB (`cmdlogfile.c`); a delayed flush is not logged;
`item_apply_kv_link` may replace a collection by a key-value item;
`total_bytes_inclusive` is initialised from the wrong field (`prefix.c` 145, unused with depth 1);
`mop delete` in the error state of a pipeline swallows the fields without the two bytes of CR LF (`memcached.c` 12541);
stopping the group commit thread asserts that nobody waits.
