{"id": "C01", "title": "Forward slicing selects the documented elements", "statement": "For every list (or string) and every slice a:b:k whose step k is positive or omitted, seq[a:b:k] yields exactly the elements at positions start, start+k, start+2k, ... below stop, where start and stop are obtained by the usual rule (omitted -> ends, negative -> counted from the end, then clamped into [0,len]). A step of 0 raises ValueError.", "quantifier": "all sequence lengths, all optional 64-bit start/stop values, all positive steps", "why_tests_cant": "the index space is unbounded (len x start x stop x step); unit tests sample a handful of corners", "anchors": ["base/builtin/slice.c:normalize_slice", "base/builtin/list.c:B_SequenceD_listD___getslice__", "base/builtin/str.c:B_SliceableD_strD___getslice__"]}
{"id": "C02", "title": "Backward slicing selects the documented elements", "statement": "For every list and every slice a:b:k with negative step, seq[a:b:k] yields exactly the elements at positions start, start+k, ... above stop, under the same rule as Python (clamping into [-1,len-1]), and never reads outside the sequence.", "quantifier": "all sequence lengths including empty, all optional start/stop values, all negative steps", "why_tests_cant": "off-by-one errors in the clamp only show for start/stop below -len or for empty sequences", "anchors": ["base/builtin/slice.c:normalize_slice", "base/builtin/list.c:B_SequenceD_listD___getslice__"]}
{"id": "C03", "title": "A list behaves as a mathematical sequence", "statement": "Starting from an empty list, after any sequence of append, insert, pop, extend, clear, reverse, copy, index assignment and element deletion the observable content (length, every element, every return value, every exception) equals that of the corresponding abstract sequence operation; the backing store is never read or written outside its capacity.", "quantifier": "all finite operation sequences with all arguments", "why_tests_cant": "the capacity/grow/shrink bookkeeping depends on the whole history of operations", "anchors": ["base/builtin/list.c:expand", "base/builtin/list.c:shrink", "base/builtin/list.c:B_SequenceD_listD_append", "base/builtin/list.c:B_SequenceD_listD_insert", "base/builtin/list.c:B_listD_pop"]}
{"id": "C04", "title": "Indexing a list returns that element or raises IndexError", "statement": "l[i] (and l[i] = v) accesses element i when 0 <= i < len(l), element len(l)+i when -len(l) <= i < 0, and raises IndexError for every other integer i.", "quantifier": "all lists, all 64-bit indices", "why_tests_cant": "the interesting indices are far outside the range any test tries (e.g. multiples of 2^32)", "anchors": ["base/builtin/list.c:B_SequenceD_listD___getitem__", "base/builtin/list.c:B_SequenceD_listD___setitem__", "base/builtin/list.c:B_SequenceD_listD___delitem__"]}
{"id": "C05", "title": "Slice assignment and slice deletion", "statement": "l[a:b:k] = src replaces exactly the selected positions (for k = 1 the selected segment is replaced by all of src, for other k the lengths must agree, otherwise ValueError); del l[a:b:k] removes exactly the selected positions and keeps the order of the others; no memory outside the list is touched.", "quantifier": "all lists, slices and source lists", "why_tests_cant": "in-place memmove arithmetic has many size relations (grow, shrink, equal, empty, negative step)", "anchors": ["base/builtin/list.c:B_SequenceD_listD___setslice__", "base/builtin/list.c:B_SequenceD_listD___delslice__"]}
{"id": "C06", "title": "List comparison is the lexicographic order", "statement": "For lists over an element type with a total order, ==, <, <=, >, >= on lists are the lexicographic comparisons: exactly one of a<b, a==b, a>b holds, < is transitive, and <= is (< or ==).", "quantifier": "all pairs/triples of lists", "why_tests_cant": "order laws quantify over triples of unbounded lists", "anchors": ["base/builtin/list.c:B_OrdD_listD___lt__", "base/builtin/list.c:B_OrdD_listD___eq__"]}
{"id": "C07", "title": "range(start, stop, step) enumerates exactly the arithmetic progression", "statement": "Iterating range(a,b,s) yields a, a+s, a+2s, ... while the value is below b (s>0) or above b (s<0), each once, then StopIteration; in particular it yields nothing when a is already past b.", "quantifier": "all start, stop, non-zero step", "why_tests_cant": "the failing inputs need step larger than the (wrong-signed) distance, which tests do not try", "anchors": ["base/builtin/range.c:B_rangeD___init__", "base/builtin/range.c:B_IteratorD_rangeD_next"]}
{"id": "C08", "title": "A dict is a finite map under every history of operations", "statement": "Starting from an empty dict, after any finite sequence of setitem, getitem, get, get with default, delitem, pop, popitem, setdefault, update, contains and len with keys from any type whose equality is an equivalence and whose hash respects it, every result and exception equals that of an abstract finite map (deleting or popping a missing key is not an error), and every lookup terminates.", "quantifier": "all histories of operations, all hash functions compatible with equality (including total collisions)", "why_tests_cant": "probe sequences, tombstones, the small-table mode and resizing interact over the whole history and over the hash function", "anchors": ["base/builtin/dict.c:lookdict", "base/builtin/dict.c:insertdict", "base/builtin/dict.c:dictresize", "base/builtin/dict.c:B_dictD_pop", "base/builtin/dict.c:B_MappingD_dictD_popitem", "base/builtin/dict.c:B_MappingD_dictD_setdefault"]}
{"id": "C09", "title": "Dict iteration follows insertion order", "statement": "keys(), values() and items() enumerate each live entry exactly once, in order of first insertion since the key was last absent, and popitem removes the most recently inserted entry.", "quantifier": "all histories of operations", "why_tests_cant": "order must survive resizes and deletions at arbitrary points", "anchors": ["base/builtin/dict.c:B_MappingD_dictD_keys", "base/builtin/dict.c:B_MappingD_dictD_popitem", "base/builtin/dict.c:dictresize"]}
{"id": "C10", "title": "Dict equality and ordering are extensional", "statement": "a == b holds exactly when both dicts have the same keys with equal values; a < b / a <= b / a > b / a >= b are the corresponding (strict) sub-map relations, independent of how the dicts were built.", "quantifier": "all pairs of dicts, all histories by which they were built", "why_tests_cant": "a dict's internal representation (small or hashed) depends on its history", "anchors": ["base/builtin/dict.c:B_dictrel", "base/builtin/dict.c:B_OrdD_dictD___gt__", "base/builtin/dict.c:B_OrdD_dictD___ge__"]}
{"id": "C11", "title": "Dict operations stay inside the table", "statement": "No sequence of dict operations reads or writes outside the table's index array or entry array.", "quantifier": "all histories of operations", "why_tests_cant": "an out-of-bounds write to a neighbouring header field does not crash and is invisible to a test", "anchors": ["base/builtin/dict.c:lookdict_index", "base/builtin/dict.c:B_dictD_pop", "base/builtin/dict.c:B_IndexedD_MappingD_dictD___delitem__"]}
{"id": "C12", "title": "A set is a finite set under every history of operations", "statement": "Starting from an empty set, after any finite sequence of add, discard, remove, contains, clear, update, pop and the binary operations, every result equals that of an abstract finite set.", "quantifier": "all histories of operations, all hash functions", "why_tests_cant": "open addressing with tombstones and resizing: correctness depends on the entire history", "anchors": ["base/builtin/set.c:B_set_add_entry", "base/builtin/set.c:B_set_contains_entry", "base/builtin/set.c:B_set_table_resize", "base/builtin/set.c:B_set_discard_entry"]}
{"id": "C13", "title": "Set membership and insertion always terminate", "statement": "For every set reachable by any history and every element, contains and add return after finitely many probes.", "quantifier": "all histories and all 64-bit hash values", "why_tests_cant": "non-termination needs a particular hash value and table content", "anchors": ["base/builtin/set.c:lookkey", "base/builtin/set.c:B_set_add_entry"]}
{"id": "C14", "title": "sorted() returns a stable sorted permutation", "statement": "For every list and every total preorder given by __lt__/__eq__, sorted(l) terminates, its result is a permutation of l, is non-decreasing, and equal elements keep their relative order; the run stack never overflows and no element outside the array is accessed.", "quantifier": "all lists of every length, all total preorders", "why_tests_cant": "tim sort's run decomposition and merge invariants only show on long adversarial inputs", "anchors": ["base/builtin/timsort.c:tim_sort", "base/builtin/timsort.c:merge", "base/builtin/timsort.c:collapse", "base/builtin/timsort.c:count_run", "base/builtin/builtin_functions.c:B_sorted"]}
{"id": "C15", "title": "Fixed-width integer arithmetic", "statement": "For the integer types int, i32, i16, i8, u64, u32, u16, u8, u1, the results of +, -, *, unary -, and, or, xor, shifts within range agree with the mathematical operation whenever the mathematical result fits in the type, and with its residue modulo 2^N for the unsigned types otherwise.", "quantifier": "all operand values of each width", "why_tests_cant": "2^128 operand pairs", "anchors": ["base/builtin/int.c", "base/builtin/i32.c", "base/builtin/i16.c", "base/builtin/i8.c", "base/builtin/u64.c", "base/builtin/u32.c", "base/builtin/u16.c", "base/builtin/u8.c"]}
{"id": "C16", "title": "Integer conversions are value preserving or raise", "statement": "T(x) for an integer type T and any integer x returns a value equal to x when x is representable in T and raises ValueError otherwise; it never silently changes the value.", "quantifier": "all integers x, all integer types", "why_tests_cant": "the failing values lie strictly between the type's real bound and the bound that was checked", "anchors": ["base/builtin/int.c:B_intG_new", "base/builtin/i32.c:B_i32G_new", "base/builtin/i16.c:B_i16G_new", "base/builtin/i8.c:B_i8G_new", "base/builtin/u8.c:B_u8G_new", "base/builtin/u1.c"]}
{"id": "C17", "title": "Division with remainder", "statement": "For all a and non-zero b of an integer type, a == (a // b) * b + a % b, |a % b| < |b|, divmod(a,b) == (a//b, a%b), // is the floor of the quotient and % has the sign of b; b == 0 raises ZeroDivisionError.", "quantifier": "all operand pairs", "why_tests_cant": "2^128 pairs; sign combinations and INT_MIN/-1", "anchors": ["base/builtin/int.c:B_IntegralD_intD___floordiv__", "base/builtin/int.c:B_IntegralD_intD___mod__", "base/builtin/int.c:B_IntegralD_intD___divmod__"]}
{"id": "C18", "title": "Power and rounding of ints", "statement": "a ** e is the mathematical power (modulo 2^64 representation) for every e >= 0 and raises ValueError for e < 0; round(n, -k) is a multiple of 10^k at distance at most 10^k/2 from n.", "quantifier": "all a, e, n, k", "why_tests_cant": "recursion on the exponent, negative operands and overflow of the power of ten", "anchors": ["base/builtin/int.c:int_pow", "base/builtin/int.c:B_IntegralD_intD___round__"]}
{"id": "C19", "title": "Equal values hash equally", "statement": "For every hashable built-in type, x == y implies hash(x) == hash(y), so that a dict or set keyed by that type finds any key equal to a stored one.", "quantifier": "all pairs of values", "why_tests_cant": "the hash of a pointer instead of a value agrees by accident when tests reuse the same object", "anchors": ["base/builtin/i16.c:B_HashableD_i16D_hash", "base/builtin/i32.c:B_HashableD_i32D_hash", "base/builtin/int.c:B_HashableD_intD_hash", "base/builtin/builtin_functions.c:$HashableTupleD_hash", "base/builtin/str.c:B_HashableD_strD_hash"]}
{"id": "C20", "title": "Messages from one actor to another are handled in the order sent", "statement": "If actor A calls method m1 and later method m2 on actor B (both without delay), B starts m1 before m2, in every schedule.", "quantifier": "all programs, all schedules of worker threads", "why_tests_cant": "depends on thread interleaving", "anchors": ["base/rts/rts.c:FLUSH_outgoing_local", "base/rts/rts.c:PUSH_outgoing", "base/rts/rts.c:reverse_outgoing_queue", "base/rts/q.c:ENQ_msg", "base/rts/rts.c:wt_work_cb"]}
{"id": "C21", "title": "Every message is handled exactly once", "statement": "Every message sent by a method that completed (or suspended) is executed exactly once: it is never lost, never executed twice, and is always in exactly one place (outgoing list, timer queue, actor mailbox, done).", "quantifier": "all programs, all schedules of worker threads and timer expiries", "why_tests_cant": "loss requires a race between two workers and the timer thread", "anchors": ["base/rts/rts.c:FLUSH_outgoing_local", "base/rts/q.c:ENQ_msg", "base/rts/q.c:DEQ_msg", "base/rts/rts.c:handle_timeout", "base/rts/rts.c:wt_work_cb"]}
{"id": "C22", "title": "An actor executes one message at a time", "statement": "At every moment at most one worker executes code of a given actor, an actor is in at most one ready queue at most once, and an actor that waits for a result is not scheduled.", "quantifier": "all programs, all schedules", "why_tests_cant": "mutual exclusion is a property of all interleavings", "anchors": ["base/rts/q.c:ENQ_ready", "base/rts/q.c:DEQ_ready", "base/rts/q.c:ENQ_msg", "base/rts/q.c:DEQ_msg", "base/rts/rts.c:ADD_waiting", "base/rts/rts.c:wt_work_cb"]}
{"id": "C23", "title": "await returns the callee's outcome exactly once", "statement": "When A awaits a message handled by B, A resumes exactly once after B's handler finished, with exactly the value it returned; if the handler raised an uncaught exception A resumes with that exception. No awaiting actor is forgotten when the handler finishes, whether the await is registered before or after the completion.", "quantifier": "all programs, all schedules (including completion racing with registration)", "why_tests_cant": "the race window between testing 'done' and registering the waiter", "anchors": ["base/rts/rts.c:ADD_waiting", "base/rts/rts.c:FREEZE_waiting", "base/rts/rts.c:$AWAIT", "base/rts/rts.c:wt_work_cb"]}
{"id": "C24", "title": "Messages become visible only when the sender commits", "statement": "Messages an actor sends while executing become visible to other actors only when the current message completes, fails uncaught, or suspends at an await; a continuation in progress has no externally visible sends.", "quantifier": "all programs, all schedules", "why_tests_cant": "requires looking at every intermediate state of every schedule", "anchors": ["base/rts/rts.c:PUSH_outgoing", "base/rts/rts.c:FLUSH_outgoing_local", "base/rts/rts.c:$ASYNC", "base/rts/rts.c:$AFTER"]}
{"id": "C25", "title": "Delayed calls fire in due-time order and never early", "statement": "'after t: f()' is delivered to its actor no earlier than the sending message's logical time plus t, delayed calls are delivered in order of due time, calls with equal due time in the order they were sent, none is lost or duplicated.", "quantifier": "all sets of timed messages, all insertion orders, all clock readings", "why_tests_cant": "unbounded interleavings of insertion and expiry", "anchors": ["base/rts/rts.c:ENQ_timed", "base/rts/rts.c:DEQ_timed", "base/rts/rts.c:handle_timeout", "base/rts/rts.c:$AFTER"]}
{"id": "C26", "title": "An uncaught exception does not stop an actor", "statement": "If a message handler raises an exception no handler catches, the actor continues with its next message, every actor awaiting the failed message receives the exception, and messages sent before the failure are still delivered; an exception raised inside try reaches the innermost active handler.", "quantifier": "all programs and handler nestings, all schedules", "why_tests_cant": "exception paths at every step of every schedule", "anchors": ["base/rts/rts.c:wt_work_cb", "base/rts/rts.c:$PUSH_C", "base/rts/rts.c:$POP_C", "base/rts/rts.c:$DROP_C"]}
{"id": "C27", "title": "Actor and message identifiers are unique", "statement": "No two actors or messages created in one run receive the same global key, from any number of threads.", "quantifier": "all numbers of allocations and interleavings", "why_tests_cant": "uniqueness over unbounded histories", "anchors": ["base/rts/rts.c:get_next_key"]}
{"id": "C28", "title": "No ready actor is left unscheduled", "statement": "Whenever an actor is ready to run and no worker is executing, some worker has a pending wake-up: the system cannot go to sleep with work in a ready queue.", "quantifier": "all schedules of enqueueing, idling and wake-ups", "why_tests_cant": "lost wake-ups are interleaving bugs", "anchors": ["base/rts/rts.c:wake_wt", "base/rts/rts.c:wt_work_cb", "base/rts/q.c:ENQ_ready", "base/rts/q.c:DEQ_ready"]}
{"id": "C29", "title": "Netstring encoding round-trips", "statement": "Decoding the netstring encoding of any byte string, followed by anything, returns exactly that byte string, and appending encodings then decoding them one by one returns the list of byte strings.", "quantifier": "all byte strings, all trailing data", "why_tests_cant": "unbounded contents and lengths, embedded separators and zero bytes", "anchors": ["base/rts/netstring.c:netstring_read", "base/rts/netstring.c:netstring_add_ex", "base/rts/netstring.c:netstring_list_count"]}
{"id": "C30", "title": "Netstring decoding is memory safe and rejects malformed input", "statement": "Decoding never examines a byte at or beyond the given buffer length, and returns success only for input of the form digits ':' data ',' whose data has the announced length.", "quantifier": "all buffers of all lengths", "why_tests_cant": "out-of-bounds reads are not observable by ordinary tests", "anchors": ["base/rts/netstring.c:netstring_read"]}
{"id": "C31", "title": "Serialized rows convert to bytes and back", "statement": "deserializing the byte form of any row list gives back the same rows, and every byte string either decodes to rows or raises ValueError without reading outside the input.", "quantifier": "all row lists, all byte strings", "why_tests_cant": "arbitrary (also hostile) byte strings", "anchors": ["base/builtin/serialize.c:$rows_to_bytes", "base/builtin/serialize.c:$bytes_to_rows"]}
{"id": "C32", "title": "serialize/deserialize preserves object graphs", "statement": "deserialize(serialize(x)) is isomorphic to x: same classes and primitive values, same sharing, same cycles.", "quantifier": "all finite object graphs, including shared and cyclic ones", "why_tests_cant": "sharing and cycles are unbounded structures", "anchors": ["base/builtin/serialize.c:$step_serialize", "base/builtin/serialize.c:$step_deserialize", "base/builtin/list.c:B_listD___serialize__", "base/builtin/tuple.c:B_tupleD___serialize__"]}
{"id": "C33", "title": "Database blobs frame rows faithfully", "statement": "Packing serialized rows into a database cell and unpacking it returns the same rows.", "quantifier": "all row lists", "why_tests_cant": "unbounded row lists", "anchors": ["base/rts/rts.c:$total_rowsize", "base/rts/rts.c:insert_row", "base/rts/rts.c:extract_row"]}
{"id": "C34", "title": "Substring search finds the first (last) occurrence", "statement": "find/in/index return the position of the first occurrence of the pattern and -1/False/ValueError exactly when there is none; rfind/rindex return the last; count counts the non-overlapping occurrences found left to right; no byte outside text or pattern is read.", "quantifier": "all texts and patterns of all lengths over all bytes", "why_tests_cant": "skip-table algorithms fail only on special text/pattern pairs", "anchors": ["base/builtin/str.c:bmh", "base/builtin/str.c:rbmh", "base/builtin/str.c:B_strD_count", "base/builtin/str.c:B_strD_find"]}
{"id": "C35", "title": "String positions are character positions", "statement": "For valid UTF-8 strings, find returns a character index, indexing and iterating return whole characters, and a match never starts in the middle of a character.", "quantifier": "all valid UTF-8 texts and patterns", "why_tests_cant": "mix of 1-4 byte characters at every position", "anchors": ["base/builtin/str.c:char_no", "base/builtin/str.c:skip_chars", "base/builtin/str.c:byte_length2", "base/builtin/str.c:B_SliceableD_strD___getitem__"]}
{"id": "C36", "title": "split, join, partition and replace are consistent", "statement": "sep.join(s.split(sep)) == s, s.partition(sep) concatenates back to s with no sep in the first part, and replace(old,new) equals new.join(split(old)) with consistent byte and character counts.", "quantifier": "all strings, separators and counts", "why_tests_cant": "unbounded strings; empty pattern, negative counts", "anchors": ["base/builtin/str.c:B_strD_split", "base/builtin/str.c:B_strD_join", "base/builtin/str.c:B_strD_partition", "base/builtin/str.c:B_strD_replace"]}
{"id": "C37", "title": "strip removes exactly the surrounding characters", "statement": "s.lstrip(cs)/s.rstrip(cs)/s.strip(cs) return s without its longest prefix/suffix of characters from cs; in particular a string consisting only of such characters becomes empty.", "quantifier": "all strings and character sets", "why_tests_cant": "boundary case where everything is stripped", "anchors": ["base/builtin/str.c:B_strD_lstrip", "base/builtin/str.c:B_strD_rstrip", "base/builtin/str.c:B_strD_strip"]}
{"id": "C38", "title": "startswith and endswith test prefixes and suffixes", "statement": "s.startswith(p) / s.endswith(p) hold exactly when p is a prefix / suffix of s (of s[start:end] when bounds are given).", "quantifier": "all strings, all bounds", "why_tests_cant": "non-ASCII suffixes and explicit bounds", "anchors": ["base/builtin/str.c:B_strD_startswith", "base/builtin/str.c:B_strD_endswith", "base/builtin/str.c:fix_start_end"]}
{"id": "C39", "title": "The database's ordered map is a map", "statement": "After any sequence of insert, delete and search with 64-bit keys, the index structure returns for each key the last value inserted and not deleted, enumerates keys in ascending order, reports the right number of items, and successor/predecessor search return the nearest keys, whatever random levels are drawn.", "quantifier": "all histories of operations, all 64-bit keys, all random level choices", "why_tests_cant": "randomised structure, history dependent; comparison truncation needs keys 2^31 apart", "anchors": ["backend/skiplist.c:skiplist_insert", "backend/skiplist.c:skiplist_search", "backend/skiplist.c:skiplist_delete", "backend/skiplist.c:long_cmp", "backend/skiplist.c:skiplist_search_higher"]}
{"id": "C40", "title": "Vector clocks form a partial order with merge as join", "statement": "compare is antisymmetric, transitive and reflexive; update(dest, src) is the least clock above both; increment makes a clock strictly larger; lookups after any history of add/increment/update/remove agree with a finite map from node to counter.", "quantifier": "all clocks, all histories", "why_tests_cant": "algebraic laws over triples of unbounded clocks", "anchors": ["backend/failure_detector/vector_clock.c:compare_vc", "backend/failure_detector/vector_clock.c:update_vc", "backend/failure_detector/vector_clock.c:add_component_vc", "backend/failure_detector/vector_clock.h:BINARY_SEARCH_NODEID"]}
{"id": "C41", "title": "The 32-bit placement hash is collision free", "statement": "hash32 maps distinct 32-bit identifiers to distinct 32-bit values.", "quantifier": "all pairs of 32-bit values", "why_tests_cant": "2^64 pairs", "anchors": ["backend/hashes.h:hash32"]}
{"id": "C42", "title": "Queue consumers see every entry exactly once, in order", "statement": "For each subscriber, the entries returned by successive reads of a queue are the enqueued entries in enqueue order, each exactly once, whatever the chunk sizes and interleaving with enqueues; consume heads never pass read heads and never move backwards; replay returns exactly the read but unconsumed entries.", "quantifier": "all interleavings of enqueue, read, consume, replay, subscribe", "why_tests_cant": "history property over head pointers", "anchors": ["backend/queue.c:enqueue", "backend/queue.c:read_queue", "backend/queue.c:consume_queue", "backend/queue.c:replay_queue", "backend/queue.c:set_private_read_head"]}
{"id": "C43", "title": "Committed transactions are serializable", "statement": "If transactions commit, the final database state and all their reads are explained by executing them one after another; in particular a transaction that read a cell which another committed transaction overwrote in between does not commit.", "quantifier": "all interleavings of concurrent transactions", "why_tests_cant": "anomalies need precise interleavings of validation and persistence", "anchors": ["backend/txns.c:validate_txn", "backend/txns.c:is_read_invalidated", "backend/txns.c:is_write_invalidated", "backend/txns.c:persist_txn"]}
{"id": "C44", "title": "Bucket placement returns live, distinct replicas", "statement": "get_buckets_for_object returns min(replication factor, number of live buckets) distinct live buckets, deterministically and independent of insertion order; the number of live buckets is tracked exactly.", "quantifier": "all histories of add/mark live/mark dead, all object ids and factors", "why_tests_cant": "ring wrap-around and dead-bucket patterns", "anchors": ["backend/hash_ring.c:get_buckets_for_object", "backend/hash_ring.c:add_bucket", "backend/hash_ring.c:set_bucket_status"]}
{"id": "C45", "title": "Crash recovery resumes without repeating effects", "statement": "When the program crashes at any point and is restarted from the database, the messages each actor has sent and the state changes it made are those of some crash-free execution: no step committed before the crash is executed again, and no committed message is lost.", "quantifier": "all programs, all crash points", "why_tests_cant": "crash points cannot be enumerated by tests", "anchors": ["base/rts/rts.c:save_actor_state", "base/rts/rts.c:serialize_actor", "base/rts/rts.c:serialize_msg", "base/rts/rts.c:wt_work_cb", "base/rts/rts.c:deserialize_system"]}
{"id": "C46", "title": "URI quoting round-trips and produces only safe characters", "statement": "unquote(quote(s)) == s for every string, quote(s) contains only unreserved characters, the safe set and %XX escapes.", "quantifier": "all strings, all safe sets not containing '%'", "why_tests_cant": "unbounded strings over all bytes", "anchors": ["base/src/uri.act:quote", "base/src/uri.act:unquote"]}
{"id": "C47", "title": "A diff is a correct edit script", "statement": "The operations returned by the line diff, read in order, consume exactly the old lines (Keep and Delete) and produce exactly the new lines (Keep and Insert); line numbers are the positions of the lines.", "quantifier": "all pairs of line lists", "why_tests_cant": "divide-and-conquer with anchors goes wrong only for crossing unique lines", "anchors": ["base/src/diff.act:myers_diff"]}
{"id": "C48", "title": "min, max, sum, enumerate, zip, map and filter", "statement": "max/min return an element of the iterable that is >= / <= all others (the default only when the iterable is empty), sum is the left fold from start, enumerate/zip/map/filter produce the documented sequences.", "quantifier": "all iterables, all orders, all defaults", "why_tests_cant": "unbounded iterables; the default argument interacts with the elements", "anchors": ["base/builtin/builtin_functions.c:B_max", "base/builtin/builtin_functions.c:B_min", "base/builtin/builtin_functions.c:B_sum", "base/builtin/builtin_functions.c:B_IteratorD_zip_next"]}
{"id": "C49", "title": "Tuples compare lexicographically", "statement": "Tuple <, <=, >, >=, ==, != over component types with total orders are the lexicographic comparisons and form a total order.", "quantifier": "all tuples of every size", "why_tests_cant": "laws over triples of tuples of arbitrary size", "anchors": ["base/builtin/builtin_functions.c:$tupleWitD_lex", "base/builtin/builtin_functions.c:$tupleWitD___eq__"]}
{"id": "C50", "title": "sorted() is safe with any comparison", "statement": "For every list and every pair of pure comparison functions, ordered or not (NaN floats, inconsistent user-defined Ord), sorted(l) terminates, accesses nothing outside its arrays, does not overflow its run stack and returns a permutation of l.", "quantifier": "all lists of every length, all pure comparison functions", "why_tests_cant": "an inconsistent comparison can steer the algorithm anywhere; the damage is out-of-bounds access, not a wrong answer", "anchors": ["base/builtin/timsort.c:tim_sort", "base/builtin/timsort.c:binary_insertion_find"]}
{"id": "C51", "title": "isdisjoint decides whether two sets have a common element", "statement": "For all sets a and b, a.isdisjoint(b) returns True exactly when no element is in both.", "quantifier": "all pairs of sets, all hash functions", "why_tests_cant": "depends on how the iteration over the smaller table ends, for every content", "anchors": ["base/builtin/set.c:B_SetD_setD_isdisjoint", "base/builtin/set.c:B_IteratorD_set_next_entry"]}
{"id": "C52", "title": "Float to integer conversion truncates", "statement": "For a finite float x, int(x) and bigint(x) are x rounded towards zero; in particular an integer-valued float is converted exactly.", "quantifier": "all finite floats", "why_tests_cant": "only floats of magnitude at least 2^52 with an odd mantissa are affected", "anchors": ["base/builtin/bigint.c:B_bigintG_new"]}
{"id": "C53", "title": "Parsing integers", "statement": "int(s) and bigint(s) for a string of optional white space, optional sign, optional base prefix and digits return the number written, for every length, and raise ValueError for any other string.", "quantifier": "all strings, all bases 2..36", "why_tests_cant": "digit counts that are multiples of the internal block length take a different path", "anchors": ["base/builtin/bigint.c:set_str", "base/builtin/bigint.c:set_str0"]}
{"id": "C54", "title": "Shifts of big integers", "statement": "a << k is a * 2^k and a >> k is the floor of a / 2^k for every bigint a and every k >= 0; a negative k raises ValueError.", "quantifier": "all big integers, all shift counts", "why_tests_cant": "word boundaries, counts larger than the number and negative numbers", "anchors": ["base/builtin/bigint.c:B_IntegralD_bigintD___lshift__", "base/builtin/bigint.c:B_IntegralD_bigintD___rshift__"]}
{"id": "C55", "title": "Bitwise operations on big integers", "statement": "&, |, ^ and ~ on bigints are the two's complement operations on infinite bit sequences, and results are normalised, so that they compare equal to the same number computed otherwise.", "quantifier": "all pairs of big integers", "why_tests_cant": "the failing pairs have specific carries at word boundaries", "anchors": ["base/builtin/bigint.c:B_LogicalD_IntegralD_bigintD___and__", "base/builtin/bigint.c:twocompl"]}
{"id": "C56", "title": "The runtime does not crash on a missing message", "statement": "In no schedule does the actor runtime dereference a message that is not there: an actor that executes, sends or is woken always has a current message.", "quantifier": "all programs, all schedules of worker threads", "why_tests_cant": "needs an await whose callee finishes while the awaiting actor's messages are still being sent", "anchors": ["base/rts/rts.c:FLUSH_outgoing_local", "base/rts/rts.c:wt_work_cb", "base/rts/rts.c:ADD_waiting"]}
{"id": "C57", "title": "Idle workers take over ready actors", "statement": "While some worker thread is idle, an actor that is ready in the shared queue does not wait for a busy worker thread: some worker takes it or is being woken for it.", "quantifier": "all numbers of worker threads, all schedules of queueing and waking", "why_tests_cant": "needs two actors made ready in a row while several workers sleep, and a first actor that keeps running", "anchors": ["base/rts/rts.c:wake_wt", "base/rts/rts.c:wt_work_cb"]}
{"id": "C58", "title": "A pause stops all other workers", "statement": "From the moment acton_sync_pause_begin returns 0 until the owner calls acton_sync_pause_end, no other worker thread executes actor code; at most one pause is active; a begin while another is active returns -1; a begin returns once every other worker has come back to the top of its loop.", "quantifier": "all numbers of worker threads, all schedules, any sequence of begin and end calls and shutdown at any point", "why_tests_cant": "depends on the interleaving of parking, release and re-requests", "anchors": ["base/rts/rts.c:acton_sync_pause_begin", "base/rts/rts.c:acton_sync_pause_end", "base/rts/rts.c:maybe_sync_pause"]}
{"id": "C59", "title": "Printing integers", "statement": "str(n) of a bigint is its decimal form: a minus sign if negative, then the digits without leading zeros; int(str(n)) gives n back.", "quantifier": "all big integers", "why_tests_cant": "the recursive splitting of the number takes different paths for different sizes; the failing sizes are a narrow band", "anchors": ["base/builtin/bigint.c:get_str", "base/builtin/bigint.c:get_str0"]}
{"id": "C60", "title": "Requests on the monitor socket are framed and recognised", "statement": "However the stream is cut into pieces, the requests handled on a monitor connection are the requests sent, in order (up to 64 bytes each including framing; a longer one ends the connection); a request is answered exactly by the report it names, and one that names nothing is not answered.", "quantifier": "all request sequences, all ways the network splits them, all request contents", "why_tests_cant": "the number of ways to split a stream is exponential; tests send one request at a time", "anchors": ["base/rts/rts.c:$mon_socket_loop", "backend/actondb.c:main", "base/rts/netstring.c:netstring_read"]}
{"id": "C61", "title": "Distinct database servers have distinct node ids", "statement": "The node id computed from a server's address and port identifies the server: two servers with different addresses or ports never get the same id.", "quantifier": "all pairs of IPv4 addresses and ports", "why_tests_cant": "2^96 pairs; a collision shows only when two servers of one cluster happen to agree in some bits of their addresses", "anchors": ["backend/failure_detector/vector_clock.c:get_node_id"]}
{"id": "C62", "title": "Slices of strings", "statement": "s[a:b:k] is the string of the characters of s at the positions the slice selects, in that order; the memory outside s is not read.", "quantifier": "all strings, all bounds and steps", "why_tests_cant": "needs characters of 1 to 4 bytes at every alignment, and steps that leave the text", "anchors": ["base/builtin/str.c:B_SliceableD_strD___getslice__", "base/builtin/slice.c:normalize_slice", "base/builtin/str.c:skip_chars"]}
{"id": "C63", "title": "Words, lines, padding and tabs", "statement": "split() yields the maximal runs of non-space characters (the rest unsplit once the limit is reached); splitlines() cuts at every line terminator, CR LF being one; ljust/rjust/center/zfill pad to the width; expandtabs fills up to the next tab stop.", "quantifier": "all strings, widths, fill characters, tab sizes and limits", "why_tests_cant": "unbounded strings; the boundary cases involve multi-byte characters, limits and terminators at the ends", "anchors": ["base/builtin/str.c:B_strD_split", "base/builtin/str.c:B_strD_splitlines", "base/builtin/str.c:B_strD_center", "base/builtin/str.c:B_strD_zfill", "base/builtin/str.c:B_strD_expandtabs"]}
{"id": "C64", "title": "String comparison and hashing", "statement": "Two strings are == exactly when they consist of the same characters; <, <=, >, >= are the lexicographic order by code points; equal strings have equal hashes.", "quantifier": "all pairs of strings", "why_tests_cant": "all pairs; the byte order has to coincide with the code point order for every encoding length", "anchors": ["base/builtin/str.c:B_OrdD_strD___lt__", "base/builtin/str.c:B_OrdD_strD___eq__", "base/builtin/str.c:B_HashableD_strD_hash"]}
{"id": "C65", "title": "A queue subscriber is told of new entries", "statement": "A subscriber that has read everything in the queue is sent a notification when the next entry is enqueued (if it can be reached), whatever was read, consumed or enqueued by anyone before, inside or outside transactions; no subscriber is notified twice for one entry, nor again before it has reacted to the last notification.", "quantifier": "all histories of enqueue, read, consume, subscribe and of transactional reads, all numbers of subscribers", "why_tests_cant": "a lost wake-up needs a particular order of requests and shows only as a hang", "anchors": ["backend/queue.c:notify_subscriber", "backend/queue.c:read_queue", "backend/queue.c:consume_queue", "backend/queue.c:set_private_read_head"]}
{"id": "C66", "title": "Database tables are maps", "statement": "After any writes and row deletions, reading a cell gives the columns last written to it (nothing if never written, or if its row was deleted since); reading a row, a range of rows or the whole table gives exactly the cells stored there, in the order of their keys; none of these requests fails.", "quantifier": "all histories of writes and deletions, all key paths, all ranges", "why_tests_cant": "unbounded histories; the range boundaries matter only for particular sets of stored keys", "anchors": ["backend/db.c:table_insert", "backend/db.c:table_search_clustering", "backend/db.c:table_range_search", "backend/db.c:table_delete_row", "backend/actondb.c:get_read_response_packet", "backend/actondb.c:get_range_read_response_packet"]}
{"id": "C67", "title": "The text of a diff can be applied", "statement": "The text diff() returns is a sequence of hunks whose headers give the true position and number of their old and new lines, and that turn the lines of the old text into those of the new; every hunk has a change and at most the requested number of lines of context; it is empty exactly if the texts are equal.", "quantifier": "all pairs of texts, all numbers of context lines", "why_tests_cant": "headers go wrong only for hunks without old or new lines; unbounded texts", "anchors": ["base/src/diff.act:diff", "base/src/diff.act:filter_operations_with_context", "base/src/diff.act:find_chunks", "base/src/diff.act:generate_chunk_header"]}
{"id": "C68", "title": "A URI is its parts", "statement": "Parsing a URI gives a scheme, authority (host, port), path, query and fragment, each free of the delimiters that end it, which put together again are the URI (up to a '/' for an empty path before a query or fragment); every URI put together from such parts parses into exactly them; printing puts the parts together, so parsing a printed URI gives the same parts; anything else is a ValueError.", "quantifier": "all texts, all tuples of parts", "why_tests_cant": "which delimiter ends a part depends on which of the others occur before it, for texts of any length", "anchors": ["base/src/uri.act:URI", "base/src/uri.act:parse_schema", "base/src/uri.act:parse_authority", "base/src/uri.act:parse_path", "base/src/uri.act:parse_query"]}
{"id": "C69", "title": "Bytes are searched, cut and joined as sequences of bytes", "statement": "For bytes, find/rfind/index/rindex/count/startswith/endswith answer about the part of the value between the two bounds exactly; partition, split, splitlines, strip, removeprefix, removesuffix and replace cut exactly at the right occurrences; joining what split returned, with the same separator, gives the original value.", "quantifier": "All byte sequences (including NUL and bytes above 127), patterns, bounds, limits and sets of bytes to strip.", "why_tests_cant": "The search is a skip-table algorithm with special cases per pattern length and the cut positions are computed with pointer arithmetic; wrong answers appear only for particular overlaps and boundaries.", "anchors": ["base/builtin/str.c:B_bytesD_find", "base/builtin/str.c:B_bytesD_split", "base/builtin/str.c:B_bytesD_replace", "base/builtin/str.c:B_bytesD_strip", "base/builtin/str.c:B_bytesD_splitlines"]}
{"id": "C70", "title": "Bytes are indexed, ordered, padded, classified and written in hexadecimal exactly", "statement": "Indexing and slicing bytes follow the Python rules; the comparisons are the total lexicographic order of unsigned bytes; padding yields exactly the requested width; the is... predicates hold exactly of the values they name; hexadecimal text is read into exactly the bytes it denotes and rejected otherwise, and writing is the inverse.", "quantifier": "All byte sequences, indices, slices, widths, fill bytes, and all texts given to from_hex.", "why_tests_cant": "Errors of such functions sit at boundaries (negative index, odd width, byte above 127, odd digit count), which examples sample but do not exhaust.", "anchors": ["base/builtin/str.c:B_bytesD_from_hex", "base/builtin/str.c:B_bytesD_hex", "base/builtin/str.c:B_OrdD_bytesD___lt__", "base/builtin/str.c:B_SliceableD_bytesD___getslice__", "base/builtin/str.c:B_bytesD_center"]}
{"id": "C71", "title": "HTTP messages are cut from the byte stream exactly", "statement": "A complete HTTP/1.0 or 1.1 request or response at the front of the bytes, with ASCII fields and a body framed by Content-Length or chunks, is parsed to the method, path, version, status, header values and body that were written, and the bytes after it are left untouched; a proper beginning of a message is not taken for a message and is kept as it is; whatever the bytes, parsing terminates with a message that is removed from them, with nothing, or with ValueError.", "quantifier": "All such messages, all bytes following them, all points at which a message can be broken off; all byte sequences for termination.", "why_tests_cant": "A message can be broken off at any byte and followed by anything; the tests parse a few whole messages.", "anchors": ["base/src/http.act:parse_message", "base/src/http.act:parse_request", "base/src/http.act:parse_response"]}
{"id": "C72", "title": "The HTTP client gives each response to the request it answers", "statement": "If the other side answers requests in order, every complete response is delivered exactly once to the callback of the request it answers, in order, however the bytes are cut into pieces and however arrivals and new requests interleave; an incomplete response waits in the buffer.", "quantifier": "All histories of requests and arrivals, all responses (after which the connection stays open), all ways to cut the stream.", "why_tests_cant": "The number of interleavings of requests with pieces of the stream is unbounded.", "anchors": ["base/src/http.act:Client", "base/src/http.act:parse_response"]}
{"id": "C73", "title": "The HTTP server hands on every request once and answers it at most once", "statement": "Requests of a connection reach the handler whole, in order, each exactly once, when their last byte arrives; responses written never outnumber requests, and the answer to a waiting request is sent.", "quantifier": "All sequences of requests, all ways to cut the stream, all sessions of arrivals and answers.", "why_tests_cant": "Pipelined requests, pieces that end anywhere and late answers can be combined without bound.", "anchors": ["base/src/http.act:Server", "base/src/http.act:parse_request"]}
{"id": "C74", "title": "Built HTTP messages read back as what they were built from", "statement": "The bytes build_request and build_response make of a method, path, version or status, headers and body are parsed back to exactly these, whatever follows, with the default headers added only if absent and the length of the body announced correctly.", "quantifier": "All methods, paths, statuses, header dicts with proper names and values, and bodies.", "why_tests_cant": "The round trip must hold for all header dicts and bodies, including binary ones that look like messages.", "anchors": ["base/src/http.act:build_request", "base/src/http.act:build_response"]}
{"id": "C75", "title": "Instants and durations compute exactly", "statement": "Adding a duration to an instant, taking one away and the difference of two instants are exact to the attosecond and undo each other whenever the result has 64 bits of seconds; instants are ordered as their attoseconds; unix times are rounded down; a stopwatch measures on the monotonic clock as long as that is comparable.", "quantifier": "All instants, durations and clocks; all readings of the clocks for stopwatches.", "why_tests_cant": "Carries and borrows between seconds and attoseconds happen only for some of an unbounded set of pairs.", "anchors": ["base/src/time.act:Instant", "base/src/time.act:Duration", "base/src/time.act:Clock", "base/src/time.act:Stopwatch"]}
{"id": "C76", "title": "Times are written so that they read back", "statement": "The texts of instants, durations and dates have their fixed layout, say the value they are made from rounded down to their precision, and different moments have different ISO 8601 texts.", "quantifier": "All instants, durations, dates with fields in range and zones.", "why_tests_cant": "Padding, signs and zone offsets matter only at some values; tests look at a few dates.", "anchors": ["base/src/time.act:Instant", "base/src/time.act:Duration", "base/src/time.act:DateTime", "base/src/time.act:Timezone"]}
{"id": "C77", "title": "Random choices stay in range and are even", "statement": "randint(min, max) returns numbers in [min, max) only, and each of them for the same number of values of the underlying generator; choice, sample, randstr, rand_bigint and rand_list return only what they promise, sample from different places, and everything they promise can be returned.", "quantifier": "All bounds, lists and sizes, and all sequences of values of the C library's generator.", "why_tests_cant": "Evenness and range are about all values of the generator; a test sees a few draws.", "anchors": ["base/src/random.ext.c:randlong", "base/src/random.act:choice", "base/src/random.act:sample", "base/src/random.act:randstr", "base/src/random.act:rand_bigint", "base/src/random.act:rand_list"]}
{"id": "C78", "title": "A bytearray is a mutable sequence of bytes", "statement": "After any history of calls (append, insert, item and slice assignment and deletion, reverse) a bytearray has the bytes the same history gives a sequence; every read of it (item, slice, length, truth value, membership, iteration, reversed, sum, product, copy) says so; calls outside their domain raise and change nothing; no call touches memory outside the block.", "quantifier": "All initial values, all histories of calls with any arguments, sizes up to 2^30.", "why_tests_cant": "Reallocation, overlapping moves and the byte behind the last one depend on the whole history.", "anchors": ["base/builtin/str.c:expand_bytearray", "base/builtin/str.c:B_SequenceD_bytearrayD___delslice__", "base/builtin/str.c:B_SequenceD_bytearrayD_insert", "base/builtin/str.c:B_SequenceD_bytearrayD_append", "base/builtin/str.c:B_SequenceD_bytearrayD___getslice__"]}
{"id": "C79", "title": "Bytearrays compare as sequences of bytes", "statement": "==, !=, <, <=, > and >= on two bytearrays say what equality and lexicographic order of their bytes say, whatever was done to them before.", "quantifier": "All pairs of bytearrays with any two histories; all six comparisons.", "why_tests_cant": "The comparison reads up to a NUL byte which earlier calls must have kept in place; it fails only after some histories.", "anchors": ["base/builtin/str.c:B_OrdD_bytearrayD___eq__", "base/builtin/str.c:B_OrdD_bytearrayD___lt__", "base/builtin/str.c:B_SequenceD_bytearrayD___delitem__"]}
{"id": "C80", "title": "A glob pattern matches exactly the paths it describes", "statement": "fs.glob terminates on every pattern and path and is True exactly if, for one way of expanding the braces, the parts of the pattern (escaped and plain characters, ?, *, **, [..] with ranges and negation) taken in order match the whole path; * never crosses a separator; an escaped text matches only itself.", "quantifier": "All patterns, all paths, all separators of one character; no bound on lengths or on the number of braces.", "why_tests_cant": "Backtracking over stars and braces makes the number of cases exponential, and brace expansion restarts the match with a new pattern.", "anchors": ["base/src/fs.act:glob", "base/src/fs.act:_glob_recursive"]}
{"id": "C81", "title": "Relative paths lead where they should", "statement": "file.get_relative_path gives a relative path that, followed from the start directory component by component, leads to the target and has as few components as possible; file.resolve_relative_path follows a relative path, raising ValueError exactly if it leads above the root; resolving the relative path to a target gives a path with the target's components.", "quantifier": "All pairs of paths, absolute or not, with any numbers of slashes, '.' and '..'.", "why_tests_cant": "Paths have unboundedly many components, and empty ones and '..' interact only in some combinations.", "anchors": ["base/src/file.act:get_relative_path", "base/src/file.act:resolve_relative_path"]}
{"id": "C82", "title": "Command lines mean what they say", "statement": "For every parser built with argparse and every command line made of its options (long, with = or a separate value, short, grouped, with inline value), plain arguments and sub-commands in any order, the parsed arguments give each option the value the command line gives it or its default, each positional argument its share of the plain arguments, and the function of the last sub-command; -- ends the options; --help shows the usage; values that are no integers, missing positional arguments, unknown options and superfluous arguments raise ArgumentError; a parser can be used again.", "quantifier": "All parsers (any options, positional arguments and nested sub-commands) and all command lines.", "why_tests_cant": "Command lines combine options of several levels in unboundedly many orders and spellings, and plain arguments are dealt out depending on how many there are.", "anchors": ["base/src/argparse.act:Parser", "base/src/argparse.act:Args"]}
{"id": "C83", "title": "XML trees survive encoding and decoding", "statement": "For every tree of XML nodes, encode writes a well-formed document that fits its buffer exactly, and decoding that document gives back the same tree: names, prefixes, namespace definitions, attributes, texts and tails; the indented form differs only in white space; decode keeps every tag, attribute and character of the document in order, merging text, CDATA sections and text around comments.", "quantifier": "All trees of any depth and width with any strings in them; all documents.", "why_tests_cant": "The buffer size is computed apart from what is written, for unboundedly many combinations of escapes, multi-byte characters, nesting and indentation.", "anchors": ["base/src/xml.ext.c:xmlQ_node2str", "base/src/xml.ext.c:xmlQ_decode", "base/src/xml.act:Node"]}
{"id": "C84", "title": "JSON values survive encoding and decoding", "statement": "For every dict or list of values, nested to any depth, decoding its JSON encoding gives the same keys in the same order and the same values, where integers of all types keep their value; a value of a type JSON does not have raises ValueError; of repeated names in a document the last one counts; a document that is no object (or no array) is refused.", "quantifier": "All values of any nesting with any strings, integers of any size and floats; all documents.", "why_tests_cant": "Values nest without bound, integers have unbounded size, and two separate tables of cases (dict members, list elements) in two directions must agree.", "anchors": ["base/src/json.ext.c:jsonQ__encode", "base/src/json.ext.c:jsonQ__decode", "base/src/json.act:encode"]}
{"id": "C85", "title": "The compiler keeps the meaning of structured control flow", "statement": "For every function body built from if, while, for, try/except/else/finally, break, continue, return and raise, nested in any way, the code the compiler turns it into (jump buffers pushed, popped and dropped; control flow carried through finally parts as exceptions) returns the same value or raises the same exception after the same effects in the same order, leaves the handlers of the callers as they were, and does not end if the source does not; the output is valid C.", "quantifier": "All function bodies of any nesting, all expressions with any effects, all states, all handler stacks of callers, any number of loop rounds.", "why_tests_cant": "Statements nest without bound, and each way of leaving crosses any combination of loops, handlers and finally parts; tests cover a few combinations.", "anchors": ["compiler/lib/src/Acton/Normalizer.hs:exitContext", "compiler/lib/src/Acton/Normalizer.hs:norm'", "compiler/lib/src/Acton/Env.hs:Flows", "base/rts/rts.c:$PUSH_BUF", "base/rts/rts.c:$POP", "base/rts/rts.c:$DROP", "base/rts/rts.c:$RAISE"]}
{"id": "C86", "title": "Different names are different in the C code", "statement": "Two different names of a program (of functions, classes, methods, modules, local variables) and of the compiler itself never become the same name in the generated C code, and every name becomes a C identifier that is no keyword of C, in whatever letters of Unicode it is written.", "quantifier": "All pairs of names, qualified and local, of any length in any characters; names derived from names to any depth.", "why_tests_cant": "A clash needs a particular pair among all pairs of names, in programs that are compiled together; no test enumerates them.", "anchors": ["compiler/lib/src/Acton/Syntax.hs:nstr", "compiler/lib/src/Acton/CodeGen.hs:mkCident", "compiler/lib/src/Acton/CodeGen.hs:unCkeyword", "compiler/lib/src/Acton/CodeGen.hs:gen"]}
{"id": "C87", "title": "An answer from the replicated database speaks for a majority", "statement": "A call of the database client that succeeds was carried out by more than half of the replicas, a call that says 'no quorum' tells the truth, a call for which a majority answers succeeds without waiting for the time-out, two successful calls have a replica in common, and a read returns what the last completed write left.", "quantifier": "All replication factors, numbers of servers, answers of the servers (errors included), orders of arrival, and interleavings of the communication thread with the calling thread.", "why_tests_cant": "The result depends on which answers arrive before which step of the caller; tests run with servers that answer alike and at once.", "anchors": ["backend/client_api.c:add_reply_to_nonce", "backend/client_api.c:add_reply_to_msg_callback", "backend/client_api.c:wait_on_msg_callback", "backend/client_api.c:remote_insert_in_txn", "backend/client_api.c:remote_search_in_txn", "backend/client_api.c:remote_read_queue_in_txn", "backend/client_api.c:get_msg_callback"]}
{"id": "C88", "title": "A transaction on the replicated database is committed by a majority or not at all", "statement": "When a commit returns 'committed', a majority voted for it and a majority has all its writes; otherwise no replica has any of them; on each replica all its writes are applied once or none; two conflicting transactions are not both committed; a commit that was validated returns once the servers are reachable; and no server stops because of messages it has missed.", "quantifier": "All transactions, votes, replication factors, and patterns of lost or late messages in each round, with any number of retries.", "why_tests_cant": "The failures need a particular message of a particular round to be lost or late; the retry loop has no bound.", "anchors": ["backend/client_api.c:remote_commit_txn", "backend/client_api.c:_remote_validate_txn", "backend/client_api.c:_remote_persist_txn", "backend/client_api.c:_remote_abort_txn", "backend/client_api.c:remote_new_txn", "backend/actondb.c:handle_commit_txn", "backend/actondb.c:handle_new_txn", "backend/txns.c:persist_txn", "backend/txns.c:validate_txn", "backend/txns.c:abort_txn"]}
{"id": "C89", "title": "A procedure that waits in the middle goes on as if it had not", "statement": "A procedure that calls other procedures, awaits results, loops, breaks, returns and catches exceptions ends with the value or exception, and with the effects, that its text read from top to bottom gives, although the compiled code returns to the run-time system at every such call and is continued later; it does not end exactly if its text does not; variables changed in a try part are seen by the handler; and the continued code never looks for a continuation or an exception handler that is not there.", "quantifier": "All programs of such procedures, mutually recursive ones included, all nestings of statements, all arguments and worlds, any depth of calls and number of rounds.", "why_tests_cant": "Each nesting of try, loops, breaks and calls gives other continuations; the errors are a wrong jump, a handler left on or taken off the stack once too often, or an old value of a variable in one of them.", "anchors": ["compiler/lib/src/Acton/CPS.hs:cps", "compiler/lib/src/Acton/CPS.hs:needCont", "compiler/lib/src/Acton/CPS.hs:volatileVars", "compiler/lib/src/Acton/Normalizer.hs:exitContext", "base/rts/rts.c:$PUSH_C", "base/rts/rts.c:$POP_C", "base/rts/rts.c:$DROP_C", "base/rts/rts.c:wt_work_cb"]}
{"id": "C90", "title": "Parts of a statement are evaluated from left to right, and only those that are needed", "statement": "Arguments, operands and elements are evaluated from left to right, a call made in the middle of an expression happens at its place, the right side of and and or and the parts of a conditional expression only if they are needed, and the condition of an elif only if the ones before it do not hold; no matter which of the calls change the state of the actor or wait for another one.", "quantifier": "All statements and nestings of expressions, calls and branches, all states, functions that change state, raise exceptions or do not return.", "why_tests_cant": "The rewriting depends on where in an expression the calls with effects are; every nesting gives another sequence of temporary variables, and the errors show only when a call changes what another part reads.", "anchors": ["compiler/lib/src/Acton/CPS.hs:pre", "compiler/lib/src/Acton/CPS.hs:preTop", "compiler/lib/src/Acton/CPS.hs:preSuite", "compiler/lib/src/Acton/CPS.hs:mutCall"]}
{"id": "C91", "title": "A literal stands for the characters it is written to stand for", "statement": "The value of a string literal in the running program is the sequence of characters that its text stands for, with all escapes (quotes, letters, octal, hexadecimal, universal, continued lines, doubled braces); the value of a bytes literal is the sequence of bytes its text stands for, NUL included; a raw string stands for its own text.", "quantifier": "All literals of any length, both kinds of quotes, all sequences of escapes and characters.", "why_tests_cant": "A literal is rewritten by the parser, cut before digits, quoted again, read by the C compiler and by Haskell, and decoded; what goes wrong depends on which characters are next to each other.", "anchors": ["compiler/lib/src/Acton/Parser.hs:parseTextPart", "compiler/lib/src/Acton/Parser.hs:hexSplitString", "compiler/lib/src/Acton/Parser.hs:rawLiteral", "compiler/lib/src/Acton/Normalizer.hs:catStrings", "compiler/lib/src/Acton/CodeGen.hs:genExpr", "base/builtin/str.c:to$str", "base/builtin/str.c:to$bytesD_len"]}
{"id": "C92", "title": "An incremental build gives what a build from nothing gives", "statement": "Whatever was built before, and whatever the sources were then, building a project with the files left by the earlier builds succeeds exactly if a build from nothing does, and every module then has the same interface; building the same sources twice checks nothing again.", "quantifier": "All histories of builds, successful or not, of all sources; all dependencies between modules and between names; all type checkers of a stated form.", "why_tests_cant": "Whether a stale module is noticed depends on the whole history of edits and on every path from a name to what it depends on; a test checks a few edits.", "anchors": ["compiler/lib/src/Acton/Hashing.hs:computeHashes", "compiler/lib/src/Acton/Hashing.hs:hashCycleGroupFromWith", "compiler/lib/src/Acton/Hashing.hs:modulePubHashFromHashMap", "compiler/lib/src/Acton/Compile.hs:runFrontPasses", "compiler/lib/src/Acton/Compile.hs:checkDepModuleRows", "compiler/lib/src/Acton/Compile.hs:checkDepNameRows"]}
{"id": "C93", "title": "Format strings and interpolated strings give the text they describe", "statement": "A format string with the percent operator gives its text with every conversion replaced by its argument, written with the given flags, width and precision, and is rejected when the program is compiled if the arguments are of other types or not as many; an interpolated string gives its text with every expression in braces replaced by its value, written as what stands after the colon says.", "quantifier": "All format strings and interpolated strings, of all lengths and mixtures of text, escapes and conversions, and all arguments.", "why_tests_cant": "Three passes of the compiler read the format separately and must agree on where every conversion ends and which arguments it takes, and the C library reads what they make of it; there are unboundedly many formats.", "anchors": ["compiler/lib/src/Acton/Parser.hs:formatSpec", "compiler/lib/src/Acton/Parser.hs:buildFormatString", "compiler/lib/src/Acton/Types.hs:infer (BinOp _ Strings Mod _)", "compiler/lib/src/Acton/CodeGen.hs:formatLit", "compiler/lib/src/Acton/CodeGen.hs:castLit", "base/builtin/str.c:$FORMAT"]}
{"id": "C94", "title": "Inheritance is one consistent order of ancestors, and attributes come from the most specific one", "statement": "The ancestors of a class or protocol are its parents, their parents and so on with the right type arguments, each once, everything before what it inherits from, parents as written, and in the order in which the parents have them; a declaration is accepted exactly when there is such an order. An attribute is that of the first ancestor declaring it, so that declarations override what is inherited, and the attributes of a class with one parent begin with those of the parent.", "quantifier": "All hierarchies of classes and protocols, of all depths, numbers of parents and of parameters.", "why_tests_cant": "The order is made by merging the orders of all parents, which in turn come from merging, with type arguments put in at every level; hierarchies are unbounded in depth and shape.", "anchors": ["compiler/lib/src/Acton/Env.hs:mro", "compiler/lib/src/Acton/Env.hs:findCon", "compiler/lib/src/Acton/Env.hs:findAncestry", "compiler/lib/src/Acton/Env.hs:findAttr", "compiler/lib/src/Acton/Env.hs:attributes", "compiler/lib/src/Acton/Types.hs:infEnv (Class, Protocol)"]}
{"id": "C95", "title": "Type inference finds the most general solution of equations between types", "statement": "When the compiler makes types equal it ends; if it succeeds the types have become equal and whatever was equal before still is; if it reports an error no choice of the unknown types makes them equal; and what it chooses for the unknown types is no more special than needed.", "quantifier": "All lists of pairs of types, of all sizes, with any number of unknown types, after all earlier equations.", "why_tests_cant": "Substitutions grow with every equation and are applied to themselves; types are unbounded trees, and that no solution exists or is missed cannot be seen from samples.", "anchors": ["compiler/lib/src/Acton/TypeEnv.hs:unify", "compiler/lib/src/Acton/TypeEnv.hs:unify'", "compiler/lib/src/Acton/TypeEnv.hs:usubstitute", "compiler/lib/src/Acton/TypeEnv.hs:usubstWith", "compiler/lib/src/Acton/Syntax.hs:tOpt"]}
{"id": "C96", "title": "The compiler accepts one type for another exactly if it is a subtype", "statement": "When a declared signature is compared with another one, the first type is accepted for the second exactly if it is a subtype: by inheritance, by the bound of a type parameter, by the elements of list, dict and set, by contravariant parameters and covariant results and effects of functions, by tuples position by position, by None and by options. Every type is accepted for itself, casts can be put together, and the comparison ends.", "quantifier": "All pairs and triples of types, of all depths, over all class hierarchies.", "why_tests_cant": "Types are unbounded trees and rules interact: that no wrong pair is accepted and that every derivation with steps in between is found is a statement about all pairs.", "anchors": ["compiler/lib/src/Acton/Env.hs:castable", "compiler/lib/src/Acton/Env.hs:findAncestor", "compiler/lib/src/Acton/Env.hs:findTVBound", "compiler/lib/src/Acton/Subst.hs:covariant", "compiler/lib/src/Acton/Types.hs:illegalSigOverride"]}
{"id": "C97", "title": "The type inferred for several uses fits all of them", "statement": "When the compiler chooses a type for values of several types, what it chooses is a supertype of all of them; when it chooses a type for a value with several uses, what it chooses is a subtype of all of them. Equal types give the same type, a class and its ancestor give the ancestor or the heir, None gives an option, and effects give the least or greatest one.", "quantifier": "All lists of types, of all depths, over all class hierarchies.", "why_tests_cant": "Supertypes and subtypes are computed by mutual recursion through the parameters of functions, over unbounded types; that the result bounds all inputs is a statement about all of them.", "anchors": ["compiler/lib/src/Acton/Env.hs:lub", "compiler/lib/src/Acton/Env.hs:lub2", "compiler/lib/src/Acton/Env.hs:lubfold", "compiler/lib/src/Acton/Env.hs:glb", "compiler/lib/src/Acton/Env.hs:glb2", "compiler/lib/src/Acton/Env.hs:glbfold", "compiler/lib/src/Acton/Env.hs:commonAncestors"]}
