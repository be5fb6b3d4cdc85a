# Formal model of actonlang/acton: design

The source modelled is `/repo` (the pinned commit of actonlang/acton): the
run-time system (`base/rts`), the built-in library (`base/builtin`), selected
Acton library modules (`base/src`), and the distributed database
(`backend`).  The model is written in Coq 8.16.1, in `rocq/theories`.

## Conventions

* `M_*.v`  model: total computable Gallina functions; each definition cites the
  file and lines it models.  No proofs.
* `S_*.v`  small specification, independent of the model's helpers.
* `P_*.v`  proofs.
* `T_*.v`  the property theorems: statement, `exact lemma`, `Print Assumptions`,
  plus an `Example` showing that the hypotheses are satisfiable.
* Outcome type `res A := Ok a | Exn e | UB`.  `UB` is a distinct outcome:
  out-of-bounds access, negative `memmove` size, signed overflow, NULL
  dereference.  Fuel exhaustion is a separate value and is excluded by the
  theorems (they show that the stated fuel suffices).
* Where the code violates the English property the theorem is named
  `..._refuted` and exhibits the witness; a `..._partial` theorem states the
  domain on which the property does hold.
* External code (element equality, ordering, hash functions, user
  continuations, the random generator, malloc success) enters as universally
  quantified arguments with the laws needed stated as hypotheses.

## Plan per property

| id | what is modelled | how it is proved |
|----|------------------|------------------|
| C01/C02 | `normalize_slice`, list `__getslice__` over bounded arrays | arithmetic; equality with an independent definition of the selected positions; refutation for negative step |
| C03/C04/C05 | list struct (length, capacity, data array), all mutators, memmove with bounds | refinement: abs = prefix of data; invariant over op lists |
| C06/C49 | lexicographic loops of list/tuple comparison | induction, order laws |
| C07 | range iterator | induction on remaining; refutation |
| C08-C11 | dict table: entries, index array, probe sequence, small mode, resize | refinement to an insertion ordered association list; probe sequence covers the table (number theory of 5i+1 mod 2^k) for termination |
| C12/C13 | set table, dummies, finger | refinement for non negative hashes; refutation of termination for negative hashes |
| C14 | timsort on arrays | permutation + sorted + stable by run invariants |
| C15-C19 | integer types with explicit wrap | arithmetic lemmas |
| C20-C28 | scheduler as a labelled transition system: mailboxes, ready queues, workers, timers, await | inductive invariants over all schedules; race exhibited as refutation |
| C29/C30 | netstring codec over byte buffers | round trip, total safety |
| C31-C33 | rows, bytes, object graphs | round trip |
| C34-C38 | string functions over byte arrays | BMH correctness, UTF-8 decoding lemmas |
| C39 | skip list with levels drawn from an arbitrary oracle | refinement to sorted association list |
| C40 | vector clocks as sorted arrays | refinement to finite maps; order laws |
| C41 | hash32 | explicit inverse |
| C42 | one queue: entries in the skip list, subscribers' heads; histories of requests | invariant relating the state to the record of requests and answers; refutations |
| C43 | write sets, validation, commit, requests of the server interleaved arbitrarily | invariant relating the server to a book of the requests (committed changes in commit order); what validation decides; refutation of serializability |
| C44 | hash ring over the skip list | refinement to a set of servers; uniqueness and stability of placement; refutations |
| C45 | executing, saving, crashing and restoring as transitions of memory and database | invariant relating memory, rows and queues to a crash-free execution; five refutations with concrete crash points |
| C46 | quote/unquote on code points, UTF-8 both ways | the escaped text as a relation; it determines the bytes, the bytes the text; refutation for NUL |
| C47 | myers_diff on lists of any lines | induction on the sum of the lengths: old side, positions, and the script unless unique lines cross; refutations |
| C48 | iterator functions | fold lemmas; refutation for max with default |
| C49 | tuple comparison | as C06 |
| C50 | timsort with an arbitrary pure comparison | the memory invariants of C14 without the order laws |
| C51 | `isdisjoint` over the set table | refutation for every pair of disjoint sets; proved otherwise |
| C52 | double -> bigint via mantissa and exponent | arithmetic on m * 2^e; refutation |
| C53/C59 | bigint parsing and printing over byte buffers, BSDNT words as numbers | induction over digits and words; refutations (sign lost, stack buffer overrun) |
| C54/C55 | bigint shifts and bitwise operations, two's complement words | bit lemmas on Z; refutations |
| C56 | the scheduler model of C20-C26 | same invariants: the message an actor works on exists; refutation from the await race |
| C57 | ready queues and sleeping workers (model of C28) | refutation by a schedule |
| C58 | pause protocol as a transition system | inductive invariant |
| C60 | request framing loop and recognition on the monitor socket | induction over the ways the stream is split; refutation for prefixes |
| C61 | `get_node_id` | arithmetic; refutation |
| C62-C64 | string slices, words, lines, padding, tabs, comparison over byte arrays | the decoding lemmas of C34-C38; order lemma for UTF-8; refutations |
| C65 | the notification flags of the same model | the same invariant; refutation for transactional reads |
| C66 | tables, rows and cells as nested sorted maps, request handlers of the server, response serialization | refinement: a depth-indexed well-formedness invariant, contents of the tree = map computed from the requests |
| C67 | context filter, chunks, headers, text | chunks are maximal runs of the included operations; relation to patching; refutations |
| C68 | URI parsing and printing | each parser cuts at the first delimiter; composition in both directions |
| C69 | bytes: search, split, join, replace, strip, lines | the search lemmas of C61; loop invariants over the bytes already cut |
| C70 | bytes: elements, slices, order, padding, classes, hexadecimal, tabs | induction over the bytes; slices by the lemmas of C02 |
| C71 | HTTP messages | written messages as a relation (`S_Http`); the first blank line of a written head is its end; induction over chunks; for any bytes, every step shortens the rest |
| C72 | HTTP client | invariant over histories: the buffer is an unfinished beginning of the next response |
| C73 | HTTP server | the same for requests; counters of a session as an invariant |
| C74 | building HTTP messages | the bytes built are a written message, then C71 |
| C75 | instants and durations | their attoseconds as one integer; wrapping as congruence modulo 2^64 |
| C76 | texts of times | layouts as concatenations of numerals of fixed width (`S_Time`); injectivity by widths |
| C77 | random numbers | the values of rand() as a list; the values giving each result listed |
| C78 | bytearrays as sequences | block of optional bytes, length, capacity; refinement over histories, the lemmas of C03 for the loops list.c shares |
| C79 | comparisons of bytearrays | strcmp on blocks; the NUL behind the last byte tracked through histories |
| C80 | glob patterns | the recursive matcher with the depth as fuel; induction on the number of closing braces, then on how the pattern is read, then on the path |
| C81 | relative paths | components as lists of names; following a path as a relation; induction on the components, distance in the tree for minimality |
| C82 | argparse | a command line is a list of items (spelling, owner's level, value); the scan of one parser is applying its own uses in order and leaving the rest; induction on the chain of sub-commands; dealing plain arguments as a relation |
| C83 | XML encoding and decoding | the encoder's two passes (sizes, then bytes) against a printing function; a reference reader of XML read on what is printed, by induction on trees; what the parser delivers as tag and character events |
| C84 | JSON encoding and decoding | the two conversions by induction on values, the big integer routines of C53 and C59 inside; the JSON library as arguments with the hypothesis that it reads what it writes, and an instance |
| C85 | structured control flow in the compiler | the pass as a function from statements to statements, both languages with an evaluator, and a simulation by mutual induction on statements with an invariant on the handler stack and the variables the pass invents |
| C86 | names in C | the mangling as functions on texts; a reader that splits a C name at its marks (a capital letter and an underscore), and proofs that it gives back the parts |
| C87 | quorums of the database client | the collecting and the waiting thread as a machine of small steps under their locks; invariants over all runs; counting and the pigeonhole for majorities |
| C88 | replicated commit | servers as state machines, the client's rounds with arbitrary deliveries and replies; invariants over all sequences of rounds |
| C89 | conversion to continuations | the pass as a function to code with nested functions, an abstract machine with continuations, cells and catchers; simulation of a structural semantics with rounds and call depth as fuel, in both directions |
| C90 | evaluation order | the pass that moves calls with effects out of expressions as a function on expressions and statements; equality with a left-to-right evaluator for ordered programs, by induction on expressions and statements; witnesses for the rest |
| C91 | literals | the chain parser, hexSplitString, catStrings, C compiler, Haskell's read, to$str as functions on lists of code points; an inductive relation gives what a text stands for; the text for C is shown to be a sequence of units that the splitting and quoting keep; witnesses for the rest |
| C92 | incremental builds | hashes as free terms, the two ways of computing them for a module, the dependency rows and the decision to reuse, over any type checker given as a tree of questions; invariant of all cached files over all histories; every hash satisfies one equation, equal hashes give equal signatures below; witnesses for circles and imports of all names |
| C93 | format strings | the check of types, the rewriting of the literal and of the arguments, the C literal and printf as functions; by induction on the pieces, all of them agree with a meaning of formats given independently; interpolated strings are reduced to these; witnesses for what is wrong |
| C94 | inheritance | the merge that makes the order of ancestors, with type arguments and paths, and lookup of attributes as functions; ancestors as a relation; by induction on the declarations, parents first |
| C95 | unification | the calls that are still to be made as a stack, the substitution as a list; soundness and generality by induction on the rounds, termination by the number of unknown types left and the size of the equations; witnesses for options |
| C96 | subtyping | the rules as an inductive relation with transitivity, the code with a bound on the depth of calls; soundness by induction on the depth, transitivity by induction on the sizes of three types, exactness by induction on derivations; witnesses for heirs of lists and for options of parameters |
| C97 | common supertypes and subtypes | the four mutually recursive functions with a bound on the depth of calls; one induction on the depth for all four, with a polarity that keeps None out of where subtypes are chosen; witnesses for None |

## Models and what they leave out

All models are sequential functions unless stated otherwise.  `malloc` does not fail,
sizes stay below the bounds stated in the theorems (typically 2^30 elements).

| model | source modelled | simplified or left out |
|-------|-----------------|------------------------|
| `M_Slice`, `M_List`, `M_ListApi` | `base/builtin/slice.c`, `list.c` (struct with length, capacity and data array; all mutators; memmove with bounds) | garbage collection; element equality is an argument |
| `M_Order`, `M_Iter` | comparison loops of lists and tuples; range, enumerate, map, filter, zip, min, max, sum | iterators over user classes are lists of results |
| `M_Timsort` | `base/builtin/timsort.c` (the source has no galloping), merge buffers, run stack | comparison is a pure function |
| `M_Dict`, `M_DictApi`, `M_Set`, `M_SetApi` | `dict.c`, `set.c`: index array, entry array, probe sequence, small tables, resize, fingers | hash and equality are pure arguments; modification during iteration |
| `M_Int`, `M_Hash`, `M_Bigint` | `int.c`, `i*.c`, `u*.c`, hash functions, `bigint.c` | BSDNT's arithmetic is exact arithmetic on numbers; float arithmetic itself is not modelled |
| `M_Rts` | `base/rts/rts.c`, `q.c`: actors, messages, mailboxes, ready queues, workers, timers, await, exceptions, outgoing messages | interleaving at the granularity of the lock-protected sections and single shared accesses, sequentially consistent memory; database off; actors' code is an arbitrary program |
| `M_Key`, `M_Wake`, `M_Pause` | key allocation under the spin lock, wake-up of workers, pause protocol | sequentially consistent memory, libuv's own signalling |
| `M_Netstring` | `base/rts/netstring.c`, framing loop of the monitor socket | socket errors |
| `M_Serialize` | `serialize.c`, `__serialize__`/`__deserialize__` of the built-in classes, database cells in `rts.c` | exceptions' own serializers, iterators, files |
| `M_Str` | `base/builtin/str.c`: the str type (searching, splitting, replacing, stripping, slicing, padding, comparing, iterating) on byte buffers with their terminating 0 | case conversion and character classes (utf8proc tables; white space is an argument); str(), chr above 0x7f, encode; strings longer than an int |
| `M_Ring` | `backend/hash_ring.c`, `add_rts_to_membership` of `client_api.c` | the lost result list |
| `M_Queue` | `backend/queue.c` and the queue part of the message loop of `actondb.c` | queue groups, deletion of queues, vector clocks of heads; subscribers and queues in association lists |
| `M_Table` | the table part of `backend/db.c` (insert, search, range search, deletion) and of `actondb.c` (read, range and write requests, `serialize_cells`) | keys and columns are integers; skip lists are sorted lists (C39); secondary indexes, blobs, versions left out; a deletion in a history is `table_delete_row`, as transactions use it (the server's own request additionally asserts that the row exists) |
| `M_Txn` | `backend/txns.c`, `txn_state.c` (write sets, comparison, validation, persisting) and the transaction requests of `actondb.c` | versions, read sets (the server never fills them), transactional queue reads (C65); write sets are sorted lists (C39); queues are entries and heads (C42); 64-bit overflow of key differences |
| `M_Skiplist`, `M_Hash32`, `M_VClock` | `backend/skiplist.c`, `hashes.h`, `failure_detector/vector_clock.c` | addresses are not reused; ids of IPv6 nodes |
| `M_Diff` | `base/src/diff.act`: all but colours | strings are lists of characters, lists and dictionaries are mathematical ones |
| `M_Uri` | `base/src/uri.act` | strings are lists of code points (C34-C36, C62); case conversion, isalpha and int() are arguments; `utf8proc_iterate` as documented |
| `M_Recovery` | `base/rts/rts.c` worker loop, `save_actor_state`, flushing of outgoing messages, `deserialize_system` | actors exist from the start; no timers and exceptions; keys are naturals; one database server that stays up (its queues and transactions: C42, C43); the transitions are atomic |
| `M_Bytes` | `base/builtin/str.c` 2861-3895 (`bytes`) | a value is the list of its bytes, read with a NUL behind; reading elsewhere or a variable never set is UB; `ctype.h` in the C locale; no decode, no iterator state |
| `M_Http` | `base/src/http.act` (parsers, builders, `Client`, `Server`) | str as code points; `str.lower` an argument, assumed right on ASCII; requests known by numbers; sockets, TLS, DNS, logging left out |
| `M_Time` | `base/src/time.act` (clocks, instants, durations, stopwatches, texts) | reading clocks and localtime/gmtime are arguments |
| `M_Random` | `base/src/random.act`, `random.ext.c` | rand() is a list of values, RAND_MAX = 2^31-1; running out of them = still looping |
| `M_Bytearray` | `base/builtin/str.c` 333-339, 1829-1874, 2589-2861 (`bytearray`: representation, sequence, iterator, order) | the block is a list of optional bytes. The other methods (`find` to `zfill`, 1926-2583) are textually those of `bytes` up to names, or differ in returning a fresh empty value instead of a shared one, so `M_Bytes` models both; `__str__`, serialization and `fromiter` are not modelled |
| `M_Glob` | `base/src/fs.act` 14-175 (`glob`, `_glob_recursive`) | indices replaced by the rests of pattern and path; the separator is one character; `str.find` and `str.split` by their meaning (C34, C36) |
| `M_Path` | `base/src/file.act` 13-125 (`get_relative_path`, `resolve_relative_path`) | the loops over `zip` and `range` as list functions; `split` and `join` by their meaning (C36) |
| `M_Argparse` | `base/src/argparse.act` 224-338, 396-633 (`Args`, `Parser` without the usage text) | dicts as association lists (C09); `int()` and `isalnum()` are arguments; a list default is copied, where the code appends to it in place |
| `M_Xml` | `base/src/xml.ext.c` whole file except the position and message of parse errors | libxml2 is replaced by a reference reader (`S_Xml`), `xmlGetProp` by its documented behaviour; libxml2's limits on depth and size are not modelled; XmlParseError is its base class ValueError |
| `M_Json` | `base/src/json.ext.c` whole file | yyjson's reader and writer are arguments; the two tables of cases, for members and for elements, are one function; dicts are association lists (C09); floats are their bits |
| `M_Control` | `Normalizer.hs` exitContext, handle, the statements if/while/for/try/break/continue/return/raise, Def; `Env.hs` Flows; `rts.c` $PUSH_BUF, $POP, $DROP, $RAISE | expressions, patterns and calls are arguments (any effects, may raise, may not return); with statements, comprehensions and patterns are not modelled; setjmp/longjmp is taken to restore control only (that C keeps local variables across longjmp is not modelled) |
| `M_Names` | `Syntax.hs` nstr; `CodeGen.hs` mkCident, unCkeyword, preEscape, gen of Name, ModName and QName | names without their positions; resolution of aliases is not modelled |
| `M_Quorum` | `client_api.c` add_reply_to_nonce, add_reply_to_msg_callback, wait_on_msg_callback, and the loops over the replies of the remote_* functions | one call at a time; the bytes of messages and the client's list of subscriptions are not modelled |
| `M_Commit` | `client_api.c` remote_new_txn, remote_insert_in_txn, remote_commit_txn and its rounds; `actondb.c` handle_*_txn; `txns.c` validate, persist, abort | one transaction; votes are given; a lost message is one not delivered in its round |
| `M_Cps` | `CPS.hs` cps, needCont, volatileVars, the contexts and their continuations; `rts.c` $PUSH_C, $POP_C, $DROP_C and the cases $RCONT and $RFAIL of wt_work_cb | extra parameters of continuations are the variables at the reference; one cell per variable and call; no else part of loops, no finally part, no nested definitions |
| `M_Hoist` | `CPS.hs` pre, preTop, preSuite on statements, branches and expressions | all forms without effects of their own are one n-ary operation; no Let, Lambda, Yield, no assignment to attributes; the evaluation order of the remaining operations, unspecified in C, is taken from left to right |
| `M_Lit` | `Parser.hs` string, bytes and raw literals, hexSplitString; `Normalizer.hs` catStrings; `CodeGen.hs` Strings and BStrings; `str.c` to$str, to$bytesD_len | literals between single quotes, no interpolated expressions; the C compiler's and Haskell's readings of a literal are modelled after their standards |
| `M_Incr` | `Hashing.hs` computeHashes (acyclic pass and strongly connected components), modulePubHash, dependency rows; `Compile.hs` runFrontPasses as far as hashes go, checkDepModuleRows, checkDepNameRows, the reuse decision | a hash is what is hashed; the front passes are any tree of questions; the order of names is that of the list; all names are public; a build stops at the first error; no implementation hashes, no generated code, no tests |
| `M_Fmt` | `Types.hs` the type of a format string, `CodeGen.hs` formatLit, castLit, `str.c` $FORMAT with printf, `Parser.hs` formatSpec, exprPart, buildFormatString | one literal; how C writes numbers, str() and str.center are arguments of the theorems; expressions in braces are values |
| `M_Mro` | `Env.hs` mro, findCon, findAncestry, findAttr, the order of attributes; `Types.hs` where a class or protocol gets its ancestors | types are variables, constructors and applications; bounds of parameters, types of attributes and extensions are left out |
| `M_Unify` | `TypeEnv.hs` unify, unify', usubst, usubstitute | wildcards, type aliases and unboxed types are left out; every kind of type is a head with a list of arguments, of the right number |
| `M_Sub` | `Env.hs` castable; `Subst.hs` covariant | wildcards and type aliases are left out; the class hierarchy and the bounds of parameters are arguments |
| `M_Lub` | `Env.hs` lub, lub2, lubfold, glb, glb2, glbfold, commonAncestors | wildcards, unknown types, type aliases and unboxed types are left out; ancestors are names, without arguments |

Not modelled at all: the compiler (`compiler/`, Haskell), the garbage collector, libuv and
the network actors, floating point arithmetic, the SQL-like query layer and gossip
protocol of the database (`backend/db.c`, `comm.c`, `fd.c`, `actondb.c`), regular
expressions, JSON, XML, HTTP and TLS libraries.

## Findings

Every `..._refuted` theorem is a place where the code (as modelled) does not have the
property.  In short, with the theorem that exhibits it:

* `l[i:j:-k]` with a bound before the first element, and every backward slice of an empty list, select wrong elements or read outside the array (`C02_*_refuted`); `del l[i:j:-k]` is undefined (`C05_delslice_refuted`).
* List indices are truncated to 32 bits; `del l[i]` never raises (`C04_*_refuted`).
* `range` yields an element when the step points away from stop (`C07_range_refuted`).
* Comparing a small dict with a hashed one, and `>`/`>=` on dicts, are wrong (`C10_*_refuted`); deleting from a rebuilt small table writes before the index array (`C11_dict_safe_refuted`).
* Sets: hash 2^64-1 is taken for an empty slot (`C12_set_refuted`); negative hashes can make lookup loop forever (`C13_set_terminates_refuted`); `isdisjoint` raises StopIteration for disjoint sets (`C51_isdisjoint_refuted`).
* `i16()`/`i8()` silently wrap (`C16_conversion_refuted`); `//` and `%` truncate, `%` by zero and min/-1 are undefined (`C17_*_refuted`); negative exponents, `round` (`C18_*_refuted`); hashes of i32, i16, i8 and float are addresses (`C19_hash_refuted`).
* Large odd floats lose a bit in `int()` (`C52_float_to_int_refuted`); parsing loses the sign of some negative numbers (`C53_parse_refuted`); `>>` rounds toward zero (`C54_rshift_refuted`); some bitwise results are wrong (`C55_bitwise_refuted`); printing 10^18 <= |n| < 2^64 overruns a stack buffer (`C59_str_refuted`).
* `max` with a default ignores elements (`C48_max_default_refuted`).
* Runtime: an actor that awaits is handed to other workers before its outgoing messages are flushed; this breaks message order, visibility, and can dereference NULL (`C20_fifo_refuted`, `C24_..._refuted`, `C25_sent_order_refuted`, `C56_..._refuted`). A worker wakes itself instead of an idle one (`C57_idle_worker_refuted`).
* Appending a netstring after one containing a byte 0 overwrites it (`C29_list_refuted`); monitor requests are recognised by prefix, past the end of the constant (`C60_answers_refuted`).
* Serialization: boxed integers and bytearrays referenced twice, ranges, tables with deleted entries, never-used dicts (`C32_refuted`); storing large states overruns a stack buffer (`C33_refuted`).
* Strings: negative bounds are off by one, bounds and indices are truncated to 32 bits, the empty pattern is treated per byte (`C34_*_refuted`, `C35_*_refuted`, `C36_empty_refuted`); `split(sep, 0)` reads an unset variable and `replace` with a negative count corrupts the heap (`C36_split_refuted`, `C36_count_refuted`); stripping an all-space string leaves a string of length 0 that is not `""` (`C37_refuted`); `endswith` with a non-ASCII suffix, `startswith` with an end (`C38_*_refuted`); stepped slices of non-ASCII strings read outside (`C62_refuted`); `expandtabs` overruns its buffer (`C63_tabs_refuted`); `chr(0) == ""` (`C64_nul_refuted`).
* Database: the ordered map compares the low 32 bits of key differences (`C39_refuted`); vector clocks over-read a full array, truncate counters (`C40_refuted`); node ids collide (`C61_node_id_refuted`).
* Placement ring: with a replication factor above 1 a single server is returned where callers expect a list (`C44_factor_refuted`); a status other than live/dead, or a status change announced by gossip, makes the live count wrong and the search loop endlessly with the lock held (`C44_status_refuted`, `C44_announce_refuted`); servers far apart on the ring are lost (`C44_lost_refuted`).
* Queues: replaying after anything was consumed fails an assertion and ends the server (`C42_replay_refuted`), as do a read of 0 entries and requests for queues that do not exist; heads can be moved back (`C42_refuted`); a transactional read loses the next notification (`C65_refuted`).
* Tables: a range read returns the next row beyond the range (`C66_range_refuted`); on the server, reading a range of cells, reading a cell with fewer columns than the schema, and deleting a missing row each fail an assertion (`C66_cell_range_refuted`, `C66_cell_refuted`, `C66_delete_refuted`); the columns of a new row without clustering keys are lost (`C66_no_clustering_refuted`); cells below the schema's depth are stored under another path (`C66_deep_refuted`).
* Transactions: reads are not recorded, so a lost update commits (`C43_serializable_refuted`); a failed validation does not stop a commit (`C43_unvalidated_refuted`); a row deleted after its cell was written survives (`C43_delete_after_write_refuted`); keys 2^32 apart are the same key (`C43_far_keys_refuted`); writing a cell twice leaves a freed key in the write set (`C43_twice_refuted`); deleting a cell deletes its row, of two queue deletions one is lost (`C43_delete_cell_refuted`, `C43_delete_queues_refuted`); a commit that is done can be answered by an error for ever (`C43_commit_answer_refuted`); two transactions may consume the same entries, which can end the server (`C43_consume_refuted`); deleting a row and writing its cell do not conflict (`C43_overlap_refuted`).
* Diff: unique lines that change places give operations that do not produce the new text (`C47_refuted`); the script is not minimal (`C47_minimal_refuted`); headers of hunks without old lines are wrong (`C67_no_context_refuted`, `C67_from_empty_refuted`); trailing whitespace of the last line is lost (`C67_strip_refuted`); texts that differ in the last newline have an empty diff (`C67_newline_refuted`).
* URIs: unquoting stops at `%00` (`C46_nul_refuted`); users, IPv6 hosts, empty ports, `mailto:` and relative references with a colon are refused (`C68_rfc_refuted`).
* Recovery: messages are lost by a second crash, by a crash between the read and the commit of a save, and by a crash after a refused commit; with two worker threads one message is lost and another repeated; the code before an await is repeated after a crash (`C45_*_refuted`).
* Bytes: negative bounds are mishandled; `split(sep, 0)`, `split()` of white space, a negative `replace` count and `hex()` read uninitialised or foreign memory; `lower`/`upper` convert the new buffer instead of the bytes; `isupper` is never true; `endswith` uses a string comparison from the wrong place (`C69_*_refuted`, `C70_*_refuted`).
* HTTP: a chunk extension loses the chunk, trailers stay in the stream, `Chunked` or `gzip, chunked` never completes, negative lengths are taken, a start line that is not understood throws the whole buffer away (`C71_refuted`); the response to HEAD swallows the next one and old bytes spoil a new connection (`C72_refuted`); the server hands on one request per piece, drops one that came before the handler and never answers again once two wait (`C73_refuted`, `C73_stuck_refuted`); `build_request` keeps a stale Content-Length in the caller's dict and lets line breaks through (`C74_refuted`).
* Time: durations with a second or more of attoseconds are not carried and leave negative attoseconds (`C75_parts_refuted`); half a second before the origin is written `-1.500` (`C76_str_refuted`); zones west of Greenwich are written `--4` without minutes (`C76_zone_refuted`); `str_asctime` names the next month and raises IndexError in December (`C76_asctime_refuted`); `str_rfc1123` says GMT for every zone.
* Random: `randint` over more than 2^31-1 values never returns, over none divides by zero (`C77_refuted`); `sample` does not keep the order it documents (`C77_sample_refuted`); `rand_bigint(18)` is never negative (`C77_bigint_refuted`).
* bytearray: slice assignment always raises StopIteration (`C78_setslice_refuted`); `del b[::-1]` moves memory with a negative size (`C78_delslice_refuted`); `353 in b` looks for 97 (`C78_contains_refuted`); `del b[i]` does not move the NUL, so b"ab" with its second byte deleted is not equal to b"a" (`C79_delitem_refuted`); comparisons stop at a NUL byte (`C79_nul_refuted`).
* glob: `**/foo` matches `barfoo`, so `**/` is not "any number of directories" (`C80_directories_refuted`); `?` and `[^a]` match the separator (`C80_single_separator_refuted`).
* paths: `resolve_relative_path("/", "a//../b")` is `/a/b`, because the empty text between the slashes is what `..` removes (`C81_resolve_refuted`); an absolute second argument is returned although the documentation says ValueError (`C81_absolute_rel_refuted`).
* argparse: unknown options become plain arguments and superfluous arguments vanish although the documentation says ArgumentError (`C82_unknown_option_refuted`); required arguments of sub-commands are not checked (`C82_missing_sub_argument_refuted`); parse pops the parser's arguments, so it works once (`C82_parser_reuse_refuted`); arguments after `--` are read as options by a sub-command (`C82_double_dash_sub_refuted`); `--flag=false` sets the flag and nargs `*` drops its arguments (`C82_flag_value_and_star_refuted`).
* XML: `]]>` in a text is not escaped and control characters are written as they are, so the document is ill-formed; CR reads back as LF and an empty text as none (`C83_text_refuted`); tabs and line feeds in attribute values read back as spaces (`C83_attribute_value_refuted`); `xmlGetProp` ignores namespaces, so `p:x` and `q:x` get the same value (`C83_attribute_prefix_refuted`); encoding a root with a tail gives no document (`C83_root_tail_refuted`).
* JSON: `decode` of a document that is no object, such as `[1]`, returns an empty dict, where `decode_list` raises ValueError (`C84_other_root_refuted`); encoding an infinity or NaN passes NULL to `to$str` (`C84_infinite_refuted`); strings are cut at NUL (`C84_nul_refuted`); the defects of big integer printing and parsing reach JSON documents (`C84_bigint_refuted`).
* Control flow: `break` or `continue` in the else part of a while loop applies to that loop instead of the one around it, because the else part is moved into the loop (`C85_while_else_refuted`; with `continue` the program hangs); a StopIteration raised in the body of a for loop silently ends the loop (`C85_stop_iteration_refuted`); `brkseq` uses `\\`, which removes one occurrence only, so a loop with two `break`s inside try/finally outside of other loops is compiled to a `break` outside of a loop (`C85_break_outside_loop_refuted`).
* Names: the escape in `nstr` is commented out, so different names can meet in C: `bQ_c` of module `a` and `c` of module `a.b` (`C86_modules_refuted`), the method `b` of class `a` and the function `aD_b` (`C86_methods_refuted`), `long` and `A_long` (`C86_keywords_refuted`), `é` and `X_e9_` (`C86_unicode_refuted`), `complx` and `A_complex` (`C86_complx_refuted`).
* Quorums: a call fails although a majority answers favourably, if an error is among the first answers (`C87_majority_is_enough_refuted`, and for queries always, `C87_query_woken_by_error_refuted`); a query returns the first answer, not the newest (`C87_query_is_recent_refuted`); unsubscribing what no server knows waits for the time-out (`C87_unsubscribe_sleeps_refuted`); with more servers than the replication factor two writes can succeed on disjoint servers (`C87_more_servers_refuted`) and answers are written past the end of their array (`C87_replies_fit_refuted`).
* Replicated commit: `_remote_persist_txn` is retried until a quorum says 0, but a server that has committed says NO_SUCH_TXN, so late acknowledgements make the client retry forever (`C88_commit_never_returns`, `C88_returns_refuted`); servers commit what they have of a transaction, so an acknowledged write of a committed transaction can end on one server (`C88_durable_refuted`); a server that missed the beginning of a transaction fails an assertion at its first write or at the abort (`C88_server_survives_refuted`).
- C90: the calls with effects in the conditions of all branches of an if statement are made before the statement (CPS.hs:389, with a TODO): `if a: ... elif self.inc(): ...` calls inc even if a holds. In `f(self.x, self.inc())`, and in `self.x += self.inc()`, the attribute is read after the call; an exception raised to the left of a call comes after the call's effects.
- C91: `"a\0b"` has one character; `"\xe9"` raises ValueError; `"\\\x41b"`, `"\u0041"` and `"\x41" "b"` are rejected by the C compiler; an octal escape before a continued line takes the digits of the next line; `b"\1234"` loses its last byte, since the length is computed by Haskell's read, which takes the escape for decimal; `r"\\"` does not end at its closing quote.
- C92: the hash of a group of names that mention each other in a circle contains the signatures of the members but not their names (Hashing.hs:755-775). If two classes of a module swap their signatures, a third that mentions both keeps its hash, and modules that use it are not checked again. A name added to a module imported with `from m import *` that hides another one is not noticed either: only names recorded at the time are compared.
- C93: `%r`, `%a` and `%ls` pass the type check and are undefined behaviour in C (Types.hs:2067, CodeGen.hs:947). `"\\x25s" % ()` reads a missing argument. `%5s` and `{s:5}` pad by bytes, `%.1s` can cut a character in two, a string with a NUL is cut there, and a star width is taken modulo 2^32. In interpolated strings `{x}%` is rejected and `{x}%%` gives one percent sign; `{n:5x}` prints decimal digits, fill characters and signs are ignored, `{n:x}` and `{x:5f}` are rejected.
- C95: substitution makes `??t` into `?t` (TypeEnv.hs:834), unification does not know this: `?a` and `?int` give `a = int` although `a = ?int` is a solution as well, and `a` and `?a` are rejected as an infinite type although `a = ?int` solves them.
- C96: castable (Env.hs:1073-1077) compares the arguments of list, dict and set covariantly only if the names of both classes are the same, so an heir of `list[int]` is not accepted for `list[value]`; and the rule for type parameters (Env.hs:1115) comes before the one for options (Env.hs:1120), so `A` is not accepted for `?A`.
- C97: glb (Env.hs:1162-1163) gives None for None and any other type, although None is a subtype of options only; lub of functions uses it for parameters.

## Trusted base

* Coq 8.16.1's kernel (and `coqchk`, run by the checker, which re-checks the compiled files).
* The reading of the C and Acton sources into the `M_*.v` files: each definition cites the lines it models, and says where it simplifies.
* The statements: `S_*.v` and the theorem statements in `T_*.v`.
* No axioms: `Print Assumptions` prints "Closed under the global context" for every theorem named in `MANIFEST.json` (table below, generated by `tools/assumptions.py`). The axioms of the standard library that `coqchk -o` reports for loaded but unused modules are `Coq.ssr.ssrunder.Under_rel.*` (fields of the sealed module behind ssreflect's `under`); none of our theorems depends on them.
* Partial functions are not totalised silently: `UB` marks undefined behaviour, `NoFuel` exhaustion of the loop bound; the positive theorems conclude `Ok` (or a stated exception), so both are excluded.

## Assumptions

| theorem | file | Print Assumptions |
|---|---|---|
| `C01_forward_slice` | `T_List.v` | Closed under the global context |
| `C62_range` | `T_Str.v` | Closed under the global context |
| `C62_slice_partial` | `T_Str.v` | Closed under the global context |
| `C62_refuted` | `T_Str.v` | Closed under the global context |
| `C02_backward_slice_partial` | `T_List.v` | Closed under the global context |
| `C02_backward_slice_refuted` | `T_List.v` | Closed under the global context |
| `C02_backward_slice_unsafe_refuted` | `T_List.v` | Closed under the global context |
| `C03_list_refines_sequence` | `T_List.v` | Closed under the global context |
| `C03_list_memory_safe` | `T_List.v` | Closed under the global context |
| `C04_indexing_partial` | `T_List.v` | Closed under the global context |
| `C04_indexing_refuted` | `T_List.v` | Closed under the global context |
| `C04_delitem_refuted` | `T_List.v` | Closed under the global context |
| `C05_setslice_partial` | `T_List.v` | Closed under the global context |
| `C05_delslice_partial` | `T_List.v` | Closed under the global context |
| `C05_delslice_refuted` | `T_List.v` | Closed under the global context |
| `C06_list_comparison` | `T_Order.v` | Closed under the global context |
| `C06_lex_total_order` | `T_Order.v` | Closed under the global context |
| `C07_range_partial` | `T_Iter.v` | Closed under the global context |
| `C07_range_step0` | `T_Iter.v` | Closed under the global context |
| `C07_range_refuted` | `T_Iter.v` | Closed under the global context |
| `C08_dict_refines_map` | `T_Dict.v` | Closed under the global context |
| `C08_runtime_get` | `T_Dict.v` | Closed under the global context |
| `C09_dict_iteration` | `T_Dict.v` | Closed under the global context |
| `C10_dict_comparison_partial` | `T_Dict.v` | Closed under the global context |
| `C10_dict_comparison_large` | `T_Dict.v` | Closed under the global context |
| `C10_dict_comparison_refuted` | `T_Dict.v` | Closed under the global context |
| `C10_dict_greater_refuted` | `T_Dict.v` | Closed under the global context |
| `C11_dict_safe_partial` | `T_Dict.v` | Closed under the global context |
| `C11_dict_safe_refuted` | `T_Dict.v` | Closed under the global context |
| `C12_set_refines_partial` | `T_Set.v` | Closed under the global context |
| `C12_set_refuted` | `T_Set.v` | Closed under the global context |
| `C13_set_terminates_partial` | `T_Set.v` | Closed under the global context |
| `C13_set_terminates_refuted` | `T_Set.v` | Closed under the global context |
| `C14_sorted` | `T_Timsort.v` | Closed under the global context |
| `C15_arithmetic` | `T_Int.v` | Closed under the global context |
| `C15_shifts` | `T_Int.v` | Closed under the global context |
| `C15_comparisons` | `T_Int.v` | Closed under the global context |
| `C16_conversion_partial` | `T_Int.v` | Closed under the global context |
| `C16_bigint_int` | `T_Int.v` | Closed under the global context |
| `C16_conversion_refuted` | `T_Int.v` | Closed under the global context |
| `C17_division_partial` | `T_Int.v` | Closed under the global context |
| `C17_division_refuted` | `T_Int.v` | Closed under the global context |
| `C17_zero_refuted` | `T_Int.v` | Closed under the global context |
| `C17_overflow_refuted` | `T_Int.v` | Closed under the global context |
| `C18_pow_partial` | `T_Int.v` | Closed under the global context |
| `C18_pow_refuted` | `T_Int.v` | Closed under the global context |
| `C18_round_partial` | `T_Int.v` | Closed under the global context |
| `C18_round_refuted` | `T_Int.v` | Closed under the global context |
| `C19_hash_partial` | `T_Int.v` | Closed under the global context |
| `C19_hash_refuted` | `T_Int.v` | Closed under the global context |
| `C20_fifo_partial` | `T_Rts.v` | Closed under the global context |
| `C20_fifo_no_await` | `T_Rts.v` | Closed under the global context |
| `C20_fifo_one_thread_per_queue` | `T_Rts.v` | Closed under the global context |
| `C20_fifo_refuted` | `T_Rts.v` | Closed under the global context |
| `C21_C23_C26_legal` | `T_Rts.v` | Closed under the global context |
| `C21_one_place` | `T_Rts.v` | Closed under the global context |
| `C21_at_most_once` | `T_Rts.v` | Closed under the global context |
| `C21_nothing_lost` | `T_Rts.v` | Closed under the global context |
| `C21_mail_not_forgotten` | `T_Rts.v` | Closed under the global context |
| `C21_threads_not_stuck` | `T_Rts.v` | Closed under the global context |
| `C22_one_at_a_time` | `T_Rts.v` | Closed under the global context |
| `C22_history` | `T_Rts.v` | Closed under the global context |
| `C23_await_outcome` | `T_Rts.v` | Closed under the global context |
| `C23_not_forgotten` | `T_Rts.v` | Closed under the global context |
| `C24_visible_when_committed_partial` | `T_Rts.v` | Closed under the global context |
| `C24_visible_when_committed_no_await` | `T_Rts.v` | Closed under the global context |
| `C24_visible_when_committed_one_thread_per_queue` | `T_Rts.v` | Closed under the global context |
| `C24_visible_when_committed_refuted` | `T_Rts.v` | Closed under the global context |
| `C25_not_early` | `T_Rts.v` | Closed under the global context |
| `C25_due_order` | `T_Rts.v` | Closed under the global context |
| `C25_not_lost` | `T_Rts.v` | Closed under the global context |
| `C25_sent_order_partial` | `T_Rts.v` | Closed under the global context |
| `C25_sent_order_refuted` | `T_Rts.v` | Closed under the global context |
| `C26_outcome` | `T_Rts.v` | Closed under the global context |
| `C26_innermost_handler` | `T_Rts.v` | Closed under the global context |
| `C26_handler_gets_exception` | `T_Rts.v` | Closed under the global context |
| `C26_actor_continues` | `T_Rts.v` | Closed under the global context |
| `C27_keys` | `T_Key.v` | Closed under the global context |
| `C27_unique` | `T_Key.v` | Closed under the global context |
| `C27_bootstrap` | `T_Key.v` | Closed under the global context |
| `C27_fresh_after_recovery` | `T_Key.v` | Closed under the global context |
| `C28_no_sleep_with_work` | `T_Wake.v` | Closed under the global context |
| `C28_ready_actor_is_taken` | `T_Wake.v` | Closed under the global context |
| `C29_round_trip` | `T_Netstring.v` | Closed under the global context |
| `C29_list_partial` | `T_Netstring.v` | Closed under the global context |
| `C29_list_refuted` | `T_Netstring.v` | Closed under the global context |
| `C30_safe` | `T_Netstring.v` | Closed under the global context |
| `C30_sound` | `T_Netstring.v` | Closed under the global context |
| `C30_prefix_free` | `T_Netstring.v` | Closed under the global context |
| `C31_round_trip` | `T_Serialize.v` | Closed under the global context |
| `C31_too_large` | `T_Serialize.v` | Closed under the global context |
| `C31_any_input` | `T_Serialize.v` | Closed under the global context |
| `C32_serializes_partial` | `T_Serialize.v` | Closed under the global context |
| `C32_round_trip_partial` | `T_Serialize.v` | Closed under the global context |
| `C32_refuted` | `T_Serialize.v` | Closed under the global context |
| `C33_round_trip_partial` | `T_Serialize.v` | Closed under the global context |
| `C33_small_rows_partial` | `T_Serialize.v` | Closed under the global context |
| `C33_refuted` | `T_Serialize.v` | Closed under the global context |
| `C34_find_partial` | `T_Str.v` | Closed under the global context |
| `C34_rfind_partial` | `T_Str.v` | Closed under the global context |
| `C34_index_partial` | `T_Str.v` | Closed under the global context |
| `C34_rindex_partial` | `T_Str.v` | Closed under the global context |
| `C34_contains` | `T_Str.v` | Closed under the global context |
| `C34_count_partial` | `T_Str.v` | Closed under the global context |
| `C34_count_empty_partial` | `T_Str.v` | Closed under the global context |
| `C34_negative_refuted` | `T_Str.v` | Closed under the global context |
| `C34_bound_refuted` | `T_Str.v` | Closed under the global context |
| `C34_count_refuted` | `T_Str.v` | Closed under the global context |
| `C35_getitem_partial` | `T_Str.v` | Closed under the global context |
| `C35_iter_partial` | `T_Str.v` | Closed under the global context |
| `C35_sync` | `T_Str.v` | Closed under the global context |
| `C35_find_item` | `T_Str.v` | Closed under the global context |
| `C35_index_refuted` | `T_Str.v` | Closed under the global context |
| `C35_nul_refuted` | `T_Str.v` | Closed under the global context |
| `C36_split_partial` | `T_Str.v` | Closed under the global context |
| `C36_split_empty` | `T_Str.v` | Closed under the global context |
| `C36_join` | `T_Str.v` | Closed under the global context |
| `C36_roundtrip_partial` | `T_Str.v` | Closed under the global context |
| `C36_partition` | `T_Str.v` | Closed under the global context |
| `C36_rpartition` | `T_Str.v` | Closed under the global context |
| `C36_replace_partial` | `T_Str.v` | Closed under the global context |
| `C36_add` | `T_Str.v` | Closed under the global context |
| `C36_mul` | `T_Str.v` | Closed under the global context |
| `C36_splits_unique` | `T_Str.v` | Closed under the global context |
| `C36_split_refuted` | `T_Str.v` | Closed under the global context |
| `C36_count_refuted` | `T_Str.v` | Closed under the global context |
| `C36_empty_refuted` | `T_Str.v` | Closed under the global context |
| `C37_lstrip` | `T_Str.v` | Closed under the global context |
| `C37_rstrip_partial` | `T_Str.v` | Closed under the global context |
| `C37_strip_partial` | `T_Str.v` | Closed under the global context |
| `C37_refuted` | `T_Str.v` | Closed under the global context |
| `C38_startswith_partial` | `T_Str.v` | Closed under the global context |
| `C38_prefix_partial` | `T_Str.v` | Closed under the global context |
| `C38_endswith_partial` | `T_Str.v` | Closed under the global context |
| `C38_endswith_shape_partial` | `T_Str.v` | Closed under the global context |
| `C38_suffix_refuted` | `T_Str.v` | Closed under the global context |
| `C38_end_refuted` | `T_Str.v` | Closed under the global context |
| `C38_nul_refuted` | `T_Str.v` | Closed under the global context |
| `C39_history_partial` | `T_Skiplist.v` | Closed under the global context |
| `C39_levels` | `T_Skiplist.v` | Closed under the global context |
| `C39_refuted` | `T_Skiplist.v` | Closed under the global context |
| `C40_history_partial` | `T_VClock.v` | Closed under the global context |
| `C40_compare` | `T_VClock.v` | Closed under the global context |
| `C40_order` | `T_VClock.v` | Closed under the global context |
| `C40_null` | `T_VClock.v` | Closed under the global context |
| `C40_join_partial` | `T_VClock.v` | Closed under the global context |
| `C40_increment` | `T_VClock.v` | Closed under the global context |
| `C40_init` | `T_VClock.v` | Closed under the global context |
| `C40_refuted` | `T_VClock.v` | Closed under the global context |
| `C41_collision_free` | `T_Hash32.v` | Closed under the global context |
| `C41_onto` | `T_Hash32.v` | Closed under the global context |
| `C41_range` | `T_Hash32.v` | Closed under the global context |
| `C42_exactly_once_partial` | `T_Queue.v` | Closed under the global context |
| `C42_read` | `T_Queue.v` | Closed under the global context |
| `C42_consume` | `T_Queue.v` | Closed under the global context |
| `C42_replay_partial` | `T_Queue.v` | Closed under the global context |
| `C42_replay_refuted` | `T_Queue.v` | Closed under the global context |
| `C42_refuted` | `T_Queue.v` | Closed under the global context |
| `C43_atomic_partial` | `T_Txn.v` | Closed under the global context |
| `C43_progress` | `T_Txn.v` | Closed under the global context |
| `C43_read` | `T_Txn.v` | Closed under the global context |
| `C43_validate` | `T_Txn.v` | Closed under the global context |
| `C43_exclusive` | `T_Txn.v` | Closed under the global context |
| `C43_serializable_refuted` | `T_Txn.v` | Closed under the global context |
| `C43_delete_after_write_refuted` | `T_Txn.v` | Closed under the global context |
| `C43_far_keys_refuted` | `T_Txn.v` | Closed under the global context |
| `C43_twice_refuted` | `T_Txn.v` | Closed under the global context |
| `C43_delete_cell_refuted` | `T_Txn.v` | Closed under the global context |
| `C43_delete_queues_refuted` | `T_Txn.v` | Closed under the global context |
| `C43_commit_answer_refuted` | `T_Txn.v` | Closed under the global context |
| `C43_consume_refuted` | `T_Txn.v` | Closed under the global context |
| `C43_overlap_refuted` | `T_Txn.v` | Closed under the global context |
| `C43_unvalidated_refuted` | `T_Txn.v` | Closed under the global context |
| `C44_history_partial` | `T_Ring.v` | Closed under the global context |
| `C44_unique` | `T_Ring.v` | Closed under the global context |
| `C44_stable` | `T_Ring.v` | Closed under the global context |
| `C44_factor_refuted` | `T_Ring.v` | Closed under the global context |
| `C44_status_refuted` | `T_Ring.v` | Closed under the global context |
| `C44_announce_refuted` | `T_Ring.v` | Closed under the global context |
| `C44_lost_refuted` | `T_Ring.v` | Closed under the global context |
| `C45_one_crash_partial` | `T_Recovery.v` | Closed under the global context |
| `C45_no_crash_partial` | `T_Recovery.v` | Closed under the global context |
| `C45_restart_partial` | `T_Recovery.v` | Closed under the global context |
| `C45_progress_partial` | `T_Recovery.v` | Closed under the global context |
| `C45_second_crash_refuted` | `T_Recovery.v` | Closed under the global context |
| `C45_window_refuted` | `T_Recovery.v` | Closed under the global context |
| `C45_refused_refuted` | `T_Recovery.v` | Closed under the global context |
| `C45_workers_refuted` | `T_Recovery.v` | Closed under the global context |
| `C45_await_refuted` | `T_Recovery.v` | Closed under the global context |
| `C46_quote` | `T_Uri.v` | Closed under the global context |
| `C46_alphabet` | `T_Uri.v` | Closed under the global context |
| `C46_roundtrip_partial` | `T_Uri.v` | Closed under the global context |
| `C46_injective` | `T_Uri.v` | Closed under the global context |
| `C46_unquote_partial` | `T_Uri.v` | Closed under the global context |
| `C46_nul_refuted` | `T_Uri.v` | Closed under the global context |
| `C46_percent_refuted` | `T_Uri.v` | Closed under the global context |
| `C47_old` | `T_Diff.v` | Closed under the global context |
| `C47_labels` | `T_Diff.v` | Closed under the global context |
| `C47_equal` | `T_Diff.v` | Closed under the global context |
| `C47_diff_partial` | `T_Diff.v` | Closed under the global context |
| `C47_aligned` | `T_Diff.v` | Closed under the global context |
| `C47_refuted` | `T_Diff.v` | Closed under the global context |
| `C47_minimal_refuted` | `T_Diff.v` | Closed under the global context |
| `C48_enumerate` | `T_Iter.v` | Closed under the global context |
| `C48_map` | `T_Iter.v` | Closed under the global context |
| `C48_zip` | `T_Iter.v` | Closed under the global context |
| `C48_filter` | `T_Iter.v` | Closed under the global context |
| `C48_max_partial` | `T_Iter.v` | Closed under the global context |
| `C48_max_default_refuted` | `T_Iter.v` | Closed under the global context |
| `C48_min` | `T_Iter.v` | Closed under the global context |
| `C48_sum` | `T_Iter.v` | Closed under the global context |
| `C49_tuple_comparison` | `T_Order.v` | Closed under the global context |
| `C49_tuple_total_order` | `T_Order.v` | Closed under the global context |
| `C50_sorted_any_comparison` | `T_Timsort.v` | Closed under the global context |
| `C51_isdisjoint_partial` | `T_Set.v` | Closed under the global context |
| `C51_isdisjoint_refuted` | `T_Set.v` | Closed under the global context |
| `C52_float_to_int_partial` | `T_Int.v` | Closed under the global context |
| `C52_float_to_int_refuted` | `T_Int.v` | Closed under the global context |
| `C53_parse_partial` | `T_Bigint.v` | Closed under the global context |
| `C53_rejects` | `T_Bigint.v` | Closed under the global context |
| `C53_parse_refuted` | `T_Bigint.v` | Closed under the global context |
| `C54_lshift` | `T_Bigint.v` | Closed under the global context |
| `C54_rshift_partial` | `T_Bigint.v` | Closed under the global context |
| `C54_rshift_refuted` | `T_Bigint.v` | Closed under the global context |
| `C54_negative_count` | `T_Bigint.v` | Closed under the global context |
| `C55_and_partial` | `T_Bigint.v` | Closed under the global context |
| `C55_or_partial` | `T_Bigint.v` | Closed under the global context |
| `C55_xor_partial` | `T_Bigint.v` | Closed under the global context |
| `C55_small` | `T_Bigint.v` | Closed under the global context |
| `C55_invert` | `T_Bigint.v` | Closed under the global context |
| `C55_bitwise_refuted` | `T_Bigint.v` | Closed under the global context |
| `C56_no_null_dereference_partial` | `T_Rts.v` | Closed under the global context |
| `C56_no_null_dereference_no_await` | `T_Rts.v` | Closed under the global context |
| `C56_no_null_dereference_one_thread_per_queue` | `T_Rts.v` | Closed under the global context |
| `C56_no_null_dereference_refuted` | `T_Rts.v` | Closed under the global context |
| `C57_idle_worker_refuted` | `T_Wake.v` | Closed under the global context |
| `C58_exclusive` | `T_Pause.v` | Closed under the global context |
| `C58_one_owner` | `T_Pause.v` | Closed under the global context |
| `C58_begin_fails` | `T_Pause.v` | Closed under the global context |
| `C58_begin_returns` | `T_Pause.v` | Closed under the global context |
| `C58_end` | `T_Pause.v` | Closed under the global context |
| `C59_str_partial` | `T_Bigint.v` | Closed under the global context |
| `C59_str_refuted` | `T_Bigint.v` | Closed under the global context |
| `C59_round_trip_partial` | `T_Bigint.v` | Closed under the global context |
| `C60_framing` | `T_Netstring.v` | Closed under the global context |
| `C60_too_long` | `T_Netstring.v` | Closed under the global context |
| `C60_answers_partial` | `T_Netstring.v` | Closed under the global context |
| `C60_answers_refuted` | `T_Netstring.v` | Closed under the global context |
| `C61_node_id_partial` | `T_VClock.v` | Closed under the global context |
| `C61_node_id_refuted` | `T_VClock.v` | Closed under the global context |
| `C63_words` | `T_Str.v` | Closed under the global context |
| `C63_splitlines` | `T_Str.v` | Closed under the global context |
| `C63_lines_all` | `T_Str.v` | Closed under the global context |
| `C63_ljust_partial` | `T_Str.v` | Closed under the global context |
| `C63_rjust_partial` | `T_Str.v` | Closed under the global context |
| `C63_center_partial` | `T_Str.v` | Closed under the global context |
| `C63_zfill_partial` | `T_Str.v` | Closed under the global context |
| `C63_fill_refused` | `T_Str.v` | Closed under the global context |
| `C63_expandtabs_partial` | `T_Str.v` | Closed under the global context |
| `C63_width_refuted` | `T_Str.v` | Closed under the global context |
| `C63_tabs_refuted` | `T_Str.v` | Closed under the global context |
| `C64_eq_partial` | `T_Str.v` | Closed under the global context |
| `C64_order_partial` | `T_Str.v` | Closed under the global context |
| `C64_hash_partial` | `T_Str.v` | Closed under the global context |
| `C64_nul_refuted` | `T_Str.v` | Closed under the global context |
| `C65_wakeup` | `T_Queue.v` | Closed under the global context |
| `C65_refuted` | `T_Queue.v` | Closed under the global context |
| `C66_read` | `T_Table.v` | Closed under the global context |
| `C66_row` | `T_Table.v` | Closed under the global context |
| `C66_all` | `T_Table.v` | Closed under the global context |
| `C66_range_partial` | `T_Table.v` | Closed under the global context |
| `C66_range_refuted` | `T_Table.v` | Closed under the global context |
| `C66_cell_range_refuted` | `T_Table.v` | Closed under the global context |
| `C66_cell_refuted` | `T_Table.v` | Closed under the global context |
| `C66_delete_refuted` | `T_Table.v` | Closed under the global context |
| `C66_no_clustering_refuted` | `T_Table.v` | Closed under the global context |
| `C66_deep_refuted` | `T_Table.v` | Closed under the global context |
| `C67_hunks_partial` | `T_Diff.v` | Closed under the global context |
| `C67_full_partial` | `T_Diff.v` | Closed under the global context |
| `C67_empty` | `T_Diff.v` | Closed under the global context |
| `C67_no_context_refuted` | `T_Diff.v` | Closed under the global context |
| `C67_from_empty_refuted` | `T_Diff.v` | Closed under the global context |
| `C67_strip_refuted` | `T_Diff.v` | Closed under the global context |
| `C67_newline_refuted` | `T_Diff.v` | Closed under the global context |
| `C68_parse` | `T_Uri.v` | Closed under the global context |
| `C68_unique` | `T_Uri.v` | Closed under the global context |
| `C68_print` | `T_Uri.v` | Closed under the global context |
| `C68_injective` | `T_Uri.v` | Closed under the global context |
| `C68_total` | `T_Uri.v` | Closed under the global context |
| `C68_identity_refuted` | `T_Uri.v` | Closed under the global context |
| `C68_rfc_refuted` | `T_Uri.v` | Closed under the global context |
| `C69_find_partial` | `T_Bytes.v` | Closed under the global context |
| `C69_index_partial` | `T_Bytes.v` | Closed under the global context |
| `C69_count_partial` | `T_Bytes.v` | Closed under the global context |
| `C69_partition` | `T_Bytes.v` | Closed under the global context |
| `C69_split_partial` | `T_Bytes.v` | Closed under the global context |
| `C69_join` | `T_Bytes.v` | Closed under the global context |
| `C69_split_join_partial` | `T_Bytes.v` | Closed under the global context |
| `C69_replace_partial` | `T_Bytes.v` | Closed under the global context |
| `C69_strip` | `T_Bytes.v` | Closed under the global context |
| `C69_startswith_partial` | `T_Bytes.v` | Closed under the global context |
| `C69_endswith_partial` | `T_Bytes.v` | Closed under the global context |
| `C69_remove` | `T_Bytes.v` | Closed under the global context |
| `C69_lines` | `T_Bytes.v` | Closed under the global context |
| `C69_words_partial` | `T_Bytes.v` | Closed under the global context |
| `C69_negative_refuted` | `T_Bytes.v` | Closed under the global context |
| `C69_split_refuted` | `T_Bytes.v` | Closed under the global context |
| `C69_replace_refuted` | `T_Bytes.v` | Closed under the global context |
| `C69_endswith_refuted` | `T_Bytes.v` | Closed under the global context |
| `C69_words_refuted` | `T_Bytes.v` | Closed under the global context |
| `C70_getitem` | `T_Bytes.v` | Closed under the global context |
| `C70_slice_partial` | `T_Bytes.v` | Closed under the global context |
| `C70_order` | `T_Bytes.v` | Closed under the global context |
| `C70_concat` | `T_Bytes.v` | Closed under the global context |
| `C70_pad_partial` | `T_Bytes.v` | Closed under the global context |
| `C70_fill_refused` | `T_Bytes.v` | Closed under the global context |
| `C70_zfill_partial` | `T_Bytes.v` | Closed under the global context |
| `C70_values_partial` | `T_Bytes.v` | Closed under the global context |
| `C70_classes_partial` | `T_Bytes.v` | Closed under the global context |
| `C70_capitalize` | `T_Bytes.v` | Closed under the global context |
| `C70_from_hex` | `T_Bytes.v` | Closed under the global context |
| `C70_hex_partial` | `T_Bytes.v` | Closed under the global context |
| `C70_expandtabs_partial` | `T_Bytes.v` | Closed under the global context |
| `C70_hex_refuted` | `T_Bytes.v` | Closed under the global context |
| `C70_upper_refuted` | `T_Bytes.v` | Closed under the global context |
| `C70_title_refuted` | `T_Bytes.v` | Closed under the global context |
| `C70_values_refuted` | `T_Bytes.v` | Closed under the global context |
| `C70_expandtabs_refuted` | `T_Bytes.v` | Closed under the global context |
| `C70_width_refuted` | `T_Bytes.v` | Closed under the global context |
| `C71_request` | `T_Http.v` | Closed under the global context |
| `C71_response` | `T_Http.v` | Closed under the global context |
| `C71_incomplete` | `T_Http.v` | Closed under the global context |
| `C71_any` | `T_Http.v` | Closed under the global context |
| `C71_refuted` | `T_Http.v` | Closed under the global context |
| `C72_client` | `T_Http.v` | Closed under the global context |
| `C72_any` | `T_Http.v` | Closed under the global context |
| `C72_refuted` | `T_Http.v` | Closed under the global context |
| `C73_order_partial` | `T_Http.v` | Closed under the global context |
| `C73_each_partial` | `T_Http.v` | Closed under the global context |
| `C73_answers` | `T_Http.v` | Closed under the global context |
| `C73_answered` | `T_Http.v` | Closed under the global context |
| `C73_refuted` | `T_Http.v` | Closed under the global context |
| `C73_stuck_refuted` | `T_Http.v` | Closed under the global context |
| `C74_request` | `T_Http.v` | Closed under the global context |
| `C74_response` | `T_Http.v` | Closed under the global context |
| `C74_refuted` | `T_Http.v` | Closed under the global context |
| `C75_add` | `T_Time.v` | Closed under the global context |
| `C75_sub` | `T_Time.v` | Closed under the global context |
| `C75_since` | `T_Time.v` | Closed under the global context |
| `C75_inverse` | `T_Time.v` | Closed under the global context |
| `C75_there` | `T_Time.v` | Closed under the global context |
| `C75_order` | `T_Time.v` | Closed under the global context |
| `C75_unix` | `T_Time.v` | Closed under the global context |
| `C75_parts` | `T_Time.v` | Closed under the global context |
| `C75_comparable` | `T_Time.v` | Closed under the global context |
| `C75_watch` | `T_Time.v` | Closed under the global context |
| `C75_parts_refuted` | `T_Time.v` | Closed under the global context |
| `C75_wrap_refuted` | `T_Time.v` | Closed under the global context |
| `C75_order_refuted` | `T_Time.v` | Closed under the global context |
| `C76_str` | `T_Time.v` | Closed under the global context |
| `C76_human` | `T_Time.v` | Closed under the global context |
| `C76_zone` | `T_Time.v` | Closed under the global context |
| `C76_iso` | `T_Time.v` | Closed under the global context |
| `C76_iso_inj` | `T_Time.v` | Closed under the global context |
| `C76_rfc1123` | `T_Time.v` | Closed under the global context |
| `C76_str_refuted` | `T_Time.v` | Closed under the global context |
| `C76_zone_refuted` | `T_Time.v` | Closed under the global context |
| `C76_rfc1123_refuted` | `T_Time.v` | Closed under the global context |
| `C76_asctime_refuted` | `T_Time.v` | Closed under the global context |
| `C77_range` | `T_Random.v` | Closed under the global context |
| `C77_even` | `T_Random.v` | Closed under the global context |
| `C77_half` | `T_Random.v` | Closed under the global context |
| `C77_order` | `T_Random.v` | Closed under the global context |
| `C77_choice` | `T_Random.v` | Closed under the global context |
| `C77_randstr` | `T_Random.v` | Closed under the global context |
| `C77_sample` | `T_Random.v` | Closed under the global context |
| `C77_bigint` | `T_Random.v` | Closed under the global context |
| `C77_list` | `T_Random.v` | Closed under the global context |
| `C77_refuted` | `T_Random.v` | Closed under the global context |
| `C77_sample_refuted` | `T_Random.v` | Closed under the global context |
| `C77_bigint_refuted` | `T_Random.v` | Closed under the global context |
| `C78_bytearray_refines_sequence_partial` | `T_Bytearray.v` | Closed under the global context |
| `C78_bytearray_memory_safe_partial` | `T_Bytearray.v` | Closed under the global context |
| `C78_append_value` | `T_Bytearray.v` | Closed under the global context |
| `C78_delslice_refuted` | `T_Bytearray.v` | Closed under the global context |
| `C78_contains_refuted` | `T_Bytearray.v` | Closed under the global context |
| `C78_setslice_refuted` | `T_Bytearray.v` | Closed under the global context |
| `C79_order_partial` | `T_Bytearray.v` | Closed under the global context |
| `C79_order_total` | `T_Bytearray.v` | Closed under the global context |
| `C79_delitem_refuted` | `T_Bytearray.v` | Closed under the global context |
| `C79_nul_refuted` | `T_Bytearray.v` | Closed under the global context |
| `C80_glob_matches` | `T_Glob.v` | Closed under the global context |
| `C80_answer_is_definite` | `T_Glob.v` | Closed under the global context |
| `C80_escaped_is_literal` | `T_Glob.v` | Closed under the global context |
| `C80_star_within_segment` | `T_Glob.v` | Closed under the global context |
| `C80_directories_refuted` | `T_Glob.v` | Closed under the global context |
| `C80_single_separator_refuted` | `T_Glob.v` | Closed under the global context |
| `C81_relative_leads_to_target` | `T_Path.v` | Closed under the global context |
| `C81_relative_is_shortest` | `T_Path.v` | Closed under the global context |
| `C81_round_trip` | `T_Path.v` | Closed under the global context |
| `C81_relative_needs_absolute` | `T_Path.v` | Closed under the global context |
| `C81_resolve_partial` | `T_Path.v` | Closed under the global context |
| `C81_follow_unique` | `T_Path.v` | Closed under the global context |
| `C81_resolve_refuted` | `T_Path.v` | Closed under the global context |
| `C81_absolute_rel_refuted` | `T_Path.v` | Closed under the global context |
| `C82_declarations_checked` | `T_Argparse.v` | Closed under the global context |
| `C82_command_line_means` | `T_Argparse.v` | Closed under the global context |
| `C82_help_shows_usage` | `T_Argparse.v` | Closed under the global context |
| `C82_missing_argument_refused` | `T_Argparse.v` | Closed under the global context |
| `C82_bad_integer_refused` | `T_Argparse.v` | Closed under the global context |
| `C82_plain_arguments_dealt` | `T_Argparse.v` | Closed under the global context |
| `C82_unknown_option_refuted` | `T_Argparse.v` | Closed under the global context |
| `C82_missing_sub_argument_refuted` | `T_Argparse.v` | Closed under the global context |
| `C82_parser_reuse_refuted` | `T_Argparse.v` | Closed under the global context |
| `C82_double_dash_sub_refuted` | `T_Argparse.v` | Closed under the global context |
| `C82_flag_value_and_star_refuted` | `T_Argparse.v` | Closed under the global context |
| `C83_encode_exact` | `T_Xml.v` | Closed under the global context |
| `C83_roundtrip` | `T_Xml.v` | Closed under the global context |
| `C83_pretty_same_tree` | `T_Xml.v` | Closed under the global context |
| `C83_decode_keeps_everything` | `T_Xml.v` | Closed under the global context |
| `C83_text_refuted` | `T_Xml.v` | Closed under the global context |
| `C83_attribute_value_refuted` | `T_Xml.v` | Closed under the global context |
| `C83_attribute_prefix_refuted` | `T_Xml.v` | Closed under the global context |
| `C83_root_tail_refuted` | `T_Xml.v` | Closed under the global context |
| `C84_roundtrip` | `T_Json.v` | Closed under the global context |
| `C84_list_roundtrip` | `T_Json.v` | Closed under the global context |
| `C84_unsupported_refused` | `T_Json.v` | Closed under the global context |
| `C84_supported_encoded` | `T_Json.v` | Closed under the global context |
| `C84_last_member_counts` | `T_Json.v` | Closed under the global context |
| `C84_no_array_refused` | `T_Json.v` | Closed under the global context |
| `C84_no_json_refused` | `T_Json.v` | Closed under the global context |
| `C84_other_root_refuted` | `T_Json.v` | Closed under the global context |
| `C84_infinite_refuted` | `T_Json.v` | Closed under the global context |
| `C84_nul_refuted` | `T_Json.v` | Closed under the global context |
| `C84_bigint_refuted` | `T_Json.v` | Closed under the global context |
| `C85_control_flow_partial` | `T_Control.v` | Closed under the global context |
| `C85_no_for_no_stray` | `T_Control.v` | Closed under the global context |
| `C85_breaks_in_loops_partial` | `T_Control.v` | Closed under the global context |
| `C85_while_else_refuted` | `T_Control.v` | Closed under the global context |
| `C85_stop_iteration_refuted` | `T_Control.v` | Closed under the global context |
| `C85_break_outside_loop_refuted` | `T_Control.v` | Closed under the global context |
| `C86_distinct_partial` | `T_Names.v` | Closed under the global context |
| `C86_strings_distinct_partial` | `T_Names.v` | Closed under the global context |
| `C86_local_identifier` | `T_Names.v` | Closed under the global context |
| `C86_global_identifier` | `T_Names.v` | Closed under the global context |
| `C86_ascii_kept` | `T_Names.v` | Closed under the global context |
| `C86_modules_refuted` | `T_Names.v` | Closed under the global context |
| `C86_methods_refuted` | `T_Names.v` | Closed under the global context |
| `C86_keywords_refuted` | `T_Names.v` | Closed under the global context |
| `C86_unicode_refuted` | `T_Names.v` | Closed under the global context |
| `C86_complx_refuted` | `T_Names.v` | Closed under the global context |
| `C87_success_is_a_majority` | `T_Quorum.v` | Closed under the global context |
| `C87_minority_status` | `T_Quorum.v` | Closed under the global context |
| `C87_no_quorum_is_true` | `T_Quorum.v` | Closed under the global context |
| `C87_no_lost_wakeup` | `T_Quorum.v` | Closed under the global context |
| `C87_unsubscribe_sleeps_refuted` | `T_Quorum.v` | Closed under the global context |
| `C87_majority_is_enough_partial` | `T_Quorum.v` | Closed under the global context |
| `C87_majority_is_enough_refuted` | `T_Quorum.v` | Closed under the global context |
| `C87_query_woken_by_error_refuted` | `T_Quorum.v` | Closed under the global context |
| `C87_successes_share_a_server` | `T_Quorum.v` | Closed under the global context |
| `C87_more_servers_refuted` | `T_Quorum.v` | Closed under the global context |
| `C87_replies_fit` | `T_Quorum.v` | Closed under the global context |
| `C87_replies_fit_refuted` | `T_Quorum.v` | Closed under the global context |
| `C87_queue_read_is_recent` | `T_Quorum.v` | Closed under the global context |
| `C87_query_is_recent_refuted` | `T_Quorum.v` | Closed under the global context |
| `C87_query_partial` | `T_Quorum.v` | Closed under the global context |
| `C88_committed` | `T_Commit.v` | Closed under the global context |
| `C88_not_committed` | `T_Commit.v` | Closed under the global context |
| `C88_all_or_nothing` | `T_Commit.v` | Closed under the global context |
| `C88_conflicting` | `T_Commit.v` | Closed under the global context |
| `C88_durable_partial` | `T_Commit.v` | Closed under the global context |
| `C88_durable_refuted` | `T_Commit.v` | Closed under the global context |
| `C88_returns_partial` | `T_Commit.v` | Closed under the global context |
| `C88_commit_never_returns` | `T_Commit.v` | Closed under the global context |
| `C88_returns_refuted` | `T_Commit.v` | Closed under the global context |
| `C88_server_survives_partial` | `T_Commit.v` | Closed under the global context |
| `C88_server_survives_refuted` | `T_Commit.v` | Closed under the global context |
| `C89_same_result` | `T_Cps.v` | Closed under the global context |
| `C89_same_exception` | `T_Cps.v` | Closed under the global context |
| `C89_same_divergence` | `T_Cps.v` | Closed under the global context |
| `C89_no_crash` | `T_Cps.v` | Closed under the global context |
| `C90_same_meaning_partial` | `T_Hoist.v` | Closed under the global context |
| `C90_short_circuit` | `T_Hoist.v` | Closed under the global context |
| `C90_calls_are_statements` | `T_Hoist.v` | Closed under the global context |
| `C90_argument_order_refuted` | `T_Hoist.v` | Closed under the global context |
| `C90_elif_refuted` | `T_Hoist.v` | Closed under the global context |
| `C90_exception_order_refuted` | `T_Hoist.v` | Closed under the global context |
| `C91_string_partial` | `T_Lit.v` | Closed under the global context |
| `C91_bytes_partial` | `T_Lit.v` | Closed under the global context |
| `C91_raw_partial` | `T_Lit.v` | Closed under the global context |
| `C91_nul_refuted` | `T_Lit.v` | Closed under the global context |
| `C91_high_refuted` | `T_Lit.v` | Closed under the global context |
| `C91_joined_line_refuted` | `T_Lit.v` | Closed under the global context |
| `C91_rejected_refuted` | `T_Lit.v` | Closed under the global context |
| `C91_bytes_refuted` | `T_Lit.v` | Closed under the global context |
| `C91_raw_refuted` | `T_Lit.v` | Closed under the global context |
| `C91_adjacent_refuted` | `T_Lit.v` | Closed under the global context |
| `C92_incremental_partial` | `T_Incr.v` | Closed under the global context |
| `C92_hash_partial` | `T_Incr.v` | Closed under the global context |
| `C92_nothing_to_do` | `T_Incr.v` | Closed under the global context |
| `C92_circle_refuted` | `T_Incr.v` | Closed under the global context |
| `C92_star_refuted` | `T_Incr.v` | Closed under the global context |
| `C93_format_partial` | `T_Fmt.v` | Closed under the global context |
| `C93_wrong_arguments` | `T_Fmt.v` | Closed under the global context |
| `C93_interpolation_partial` | `T_Fmt.v` | Closed under the global context |
| `C93_repr_refuted` | `T_Fmt.v` | Closed under the global context |
| `C93_escaped_percent_refuted` | `T_Fmt.v` | Closed under the global context |
| `C93_hex_refuted` | `T_Fmt.v` | Closed under the global context |
| `C93_width_refuted` | `T_Fmt.v` | Closed under the global context |
| `C93_nul_refuted` | `T_Fmt.v` | Closed under the global context |
| `C93_star_refuted` | `T_Fmt.v` | Closed under the global context |
| `C93_percent_in_text_refuted` | `T_Fmt.v` | Closed under the global context |
| `C93_spec_refuted` | `T_Fmt.v` | Closed under the global context |
| `C94_ancestors` | `T_Mro.v` | Closed under the global context |
| `C94_one_instance` | `T_Mro.v` | Closed under the global context |
| `C94_specific_first` | `T_Mro.v` | Closed under the global context |
| `C94_monotone` | `T_Mro.v` | Closed under the global context |
| `C94_parents_in_order` | `T_Mro.v` | Closed under the global context |
| `C94_paths` | `T_Mro.v` | Closed under the global context |
| `C94_attribute` | `T_Mro.v` | Closed under the global context |
| `C94_attribute_exists` | `T_Mro.v` | Closed under the global context |
| `C94_override` | `T_Mro.v` | Closed under the global context |
| `C94_accepted` | `T_Mro.v` | Closed under the global context |
| `C94_layout` | `T_Mro.v` | Closed under the global context |
| `C94_layout_prefix` | `T_Mro.v` | Closed under the global context |
| `C94_slots` | `T_Mro.v` | Closed under the global context |
| `C95_sound` | `T_Unify.v` | Closed under the global context |
| `C95_terminates` | `T_Unify.v` | Closed under the global context |
| `C95_most_general_partial` | `T_Unify.v` | Closed under the global context |
| `C95_no_options` | `T_Unify.v` | Closed under the global context |
| `C95_error` | `T_Unify.v` | Closed under the global context |
| `C95_idempotent` | `T_Unify.v` | Closed under the global context |
| `C95_equations` | `T_Unify.v` | Closed under the global context |
| `C95_levels` | `T_Unify.v` | Closed under the global context |
| `C95_options_refuted` | `T_Unify.v` | Closed under the global context |
| `C95_infinite_refuted` | `T_Unify.v` | Closed under the global context |
| `C96_sound` | `T_Sub.v` | Closed under the global context |
| `C96_reflexive` | `T_Sub.v` | Closed under the global context |
| `C96_answer` | `T_Sub.v` | Closed under the global context |
| `C96_terminates` | `T_Sub.v` | Closed under the global context |
| `C96_terminates_closed` | `T_Sub.v` | Closed under the global context |
| `C96_heirs` | `T_Sub.v` | Closed under the global context |
| `C96_bound` | `T_Sub.v` | Closed under the global context |
| `C96_parts` | `T_Sub.v` | Closed under the global context |
| `C96_transitive_partial` | `T_Sub.v` | Closed under the global context |
| `C96_exact_partial` | `T_Sub.v` | Closed under the global context |
| `C96_transitive_refuted` | `T_Sub.v` | Closed under the global context |
| `C96_option_refuted` | `T_Sub.v` | Closed under the global context |
| `C97_upper_partial` | `T_Lub.v` | Closed under the global context |
| `C97_lower_partial` | `T_Lub.v` | Closed under the global context |
| `C97_upper_all_partial` | `T_Lub.v` | Closed under the global context |
| `C97_lower_all_partial` | `T_Lub.v` | Closed under the global context |
| `C97_same` | `T_Lub.v` | Closed under the global context |
| `C97_classes` | `T_Lub.v` | Closed under the global context |
| `C97_common` | `T_Lub.v` | Closed under the global context |
| `C97_nearest` | `T_Lub.v` | Closed under the global context |
| `C97_none` | `T_Lub.v` | Closed under the global context |
| `C97_effects` | `T_Lub.v` | Closed under the global context |
| `C97_none_refuted` | `T_Lub.v` | Closed under the global context |
| `C97_function_refuted` | `T_Lub.v` | Closed under the global context |
