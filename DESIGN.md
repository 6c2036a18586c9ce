# Formal model of Water-Melon/Melon: design

## Layout

* `properties.jsonl` – the properties (C01, C02, ...), stated over the public API.
* `rocq/theories/<Area>Model.v` – executable Gallina model, function by function; each definition cites
  the file and lines of `/repo` it follows and says where it simplifies.
* `rocq/theories/<Area>Spec.v` (or a short section at the head of the Props file) – independent specification.
* `rocq/theories/<Area>Proofs.v` – lemmas.
* `rocq/theories/<Area>Props.v` – only the property theorems (`exact lemma`), examples that meet the hypotheses
  and `Print Assumptions`.
* `MANIFEST.json` – property → theorem names and status.
* `seeded/LOG.jsonl` – mutation tests of the theorems (done in a scratch copy).

Conventions: machine integers are `N`/`Z` with explicit wrap where the code can wrap; pointers are abstract
(list positions, node identifiers or option values); allocation failure is an explicit model parameter or outcome only
where a property speaks about it; undefined behaviour (out-of-bounds access, use after free, over-wide shift) is a
distinct outcome (`None`/`UB`) wherever a property can reach it. Where the unchanged code violates the property, the
violation is proved as `<name>_refuted : exists ...` and the largest true part is proved beside it.

## Plan per property

| Id | Model | Proof |
|----|-------|-------|
| C01 | ring record (slots, head, tail, nelts, qlen) | refinement to bounded list, induction over histories |
| C02 | `free_index` case by case on the same ring | refinement to "list without the i-th"; wrap cases checked, refutation if they disagree |
| C03 | node chain with the C link updates | refinement to list |
| C04 | nelts/nalloc/contents with the doubling loop | invariant, termination of growth (refuted for initial size 0) |
| C05 | node map with prev/next links | representation predicate "heap represents list", preserved by each operation |
| C06, C07 | functional tree with the C rotations and fix-ups on a zipper (parent pointers = path) | ordered-multiset refinement; red-black invariants |
| C08 | bucket lists, expand/reduce, deferred removal | refinement to association list; refutation for update during resize |
| C09 | heap-ordered forest with marks | heap order + multiset invariants |
| C10 | byte-list codec | round trip by induction in steps of 3/4 |
| C11 | byte-list state table | permutation invariant, involution |
| C12, C13 | word/byte level functions with the C tables | Feistel algebra; inverse tables checked by finite sweep; GF(2) linearity for MixColumns |
| C14 | search loop + modular exponentiation | Fermat's little theorem |
| C15 | KMP with the prefix table as array | prefix-function invariant |
| C16, C17 | byte-list functions | order laws / refutation, run decomposition |
| C18–C24 | limb lists with sign and length, 64-bit wrap explicit | value function into Z; Knuth D |
| C25–C27 | generator and recursive-descent parser on byte lists with fuel = input length | round trip by induction on the tree; buffer bound counted explicitly |
| C28 | GF(256) log/ilog tables, co-matrix, Gauss elimination | field laws by finite sweep, matrix algebra |
| C29 | RTP packets as byte lists | XOR algebra |
| C30–C32 | size-class table, accounting state machine, bitmap allocator | finite sweep + monotonicity; invariants over histories |
| C33 | interleaving transition system of workers under one mutex | inductive invariants over all schedules |
| C34, C35 | calendar arithmetic | round trip over all time stamps; refutations for cron |
| C36, C37 | TLV / frame codecs | round trip |
| C38 | stack of open spans | refinement to call tree |
| C39 | Gauss–Jordan over an abstract field | linear algebra on lists |
| C40 | byte lists | round trip |
| C41 | streaming buffer + compression function | streaming = one shot, padding equals the standard |
| C42 | iteration loop of the tree with its list of nodes, handlers that insert, delete or abort | every node met once, over all handlers that do not abort |
| C43, C44 | `mln_utc_adjust`, `mln_s2time` on records of fields | day counts; all texts of moments |
| C45 | the same decoder as C25 with the policy record | limits as a predicate on values, by induction on the parse |
| C46 | the object list, the suspect chain and the marks; graphs as functions from objects to members | freed = complement of the least set that must stay, for every history and graph |
| C47 | keys, padding, the power (plain and by remainders), blocks; random padding is a list of draws | the power of unreduced operands from the limb level (`BnLooseProofs`); Fermat and the Chinese remainder theorem; block formats against RFC 8017 |
| C48 | encoding of the digest, block-wise signing, verification with its overwriting | on top of C41 and C36: the encoding is the DER of RFC 8017; soundness from the decoder's tiling; the forgery by a cube root |
| C49 | Miller-Rabin test, random numbers, search loop, key generation over a list of draws | the test decides strong probable primality (squares of one modulo a prime); search relation over a generator; Euclid's coefficient bound; Proth's theorem for concrete primes |
| C50 | the whole matcher (`mln_match_here` and all it calls) on byte lists, with fuel; the results array | a sequence of atoms followed by anything with a known result; the result is the longest match of a small language definition; search and successive matches by induction on the text |
| C51 | the four repetition functions, single-byte and longer operands | greedy count = longest run; operators as written (digits by cases); refutations for the rest |
| C52 | `mln_iothread_send` and `mln_iothread_recv` as a transition system: any number of threads, each with a stack of calls | invariants over all event lists: each message in one place, the queue a queue, one byte per waiting chain |
| C53 | the same, with hold and release, freeing and the messages' mutexes | invariant per message relating its state to what was seen of it; refutations by schedules |
| C54 | `mln_http_parse` over a chain of buffers: lines, the first line, fields, the body handler as a function | a grammar of lines and messages written as relations; the parser is sound and complete for it; streaming by induction over lines and pieces |
| C55 | `mln_http_generate`: the writer that fills buffers of 1024 bytes, first line, fields, body | invariant of the writer; the text written is in the grammar, so that C54 reads it back |
| C56 | the header fields as the list of entries of their hash table | equivalence of lookups with the first (all) fields of that name when a name has one spelling; refutations by case, null bytes and missing values |
| C57 | `mln_fileset`: the red-black tree ordered by the string comparison of paths, the chain of unused files, reference counts, the descriptors open | refinement to a cache given as a list of entries and a queue; sharing, the limit and clean-up follow by induction over histories; refutations for paths outside ASCII, for the documented release on opening, for the size, and for a failed allocation |
| C58 | the handshake of `mln_websocket`: the key, the request, the test, the response with accepted key, protocols and extension tokens, the validation, the field table of the object; over the models of HTTP, SHA-1 and base 64 | a request and a response read back by the parser for all fields and targets; the composition is accepted by the client; the two tests characterised; refutations for a missing key, the buffer of the extension tokens, the key that is not kept, the case of the digest and of names |
| C59 | `mln_tcp_conn_send` in its builds: writev or send, sendfile or read and send, blocking or not; queues are lists of buffers in memory or files; the socket and the file system are lists of answers | each inner loop moves a beginning of the queue; composed for one call and by induction for histories of queueing, sending and taking; refutations for writev with files, partly sent and empty marked buffers, sendfile without blocking, empty buffers before files |
| C60 | `mln_tcp_conn_recv` into memory and into files | induction over the answers; the short write refuted |
| C61 | timers of `mln_event`: set, cancel, the pass of the dispatcher, for any number of threads; the heap by what C09 says of it | every event of every schedule is allowed by the history; progress of a pass; the product of 32 bits refuted |
| C62 | descriptors of `mln_event` with epoll: set, append, clear, timeouts, the reports and the pass of the dispatcher; the kernel's part as epoll(7) says | every event of every schedule is allowed by the history (one dispatcher, any other threads); no use after free; delivery of what is watched; eight claims refuted |
| C63 | the lexer of `mln_lex.h` for a text in memory, without preprocessing; any keywords and any handlers of characters that meet a specification, which those of expressions do | exactness: the tokens returned are those the text is spelled with, and no others; the bytes 254 and 255 refuted |
| C64 | `mln_expr_run`: tokens, constants, the parser that evaluates as it reads; the callback is any function of a state of its own | by induction on a big-step semantics of the syntax tree: the run of any text of a program gives its value and its calls; two claims refuted |
| C65 | `mln_conf_load`, `mln_conf_reload`, the searches, `mln_conf_cmds`, `mln_conf_cmd_num`: the lexer of C63 with the handlers of the configuration, the reader of domains, commands and items, the trees of C06 | both directions between a grammar of files and what is loaded, by induction on the text and on the file; lookups from the refinement of the trees; six claims refuted |
| C66 | `mln_ipc_*_send_prepare`, the handlers for sending and receiving, cutting the received bytes, setting handlers, over the connection of C59 | an invariant of two processes and the socket between them: what is known of the first message, received, coming and still to be sent is the text of the messages under way; five claims refuted |
| C67 | `mln_json_generate` with `mln_json_obj_generate` and `mln_json_array_generate` over the values of C28 to C31; arguments are a list of typed values | a grammar of formats with their arguments as mutual inductive relations; completeness by induction over the derivation, soundness by induction over the steps of the program; strictness, keeping the document and ownership are refuted |
| C68 | the preprocessor of the lexer: `#define`, `#undef`, `#if`, `#else`, `#endif`, `#include` and the use of macros, over a stack of texts | documents with directives and the tokens they stand for, as an inductive relation; the lexer gives them, by induction over the derivation, with a lemma by induction over documents for parts that are left out; that such parts have no effect, that the lexer stops, and four more claims are refuted |
| C69 | the log: what a call writes for its level, place and format, threads of several processes that write, reload and wait for the locks, and the path of the file | messages as lists of parts with the text of each; an invariant over all schedules that ties the bytes of every file to the calls whose turns have come, and each turn to the last configuration; a measure for the end of all calls; wrong levels, long numbers, short writes, signals and two kinds of paths are refuted |
| C70 | messages between threads: the sockets of all threads, the chains and lists of the main thread, the strings they share | an invariant over all histories that ties what a thread wrote to what waits for another or was given to it, message by message; a second one over the lists of senders (each message has its sender, each list only its messages); refutations by concrete histories |
| C71 | arrays of the script language: both trees (as C07 models them) with the comparison of values, lookup, making of elements and test with every failure of memory, and the index operator | a refinement to a list of places with numbers and keys, over all histories; uniqueness and persistence follow from it; the comparison is shown to be a total preorder on keys that can be told apart; refutations by concrete histories |
| C72 | scopes and symbols of the script language: the array of scopes, the hash table with its chains, the symbols kept to be used again, definition here and one scope up, lookup, the set a scope belongs to, and the end of the context | a refinement to a stack of tables of names over all histories, with an invariant that ties each symbol to its layer, its bucket and its scope; that all is given up once and that calls leave no trace follow from it |
| C73 | the pipe of a job of the script language: making and registering it, sending by a format with the array of a message built part by part, receiving into nested arrays, the handler of what the script sends; memory that runs out at each point | a refinement to a queue of messages over all histories; that each message sent with success is received once and in order follows from it |
| C74 | jobs of the script language: the cache of programs with its key, time and count of references, the program of a job, its name in the tree of names, and the ways in which the making of a job fails | a refinement to a table of jobs over all histories, with an invariant that each tree is freed, cached or owned and that counts are those of the jobs; the end of the language frees each tree once |
| C75 | turns of the jobs of the script language: the chains of running and waiting jobs, the handler as the actions of several threads, suspending, continuing, freeing, signal and clear as a flag | an invariant over all interleavings relates the state to the events; a law over events alone (whose turn, how long, which step, when it returns); round robin and single return follow from the law; a measure shows that a turn ends |
| C76 | operators of integers in the script language: expressions with an integer on the left, assignments with an integer on the right, operators with one operand, with undefined behaviour of C as an outcome of its own | for all integers of 64 bits against unbounded integers: quotient and remainder by their equation, shifts by powers of two, bits by the bits of the operands |

## Trusted base

* Coq 8.16.1: its kernel, run by `coqc` when building and by `coqchk` when auditing. `vm_compute` is used for
  finite sweeps and examples; no `native_compute`, no plugins, no kernel check switched off.
* **Axioms.** Every `*Props.v` file has a `Print Assumptions` after each theorem. All of them print
  `Closed under the global context`: no theorem of this development depends on any axiom, neither one of ours nor
  one of the standard library. The audit of the whole library context lists seven constants,
  `Coq.ssr.ssrunder.Under_rel.{Under_rel, Under_rel_from_rel, Under_relE, Over_rel, over_rel, over_rel_done,
  under_rel_done}`; these are the fields of a module that the standard library seals opaquely for its `under`
  tactic, they are loaded with `ssreflect` by the `Lia`/`Zify` files, and no theorem here uses them.
* Only the Coq standard library is imported.
* That the Gallina model says what the C text says is by reading only. Each definition cites the lines it follows.
  C semantics used: LP64 (x86-64, `int` 32 bits, `long`/pointers 64 bits), unsigned wrap-around explicit, `char`
  signed, arithmetic right shift of negatives avoided or flagged; out-of-bounds access, use after free, signed
  overflow and over-wide shifts are outcomes of their own (`None`, `Fault`, `UB`) and never "some value".

## What is modelled, and what is not

| Area | Modelled | Not modelled |
|------|----------|--------------|
| `mln_queue`, `mln_stack`, `mln_array` | all operations, histories, growth with 64-bit wrap | pool variants (they differ only in the allocator called); allocation failure in the stack |
| `mln_list.h`, `mln_chain` macros | links on a node map, several lists at once | |
| `mln_rbtree` | insert, delete, search, minimum, successor, iteration with modifying handlers, inline and callback variants coincide | pool variants |
| `mln_hash` | new, insert, update, search, change value, remove, iterate, reset, expand/reduce | user hash functions are arbitrary functions |
| `mln_fheap` | insert, minimum, extract, decrease key, delete; consolidation array with its 45 slots | |
| `mln_base64`, `mln_rc`, `mln_des` (DES, 3DES), `mln_aes` | in full, checked against tables of the standards | AES init with an unknown key size (silently kept) |
| `mln_md5`, `mln_sha` (SHA-1, SHA-256) | streaming, padding, compression, output in bytes and hex | `dump` printing |
| `mln_prime_generator` | witness loop with arbitrary random draws | the quality of `rand()` |
| `mln_string` | compare functions, slice, trim, KMP and plain search, `upper/lower` | reference counting, concatenation, split helpers not named in a property |
| `mln_bignum` | assignment from text, add, sub, mul, div, mod, shifts, compare, powers mod, Euclid, text and octets, prime search | the seeding of `rand_r` |
| `mln_rsa` | keys, padding, encryption, signatures, key generation; random numbers are a list | allocation failure; the growth of the signature's buffer |
| `mln_json` | decode with policies, encode, object and array access, paths (`fetch`/`parse`), number scan, `mln_json_generate` | iterators; the error position; numbers are doubles of the library `SpecFloat` |
| `mln_rs`, `mln_matrix`, `mln_fec` | in full | rounding in `mln_matrix` (exact rationals); RTP extension parsing beyond the header |
| `mln_alloc` | heap pools, pools on pools, shared-memory pools, byte contents | processes and locks around shared pools; `__DEBUG__` builds use malloc |
| `mln_thread_pool` | every interleaving of the critical sections, failures of allocation and of thread creation, spurious wake-ups, time-outs | the code inside one critical section is one step; `fork` handlers; cancellation inside the pool's own code |
| `mln_gc` | add, suspect, merge, remove, collect, free; object graphs and handlers are arbitrary | allocation failure; handlers that change the graph in the middle of the marking |
| `mln_tools` | calendar conversion, adjustment, time parsing | boot parameters, daemon |
| `mln_cron` | in full | |
| `mln_asn1` | encoder and decoder in full, `deresult` access | dump |
| `mln_websocket` | frame generation and parsing over chains of buffers; the handshake: `is_websocket`, `validate`, request, response, extension tokens, `set_field`, `get_field` | `mln_websocket_match` (fields against patterns), failed allocations |
| `mln_regexp` | in full | allocation failure; texts of 2^31 bytes and more; `char` is taken as signed |
| `mln_iothread` | send, receive, hold, release, the chains, the locks, the bytes in the sockets | `mln_iothread_init` failures, `mln_iothread_destroy`, a NULL handler, memory reuse (a freed message is never used again) |
| `mln_http` | parsing, generating, fields, init, reset | allocation failures, `mln_http_destroy`, `mln_http_dump`, flags of generated buffers; the hash table of the fields is the list of its entries |
| `mln_file` | file sets: open, close, release, destroy; the answers of `open` and `fstat` and the failure of allocations are inputs | temporary files; the three times, which are kept like the size |
| `mln_connection` | send in all builds, receive into memory and files, append, removal of what was sent | pointers of the queues, allocation failure, the release of memory; Windows |
| `mln_event` | timers; descriptors as built with epoll | builds with kqueue and select; M_EV_NONBLOCK and M_EV_BLOCK; the callback of the dispatcher; allocation failure; the clock is an input |
| `mln_lex` | tokens of a text in memory, with keywords and handlers; the preprocessor (`#define`, `#undef`, `#if`, `#else`, `#endif`, `#include`, macros) with files as a function from paths to texts | the search for files, directories, line numbers, error messages; keywords are looked up in a list; handlers other than that of the number sign together with the preprocessor; that the if levels are shared by lexers of one prefix; allocation failure |
| `mln_expr` | `mln_expr_run` | `mln_expr_run_file`; the memory of values and their `free` functions; reals are kept as decimal fractions; `sscanf` by what it does with digits, out of range is undefined |
| `mln_conf` | loading, loading again, searching, listing, counting | the preprocessor (`#`); other processes (`mln_ipc`); changing items and removing; dumping; reals are kept as decimal fractions; `atol` out of range is undefined |
| `mln_fork` | messages between the master and workers; setting handlers | starting, watching and restarting processes; the event loop that calls the handlers (C62); the tree of handlers is a list of pairs; little-endian |
| `mln_span` | entry, exit, release, stack, tree | dump formatting, clock |
| `mln_utils.h` big-endian macros | in full | |
| `mln_log` | one call of `mln_log` with its format, levels and prefix, the copy to the standard error of one call; `mln_log_writen`, `mln_log_reload` and `mln_log_set_level` with both locks over any number of processes and threads; `mln_log_get_log` up to the opening of the file | `mln_log_init` and the file of the process number, loggers set by the program, failures of `open` and `mkdir`, time that cannot be read |
| `mln_thread` | creating threads, reading, routing and writing messages, threads that end or start again, clearing messages and queues | loading threads from a configuration, `pdata` of messages, `mln_thread_kill` beyond the end it causes, lack of memory; receiving and sending are what `Conn*` proves of them |
| `mln_lang` (arrays only) | `mln_lang_array_new/get/elem_exist`, `mln_lang_val_cmp` and the index operator | counts of references, the collector's view of arrays (the collector itself is C46), operators defined by scripts |
| `mln_lang` (scopes and symbols only) | `mln_lang_scope_push/pop`, `mln_lang_symbol_node_*`, `mln_lang_hash_*`, `mln_lang_ctx_get_class`, the symbols' part of `mln_lang_ctx_free` | counts of references of what symbols stand for; the doubly linked chains are lists |
| `mln_lang` (pipe only) | `mln_lang_ctx_pipe_new/send/do_send/elem_init/recv_handler_set`, `mln_lang_func_pipe_process`, `mln_lang_func_pipe_process_array_generate`, `mln_lang_ctx_resource_register/fetch` for the pipe | making the pipe from two threads at once; the pool that both sides use; the arrays of the script are lists (C71) |
| `mln_lang` (jobs only) | `mln_lang_ast_cache_new/free/search`, the program and the name in `mln_lang_ctx_new/free`, `__mln_lang_job_new/free`, `mln_lang_func_kill_process`, the part of `mln_lang_free` that ends jobs | the turns of jobs (C75), threads (one operation at a time), what a program does |
| `mln_lang` (turns of jobs only) | `mln_lang_run_handler`, `mln_lang_ctx_suspend/continue`, the chains in `__mln_lang_job_new/free` | what a step of a program does (its effects on the two flags are inputs), garbage collection between turns (C53), a failing `signal` other than at the making of a job, the calls that find the lock taken |
| `mln_lang_int` | all operators, by the type of the other operand | operators that a script defines itself, lack of memory, the operators of reals and strings that take over (an outcome of its own), the conversion of reals out of range |
| the rest of the script language (`mln_lang*`), `mln_parser_generator`, `mln_framework`, `mln_trace`, `mln_path` | – | in full, unless a later section says otherwise |

## Where the code disagrees with its property

Each item is a theorem `..._refuted` with a concrete witness.

* Queue: removing by index leaves the tail one slot too far. Array: initial size 0 never grows; size overflow.
* Hash: updating while the table grows, removing in a growing iteration, stopping an iteration after a removal,
  search iteration to the end. Heap: deleting while another key equals the minimum removes the other node.
* Base64: decoding the empty text reads before the buffer. Strings: comparison subtracts signed characters, so it is
  not an order on bytes from 128 on; the plain search compares past a view's end.
* Primes: composites are accepted for unlucky draws; above 1073741827 the result is below the argument.
* Bignum: comparison and subtraction of two negatives of equal length, sign of remainders, reads past 257 limbs, wide
  shifts, octal text, negative zero, leading zero octets.
* JSON: empty arrays, fractions and small numbers are not kept; an object is cut when memory is short; overrun and
  overread for texts without terminator; exponent overflow; keys with bytes from 128 on can be lost; path step `10`.
* Reed-Solomon: parity rows are powers mod 256, so some losses below the limit are not recovered; with fewer than n
  survivors the pointer array is read past its end. FEC: sequence wrap-around, gaps, incomplete groups, later packets.
* Pools: alignment to 16, counts after failure and at the end, requests near 2^64. Shared pools: report of free space.
* Thread pool: a maximum of 0 or 2^32-1 serves nothing; a thread that cannot be made stays counted and the pool never
  ends; a failed add can leave its resource queued; a handler that ends its thread can strand the queue or use the
  pool after it is freed; NULL is swallowed. Observed only: `tv_sec` is truncated, so waits end up to a second early.
* Garbage collector: members of live objects that garbage leads to are cut; an object held only through a suspected
  object of another collector is freed; `mln_gc_clean_add` does not take NULL although `mln_gc_collect_add` does.
* RSA: blocks are as long as the limbs of the modulus, so a modulus just above a multiple of 32 bits decrypts nothing;
  asked for such a multiple, key generation may give one bit more and then produces such a key. The empty text does not
  round trip; decryption and verification overwrite their input; a hostile cipher is read past its end. Verification
  ignores what follows the digest and accepts zero padding, so with exponent 3 signatures can be made without a key.
  Bit 31 of every limb of a random prime is clear, because `rand_r` has 31 bits. Observed only: `em` is freed twice when a
  block of a signature fails.
* Regular expressions: counts of several digits are read in base 11, `{0}` is unlimited, what follows a repetition is
  not looked at when the text ends, there is no backtracking, `\d*` needs a digit, `\d{3}` takes one, `.?` matches
  nothing, a bar joins only its neighbours, groups of failed attempts stay in the results, `^` holds for later matches
  at any place, bytes from 128 on never match, matches near the end are missed, `(a*)*` does not end.
  `mln_reg_equal` is a search and returns 0 for success, against its manual.
* I/O threads: releasing a held message before its handler has returned frees it under the receiver; an even, non-zero
  `feedback` does not fit the one-bit field, and the message is freed under the sender; a handler that asks its sender
  for feedback, or that sends to its own side, deadlocks. Observed only: `mln_iothread_destroy` joins detached threads,
  leaves queued messages allocated and their senders waiting.
* HTTP: the assignment and the comparison in `mln_http_parse` are parenthesised wrongly, so that a malformed line is answered with
  `M_HTTP_RET_DONE`; only the error number shows it. A blank behind the version of a request makes it malformed; status numbers wrap at
  32 bits; the request target `?` is read as an empty target, and what is then written is a request for `HTTP/1.1` in version 1.0. A
  response is written with the standard phrase of its status whatever its own message, and refused when the status is not in the table.
  Generating with an unset type releases an uninitialised pointer. Field names compare without case but hash with case, so that `host` does not find
  `Host`; names are compared up to a null byte only; `mln_http_field_remove` stops at a field without value; `mln_http_field_set` reads
  through a NULL value.
* File sets: the tree is ordered with `mln_string_strcmp`, which is not transitive on bytes above 127, so that a path that is open may be
  opened a second time under a second file; opening a file over the limit releases nothing, although the documentation says so, only closing
  does; size and times stay those of the first opening; when no tree node can be allocated the freed file stays in the chain of unused files.
* WebSocket handshake (`WshProps`): a request with `Upgrade: websocket` and no `Sec-WebSocket-Key` passes
  `mln_websocket_is_websocket`, and making the response reads through a null pointer. The buffer for the extension tokens has no
  byte for the comma behind the last one, so any offer of an extension writes one byte beyond it. The key of a request is not
  kept: `mln_websocket_validate` reads through a null pointer unless the program takes the key out of the HTTP object and calls
  `mln_websocket_set_key`. The accepted key is compared without regard to case, so 2^k other digests pass. Names of fields are
  compared without regard to case but their bucket depends on it. Not modelled: the results of `mln_http_field_set` are
  tested with `< 0` although its error is positive.
* Connections (`ConnProps`): where `writev` is found by `configure`, which is the default on Linux, a file at the head of the queue is released
  without being sent, in either mode; so is one behind memory if the socket does not block, and the second of two if it blocks. `M_C_FINISH` is
  returned when only a part of the marked buffer was taken. With an empty marked buffer in front the whole queue is released. With `sendfile`
  and without blocking, the count asked for stays what it was before the first partial answer, so bytes behind the queued part of the file
  are sent; and `M_C_FINISH` is returned in front of a marked buffer in memory. In the other builds an empty marked buffer at the end
  never gives `M_C_FINISH`, and an empty buffer or a node without buffer in front of a file stops the queue for good. Receiving into a file
  does not notice a short write, and loses what it has read when the file cannot be opened; `M_C_TYPE_FOLLOW` fails the assertion of a debug build.
* Timers (`TimerProps`): the milliseconds are multiplied by 1000 in 32 bits, so a timer of 4294968 ms, about 71 minutes, goes off at once.
* Descriptors (`EventProps`): what is reported while the lock is busy may be taken off the list of active descriptors by the pass over the timeouts,
  and is lost; an event appended with `M_EV_ONESHOT` disarms those that are not; an event appended without it stays for one shot if it was; what is
  set after a first call without any kind is never watched; a handler for errors outlives the call that replaces it, and is called more than once
  though for one shot; setting for one shot while an event is pending leads to two calls; with two dispatchers a handler that gives its own
  descriptor a timeout and then clears it makes the dispatcher use freed memory. `timeout_ms * 1000` overflows an `int` from 2147484 ms on (the
  model stops there). If the timeout of a new descriptor cannot be allocated the descriptor is freed but stays in the tree (not modelled).
* Expressions: an `if` without an `else` whose condition is false looks for an `else` behind its own `fi`: it takes the `else` of a following `if`, or the run
  fails (`expr_if_refuted`). A `loop` at the very end of the text fails after its first round: reading `end` up to the end of the text frees the input, and
  `mln_lex_snapshot_apply` does nothing without one (`expr_loop_refuted`). A comma is passed over behind a variable, but is an error behind a constant. The bytes 254
  and 255 end a text or are errors, also in strings (`lex_bytes_refuted`). Not modelled, seen when reading: the table of handlers is static and is never reset, so after
  `mln_expr_run_file` the handler of `#` stays with preprocessing data that is freed; `#define X` and `#undef X` with the end of the file right behind the name do not
  end, as the end is not checked for; `#undef` and `#include` are done inside ignored parts; `mln_expr_val_copy` copies the `free` function of a string value with it, so
  it is called twice.
* Configurations (`ConfProps`): in a comment a star takes the next character with it, so a comment that ends with `**/` does not end there, and the rest of the file is
  lost without an error (`conf_comment_refuted`, `conf_comment_lost`). The last right brace of a file may be missing (`conf_load_only_refuted`). A domain called `main` cannot
  be closed (`conf_main_refuted`). Octal and hexadecimal numbers are refused (`conf_number_refuted`). Of commands with one name neither the first nor the last is found
  (`conf_first_refuted`, `conf_last_refuted`). `mln_conf_reload` ignores whether the file was loaded: it returns 0 and the program has no configuration, not even
  the old one (`conf_reload_refuted`). Files with CR LF line ends are refused, as CR is no blank.
* Messages between processes (`IpcProps`): when the other process sends messages and ends, and the end is seen in the same call, none of them is handled. If there is no
  memory for a message that has not been received in full, the process loops for ever. A length below four makes it read behind the message; a message of 2^32 - 4 bytes or more is
  copied behind its buffer. Setting a handler may fail and yet remove the one that was set.
* The preprocessor of the lexer (C68): a part that is left out still undefines macros, and unknown macros and missing files in it are errors; names that
  begin with a digit are too, unless they are numbers. A macro whose value uses it makes the lexer run for ever (in C each turn is a call, so that the
  stack overflows), and so does `#define a` or `#undef a` on a last line without an end. A condition need not be closed, a second `#else` changes over
  again, and a number sign that stands alone is the token of `@`. By reading only: defining a macro twice returns NULL without an error being set;
  `mln_lex_destroy` frees `hooks.at_data` when preprocessing is on, which is the field of another handler; the table of handlers is static per prefix
  and holds pointers to the data of one lexer, so that two lexers of one prefix share their conditions and the pointers dangle afterwards; files are
  compared by the path as written, so that relative paths in different directories can be taken for a loop; a token at the end of a macro's value or of
  a file is joined with what follows.
* `mln_lang_int` (C76): `5 == 5.5` is true, since equality turns a real into an integer while `<` turns the integer into a real
  (`int_equal_refuted`). Results that do not fit, shifts by 64 or more places, `-9223372036854775808 / -1` and the same with `%` are undefined
  in C and not checked; the division ends the process on most machines (`int_undefined_refuted`). A string is a text for `+`, a number for `-` and refused
  for `|`, while a real loses its fraction there (`int_string_refuted`).
* `mln_lang` turns (C75): a job can be freed (`mln_lang_job_free`, `Kill`) while another thread is in its turn; that thread goes on
  with it (`sched_kill_refuted`). The handler looks at the first job only: if that one is in a turn of another thread, a thread that could run
  the next job clears the signal and runs nothing until the turn ends (`sched_idle_refuted`). A job that is told to quit and suspended in the same
  step does another step after it is continued, since `ref` is looked at first (`sched_quit_refuted`).
* `mln_lang` jobs (C74): a job that is refused because its name is taken goes to `mln_lang_ctx_free` with the name set, which takes the node of the
  other job out of the tree of names; that job can then not be killed by name, and the next one can take its name (`job_name_refuted`). The key of the
  cache does not say whether it is a path or a program (`job_kind_refuted`), and a file is read once for the key and again for the tree, so that a
  change in between puts a wrong program under the text (`job_two_reads_refuted`). A script that kills its own name is freed while it runs
  (`job_itself_refuted`).
* `mln_lang` pipe (C73): a message that is sent before anything has asked for the pipe is dropped with the answer 0 (`pipe_lost_refuted`), though
  after that a pipe nobody has subscribed to answers -1. If there is no memory for the tree node, `mln_lang_ctx_resource_register` frees the pipe
  by its handler and the caller frees it again (`pipe_node_refuted`). A `send` of the script without a handler answers true. The pipe is looked for
  without a lock, and `mln_lang_ctx_pipe_send` allocates from the pool of the context, which has no lock, so that a message sent by another
  thread while the script runs races with it (outside the model).
* `mln_lang` scopes (C72): `mln_lang_scope_in` compares a signed difference of pointers with an upper bound only, so in the outermost scope
  `mln_lang_symbol_node_upper_join` and `mln_lang_ctx_get_class` take the place before the array for a scope; the former writes there. A name is
  looked for in the innermost and the outermost scope only (`scope_nearest_refuted`).
* `mln_lang` arrays (C71): if memory runs out for the second tree node of a new element with a key, the element is freed while the tree of keys
  still has it, and the next lookup by key uses it. The index operator marks `nothing to restore` with -1, so an operand of -1 is not restored:
  after `a[i]` with `i = -1` the operand is the number of the last element; after an error the operand is changed too. Key 2^63-1 overflows a
  signed sum. From C, a negative number makes the numbers wrap, and two elements get number 0. NaN as a key leads to any other real's
  element, and strings with bytes from 128 on may get a second element.
* `mln_thread` (C70): a thread that writes a message and ends at once loses it: the handler reads until the end of the stream, finds the thread
  gone and throws away all it read (`thread_last_words_refuted`). Messages that wait for a thread that is started again are thrown away, though a
  thread of their name is there all the time (`thread_restart_refuted`). When a thread ends each of its receiving buffers is taken for one message
  from its start: if it holds the rest of a message behind one that was delivered long ago, the strings of the delivered message are freed under
  the thread that has it (`thread_free_refuted`); shorter buffers are read behind their end, further messages in them leak. A message whose `dest`
  is NULL brings the program down (`thread_null_refuted`).
* `mln_log` (C69): loading a configuration again with an unknown `log_level` never returns. `mln_log_set_level` complains with `mln_log`, which waits
  for the lock `mln_log_reload` holds; the lock of the file stays held as well, so that no other process can log any more (`log_reload_refuted`).
  `%f` writes as many bytes as the number is long, though its buffer has 256, so that what lies behind it is written to the log
  (`log_real_refuted`). The result of `write` is not looked at (`log_short_refuted`), nor is that of the wait for the lock of the file, which a
  signal ends (`log_signal_refuted`). A `log_path` that begins with a dot and has no slash copies -1 bytes, and a directory of 512 bytes or more
  does not fit its buffer (`log_file_path_refuted`). `%%` is an error of the format (`log_wrong_format`). `mln_log_reload` also goes on if the new
  file could not be opened.
* `mln_json_generate` (C67): a comma before a closing bracket is accepted, and whatever stands behind the last bracket is ignored. When a format is
  wrong the document that was to be added to is emptied, and the documents given with `j` before the fault are destroyed while those behind it are
  still the caller's, so the caller cannot know which to free. `D` and `U` go through a double: 2^53 and 2^53+1 make the same document.
* Cron, calendar, ASN.1, WebSocket, matrix, spans, digests: see the `_refuted` theorems of `CronProps`, `CalProps`,
  `Asn1Props`, `WsProps`, `MatrixProps`, `SpanProps`, `DigestProps`.
