{"id": "C01", "title": "Bounded queue is FIFO", "statement": "A queue created with capacity n accepts an append exactly when it holds fewer than n elements, hands elements out in the order they were appended, keeps the element count exact, and never loses, duplicates or reorders an element, whatever the interleaving of appends, gets and removes.", "quantifier": "every capacity n and every finite sequence of append/get/remove/search calls", "why_tests_cant": "the ring wraps around at data-dependent points; only induction over all histories covers every head/tail position", "anchors": ["src/mln_queue.c:mln_queue_append", "src/mln_queue.c:mln_queue_get", "src/mln_queue.c:mln_queue_remove", "src/mln_queue.c:mln_queue_search"]}
{"id": "C02", "title": "Queue random removal keeps the rest", "statement": "Removing the element at offset i of a queue frees that element and leaves exactly the other elements, in the same order, for any position of the ring; a later append goes behind them.", "quantifier": "every ring position, every fill level and every offset", "why_tests_cant": "there are six wrap-around cases in the code and every one depends on where head and tail happen to be", "anchors": ["src/mln_queue.c:mln_queue_free_index"]}
{"id": "C03", "title": "Stack is LIFO and loses nothing", "statement": "pop and top return the most recently pushed not-yet-popped element, an empty stack gives NULL, the element count is exact, iteration visits the elements from top to bottom; dup yields a stack with the same contents (or their copies) that is independent of the first; destroy releases each remaining element once.", "quantifier": "every finite sequence of push/pop/dup calls", "why_tests_cant": "the link structure depends on the whole history", "anchors": ["src/mln_stack.c:mln_stack_push", "src/mln_stack.c:mln_stack_pop", "src/mln_stack.c:mln_stack_dup", "src/mln_stack.c:mln_stack_iterate"]}
{"id": "C04", "title": "Dynamic array keeps its elements", "statement": "push and pushn append at the end and keep every existing element across growth, pop drops exactly the last element and calls the destructor on it, and the element count equals pushes minus pops; growth always terminates.", "quantifier": "every initial size, element size and history of push/pushn/pop/reset", "why_tests_cant": "growth policy depends on history; the termination of the doubling loop needs an argument over all initial sizes", "anchors": ["src/mln_array.c:mln_array_push", "src/mln_array.c:mln_array_pushn", "src/mln_array.c:mln_array_pop", "src/mln_array.c:mln_array_init"]}
{"id": "C05", "title": "Intrusive lists stay well linked", "statement": "After any sequence of add and remove on the intrusive doubly linked list, walking forward from the sentinel and walking backward give the same elements in opposite orders, equal to the abstract sequence; remove affects only the node named.", "quantifier": "every finite history of add/remove over any number of nodes", "why_tests_cant": "aliasing of neighbours can break links only for particular shapes; all shapes must be covered", "anchors": ["src/mln_list.c:mln_list_add", "src/mln_list.c:mln_list_remove", "include/mln_utils.h:MLN_CHAIN_FUNC_DEFINE"]}
{"id": "C06", "title": "Red-black tree is an ordered multiset", "statement": "Insert adds exactly one occurrence, delete removes exactly the node given, search finds a node with an equal key iff one is present, and node count is exact.", "quantifier": "every history of insert/delete/search with any total preorder comparison", "why_tests_cant": "rebalancing has many shape-dependent cases that only arise for particular histories", "anchors": ["src/mln_rbtree.c:mln_rbtree_insert", "src/mln_rbtree.c:mln_rbtree_delete", "src/mln_rbtree.c:mln_rbtree_search", "src/mln_rbtree.c:mln_rbtree_min"]}
{"id": "C07", "title": "Red-black tree stays balanced", "statement": "After any history of inserts and deletes the tree keeps the red-black colour discipline, so a search inspects at most 2*log2(n+1)+1 nodes.", "quantifier": "every history of insert/delete", "why_tests_cant": "balance is an invariant over unbounded histories", "anchors": ["src/mln_rbtree.c:rbtree_insert_fixup", "src/mln_rbtree.c:rbtree_delete_fixup"]}
{"id": "C08", "title": "Hash table is a map", "statement": "A table behaves as the list of live pairs in order of insertion: search returns the value of the earliest live entry with an equal key, the search iterator all of them in order, remove deletes and releases exactly that earliest entry, update and change replace it in place, the count is exact, iteration visits every live pair once in order, and growing and shrinking the table changes none of this. In a table of fixed length a handler may remove the entry it is visiting. (A growing table must not update unknown keys or remove while iterating, and a handler must not remove and stop at once: refuted.)", "quantifier": "every hash function, every table length, every pattern of failing allocations and every history of insert/update/search/remove/iterate/reset", "why_tests_cant": "collisions and resize points depend on the hash function and on the whole history", "anchors": ["src/mln_hash.c:mln_hash_insert", "src/mln_hash.c:mln_hash_search", "src/mln_hash.c:mln_hash_remove", "src/mln_hash.c:mln_hash_update", "src/mln_hash.c:mln_hash_expand", "src/mln_hash.c:mln_hash_reduce"]}
{"id": "C09", "title": "Fibonacci heap yields minima", "statement": "minimum and extract_min return a least element of the stored multiset, extract_min removes exactly that node, decrease_key changes exactly one key, delete removes exactly the given node, and heap order holds throughout.", "quantifier": "every history of insert/extract_min/decrease_key/delete/union for any total preorder", "why_tests_cant": "consolidation and cascading cuts reshape the heap in history-dependent ways", "anchors": ["src/mln_fheap.c:mln_fheap_insert", "src/mln_fheap.c:mln_fheap_extract_min", "src/mln_fheap.c:mln_fheap_decrease_key", "src/mln_fheap.c:mln_fheap_delete"]}
{"id": "C10", "title": "Base64 round trip", "statement": "Decoding the encoding of any byte string yields that byte string; the encoding has length 4*ceil(n/3) over the standard alphabet; inputs whose length is not a multiple of four are refused.", "quantifier": "every byte string of every length", "why_tests_cant": "all three residues modulo 3 and all byte values at every position", "anchors": ["src/mln_base64.c:mln_base64_encode", "src/mln_base64.c:mln_base64_decode"]}
{"id": "C11", "title": "RC4 decryption inverts encryption", "statement": "Running the RC4 routine twice with the same key state gives back the original text, the state table stays a permutation of 0..255, and no table index is ever out of range.", "quantifier": "every key (1..256 bytes) and every text", "why_tests_cant": "key schedule reaches 256! tables", "anchors": ["src/mln_rc.c:mln_rc4_init", "src/mln_rc.c:mln_rc4_calc"]}
{"id": "C12", "title": "DES and 3DES decryption inverts encryption", "statement": "Decrypting an encrypted block with the same key returns the block, for single DES, for triple DES, and for buffers of any number of blocks.", "quantifier": "every key and every 64-bit block / buffer", "why_tests_cant": "2^120 key and block pairs", "anchors": ["src/mln_des.c:mln_des", "src/mln_des.c:mln_3des", "src/mln_des.c:mln_des_buf"]}
{"id": "C13", "title": "AES decryption inverts encryption", "statement": "Decrypting an encrypted 16-byte block with the same key returns the block for 128, 192 and 256 bit keys.", "quantifier": "every key of each size and every block", "why_tests_cant": "2^256 blocks and keys", "anchors": ["src/mln_aes.c:mln_aes_init", "src/mln_aes.c:mln_aes_encrypt", "src/mln_aes.c:mln_aes_decrypt"]}
{"id": "C14", "title": "Prime generator skips no prime", "statement": "The prime generator returns a value not below its argument (for arguments up to its ceiling), never passes over a prime, and terminates.", "quantifier": "every 32-bit argument", "why_tests_cant": "the search interval and the primality test range over 2^30 values", "anchors": ["src/mln_prime_generator.c:mln_prime_generate"]}
{"id": "C15", "title": "Substring search finds the first occurrence", "statement": "Searching a non-empty pattern in a text returns the position of the leftmost occurrence, or NULL when there is none, both for the naive and for the KMP routine.", "quantifier": "every text and every non-empty pattern", "why_tests_cant": "overlap structure of the pattern decides the failure function", "anchors": ["src/mln_string.c:mln_string_strstr", "src/mln_string.c:mln_string_kmp", "src/mln_string.c:kmp_string_match"]}
{"id": "C16", "title": "String comparison is a total order", "statement": "String comparison returns 0 exactly for equal byte strings, is antisymmetric and transitive, so it may be used as a key order of a search tree.", "quantifier": "every pair / triple of byte strings", "why_tests_cant": "the word-wise path is selected by length and the failure needs particular byte values", "anchors": ["src/mln_string.c:mln_string_strcmp", "src/mln_string.c:mln_string_strseqcmp"]}
{"id": "C17", "title": "String slicing and trimming", "statement": "Slicing at a separator set returns exactly the maximal separator-free non-empty runs in order; trimming removes exactly the longest prefix and suffix made of mask characters.", "quantifier": "every byte string and separator/mask set", "why_tests_cant": "positions of separators are unbounded", "anchors": ["src/mln_string.c:mln_string_slice", "src/mln_string.c:mln_string_trim"]}
{"id": "C18", "title": "Big number addition, subtraction, comparison", "statement": "For canonical big numbers whose result fits in the fixed size, add and sub compute the exact integer sum and difference for every sign combination, the result is canonical again, and compare/abs_compare agree with integer comparison.", "quantifier": "every pair of canonical big numbers with result below 2^8224", "why_tests_cant": "carries propagate across up to 257 limbs and over four sign combinations", "anchors": ["src/mln_bignum.c:mln_bignum_add", "src/mln_bignum.c:mln_bignum_sub", "src/mln_bignum.c:mln_bignum_compare"]}
{"id": "C19", "title": "Big number multiplication", "statement": "mul computes the exact integer product whenever it fits, never overflowing its 64-bit accumulators.", "quantifier": "every pair of canonical big numbers whose lengths add up to at most 257", "why_tests_cant": "accumulator overflow would need extreme limbs at particular positions", "anchors": ["src/mln_bignum.c:mln_bignum_mul"]}
{"id": "C20", "title": "Big number division", "statement": "For a non-zero divisor, div yields quotient and remainder with dividend = q*divisor + r and |r| < |divisor|, all canonical; a zero divisor is refused.", "quantifier": "every pair of canonical big numbers", "why_tests_cant": "the quotient-digit correction step of long division fires for about 2 of 2^32 random digits", "anchors": ["src/mln_bignum.c:mln_bignum_div", "src/mln_bignum.c:mln_bignum_div_word"]}
{"id": "C21", "title": "Big number shifts", "statement": "left_shift(n) multiplies the magnitude by 2^n (when it fits) and right_shift(n) divides it by 2^n rounding towards zero, for every n.", "quantifier": "every canonical big number and every 32-bit shift count", "why_tests_cant": "word and bit offsets combine with the length in many cases", "anchors": ["src/mln_bignum.c:mln_bignum_left_shift", "src/mln_bignum.c:mln_bignum_right_shift"]}
{"id": "C22", "title": "Big number text conversion", "statement": "Assigning a decimal, hexadecimal or octal literal yields the integer it denotes, and converting to text and assigning back returns the same number.", "quantifier": "every literal within the size limit, every canonical big number", "why_tests_cant": "unbounded literals", "anchors": ["src/mln_bignum.c:mln_bignum_assign", "src/mln_bignum.c:mln_bignum_tostring"]}
{"id": "C23", "title": "Big number octet strings", "statement": "os2ip reads a big-endian octet string into a canonical number of that value and i2osp writes it back.", "quantifier": "every octet string up to 1028 bytes", "why_tests_cant": "length residue modulo 4 and leading zeros", "anchors": ["src/mln_bignum.c:mln_bignum_os2ip", "src/mln_bignum.c:mln_bignum_i2osp"]}
{"id": "C24", "title": "Modular power and extended Euclid", "statement": "pwr(x,e,m) yields x^e mod m for positive operands and extend_eulid(a,b) yields gcd together with Bezout coefficients.", "quantifier": "every positive operand triple / pair within size", "why_tests_cant": "exponent bit patterns are unbounded", "anchors": ["src/mln_bignum.c:mln_bignum_pwr", "src/mln_bignum.c:mln_bignum_extend_eulid"]}
{"id": "C25", "title": "JSON round trip", "statement": "Decoding the text generated from a JSON value yields an equal value.", "quantifier": "every JSON tree of any depth and width with arbitrary byte strings", "why_tests_cant": "trees are unbounded and strings hold every byte", "anchors": ["src/mln_json.c:mln_json_encode", "src/mln_json.c:mln_json_decode"]}
{"id": "C26", "title": "JSON decoding stays inside its buffers", "statement": "Decoding any byte string never writes outside the buffers it allocates and accepts the empty array.", "quantifier": "every byte string", "why_tests_cant": "the defect needs a crafted mix of escapes and NUL bytes", "anchors": ["src/mln_json.c:mln_json_parse_string", "src/mln_json.c:mln_json_get_char", "src/mln_json.c:mln_json_parse_array"]}
{"id": "C27", "title": "JSON key access", "statement": "Object update followed by search behaves like a finite map, and path expressions address array elements by their decimal index.", "quantifier": "every key and every index", "why_tests_cant": "key order is computed by the string comparison over all byte strings", "anchors": ["src/mln_json.c:mln_json_obj_update", "src/mln_json.c:mln_json_obj_search", "src/mln_json.c:mln_json_parse_is_index"]}
{"id": "C28", "title": "Reed-Solomon recovery", "statement": "Given n data blocks and k parity blocks, whenever at least n blocks survive, decoding returns the original data; decoding never returns wrong data.", "quantifier": "every n, k, data and every erasure pattern", "why_tests_cant": "erasure patterns are exponential in n+k", "anchors": ["src/mln_rs.c:mln_rs_encode", "src/mln_rs.c:mln_rs_decode"]}
{"id": "C29", "title": "RTP FEC recovery", "statement": "If exactly one RTP packet of a protected group is lost, decoding the remaining packets and the FEC packet reconstructs the lost packet byte for byte.", "quantifier": "every group of packets, lengths and sequence numbers, every lost position", "why_tests_cant": "combinations of lengths and sequence numbers", "anchors": ["src/mln_fec.c:mln_fec_encode", "src/mln_fec.c:mln_fec_decode"]}
{"id": "C30", "title": "Memory pool size classes", "statement": "A request of s bytes is served from the smallest size class that holds s bytes, for every s up to the largest class; larger requests go to the dedicated path; so a block is never shorter than requested.", "quantifier": "every request size", "why_tests_cant": "2^21 sizes with boundaries at every class", "anchors": ["src/mln_alloc.c:mln_alloc_get_mgr_by_size", "src/mln_alloc.c:mln_alloc_mgr_table_init", "src/mln_alloc.c:mln_alloc_m"]}
{"id": "C31", "title": "Memory pool capacity accounting", "statement": "With a capacity set, the bytes in use never exceed the capacity, freeing everything returns the usage to zero, and a block is never handed out twice while live.", "quantifier": "every history of allocation and free, with any failure of the underlying allocator", "why_tests_cant": "histories and failure points are unbounded", "anchors": ["src/mln_alloc.c:mln_alloc_m", "src/mln_alloc.c:mln_alloc_free", "src/mln_alloc.c:mln_alloc_re"]}
{"id": "C32", "title": "Shared-memory pool blocks never overlap", "statement": "Live blocks of the shared memory pool never overlap, each is large enough, and freeing one makes exactly its units available again.", "quantifier": "every history of allocations and frees", "why_tests_cant": "bitmap positions depend on the whole history", "anchors": ["src/mln_alloc.c:mln_alloc_shm_allowed", "src/mln_alloc.c:mln_alloc_shm_set_bitmap", "src/mln_alloc.c:mln_alloc_free_shm"]}
{"id": "C33", "title": "Thread pool handles each resource once", "statement": "Every resource added is handed to at most one worker, in FIFO order, and is either processed or released at shutdown; the worker and idle counters stay exact; a queued resource always has a worker that will take it.", "quantifier": "every number of threads and every schedule", "why_tests_cant": "schedules are unbounded and races are rare", "anchors": ["src/mln_thread_pool.c:mln_thread_pool_resource_add", "src/mln_thread_pool.c:child_thread_launcher", "src/mln_thread_pool.c:mln_thread_pool_free"]}
{"id": "C34", "title": "Cron next time lies in the future", "statement": "For a well-formed cron expression the computed next time is later than the base time and matches the expression.", "quantifier": "every expression and every base time", "why_tests_cant": "calendar times are unbounded", "anchors": ["src/mln_cron.c:mln_cron_parse"]}
{"id": "C35", "title": "Calendar conversion round trip", "statement": "Converting a time stamp to calendar fields and back gives the same time stamp, and the fields are in their calendar ranges.", "quantifier": "every non-negative time stamp", "why_tests_cant": "leap-year structure over 400 years and beyond", "anchors": ["src/mln_tools.c:mln_time2utc", "src/mln_tools.c:mln_utc2time"]}
{"id": "C36", "title": "ASN.1 DER round trip", "statement": "Decoding the DER encoding of a tree of elements yields the same tree, for every nesting and content length.", "quantifier": "every tree of ASN.1 elements", "why_tests_cant": "nesting and length-of-length boundaries are unbounded", "anchors": ["src/mln_asn1.c:mln_asn1_encode_trans_chain_once", "src/mln_asn1.c:mln_asn1_decode"]}
{"id": "C37", "title": "WebSocket frame round trip", "statement": "Parsing a generated frame yields the same flags, opcode, status and payload, with or without masking, however the bytes are split into buffers.", "quantifier": "every payload, mask key and segmentation", "why_tests_cant": "payload length classes and segmentations", "anchors": ["src/mln_websocket.c:mln_websocket_generate", "src/mln_websocket.c:mln_websocket_parse", "src/mln_websocket.c:mln_websocket_close_generate"]}
{"id": "C38", "title": "Tracing spans mirror the call tree", "statement": "For every properly nested sequence of calls the span tree equals the call tree, in call order.", "quantifier": "every properly nested call sequence", "why_tests_cant": "nesting is unbounded", "anchors": ["src/mln_span.c:mln_span_entry", "src/mln_span.c:mln_span_exit"]}
{"id": "C39", "title": "Matrix product and inverse", "statement": "The matrix product is the mathematical product and is refused for mismatched shapes; the inverse times the matrix is the identity whenever an inverse is returned, and singular matrices are refused.", "quantifier": "every matrix of any size over an exact field", "why_tests_cant": "pivoting depends on the data", "anchors": ["src/mln_matrix.c:mln_matrix_mul", "src/mln_matrix.c:mln_matrix_inverse"]}
{"id": "C40", "title": "Byte-order helpers", "statement": "Big-endian decode of the big-endian encoding returns the integer and touches exactly the stated number of bytes.", "quantifier": "every integer and every width", "why_tests_cant": "2^64 values", "anchors": ["include/mln_utils.h:mln_bigendian_encode", "include/mln_utils.h:mln_bigendian_decode"]}
{"id": "C41", "title": "Digest streaming", "statement": "Feeding a message to MD5, SHA-1 or SHA-256 in any division into pieces gives the digest of the whole message as the published standard defines it.", "quantifier": "every message and every division into pieces", "why_tests_cant": "divisions interact with the 64-byte block boundary", "anchors": ["src/mln_md5.c:mln_md5_calc", "src/mln_sha.c:mln_sha1_calc", "src/mln_sha.c:mln_sha256_calc"]}
{"id": "C42", "title": "Tree iteration visits every node once", "statement": "Iterating a red-black tree calls the handler exactly once for every node that is in the tree when its turn comes, even if the handler deletes nodes, and independently of how earlier iterations ended.", "quantifier": "every history of operations and every deleting or aborting handler", "why_tests_cant": "needs an aborted iteration followed by the deletion of one particular node", "anchors": ["src/mln_rbtree.c:mln_rbtree_iterate", "src/mln_rbtree.c:mln_rbtree_delete"]}
{"id": "C43", "title": "Calendar adjustment", "statement": "Adjusting a broken-down time whose fields exceed their ranges gives the normal form of the same moment, with the right day of the week.", "quantifier": "every broken-down time with fields at or above their minimum", "why_tests_cant": "carries ripple through months of different lengths and leap years", "anchors": ["src/mln_tools.c:mln_utc_adjust"]}
{"id": "C44", "title": "Reading ASN.1 times", "statement": "Reading the text of a UTCTime or GeneralizedTime gives the time stamp of that moment, and texts that denote no moment are refused.", "quantifier": "every moment and every text", "why_tests_cant": "the space of texts is large and its boundary cases are calendar dependent", "anchors": ["src/mln_tools.c:mln_s2time"]}
{"id": "C45", "title": "JSON decoding limits", "statement": "Decoding under a policy accepts exactly the texts accepted without it whose value keeps to the limits on depth, key length, string length, array length and object size; no decoded object holds a key twice.", "quantifier": "every text and every policy", "why_tests_cant": "limits interact with nesting, escapes and repeated keys", "anchors": ["src/mln_json.c:mln_json_decode", "include/mln_json.h:mln_json_policy_init", "src/mln_json.c:mln_json_parse_json"]}
{"id": "C46", "title": "Garbage collection", "statement": "A collection frees exactly the suspected objects that cannot be reached from the roots or from unsuspected objects, each once; everything else stays in the collector, and keeps its members.", "quantifier": "every history of adding, suspecting, removing and collecting, and every object graph", "why_tests_cant": "cycles, sharing and the order of the suspect list give unboundedly many graphs", "anchors": ["src/mln_gc.c:mln_gc_collect", "src/mln_gc.c:mln_gc_collect_add", "src/mln_gc.c:mln_gc_clean_add", "src/mln_gc.c:mln_gc_add", "src/mln_gc.c:mln_gc_suspect", "src/mln_gc.c:mln_gc_merge"]}
{"id": "C47", "title": "RSA encryption round trip", "statement": "A text of at most the block length less eleven bytes, encrypted with one key of a pair, decrypts with the other to the same text, and the cipher is the one PKCS #1 v1.5 defines; longer texts are refused.", "quantifier": "every key pair, every text and every random padding", "why_tests_cant": "moduli, texts and paddings are unbounded, and the failing moduli are those just above a multiple of 32 bits", "anchors": ["src/mln_rsa.c:mln_RSAESPKCS1V15_public_encrypt", "src/mln_rsa.c:mln_RSAESPKCS1V15_private_decrypt", "src/mln_rsa.c:mln_RSAESPKCS1V15_private_encrypt", "src/mln_rsa.c:mln_RSAESPKCS1V15_public_decrypt", "src/mln_rsa.c:mln_rsa_rsaep_rsadp"]}
{"id": "C48", "title": "RSA signatures", "statement": "A signature made with a private key verifies with its public key, for every message and hash; whatever verifies was made from the digest of that message with the padding of a signature; verifying changes nothing.", "quantifier": "every key, message, hash and every string offered as a signature", "why_tests_cant": "no test can try every string as a signature", "anchors": ["src/mln_rsa.c:mln_RSASSAPKCS1V15_sign", "src/mln_rsa.c:mln_RSASSAPKCS1V15_verify", "src/mln_rsa.c:mln_EMSAPKCS1V15_encode", "src/mln_rsa.c:mln_EMSAPKCS1V15_decode"]}
{"id": "C49", "title": "Prime search and RSA key generation", "statement": "The prime search returns a number of the width asked for that passes the Miller-Rabin test, and never throws a prime away; a generated key pair has a modulus of the length asked for, inverse exponents, and decrypts what it encrypts.", "quantifier": "every width and every sequence of random numbers", "why_tests_cant": "sequences of random numbers are unbounded", "anchors": ["src/mln_bignum.c:mln_bignum_prime", "src/mln_bignum.c:mln_bignum_witness", "src/mln_bignum.c:mln_bignum_random_prime", "src/mln_rsa.c:mln_rsa_key_generate"]}
{"id": "C50", "title": "Searching a text for a pattern", "statement": "A pattern is found exactly when some part of the text matches it; the matches reported are the leftmost and longest ones, one after the other, and none is missed; the search ends.", "quantifier": "every pattern and every text", "why_tests_cant": "patterns and texts are unbounded, and a wrong answer needs a particular combination", "anchors": ["src/mln_regexp.c:mln_reg_match", "src/mln_regexp.c:mln_reg_equal", "src/mln_regexp.c:mln_match_here", "src/mln_regexp.c:mln_match_square", "src/mln_regexp.c:mln_process_or"]}
{"id": "C51", "title": "Repetition in patterns", "statement": "An element followed by a repetition operator matches exactly the numbers of occurrences the operator stands for, wherever it stands in the pattern.", "quantifier": "every element, operator, bound, rest of the pattern and text", "why_tests_cant": "bounds and texts are unbounded", "anchors": ["src/mln_regexp.c:mln_match_star", "src/mln_regexp.c:mln_match_plus", "src/mln_regexp.c:mln_match_question", "src/mln_regexp.c:mln_match_brace", "src/mln_regexp.c:mln_match_get_limit"]}
{"id": "C52", "title": "Messages between threads", "statement": "Every message sent to a side is given to that side's handler once, unchanged and in the order of sending; a side's socket can be read exactly while messages wait; receiving leaves nothing waiting and returns how many messages it handled.", "quantifier": "every number of threads, every schedule and every history of sends and receives", "why_tests_cant": "lost wake-ups and reorderings depend on the schedule", "anchors": ["src/mln_iothread.c:mln_iothread_send", "src/mln_iothread.c:mln_iothread_recv", "src/mln_iothread.c:mln_iothread_msg_new"]}
{"id": "C53", "title": "Feedback between threads", "statement": "A send with feedback returns only after its message was handled, or released if it was held; no message is touched after it is freed, none leaks; and a thread in a call can always go on, unless it waits for a receiver.", "quantifier": "every number of threads, every schedule, and everything handlers may do", "why_tests_cant": "use after free and deadlock depend on the schedule", "anchors": ["src/mln_iothread.c:mln_iothread_send", "src/mln_iothread.c:mln_iothread_recv", "include/mln_iothread.h:mln_iothread_msg_hold", "include/mln_iothread.h:mln_iothread_msg_release"]}
{"id": "C54", "title": "HTTP messages are read as their text says, however they arrive", "statement": "mln_http_parse accepts exactly the texts that are a first line, header fields and an empty line, reports method, target, arguments, version, status, message and fields as the text has them, leaves exactly the bytes behind the empty line, reports malformed text as an error, and gives the same result however the bytes are cut into buffers and calls.", "quantifier": "all byte sequences, all ways of cutting them into buffers and calls, all body handlers that do not care how their input is cut", "why_tests_cant": "There are infinitely many texts and for each exponentially many ways of cutting it; tests use a handful of well-formed messages in one buffer.", "anchors": ["src/mln_http.c: mln_http_parse, mln_http_line_length, mln_http_process_line, mln_http_parse_headline, mln_http_parse_field, mln_http_atou"]}
{"id": "C55", "title": "HTTP messages that are written can be read back", "statement": "mln_http_generate writes the first line, the fields in the order they were put in, an empty line and the body, in buffers of at most 1024 bytes, and mln_http_parse of these bytes gives the same method, target, arguments, version, status and fields and leaves the body.", "quantifier": "all messages whose parts text can carry, of any length, and all messages that were themselves read", "why_tests_cant": "The round trip must hold for every content and for every position of the 1024 byte boundary.", "anchors": ["src/mln_http.c: mln_http_generate, mln_http_generate_write, mln_http_generate_version, mln_http_generate_status, mln_http_generate_method, mln_http_generate_uri, mln_http_generate_fields_hash_iterate_handler"]}
{"id": "C56", "title": "HTTP header fields are found by name", "statement": "mln_http_field_get answers with the value of the first field of that name without regard to case, mln_http_field_iterator with all values joined by commas, mln_http_field_set makes its value the one that is found and mln_http_field_remove takes all fields of the name away; fields of other names do not change.", "quantifier": "all sequences of fields, all names in all spellings", "why_tests_cant": "Names fall into 31 buckets by a hash of their bytes; whether a lookup works depends on the names and their spelling.", "anchors": ["src/mln_http.c: mln_http_field_set, mln_http_field_get, mln_http_field_iterator, mln_http_field_remove, mln_http_hash_calc, mln_http_hash_cmp"]}
{"id": "C57", "title": "Sharing open files", "statement": "A path that is open in a file set is not opened again: every opening returns the same file, which stays open, with its own descriptor, until it has been closed as often as it was opened; unused files are kept up to the limit of the set, and the one unused longest goes first; destroying the set closes all descriptors.", "quantifier": "every limit, every history of openings and closings, and every answer of the operating system", "why_tests_cant": "histories are unbounded, and which file is found or dropped depends on all that went before", "anchors": ["src/mln_file.c:mln_file_open", "src/mln_file.c:mln_file_close", "src/mln_file.c:mln_fileset_init", "src/mln_file.c:mln_fileset_destroy"]}
{"id": "C58", "title": "WebSocket handshake", "statement": "The request a client makes is recognised by the server; the response to a request carries the digest of its key, the protocols and the names of the extensions offered and every field the program set; a client accepts exactly the responses that switch to a WebSocket and have the digest of its key; so a client and a server that follow the handshake accept each other.", "quantifier": "every random key, target, arguments, set of additional fields and offered protocols and extensions", "why_tests_cant": "keys, fields and offers are unbounded, and acceptance depends on a digest of random bytes", "anchors": ["src/mln_websocket.c:mln_websocket_handshake_request_generate", "src/mln_websocket.c:mln_websocket_handshake_response_generate", "src/mln_websocket.c:mln_websocket_validate", "src/mln_websocket.c:mln_websocket_is_websocket", "src/mln_websocket.c:mln_websocket_extension_tokens"]}
{"id": "C59", "title": "Sending over a connection", "statement": "However little the socket takes at a time, the peer gets the bytes of the queued buffers, in memory and in files, in order and once; what was not sent stays queued, what was sent is moved to the sent queue; the call reports completion exactly when a buffer marked as the last one has been sent.", "quantifier": "every chain of buffers, every build and mode, every sequence of answers of the operating system, every history of queueing and sending", "why_tests_cant": "partial writes, interruptions and their positions are unbounded, and several builds cannot be tested on one system", "anchors": ["src/mln_connection.c:mln_tcp_conn_send", "src/mln_connection.c:mln_tcp_conn_send_chain_memory", "src/mln_connection.c:mln_tcp_conn_send_chain_file", "src/mln_connection.c:mln_tcp_conn_append_chain"]}
{"id": "C60", "title": "Receiving over a connection", "statement": "Whatever pieces the socket delivers, the receive queue holds the bytes of the stream in order and once, in memory or in files; the connection is reported closed only after all bytes were received.", "quantifier": "every stream, every way it arrives, every sequence of answers of the operating system", "why_tests_cant": "the ways a stream is cut are unbounded", "anchors": ["src/mln_connection.c:mln_tcp_conn_recv", "src/mln_connection.c:mln_tcp_conn_recv_chain", "src/mln_connection.c:mln_tcp_conn_recv_chain_mem", "src/mln_connection.c:mln_tcp_conn_recv_chain_file"]}
{"id": "C61", "title": "Timers go off once, in time and in order", "statement": "The handler of a timer is called exactly once, not before its time, timers that are due earlier first, never after the timer was cancelled; a pass of the dispatcher leaves no timer that was due.", "quantifier": "every number of threads, every schedule, every set of timers, whatever handlers do", "why_tests_cant": "schedules and times are unbounded, and durations of hours are not tested", "anchors": ["src/mln_event.c:mln_event_timer_set", "src/mln_event.c:mln_event_timer_cancel", "src/mln_event.c:mln_event_timer_process"]}
{"id": "C62", "title": "Events of file descriptors", "statement": "A handler is called only for an event the system reported since it was last called, and it is the one that was registered last; an event that was registered for one shot leads to one call at most; nothing is called for a descriptor that was cleared; a timeout is handled not before its time and the earliest first; what is reported is not forgotten, and what is registered is watched; no descriptor is used after it was freed.", "quantifier": "every schedule of a dispatcher and any number of other threads, every set of descriptors and events, whatever handlers do and whatever the system reports", "why_tests_cant": "schedules, reports and what handlers do are unbounded, and most failures need a lock that is held at one instant", "anchors": ["src/mln_event.c:mln_event_fd_set", "src/mln_event.c:mln_event_dispatch", "src/mln_event.c:mln_event_active_fd_process", "src/mln_event.c:mln_event_fd_timeout_process"]}
{"id": "C63", "title": "Texts are cut into the right tokens", "statement": "The lexer returns, up to the end of a text and without an error, exactly the words, keywords, numbers, strings and characters that the text is spelled with; no text can be cut in two ways; a text that is not spelled with tokens is an error.", "quantifier": "every text, every set of keywords, and every set of handlers that cut out what they say", "why_tests_cant": "texts are unbounded, and where one token ends depends on what follows", "anchors": ["include/mln_lex.h: PREFIX_NAME##_token, PREFIX_NAME##_process_keywords, PREFIX_NAME##_process_spec_char, mln_lex_getchar, mln_lex_stepback"]}
{"id": "C64", "title": "Expressions have the value they mean", "statement": "mln_expr_run of the text of a sequence of expressions (constants, variables, functions with arguments, if and loop) returns the value of the last one and calls the callback for exactly the variables and functions that are evaluated, in their order, with their namespaces and the values of their arguments; if a call fails nothing more is called and there is no value.", "quantifier": "every callback with its state, every program, every way to write it", "why_tests_cant": "programs and their texts are unbounded, nested to any depth, and loops run as often as the callback says", "anchors": ["src/mln_expr.c:mln_expr_run", "src/mln_expr.c:mln_expr_parse", "src/mln_expr.c:mln_expr_parse_if", "src/mln_expr.c:mln_expr_parse_loop", "src/mln_expr.c:mln_expr_val_init"]}
{"id": "C65", "title": "Configurations say what their file says", "statement": "A configuration file by the rules is loaded, and every domain, command and item that it has is found under its names, of the type and with the value that is written, in the order of the file; what is not in the file is not found; a file that is not by the rules is not loaded; loading ends for every file; loading again replaces the configuration and calls the handlers up to the first that fails.", "quantifier": "every file, every name asked for, every sequence of handlers", "why_tests_cant": "files are unbounded, can be written in many ways with comments and blanks, and the trees of names depend on the whole file", "anchors": ["src/mln_conf.c:mln_conf_load", "src/mln_conf.c:_mln_conf_load", "src/mln_conf.c:mln_conf_token", "src/mln_conf.c:mln_conf_item_recursive", "src/mln_conf.c:mln_conf_domain_search", "src/mln_conf.c:mln_conf_cmd_search", "src/mln_conf.c:mln_conf_cmds", "src/mln_conf.c:mln_conf_reload"]}
{"id": "C66", "title": "Messages between processes arrive whole and in order", "statement": "Messages that one process sends to the other of a master and a worker arrive whole, once each and in the order they were sent, however the socket cuts the bytes and however often it must be waited for: for each the handler that is then set for its type is called with its bytes, and all have arrived when no bytes are left. Setting a handler replaces that of its type only. Lost memory loses at most the message it was wanted for, and messages of a process that has ended are still handled.", "quantifier": "every sequence of messages, of answers of the sockets and of handlers set in between", "why_tests_cant": "where the bytes are cut depends on the kernel, and every cutting must give the same calls", "anchors": ["src/mln_fork.c:mln_ipc_master_send_prepare", "src/mln_fork.c:mln_ipc_worker_send_prepare", "src/mln_fork.c:mln_ipc_fd_handler_master", "src/mln_fork.c:mln_ipc_fd_handler_worker", "src/mln_fork.c:mln_ipc_get_buf_with_len", "src/mln_fork.c:mln_ipc_discard_bytes", "src/mln_fork.c:mln_fork_master_ipc_handler_set", "src/mln_fork.c:mln_fork_worker_ipc_handler_set"]}
{"id": "C67", "title": "JSON documents made from a format are what the format says", "statement": "mln_json_generate makes, or adds to the document given, exactly the members and elements the format lists, nested as it nests them, each with the value of its argument, in order, a repeated key taking the place of the earlier member; a format that is not followed by the rules makes nothing, leaves the document as it was and takes nothing from the caller; the call ends for every format.", "quantifier": "every format, every list of arguments, every document to add to", "why_tests_cant": "formats nest to any depth and the faults depend on what stands where", "anchors": ["src/mln_json.c:mln_json_generate", "src/mln_json.c:mln_json_obj_generate", "src/mln_json.c:mln_json_array_generate"]}
{"id": "C68", "title": "Directives of the lexer do what they say", "statement": "A lexer that was made to carry out directives returns the tokens a document stands for: each use of a macro is replaced by its value, of a condition just the part that its macro chooses is read, in any nesting, a file that is included is read in its place, and files that include each other in a loop are an error, as are macros that are not known; parts that are left out have no effect; the lexer stops for every text.", "quantifier": "every document with any nesting of conditions, files and macros", "why_tests_cant": "conditions and files nest to any depth and what a line means depends on all lines before", "anchors": ["include/mln_lex.h: PREFIX_NAME##_lex_preprocess_define, _undef, _if, _else, _endif, _include, PREFIX_NAME##_nums_handler", "src/mln_lex.c:mln_lex_condition_test", "src/mln_lex.c:mln_lex_check_file_loop"]}
{"id": "C69", "title": "Lines of the log are whole, in order and what calls say", "statement": "A call of the log writes the date, the level, the place and the process as far as its level asks for them, and the message its format and arguments say, and nothing if its level is below that of the log; the lines of all threads and processes that share a file follow one another whole, those of a thread in the order of its calls; a configuration that is loaded again changes file and level for the calls after it; every call returns.", "quantifier": "every message, every number of processes and threads, every schedule, every sequence of calls and configurations", "why_tests_cant": "lines mix only in particular schedules of several processes, and messages are unbounded", "anchors": ["src/mln_log.c:_mln_sys_log", "src/mln_log.c:_mln_sys_log_process", "src/mln_log.c:mln_log_writen", "src/mln_log.c:mln_log_reload", "src/mln_log.c:mln_log_set_level", "src/mln_log.c:mln_log_get_log", "src/mln_log.c:mln_file_lock"]}
{"id": "C70", "title": "Messages between threads arrive", "statement": "Messages that a thread writes for another arrive there whole, once, in order, and say truly whom they are from; when nothing is left to read or to write all of them have arrived. A thread is given only messages that name it. That another thread ends or is started again changes nothing in this, and never leads the program to a message or a thread that is no more.", "quantifier": "every number of threads, every sequence of writes in any portions, every split of reads and writes by the system, every thread that ends, fails or is started again, and every order in which the loop serves them", "why_tests_cant": "Which portions sockets give and take and when threads end cannot be chosen in a test; lists of messages that two threads share are damaged only by particular orders of sending, serving and ending.", "anchors": ["src/mln_thread.c: mln_thread_create, mln_main_thread_itc_recv_handler, mln_main_thread_itc_recv_handler_process, mln_main_thread_itc_send_handler, mln_itc_get_buf_with_len, mln_thread_deal_child_exit, mln_thread_clear_msg_queue, mln_thread_clear_msg, mln_thread_itc_chain_release_msg", "include/mln_thread.h"]}
{"id": "C71", "title": "Arrays of the script language", "statement": "An array of a script is a map: a key (a string, number, truth value, object, function or array) leads to the same element each time, different keys to different elements, and what is stored stays until it is stored anew; an integer is the number of an element, negative ones count from the end, and an element without a number gets the one after the largest. A call that fails for want of memory changes nothing, and looking up an element does not change the key.", "quantifier": "every sequence of lookups, stores and tests with keys of any type, and every point at which memory runs out", "why_tests_cant": "The order in which keys of all types come, the shapes of both trees and the points of failure are unlimited; tests use a few small arrays", "anchors": ["src/mln_lang.c:mln_lang_array_get", "src/mln_lang.c:mln_lang_array_elem_exist", "src/mln_lang.c:mln_lang_val_cmp", "src/mln_lang_array.c:mln_lang_array_index"]}
{"id": "C72", "title": "Names and scopes of the script language", "statement": "A name that a script defines stands for what was last defined under it in that scope until the scope ends; a call sees its own names and, under names with a capital letter, those of the outermost scope, and when it ends every name of the caller stands for what it stood for before. What a name stood for is given up once: when it is defined anew, when its scope ends or when the job ends. A definition that fails for want of memory changes nothing.", "quantifier": "every sequence of calls, returns, definitions and lookups, every name, every point at which memory runs out", "why_tests_cant": "calls nest and names collide in the hash table in unbounded ways, and symbols are used again", "anchors": ["src/mln_lang.c: mln_lang_symbol_node_join", "src/mln_lang.c: mln_lang_symbol_node_upper_join", "src/mln_lang.c: mln_lang_symbol_node_search", "src/mln_lang.c: mln_lang_scope_push", "src/mln_lang.c: mln_lang_scope_pop", "src/mln_lang.c: mln_lang_hash_get_bucket", "src/mln_lang.c: mln_lang_ctx_get_class", "src/mln_lang.c: mln_lang_ctx_free"]}
{"id": "C73", "title": "The pipe between C and a script", "statement": "Once a script has subscribed to the pipe of its job, each message that C sends with success comes to the script exactly once, in the order of sending, with the integers, reals and strings of the call as the format says. A message that is refused - not subscribed, an unknown letter, no memory - leaves nothing behind, and a script that has no memory while it receives loses nothing. What the script sends goes to the handler that was last set, and to no other.", "quantifier": "every sequence of subscribing, receiving and sending on both sides, every format and arguments, every point at which memory runs out", "why_tests_cant": "messages queue up without bound, and a message can fail half built at every part of its format", "anchors": ["src/mln_lang.c: mln_lang_ctx_pipe_send", "src/mln_lang.c: mln_lang_ctx_pipe_do_send", "src/mln_lang.c: mln_lang_func_pipe_process", "src/mln_lang.c: mln_lang_func_pipe_process_array_generate", "src/mln_lang.c: mln_lang_ctx_pipe_recv_handler_set", "src/mln_lang.c: mln_lang_ctx_resource_register"]}
{"id": "C74", "title": "Jobs of the script language: programs and names", "statement": "A job runs the program it was made from, from its making to its end, whatever other jobs are made and ended, with the cache of programs switched on or off: a text given is the text run; a file is run as it is, or, for a path under the cache, as it was for a job of the last half minute. No program is freed while a job runs it, and each is freed once. A job that cannot be made leaves the others as they were; a name stands for one job, which is what killing by name ends.", "quantifier": "every sequence of making, running, killing and ending of jobs, every text and file, every time, every point at which making a job fails", "why_tests_cant": "jobs share programs by a count of references and by text, and every interleaving of their lives and of changes of files counts", "anchors": ["src/mln_lang.c: mln_lang_job_new", "src/mln_lang.c: mln_lang_job_free", "src/mln_lang.c: mln_lang_ast_cache_search", "src/mln_lang.c: mln_lang_ctx_new", "src/mln_lang.c: mln_lang_ctx_free", "src/mln_lang.c: mln_lang_func_kill_process", "src/mln_lang.c: mln_lang_free"]}
{"id": "C75", "title": "Jobs of the script language: turns", "statement": "Jobs take turns: whatever threads run the handler, the turn that begins is that of the job which has waited longest, so that a job with i others before it begins its turn after at most i other turns; a turn has at most 1700 steps; a job is run by one thread at a time, does the steps of its program in their order, is not run while it is suspended beyond the step that is under way, and calls its return handler at most once, at its end. While a job waits, the handler is called for or a thread is in it. No job is used after it was freed.", "quantifier": "every number of threads and jobs, every program, every interleaving of making, suspending, continuing and freeing jobs with the actions of the threads", "why_tests_cant": "the order of the actions of threads is not under the control of a test", "anchors": ["src/mln_lang.c: mln_lang_run_handler", "src/mln_lang.c: mln_lang_ctx_suspend", "src/mln_lang.c: mln_lang_ctx_continue", "src/mln_lang.c: mln_lang_job_new", "src/mln_lang.c: mln_lang_job_free"]}
{"id": "C76", "title": "Integers of the script language", "statement": "An operator on two integers of a script gives the integer of mathematics when it fits into 64 bits, with division towards zero and bits in two's complement, and an error for a division by zero; a comparison says whether it holds; an assignment with an operator leaves in the variable what the operator gives, and leaves it alone if there is an error; ++ and -- change the variable by one and answer with the value before or after. An integer is not combined with values of types that have no number.", "quantifier": "all integers of 64 bits and all operators", "why_tests_cant": "the corner cases are at the ends of a range of 2^64 numbers, for each operator", "anchors": ["src/mln_lang_int.c: mln_lang_int_oprs", "src/mln_lang_int.c: mln_lang_int_div", "src/mln_lang_int.c: mln_lang_int_lmov", "src/mln_lang_int.c: mln_lang_int_equal", "src/mln_lang_int.c: mln_lang_int_pluseq"]}
