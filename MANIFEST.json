{
 "claims": [
  {
   "property": "C01",
   "status": "proved",
   "theorems": [
    "queue_is_bounded_fifo"
   ],
   "note": "refinement to a bounded list for every history"
  },
  {
   "property": "C02",
   "status": "partial",
   "theorems": [
    "queue_free_index_partial",
    "queue_free_index_refuted"
   ],
   "note": "removal keeps the other elements; the tail pointer is left one slot too far, so a later append is lost (refuted)"
  },
  {
   "property": "C03",
   "status": "proved",
   "theorems": [
    "stacks_are_lifo"
   ],
   "note": "refinement to a list for every history"
  },
  {
   "property": "C04",
   "status": "partial",
   "theorems": [
    "array_is_list_partial",
    "array_growth_terminates_refuted",
    "array_growth_overflow_refuted"
   ],
   "note": "refinement to a list for every history with a positive initial allocation and no size overflow; both exceptions refuted"
  },
  {
   "property": "C05",
   "status": "proved",
   "theorems": [
    "lists_are_sequences"
   ],
   "note": "refinement to a family of sequences for every history"
  },
  {
   "property": "C06",
   "status": "proved",
   "theorems": [
    "rbtree_is_sorted_sequence"
   ],
   "note": "refinement to a sorted sequence for every legal history: insert, delete, search, minimum, successor, count, reset and iteration with a deleting handler"
  },
  {
   "property": "C07",
   "status": "proved",
   "theorems": [
    "rbtree_stays_balanced"
   ],
   "note": "red-black shape, height at most 2*log2(n+1), search bounded by it"
  },
  {
   "property": "C08",
   "status": "proved",
   "theorems": [
    "hash_table_is_a_map",
    "hash_update_in_growing_table_refuted",
    "hash_removal_in_growing_iteration_refuted",
    "hash_stop_after_removal_refuted",
    "hash_search_until_null_refuted"
   ],
   "note": "refinement to the list of live pairs for every legal history; the four uses that legality excludes are refuted with witnesses"
  },
  {
   "property": "C09",
   "status": "proved",
   "theorems": [
    "fheap_is_priority_queue",
    "fheap_delete_removes_named_refuted"
   ],
   "note": "Every history legal for all answers, fewer than 44945570212853 operations. Deleting while another key equals min_val removes the other node (refuted)."
  },
  {
   "property": "C10",
   "status": "partial",
   "theorems": [
    "base64_encode_is_rfc4648",
    "base64_encoded_length",
    "base64_round_trip_partial",
    "base64_round_trip_refuted",
    "base64_decode_memory_safe",
    "base64_decode_refuses_bad_length"
   ],
   "note": "round trip for every non-empty string; decoding the empty string reads before the buffer"
  },
  {
   "property": "C11",
   "status": "proved",
   "theorems": [
    "rc4_is_rc4",
    "rc4_decrypt_inverts_encrypt",
    "rc4_table_is_permutation"
   ],
   "note": ""
  },
  {
   "property": "C12",
   "status": "proved",
   "theorems": [
    "des_computes_standard",
    "triple_des_computes_standard",
    "des_round_trip",
    "triple_des_round_trip",
    "des_buffer_round_trip",
    "triple_des_buffer_round_trip"
   ],
   "note": "equal to the published cipher bit for bit; round trips for blocks and buffers of any length"
  },
  {
   "property": "C13",
   "status": "proved",
   "theorems": [
    "aes_computes_standard",
    "aes_round_trip",
    "aes_refuses_unknown_size"
   ],
   "note": "equal to FIPS 197 in both directions, hence inverse to each other"
  },
  {
   "property": "C14",
   "status": "proved",
   "theorems": [
    "prime_generate_skips_no_prime",
    "prime_generate_terminates",
    "prime_generate_composite_needs_liars",
    "witness_is_miller_rabin",
    "prime_generate_gives_primes_refuted",
    "prime_generate_not_below_refuted"
   ],
   "note": "The draws of rand() are an arbitrary list; termination is for every source that does not for ever give values reducing to zero. That the value returned is prime is false: a composite passes when every base drawn is a strong liar, and the bases need not differ (refuted). Above 1073741827 the value is below the argument (refuted)."
  },
  {
   "property": "C15",
   "status": "partial",
   "theorems": [
    "kmp_finds_first_occurrence",
    "strstr_first_occurrence_partial",
    "strstr_view_refuted"
   ],
   "note": "KMP fully; the plain search only for self-contained NUL-free strings, refuted for string views"
  },
  {
   "property": "C16",
   "status": "partial",
   "theorems": [
    "strcmp_zero_iff_equal_partial",
    "strcmp_zero_iff_equal_refuted",
    "strcmp_order_partial",
    "strcmp_transitive_refuted",
    "strcmp_antisymmetric_refuted",
    "strseqcmp_zero_iff_equal",
    "strseqcmp_lexicographic_partial",
    "strseqcmp_antisymmetric_refuted"
   ],
   "note": "total order on bytes below 128; refuted in general"
  },
  {
   "property": "C17",
   "status": "proved",
   "theorems": [
    "slice_returns_runs",
    "runs_determine_pieces",
    "trim_removes_mask"
   ],
   "note": ""
  },
  {
   "property": "C18",
   "status": "partial",
   "theorems": [
    "bignum_abs_compare",
    "bignum_compare_partial",
    "bignum_compare_refuted",
    "bignum_add",
    "bignum_sub_partial",
    "bignum_sub_refuted"
   ],
   "note": "addition and magnitude comparison in full; comparison and subtraction of two negative numbers of equal limb count are wrong in the code (refuted)"
  },
  {
   "property": "C19",
   "status": "proved",
   "theorems": [
    "bignum_mul"
   ],
   "note": ""
  },
  {
   "property": "C20",
   "status": "partial",
   "theorems": [
    "bignum_div_partial",
    "bignum_div_magnitudes_partial",
    "bignum_div_by_zero_refused",
    "bignum_div_sign_refuted",
    "bignum_div_bounds_refuted"
   ],
   "note": "division by positive divisors; remainder sign for negative divisors and the read past a 257-limb dividend are refuted"
  },
  {
   "property": "C21",
   "status": "partial",
   "theorems": [
    "bignum_left_shift_partial",
    "bignum_left_shift_truncates",
    "bignum_right_shift_partial",
    "bignum_shift_width_refuted",
    "bignum_right_shift_bounds_refuted",
    "bignum_bit_test"
   ],
   "note": "shifts below 8224; wider shifts and right shifts of 257-limb numbers by less than 32 refuted"
  },
  {
   "property": "C22",
   "status": "partial",
   "theorems": [
    "bignum_assign_decimal",
    "bignum_assign_hexadecimal",
    "bignum_assign_refuses_bad_digits",
    "bignum_assign_refuses_long_texts",
    "bignum_assign_octal_partial",
    "bignum_assign_octal_refuted",
    "bignum_tostring_partial",
    "bignum_tostring_refuted",
    "bignum_text_round_trip_partial",
    "bignum_text_round_trip_refuted"
   ],
   "note": "decimal and hexadecimal in full; octal above three digits, the text of a negative zero and numbers from 10^2056 on are refuted"
  },
  {
   "property": "C23",
   "status": "partial",
   "theorems": [
    "bignum_os2ip_value",
    "bignum_os2ip_refuses_long",
    "bignum_os2ip_well_formed_partial",
    "bignum_os2ip_well_formed_refuted",
    "bignum_i2osp_value",
    "bignum_i2osp_refuses",
    "bignum_octet_round_trip_partial",
    "bignum_octet_round_trip_refuted",
    "bignum_integer_round_trip"
   ],
   "note": "values and round trips hold; leading zero octets leave a number that other operations misread, and a buffer of the original length may be refused"
  },
  {
   "property": "C24",
   "status": "partial",
   "theorems": [
    "bignum_power",
    "bignum_modular_power_partial",
    "bignum_modular_power_refuted",
    "bignum_power_refuses_negative_exponent",
    "bignum_extended_euclid_partial"
   ],
   "note": "modular power for reduced bases and moduli above one whose square fits; Euclid for numbers of at most 256 limbs"
  },
  {
   "property": "C25",
   "status": "partial",
   "theorems": [
    "json_round_trip_partial",
    "json_decode_documents_partial",
    "json_encode_in_bounds",
    "json_empty_array_refuted",
    "json_fraction_refuted",
    "json_small_number_refuted",
    "json_encode_cut_refuted"
   ],
   "note": "Every tree with strings of any bytes, integers up to 2^53 and non-empty arrays; every document of the RFC 8259 grammar over those decodes to its value. The full statement is false: empty arrays, fractions and small numbers change, and an object is silently cut when no larger block can be had (refuted)."
  },
  {
   "property": "C26",
   "status": "partial",
   "theorems": [
    "json_trailing_refused",
    "json_decode_safe_partial",
    "json_decode_failures",
    "json_decode_overrun_refuted",
    "json_decode_overread_refuted",
    "json_decode_exponent_refuted",
    "json_empty_array_refuted",
    "json_grammar_refuted"
   ],
   "note": "Reading always ends, and is safe for texts that end in a null byte, have none inside and no run of ten digits; each condition excludes one kind of failure only. Without them: overrun, overread, exponent overflow (refuted). The empty array is read as an array of one element without type, and refused with a space in it (refuted)."
  },
  {
   "property": "C27",
   "status": "partial",
   "theorems": [
    "json_object_is_map_partial",
    "json_object_is_map_refuted",
    "json_tree_search_exact_partial",
    "json_path_partial",
    "json_path_refuted"
   ],
   "note": "Objects (on the red-black tree model) are finite maps over every history for keys of bytes below 128; with other bytes a member is lost (refuted). Paths lead to what they name when a step of digits reads the same backwards; step 10 leads to element 1 (refuted)."
  },
  {
   "property": "C28",
   "status": "partial",
   "theorems": [
    "rs_field",
    "rs_encode_correct",
    "rs_decode_never_wrong",
    "rs_decode_refuses_iff",
    "rs_recovers_iff",
    "rs_recovers_refuted",
    "rs_decode_short",
    "rs_decode_defined_refuted",
    "rs_decode_plain"
   ],
   "note": "With at least n surviving blocks decoding returns the data or NULL, never anything else; it returns NULL exactly when the first n survivors do not determine the data. The claim that it always succeeds is false: parity rows are integer powers mod 256, and rs_recovers_iff lists exactly the sizes (n,k) for which it holds. With fewer than n survivors the pointer array is read past its end."
  },
  {
   "property": "C29",
   "status": "partial",
   "theorems": [
    "fec_encodes",
    "fec_packets",
    "fec_recovers",
    "fec_nothing_lost",
    "fec_too_many_lost",
    "fec_consecutive",
    "fec_incomplete_group_refuted",
    "fec_wraparound_refuted",
    "fec_gap_refuted",
    "fec_long_mask_refuted",
    "fec_later_packet_refuted",
    "fec_padding_refuted",
    "fec_decode_total_refuted"
   ],
   "note": "For every group whose sequence numbers lie in the range of its mask (16 numbers for up to 16 packets, 48 for more; in particular for consecutive numbers without wraparound), any order of arrival, duplicates and older packets: one loss is recovered byte for byte, no loss gives nothing, two or more losses give NULL. False beyond that: wraparound of the sequence numbers and a gap of 16 are undefined shifts, a larger gap loses the packet silently, an incomplete last group is read out of bounds, later packets and damaged FEC packets are undefined behaviour in the decoder."
  },
  {
   "property": "C30",
   "status": "proved",
   "theorems": [
    "pool_class_least",
    "pool_class_none",
    "pool_request"
   ],
   "note": "Size classes of the heap pools, x86_64. The class of a request is the least of the 35 sizes that holds it, for every size. What a pool asks from the allocator below is exactly one chunk of that class, or the request with two headers, in every history."
  },
  {
   "property": "C31",
   "status": "partial",
   "theorems": [
    "pool_progress",
    "pool_blocks",
    "pool_capacity_partial",
    "pool_reuse",
    "pool_refusal",
    "pool_unlimited",
    "pool_gives_back",
    "pool_aligned_partial",
    "pool_empty_refuted",
    "pool_failure_refuted",
    "pool_huge_refuted",
    "pool_count_refuted",
    "pool_aligned_16_refuted",
    "pool_move_refuted"
   ],
   "note": "Over every history of mln_alloc_m/c/re/free and stores into blocks, with any answers of the allocator below: no undefined behaviour, live blocks are disjoint and inside held chunks behind the headers, contents are kept, and the count in use is exactly what is held plus what was asked for in vain, at most the capacity. Not so, with witnesses: freeing everything does not return the count to zero; failed requests below stay counted; requests near 2^64 wrap around (a tiny block, or a lowered count); moving into another pool with a smaller size overruns. Requests are below 2^63, capacities below 2^62."
  },
  {
   "property": "C32",
   "status": "proved",
   "theorems": [
    "shm_progress",
    "shm_segments",
    "shm_blocks",
    "shm_units",
    "shm_no_leak",
    "shm_free_exact",
    "shm_refusal",
    "shm_available_partial",
    "shm_first_refuted",
    "shm_available_refuted",
    "shm_available_defined_refuted",
    "shm_aligned_refuted",
    "shm_huge_refuted"
   ],
   "note": "For every history of a program that keeps to the rules, with requests below 2^63 and a capacity below 2^62, blocks never overlap, keep their bytes, and occupy exactly their units; a free makes exactly these available. The refuted statements concern the capacity report, alignment and requests near 2^64."
  },
  {
   "property": "C33",
   "status": "partial",
   "theorems": [
    "tpool_fifo",
    "tpool_fate",
    "tpool_all_accounted",
    "tpool_counters",
    "tpool_no_fault",
    "tpool_no_lost_wakeup",
    "tpool_served",
    "tpool_drains",
    "tpool_quit_bound",
    "tpool_quit_ends",
    "tpool_shutdown",
    "tpool_served_zero_refuted",
    "tpool_served_wrap_refuted",
    "tpool_no_thread_refuted",
    "tpool_failed_add_refuted",
    "tpool_die_refuted",
    "tpool_die_fault_refuted",
    "tpool_null_refuted"
   ],
   "note": "FIFO, fates, counters and wake-ups for every interleaving, with any failures; service and shutdown when threads and members can be made, no handler ends its thread, and the maximum is from 1 to 2^32-2. Each of these exceptions is refuted with a witness."
  },
  {
   "property": "C34",
   "status": "partial",
   "theorems": [
    "cron_next_matches_partial",
    "cron_every_minute",
    "cron_same_minute_refuted",
    "cron_passed_month_refuted",
    "cron_day_31_refuted",
    "cron_day_and_week_refuted",
    "cron_zero_first_refuted",
    "cron_first_match_refuted",
    "cron_sunday_first_refuted",
    "cron_star_period",
    "cron_value_period"
   ],
   "note": "lists and stars without a month, days up to 28, one of day and week; every exception is refuted with a witness"
  },
  {
   "property": "C35",
   "status": "proved",
   "theorems": [
    "time2utc_is_calendar",
    "utc_of_time_round_trip",
    "time_of_utc_round_trip",
    "time2utc_negative_refuted"
   ],
   "note": "time stamps from 0 on; negative ones (outside the property) give fields out of range"
  },
  {
   "property": "C36",
   "status": "partial",
   "theorems": [
    "asn1_encoder_writes_der",
    "asn1_round_trip_partial",
    "asn1_primitives",
    "asn1_encoder_histories",
    "asn1_implicit_tag",
    "asn1_setof_canonical",
    "asn1_setof_sorted",
    "asn1_set_sorted",
    "asn1_set_tag_order_refuted",
    "asn1_bitstring",
    "asn1_generalized_time",
    "asn1_utctime_partial",
    "asn1_utctime_2000_refuted",
    "asn1_decode_tiles",
    "asn1_decode_terminates",
    "asn1_decode_defined",
    "asn1_decode_undefined_refuted",
    "asn1_decode_complete_refuted",
    "asn1_indefinite_refuted"
   ],
   "note": "Full round trip for every tree of elements below 2^31 bytes, over any split into buffers; histories of encoder calls; SET OF canonical. Partial: from 2^31 bytes on the decoder is undefined; SET order, UTCTime in 2000 and long-form empty lengths are refuted."
  },
  {
   "property": "C37",
   "status": "partial",
   "theorems": [
    "ws_generate_frame",
    "ws_data_frames",
    "ws_parse_partial",
    "ws_round_trip_partial",
    "ws_stream_partial",
    "ws_not_yet_partial",
    "ws_parse_sound",
    "ws_split_refuted",
    "ws_long_refuted",
    "ws_close_status_refuted",
    "ws_masked_close_refuted"
   ],
   "note": "Generated frames are those of RFC 6455; parsing reads back every frame below 65536 bytes whose fields are not cut by a buffer boundary. Cut fields, 8-byte lengths, the status of closing frames and masked closing frames are refuted."
  },
  {
   "property": "C38",
   "status": "proved",
   "theorems": [
    "span_tree",
    "span_tree_open",
    "span_histories",
    "span_list_unique",
    "span_stop_release",
    "span_releases",
    "span_time_cost",
    "span_times_nest",
    "span_second_root_refuted",
    "span_unmatched_exit_refuted",
    "span_release_early_refuted"
   ],
   "note": "The spans are the call tree at every point of every properly nested history, whatever other threads do; allocation failure is not modelled. Calls made after the outermost one ended are outside the property: they are lost (span_second_root_refuted)."
  },
  {
   "property": "C39",
   "status": "proved",
   "theorems": [
    "matrix_mul_product",
    "matrix_mul_refused",
    "matrix_inverse_correct",
    "matrix_inverse_product",
    "matrix_singular_refused",
    "matrix_inverse_overwrites",
    "matrix_inverse_complete_refuted",
    "matrix_inverse_keeps_argument_refuted",
    "matrix_refusal_keeps_argument_refuted"
   ],
   "note": "Over exact rationals; floating-point rounding is not modelled. Refuted beside it: every invertible matrix is inverted (pivots below 1e-6 are refused), and the argument survives the call (it becomes the identity)."
  },
  {
   "property": "C40",
   "status": "proved",
   "theorems": [
    "bigendian_encode_writes",
    "bigendian_decode_reads",
    "bigendian_round_trip"
   ],
   "note": ""
  },
  {
   "property": "C41",
   "status": "proved",
   "theorems": [
    "md5_streaming",
    "sha1_streaming",
    "sha256_streaming",
    "md5_streaming_hex",
    "sha1_streaming_hex",
    "sha256_streaming_hex",
    "digest_division",
    "pad_whole_blocks",
    "sha256_tobytes_overflow_refuted"
   ],
   "note": "The digest of every division equals the one RFC 1321 / FIPS 180-4 define, as bytes and in hexadecimal. mln_sha256_tobytes writes one byte too many when asked for 20, 24 or 28 bytes (refuted)."
  },
  {
   "property": "C42",
   "status": "partial",
   "theorems": [
    "rbtree_iteration_partial",
    "rbtree_is_sorted_sequence",
    "rbtree_iteration_refuted"
   ],
   "note": "holds as long as no handler aborts an iteration; after an abort the next iteration may meet a node twice (refuted)"
  },
  {
   "property": "C43",
   "status": "partial",
   "theorems": [
    "utc_adjust_normalises_partial",
    "utc_adjust_month_refuted"
   ],
   "note": "day, hour, minute and second overflow in full; a month above 12 reads outside the table (refuted)"
  },
  {
   "property": "C44",
   "status": "partial",
   "theorems": [
    "s2time_reads_text",
    "s2time_accepts_only_text_partial",
    "s2time_zero_fields_refuted"
   ],
   "note": "all texts of moments; day 00 is accepted and month 00 reads outside the table (refuted)"
  },
  {
   "property": "C45",
   "status": "proved",
   "theorems": [
    "json_policy_enforced",
    "json_policy_accepts",
    "json_decode_keys_once"
   ],
   "note": "Accepted values keep to the limits and are those read without a policy; every document whose value keeps to the limits is accepted. Keys are unique for every exact tree search (see json_tree_search_exact_partial)."
  },
  {
   "property": "C46",
   "status": "partial",
   "theorems": [
    "gc_collect_exact",
    "gc_collect_garbage",
    "gc_reachable_kept",
    "gc_collect_members",
    "gc_operations",
    "gc_merge_all",
    "gc_members_kept_refuted",
    "gc_foreign_refuted",
    "gc_null_member_refuted"
   ],
   "note": "What is freed is exactly the unreachable suspects, for every history and graph; termination without a fault when handlers release nothing else. Keeping the members is false of the code: objects that garbage leads to are searched too and lose links (refuted; what remains is stated by gc_collect_members). Objects held through a second collector can be freed (refuted)."
  },
  {
   "property": "C47",
   "status": "partial",
   "theorems": [
    "rsa_block_length",
    "rsa_public_round_trip_partial",
    "rsa_concatenated_partial",
    "rsa_private_round_trip_partial",
    "rsa_cipher_standard",
    "rsa_primitive",
    "rsa_too_long",
    "rsa_short_modulus_refuted",
    "rsa_empty_refuted",
    "rsa_cipher_kept_refuted",
    "rsa_cipher_bounds_refuted"
   ],
   "note": "Both round trips and the standard cipher for every pair with a modulus below 2^4096 that fills its limbs (3 * 256^(k-2) <= n), with and without the Chinese remainder theorem. A modulus that does not can decrypt nothing (refuted for all of them); the empty text does not round trip, the cipher is overwritten and a hostile cipher makes decryption read past it (refuted)."
  },
  {
   "property": "C48",
   "status": "partial",
   "theorems": [
    "rsa_sign_verify_partial",
    "rsa_signature_standard",
    "rsa_unknown_hash",
    "rsa_verify_sound_partial",
    "rsa_verify_sound_pair_partial",
    "rsa_forgery_refuted",
    "rsa_signature_kept_refuted"
   ],
   "note": "Signing and verifying for every message and hash, the signature of RFC 8017 when it fits one block, and what an accepted signature contains. Verification ignores bytes behind the digest and takes zero padding: with exponent 3 anyone can sign (refuted, for every key of 112 bytes or more); it also overwrites the signature (refuted)."
  },
  {
   "property": "C49",
   "status": "partial",
   "theorems": [
    "prime_witness_exact",
    "prime_always_passes",
    "prime_search_partial",
    "prime_search_bases",
    "prime_search_refuses",
    "prime_search_covers_refuted",
    "rsa_generate_partial",
    "rsa_generated_round_trip_partial",
    "rsa_generated_refuted",
    "rsa_generate_refuses"
   ],
   "note": "The test decides strong probable primality exactly and the search is the textbook one; generated pairs up to 4096 bits have inverse exponents and are key pairs when both numbers are prime. The modulus may have one bit more than asked for, and then nothing can be decrypted (refuted, with a run of the generator); bit 31 of every limb is never set (refuted)."
  },
  {
   "property": "C50",
   "status": "partial",
   "theorems": [
    "regexp_search_partial",
    "regexp_match_partial",
    "regexp_match_all_partial",
    "regexp_match_all_refuted",
    "regexp_caret_refuted",
    "regexp_equal_refuted",
    "regexp_high_byte_refuted",
    "regexp_groups_refuted",
    "regexp_alternative_refuted",
    "regexp_set_refuted"
   ],
   "note": "Exact for sequences of characters, dots, classes and sets with an optional repeated last atom and anchors. Alternatives, groups, bytes from 128 on and patterns written longer than they match are refuted."
  },
  {
   "property": "C51",
   "status": "partial",
   "theorems": [
    "regexp_whole_partial",
    "regexp_count_refuted",
    "regexp_zero_refuted",
    "regexp_end_refuted",
    "regexp_star_everywhere_refuted",
    "regexp_backtrack_refuted",
    "regexp_dot_question_refuted",
    "regexp_long_operand_refuted",
    "regexp_endless_refuted"
   ],
   "note": "Exact for a repeated last atom: all operators on a single byte with one-digit bounds, + on every atom, ? on every atom but the dot. Everything else is refuted by witnesses, including an endless search."
  },
  {
   "property": "C52",
   "status": "proved",
   "theorems": [
    "iothread_order",
    "iothread_calls",
    "iothread_notice",
    "iothread_receive"
   ],
   "note": "For every schedule of any number of threads, handlers that call included."
  },
  {
   "property": "C53",
   "status": "partial",
   "theorems": [
    "iothread_safe_partial",
    "iothread_feedback_partial",
    "iothread_freed_partial",
    "iothread_progress_partial",
    "iothread_progress_refuted",
    "iothread_own_side_refuted",
    "iothread_hold_refuted",
    "iothread_flag_refuted"
   ],
   "note": "Safety, feedback and freeing hold when feedback is 0 or 1 and messages are held in their handler and released once after it; a release before the handler has returned and an even feedback value use freed memory. Progress holds when handlers make no calls; two deadlocks are exhibited for handlers that do."
  },
  {
   "property": "C54",
   "status": "partial",
   "theorems": [
    "http_tables",
    "http_parse_accepts",
    "http_parse_sound",
    "http_message_unique",
    "http_parse_pieces",
    "http_parse_buffers",
    "http_error_refuted",
    "http_trailing_blank_refuted",
    "http_status_refuted"
   ],
   "note": "Sound and complete for the grammar, and independent of cuts. Malformed text is told apart by the error number only: the answer is M_HTTP_RET_DONE."
  },
  {
   "property": "C55",
   "status": "partial",
   "theorems": [
    "http_generate_text",
    "http_generate_handler",
    "http_round_trip",
    "http_reparse",
    "http_reparse_refuted",
    "http_response_message_refuted",
    "http_unknown_status_refuted",
    "http_generate_safe_refuted"
   ],
   "note": "Round trip for all messages whose parts fit the grammar; the message of a response is replaced by the standard phrase, and statuses outside the table are refused."
  },
  {
   "property": "C56",
   "status": "partial",
   "theorems": [
    "http_field_get_partial",
    "http_field_all_partial",
    "http_field_set",
    "http_field_remove_partial",
    "http_field_case_refuted",
    "http_field_null_refuted",
    "http_field_remove_refuted",
    "http_field_set_null_refuted"
   ],
   "note": "Holds for names in one spelling without null bytes, removal for fields with values; refuted otherwise."
  },
  {
   "property": "C57",
   "status": "partial",
   "theorems": [
    "file_set_is_cache_partial",
    "file_shared_partial",
    "file_limit_partial",
    "file_shared_all_paths_refuted",
    "file_open_releases_refuted",
    "file_size_current_refuted",
    "file_out_of_memory_refuted"
   ],
   "note": "For ASCII paths and every history of fewer than 2^64 allowed calls a file set is a cache: same answers, files, descriptors and queue of unused files; from this follow sharing, the limit and that destroying closes every descriptor. Partial: false for paths with bytes above 127 and after a tree node could not be allocated (refuted); opening never releases a file, contrary to the documentation, and the size is not refreshed (refuted)."
  },
  {
   "property": "C58",
   "status": "partial",
   "theorems": [
    "ws_request_read_back",
    "ws_response_read_back_partial",
    "ws_handshake",
    "ws_server_test",
    "ws_validate_exact",
    "ws_extension_tokens",
    "ws_field_set_get",
    "ws_fields_last",
    "ws_response_safe_refuted",
    "ws_extension_room_refuted",
    "ws_client_key_refuted",
    "ws_validate_digest_refuted",
    "ws_field_case_refuted"
   ],
   "note": "Requests and responses are read back by the parser for every key, target and set of fields that text can carry, and the handshake is accepted. Responses to offered extensions need one byte more than is asked for, and digests are compared without regard to case, so the full claim is refuted there."
  },
  {
   "property": "C59",
   "status": "partial",
   "theorems": [
    "conn_send_in_order",
    "conn_send_drains",
    "conn_send_error",
    "conn_send_extends",
    "conn_history",
    "conn_send_writev_partial",
    "conn_send_writev_refuted",
    "conn_send_writev_behind_refuted",
    "conn_finish_writev_refuted",
    "conn_send_writev_empty_refuted",
    "conn_sendfile_refuted",
    "conn_finish_sendfile_refuted",
    "conn_finish_empty_refuted",
    "conn_send_stops_refuted"
   ],
   "note": "Proved in full for builds without writev and, unless the socket blocks, without sendfile. With writev proved for chains in memory only, and the report of completion may come early; the full claim is refuted for these builds, and the progress of empty buffers for all."
  },
  {
   "property": "C60",
   "status": "partial",
   "theorems": [
    "conn_recv_memory",
    "conn_recv_file_partial",
    "conn_recv_file_refuted"
   ],
   "note": "In full for memory. For files only if write takes all it is given, since a short write is not noticed."
  },
  {
   "property": "C61",
   "status": "partial",
   "theorems": [
    "timers_go_off_partial",
    "timers_once_partial",
    "timers_pass_goes_on",
    "timers_pass_time",
    "timers_go_off_refuted"
   ],
   "note": "For every schedule of any number of threads; timers of 4294968 milliseconds and more go off too early (refuted)."
  },
  {
   "property": "C62",
   "status": "partial",
   "theorems": [
    "event_no_fault_partial",
    "event_calls_partial",
    "event_oneshot_partial",
    "event_thorough_partial",
    "event_cleared_partial",
    "event_once_partial",
    "event_delivery_partial",
    "event_thorough_refuted",
    "event_delivery_refuted",
    "event_first_empty_refuted",
    "event_append_keeps_oneshot_refuted",
    "event_oneshot_error_refuted",
    "event_oneshot_pending_refuted",
    "event_calls_wanted_refuted",
    "event_no_fault_refuted"
   ],
   "note": "For every schedule with one dispatcher. That nothing is forgotten is proved if the lock is never busy and refuted otherwise; that what is registered is watched is proved if nothing is for one shot and no call has an empty set of kinds, and refuted otherwise; with two dispatchers memory is used after it was freed (refuted)."
  },
  {
   "property": "C63",
   "status": "partial",
   "theorems": [
    "lex_exact",
    "lex_unambiguous",
    "lex_expr_exact",
    "lex_bytes_refuted"
   ],
   "note": "For a text in memory without preprocessing, and for bytes below 254; the bytes 254 and 255 are refuted."
  },
  {
   "property": "C64",
   "status": "partial",
   "theorems": [
    "expr_run_value_partial",
    "expr_if_refuted",
    "expr_loop_refuted"
   ],
   "note": "Proved if every if whose condition is false has an else, and a text that ends with a loop ends with a blank; both are needed (refuted). Reals are not rounded, and files and preprocessing are not modelled."
  },
  {
   "property": "C65",
   "status": "partial",
   "theorems": [
    "conf_load_reads",
    "conf_load_only_partial",
    "conf_load_total",
    "conf_find",
    "conf_item",
    "conf_get",
    "conf_reload_new",
    "conf_comment_partial",
    "conf_comment_refuted",
    "conf_load_only_refuted",
    "conf_first_refuted",
    "conf_last_refuted",
    "conf_main_refuted",
    "conf_number_refuted",
    "conf_reload_refuted"
   ],
   "note": "For every file without a preprocessor line: loaded exactly if by the grammar (but the last brace may be missing, refuted), with the contents the grammar gives; lookups find what the file has. Comments end where they should unless stars are adjacent (refuted); a domain called main, octal and hexadecimal items, repeated commands and failed reloads behave otherwise than expected (refuted)."
  },
  {
   "property": "C66",
   "status": "partial",
   "theorems": [
    "ipc_messages",
    "ipc_receives",
    "ipc_handler_set",
    "ipc_handler_set_refuted",
    "ipc_no_memory_partial",
    "ipc_no_memory_refuted",
    "ipc_closed_refuted",
    "ipc_short_refuted",
    "ipc_long_refuted"
   ],
   "note": "Proved for every history in which the connection is not lost and malloc has memory. Without memory the message alone is lost if all of it was received; else the process loops for ever (refuted). Messages received together with the end of the connection are dropped (refuted). Handlers may set handlers but do not touch the connection; the fuel of the loop for sending is excluded by the statement."
  },
  {
   "property": "C67",
   "status": "partial",
   "theorems": [
    "json_generate_says",
    "json_generate_only_partial",
    "json_generate_total",
    "json_generate_strict_refuted",
    "json_generate_kept_refuted",
    "json_generate_owner_refuted",
    "json_generate_int64_refuted"
   ],
   "note": "Every format by the rules makes what it says. Formats with a comma before a closing bracket or text behind the end are accepted, a failure empties the document and destroys some of the documents given, and 64-bit integers are rounded (refuted)."
  },
  {
   "property": "C68",
   "status": "partial",
   "theorems": [
    "pre_says_partial",
    "pre_define_lines",
    "pre_blanks",
    "pre_omitted_refuted",
    "pre_stops_refuted",
    "pre_last_line_refuted",
    "pre_unclosed_refuted",
    "pre_else_twice_refuted",
    "pre_sign_refuted"
   ],
   "note": "pre_says_partial: for every well-formed document, with files included to any depth, the lexer gives exactly the tokens it stands for, fails exactly where it is wrong, and ends with its macros. The parts left out must be harmless, since the full claim is false: in such parts macros are undefined and unknown macros are errors (pre_omitted_refuted). Also refuted: that the lexer always stops (a macro that uses itself; a directive on the last line), that conditions must be closed, that a second #else is refused, and that a lone number sign is its own token."
  },
  {
   "property": "C69",
   "status": "partial",
   "theorems": [
    "log_numbers",
    "log_says",
    "log_wrong_format",
    "log_real_refuted",
    "log_order",
    "log_settings",
    "log_no_fault",
    "log_ends_partial",
    "log_short_refuted",
    "log_signal_refuted",
    "log_reload_refuted",
    "log_file_path",
    "log_file_path_refuted"
   ],
   "note": "What a call writes, whole lines in order for every schedule, and the file and level of the last configuration are proved for every history in which writes are complete and waits for the file lock are not interrupted; that all calls end, if no configuration with an unknown level is loaded. Without these conditions the claims are refuted, as is the text of numbers of more than 250 digits."
  },
  {
   "property": "C70",
   "status": "partial",
   "theorems": [
    "thread_fifo",
    "thread_sound",
    "thread_flush",
    "thread_links",
    "thread_end_others",
    "thread_last_words_refuted",
    "thread_restart_refuted",
    "thread_free_refuted",
    "thread_null_refuted"
   ],
   "note": "Proved for pairs of threads that do not end, while all others do what they like; the statement is false of threads that end: what they wrote last may be lost, what waits for them is thrown away, and strings of delivered messages may be freed. Memory does not run out."
  },
  {
   "property": "C71",
   "status": "partial",
   "theorems": [
    "larr_is_map_partial",
    "larr_unique_partial",
    "larr_keeps_partial",
    "larr_operand_partial",
    "larr_nan_refuted",
    "larr_string_refuted",
    "larr_memory_refuted",
    "larr_overflow_refuted",
    "larr_negative_refuted",
    "larr_operand_refuted"
   ],
   "note": "For every history of up to 2^62 calls with numbers below 2^62, keys other than NaN and strings of bytes below 128, and memory for the last node of an element; each of these conditions is needed (refuted). The operand of the operator is kept unless it is -1 or nothing is found (refuted)."
  },
  {
   "property": "C72",
   "status": "partial",
   "theorems": [
    "scope_is_stack_partial",
    "scope_gives_up",
    "scope_no_trace",
    "scope_table",
    "scope_is_stack_refuted",
    "scope_nearest_refuted"
   ],
   "note": "Every history of a context has the answers of a stack of tables of names, or reaches an operation without a meaning; what was defined is given up once; a call leaves every name of its caller as it was. Not true of the code (refuted): a definition for the scope around the outermost writes before the array of scopes; the scopes between the innermost and the outermost are not looked at. Counts of references are not modelled."
  },
  {
   "property": "C73",
   "status": "partial",
   "theorems": [
    "pipe_is_queue_partial",
    "pipe_delivers",
    "pipe_lost_refuted",
    "pipe_node_refuted"
   ],
   "note": "Every history of subscribing, sending and receiving has the answers of a queue of messages; each message sent with success after the script has subscribed is received once and in order, and failures lose nothing. Missing: sending before there is a pipe answers success and drops the message (refuted), and a failure to register the pipe frees it twice (refuted); operations come one after the other, as under the lock of the pipe."
  },
  {
   "property": "C74",
   "status": "partial",
   "theorems": [
    "job_program_partial",
    "job_trees_freed",
    "job_two_reads_refuted",
    "job_kind_refuted",
    "job_name_refuted",
    "job_itself_refuted"
   ],
   "note": "Over every history each job runs the program it was made from until it ends, no tree is used after it was freed and each is freed once. Missing, since it is refuted: files that change while they are read, programs that look like paths, names after a job was refused for one, and a job that kills itself. The count of references is taken to be below 2^63; operations come one after the other."
  },
  {
   "property": "C75",
   "status": "partial",
   "theorems": [
    "sched_lawful",
    "sched_returns_once",
    "sched_fair",
    "sched_wakes",
    "sched_call",
    "sched_turn_ends",
    "sched_no_fault",
    "sched_kill_refuted",
    "sched_idle_refuted",
    "sched_quit_refuted"
   ],
   "note": "Over every interleaving of threads the events obey the law of LschedSpec.v. Missing, since it is refuted: a job freed by somebody else in its turn (sched_no_fault excludes it), idle threads behind a job that is in its turn, a job told to quit and suspended in one step."
  },
  {
   "property": "C76",
   "status": "partial",
   "theorems": [
    "int_exact_partial",
    "int_exact_only_partial",
    "int_counts_as",
    "int_compare",
    "int_assign",
    "int_assign_other",
    "int_unary_partial",
    "int_other_types",
    "int_equal_refuted",
    "int_undefined_refuted",
    "int_string_refuted"
   ],
   "note": "For all integers of 64 bits. Missing, since it is refuted: results that do not fit and shifts out of range are undefined in C instead of an error, and equality with a real drops its fraction."
  }
 ]
}