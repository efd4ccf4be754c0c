{
 "claims": [
  {
   "property": "C01",
   "status": "proved",
   "theorems": [
    "C01_key_summary_exact"
   ],
   "note": "Tables of up to 2^32-1 rows (the counters are uint32_t); R is the order used by the sort step."
  },
  {
   "property": "C02",
   "status": "proved",
   "theorems": [
    "C02_result_split_exact"
   ],
   "note": "Composes with C01: the key entries are those of key_info_make."
  },
  {
   "property": "C03",
   "status": "proved",
   "theorems": [
    "C03_corrupt_index_rejected"
   ],
   "note": ""
  },
  {
   "property": "C04",
   "status": "proved",
   "theorems": [
    "C04_outputs_aligned"
   ],
   "note": "Index files are those of an exact PSI (C10, C21 etc.), in any order."
  },
  {
   "property": "C05",
   "status": "proved",
   "theorems": [
    "C05_outputs_project_sql_join"
   ],
   "note": "Index files are those of an exact PSI, in any order."
  },
  {
   "property": "C06",
   "status": "partial",
   "theorems": [
    "C06_paste_is_sql_join_refuted",
    "C06_paste_is_sql_join_partial"
   ],
   "note": "Full statement is false of the code: witness with a key occurring twice on both sides. Proved when one side's keys are unique."
  },
  {
   "property": "C07",
   "status": "partial",
   "theorems": [
    "C07_unique_outputs_aligned_refuted",
    "C07_unique_outputs_aligned_partial"
   ],
   "note": "Full statement is false of the code: the intersect file is sorted by all columns, so a value column before the key column breaks the alignment. Proved when the line order refines the key order."
  },
  {
   "property": "C08",
   "status": "proved",
   "theorems": [
    "C08_index_file_history",
    "C08_index_file_readback"
   ],
   "note": ""
  },
  {
   "property": "C09",
   "status": "proved",
   "theorems": [
    "C09_memory_reader"
   ],
   "note": ""
  },
  {
   "property": "C10",
   "status": "proved",
   "theorems": [
    "C10_two_party_exact",
    "C10_two_party_exact_bins",
    "C10_in_memory_items",
    "C10_result_meaning"
   ],
   "note": "Both parties run the four activities of EcdhPsiContext with FIFO channels; curve operations are parameters assumed commuting, serialisable at fixed length and collision-free on the transmitted truncation for the items at hand. Counts below 2^32; in-memory, bucketed and item-returning result paths."
  },
  {
   "property": "C11",
   "status": "proved",
   "theorems": [
    "C11_no_failure_no_deadlock",
    "C11_schedule_independent",
    "C11_finished_run_exists"
   ],
   "note": "Every interleaving of the eight activities, every throttle window of at least one message: no failure, no deadlock, bounded length, unique final state."
  },
  {
   "property": "C12",
   "status": "proved",
   "theorems": [
    "C12_outsider_gets_nothing"
   ],
   "note": "Proved for every reachable state, not only at the end."
  },
  {
   "property": "C13",
   "status": "partial",
   "theorems": [
    "C13_resume_counts_refuted",
    "C13_resume_partial"
   ],
   "note": "Refuted: resuming inside a batch with repeated items attaches counts to the wrong items (ecdh_psi.cc 81-89). The partial theorem gives the items always, the counts at batch boundaries or without repeats, and the exact wrong counts otherwise."
  },
  {
   "property": "C14",
   "status": "proved",
   "theorems": [
    "C14_bins_equal_whole",
    "C14_sorted_indices",
    "C14_on_end_memory",
    "C14_on_end_bins"
   ],
   "note": "Fresh stores of both lists, any positive number of bins, any hash function."
  },
  {
   "property": "C15",
   "status": "proved",
   "theorems": [
    "C15_matching_any_threads",
    "C15_schedule_irrelevant",
    "C15_schedules_exist",
    "C15_lookup_any_threads"
   ],
   "note": "Any schedule in which each thread walks its own range in order; with more than one thread the order of the result (not its content) depends on the thread count."
  },
  {
   "property": "C16",
   "status": "proved",
   "theorems": [
    "C16_roles",
    "C16_three_party_exact"
   ],
   "note": "Message lists per link; the interleaving of the asynchronous activities is not represented."
  },
  {
   "property": "C17",
   "status": "proved",
   "theorems": [
    "C17_cache_is_partition",
    "C17_equal_data_equal_bucket"
   ],
   "note": "Fresh (empty) directory; the case of a directory with old contents is C18."
  },
  {
   "property": "C18",
   "status": "partial",
   "theorems": [
    "C18_reopened_positions_unique_refuted",
    "C18_reopened_positions_always_clash",
    "C18_reopened_cache_partial"
   ],
   "note": "Full statement is false of the code: item positions restart at 0 on every reopening. Proved: old contents survive and new entries are numbered from 0."
  },
  {
   "property": "C19",
   "status": "proved",
   "theorems": [
    "C19_bucket_count"
   ],
   "note": "Item counts plus bucket size below 2^64; the bucket sizes are equal because CheckPeerConfig enforces it."
  },
  {
   "property": "C20",
   "status": "proved",
   "theorems": [
    "C20_bucket_results"
   ],
   "note": "Items distinct within a bucket and PSI exact on the bucket (C23, C29 give such a PSI)."
  },
  {
   "property": "C21",
   "status": "proved",
   "theorems": [
    "C21_bucketwise_equals_whole"
   ],
   "note": "Fresh caches; any PSI exact on buckets of distinct items."
  },
  {
   "property": "C22",
   "status": "proved",
   "theorems": [
    "C22_every_input_placed_once",
    "C22_checks"
   ],
   "note": "Constructor plus any sequence of Insert calls; NumBins() itself (double arithmetic) is a parameter; 1..5 hashes, inputs below 2^56."
  },
  {
   "property": "C23",
   "status": "proved",
   "theorems": [
    "C23_kkrt_exact",
    "C23_kkrt_indices_exact",
    "C23_bucket_form"
   ],
   "note": "Ideal OPRF, encodings of different items different; the receiver may throw when cuckoo insertion fails. Raw counts of KkrtPsiRecvIndices are stated separately."
  },
  {
   "property": "C24",
   "status": "proved",
   "theorems": [
    "C24_timing_independent"
   ],
   "note": "Arrival of corrections is an arbitrary non-decreasing function of time; early Encode is UB in the model."
  },
  {
   "property": "C25",
   "status": "proved",
   "theorems": [
    "C25_pipeline_exactly_once_no_deadlock",
    "C25_sequential"
   ],
   "note": "AsyncRun of both parties as a six-thread transition system with an arbitrary set of stage calls waiting for the peer; proved by a counter invariant. Run is covered by C25_sequential. Stage calls are atomic intervals; exceptions are C51."
  },
  {
   "property": "C26",
   "status": "partial",
   "theorems": [
    "C26_parallel_from_zero_partial",
    "C26_resumed_parallel_refuted",
    "C26_resume_repeats_all_partial"
   ],
   "note": "False when resuming with more buckets than threads: ParallelRun never uses start_idx. Proved for start 0 and for bucket_num <= parallel_num; refuted, and shown to repeat every earlier bucket, otherwise."
  },
  {
   "property": "C27",
   "status": "proved",
   "theorems": [
    "C27_same_function",
    "C27_wrong_match_fixes_delta"
   ],
   "note": "Solve and the VOLE are abstract (their contracts are hypotheses); decoding, messages and both modes concrete."
  },
  {
   "property": "C28",
   "status": "partial",
   "theorems": [
    "C28_truncated_transport",
    "C28_overlapping_copies",
    "C28_disjoint_copies_refuted"
   ],
   "note": "memcpy taken to behave like memmove on overlapping ranges; that the calls do overlap is C28_disjoint_copies_refuted."
  },
  {
   "property": "C29",
   "status": "proved",
   "theorems": [
    "C29_same_matches",
    "C29_schedule_independent",
    "C29_end_to_end"
   ],
   "note": "dense_hash_map with reserved key 0 modelled as UB; truncated values assumed non-zero and collision free."
  },
  {
   "property": "C30",
   "status": "partial",
   "theorems": [
    "C30_stage_monotone_partial",
    "C30_stage_monotone_refuted",
    "C30_same_start_bucket",
    "C30_same_start_item",
    "C30_save_atomic_refuted",
    "C30_parties_agree_finished",
    "C30_counts_durable"
   ],
   "note": "Stages written by one run are proved non-decreasing when the run starts at ONLINE_START or earlier or makes no Update call; refuted otherwise (a finished KKRT/RR22 party restarted with an unfinished peer falls back to ONLINE_START). Restart positions proved consistent. Saving the checkpoint is refuted to be atomic."
  },
  {
   "property": "C31",
   "status": "partial",
   "theorems": [
    "C31_exactly_once_partial",
    "C31_clean_stop_exactly_once",
    "C31_exactly_once_refuted"
   ],
   "note": "Proved: after any crashes the completed index file has exactly the right set of entries, and exactly once each when both parties stop cleanly. Refuted: a crash between committing a bucket and storing its count duplicates entries, and the result stage then throws."
  },
  {
   "property": "C32",
   "status": "proved",
   "theorems": [
    "C32_one_task",
    "C32_rejected_run_harmless"
   ],
   "note": "All runs past Init on one folder have one configuration and digest, for all protocols, histories and crash points; a rejected run writes nothing. Digest equality is taken as byte equality of the recorded digests (see C48 for what the digest itself distinguishes)."
  },
  {
   "property": "C33",
   "status": "proved",
   "theorems": [
    "C33_all_or_none",
    "C33_at_first_return",
    "C33_ends"
   ],
   "note": "Transition system of SyncWait over n parties with arbitrary interleaving."
  },
  {
   "property": "C34",
   "status": "partial",
   "theorems": [
    "C34_two_holders_refuted",
    "C34_broadcast_partial"
   ],
   "note": "Rejection of two holders is refuted when rank 0 is one of them; with a single holder the statement is proved for every rank."
  },
  {
   "property": "C35",
   "status": "proved",
   "theorems": [
    "C35_both_sides",
    "C35_join_input"
   ],
   "note": "Offline generation (shuffled), transfer through the cache files, and the online phase composed; both result modes; byte-level cache files. The OPRF is given by its equations; link delivery and serialisation are assumed lossless; the client uses one OPRF key as in client.cc."
  },
  {
   "property": "C36",
   "status": "partial",
   "theorems": [
    "C36_round_trip",
    "C36_consistent_or_rejected_partial",
    "C36_torn_meta_refuted",
    "C36_append_after_tear_refuted"
   ],
   "note": "Round trip proved for any number of sessions. Consistency after a crash holds for crashes in the data stream; refuted for a torn meta file (uninitialised members are read) and for appending after a torn first item (garbage items are returned)."
  },
  {
   "property": "C37",
   "status": "proved",
   "theorems": [
    "C37_round_trip",
    "C37_truncated_rejected"
   ],
   "note": "Byte-level round trip of the record struct for every record list and batch size; a truncated data file is refused. File errors and the JSON encoding of the meta file are not modelled."
  },
  {
   "property": "C38",
   "status": "proved",
   "theorems": [
    "C38_filter_exact",
    "C38_missing_header_rejected"
   ],
   "note": "Files as lists of lines; a file without its header line is the refuted corner."
  },
  {
   "property": "C39",
   "status": "proved",
   "theorems": [
    "C39_pairing",
    "C39_common_elements",
    "C39_no_straggler"
   ],
   "note": "Exact result for the master, empty result for others, consistent pairing, and agreement on the gather groups and the final broadcast. Two-party PSI is assumed exact (C10-C12, C22-C24 treat it)."
  },
  {
   "property": "C40",
   "status": "proved",
   "theorems": [
    "C40_partition_combine",
    "C40_row_retrieval",
    "C40_row_retrieval_dump"
   ],
   "note": "Partition/Combine and both ways the server lays rows out in plaintexts (GenerateFromRawDataAndReorient, and GenerateFromRawData dumped and loaded), with the dimensions UpdateByDatabaseInfo picks; the client's own index arithmetic and decoding recover row i. The homomorphic answer is taken as the exact plaintext (see C58, C59)."
  },
  {
   "property": "C41",
   "status": "proved",
   "theorems": [
    "C41_pack",
    "C41_unpack",
    "C41_round_trip",
    "C41_last_byte_refuted"
   ],
   "note": "Bit exact for every width 1..64 on whole bytes and for the round trip bytes to coefficients to bytes. A last incomplete byte is right aligned and mixed with earlier bits, so coefficients to bytes to coefficients is not lossless (C41_last_byte_refuted)."
  },
  {
   "property": "C42",
   "status": "proved",
   "theorems": [
    "C42_gadget_recomposes",
    "C42_columns_refuted"
   ],
   "note": "Proved for every poly_len, modulus size, digit count and one-column input, which is the only shape any caller passes. GadgetInvertRdim reads in.Poly(i, j) with row and column exchanged, so the identity fails for two or more columns (C42_columns_refuted)."
  },
  {
   "property": "C43",
   "status": "proved",
   "theorems": [
    "C43_barrett_u64",
    "C43_barrett_u128",
    "C43_multiply",
    "C43_large_modulus_refuted",
    "C43_crt",
    "C43_recenter",
    "C43_recenter_mod",
    "C43_rescale"
   ],
   "note": "Moduli from 2 to 2^63 as the statement says; C43_large_modulus_refuted shows the bound is needed. CRT composition for coprime moduli with product up to 2^63."
  },
  {
   "property": "C44",
   "status": "partial",
   "theorems": [
    "C44_groups_partition",
    "C44_processes_cover",
    "C44_lookup_exact",
    "C44_generated_state",
    "C44_duplicates_rejected",
    "C44_api_lookup_exact_partial",
    "C44_api_refuted",
    "C44_divide_once",
    "C44_restart_refuted"
   ],
   "note": "Proved for the dispatcher used by the command line tool: partition of buckets, process ranges, exact lookups in any generation state, duplicates rejected. C44_api_refuted: the library entry point returns an empty answer for an empty bucket and the whole batch fails; C44_restart_refuted: dividing again after a crash appends rows twice."
  },
  {
   "property": "C45",
   "status": "proved",
   "theorems": [
    "C45_each_query_once",
    "C45_response_placed",
    "C45_order_restored"
   ],
   "note": "Any permutation, any thread interleaving; the permutation itself is an argument."
  },
  {
   "property": "C46",
   "status": "proved",
   "theorems": [
    "C46_shuffled_pass"
   ],
   "note": "Every split of the input into raw batches, every permutation of each, every positive batch size; the pass is a permutation and every (index, shuffled index) pair is right."
  },
  {
   "property": "C47",
   "status": "partial",
   "theorems": [
    "C47_composite_keys_partial",
    "C47_single_key",
    "C47_grouping_partial",
    "C47_composite_keys_refuted"
   ],
   "note": "Proved for tables in which no key column but the last contains a comma, and for one key column without restriction. False otherwise: KeysJoin does not escape the separator (C47_composite_keys_refuted)."
  },
  {
   "property": "C48",
   "status": "partial",
   "theorems": [
    "C48_when_skipped",
    "C48_duplicates_seen",
    "C48_same_keys_partial",
    "C48_legacy_same_keys_partial",
    "C48_same_keys_refuted"
   ],
   "note": "Proved for keys none of which is a prefix of another (for example fixed length). False otherwise: keys are hashed without separators (C48_same_keys_refuted)."
  },
  {
   "property": "C49",
   "status": "partial",
   "theorems": [
    "C49_bounded",
    "C49_monotone",
    "C49_done_is_100",
    "C49_bucket_psi",
    "C49_update_lowers_refuted",
    "C49_done_below_100_refuted"
   ],
   "note": "Holds for disciplined callers and for BucketPsi::Run with any bucket count; the class alone does not enforce it (two refuted statements)."
  },
  {
   "property": "C50",
   "status": "partial",
   "theorems": [
    "C50_compare_bytes",
    "C50_truncate_size",
    "C50_final_compare_bytes",
    "C50_large_sizes_refuted",
    "C50_truncate_wrap_refuted",
    "C50_empty_side_refuted"
   ],
   "note": "Proved for sizes (RR22: product) up to 2^47 with log2 accurate to one ulp; beyond that, for wrapping products and for empty sides the claim is refuted."
  },
  {
   "property": "C51",
   "status": "partial",
   "theorems": [
    "C51_failure_not_reported_refuted",
    "C51_failed_stage_never_returns"
   ],
   "note": "False: an exception in Prepare or RunOprf makes AsyncRun wait forever. A concrete stuck state is exhibited and it is shown that no execution with such a failure returns (unless GetIntersection throws too)."
  },
  {
   "property": "C52",
   "status": "proved",
   "theorems": [
    "C52_mul_is_the_field_product",
    "C52_cpu_independent",
    "C52_field_laws",
    "C52_inverse",
    "C52_power"
   ],
   "note": "Both multiplication paths, Pow and Inv over numbers below 2^128; field laws via carry-less product modulo the polynomial; irreducibility through a checked inverse of e -> e^2+e."
  },
  {
   "property": "C53",
   "status": "proved",
   "theorems": [
    "C53_rows"
   ],
   "note": "Both BuildRow paths and the AVX2 lane code modelled; sparse size at most 2^63 (signed compare) and at least the weight."
  },
  {
   "property": "C54",
   "status": "proved",
   "theorems": [
    "C54_baxos_decode",
    "C54_paxos_decode"
   ],
   "note": "Decode side modelled in full except add_to_decode_ (never set); libdivide and AES abstract."
  },
  {
   "property": "C55",
   "status": "proved",
   "theorems": [
    "C55_legacy_output"
   ],
   "note": "The in-memory PSI is a contract (exact per bucket); sorting of the output by key not included."
  },
  {
   "property": "C56",
   "status": "proved",
   "theorems": [
    "C56_one_key"
   ],
   "note": "Histories of ECDH runs (cryptor present) with any crash point between any two writes."
  },
  {
   "property": "C57",
   "status": "partial",
   "theorems": [
    "C57_missing_cache_refuted",
    "C57_incomplete_transfer_partial"
   ],
   "note": "Refuted: a missing cache, or one whose transfer stopped before its first item reached the disk, opens as an empty store and the run returns an empty intersection. A transfer that stopped later is refused."
  },
  {
   "property": "C58",
   "status": "proved",
   "theorems": [
    "C58_decode_value",
    "C58_decode_exact",
    "C58_q2_table",
    "C58_offset_refuted"
   ],
   "note": "Server modulus switch composed with client decoding, with an explicit noise bound that the default parameters meet. The client adds denominator / p where the scheme needs a multiple of p: the result is right exactly when p divides (4 q2) / p (C58_decode_value, C58_offset_refuted, C58_q2_table). Polynomial multiplication modulo q2 is a hypothesis (is_product), discharged for the real transform in C65_decode_exact."
  },
  {
   "property": "C60",
   "status": "partial",
   "theorems": [
    "C60_plain_exact_partial",
    "C60_checked_exact",
    "C60_no_match_fails",
    "C60_refuted"
   ],
   "note": "Proved whenever at least one row matches, without and with the count check (C60_plain_exact_partial, C60_checked_exact). C60_no_match_fails and C60_refuted: a batch without a match ends in an error instead of an empty result. Labels must not contain the two separator bytes; the APSI library is ideal."
  },
  {
   "property": "C61",
   "status": "partial",
   "theorems": [
    "C61_check_exact_partial",
    "C61_honest_report",
    "C61_missing_key_refused",
    "C61_refuted"
   ],
   "note": "Proved if every queried key occurs (C61_check_exact_partial). C61_missing_key_refused and C61_refuted: an honest receiver with one unknown key is refused (README of the code says so). The receiver's ciphertext sum is taken honest."
  },
  {
   "property": "C59",
   "status": "proved",
   "theorems": [
    "C59_response_selects",
    "C59_retrieves",
    "C59_one_dimension_throws"
   ],
   "note": "Polynomials are elements of Z_q[X]/(X^n+1); C66 shows that the server's words compute the same. The automorphism is that of the code: its unreduced words (q for the negative of 0) are what is cut into digits. Randomness is a parameter. The noise bound is a worst case over all masks; the shipped default parameters rely on average noise, so for them the theorem says what is returned when the bound holds, not that it holds. C59_one_dimension_throws records that the server refuses every query for one-dimensional parameters."
  },
  {
   "property": "C62",
   "status": "proved",
   "theorems": [
    "C62_encode_decode",
    "C62_peelable",
    "C62_stops",
    "C62_two_gap_rows_refuted",
    "C62_any_table_refuted",
    "C62_fewer_inputs_refuted"
   ],
   "note": "Encoding without randomness (prng == nullptr, as all callers do). Success is shown for key sets that can be peeled; with gap rows only correctness of what is returned is shown, since success then depends on the hash values. Refuted side claims: two gap rows under GF128 are undefined behaviour, the table must be zeroed, and SetInput needs exactly num_items inputs."
  },
  {
   "property": "C63",
   "status": "proved",
   "theorems": [
    "C63_solve_decode",
    "C63_threads",
    "C63_peelable",
    "C63_stops",
    "C63_oprf",
    "C63_psi",
    "C63_overflow_refuted",
    "C63_index_type_full"
   ],
   "note": "Given: the bin capacities from GetBinSize (floating point, any values) and PaxosParam (any sizes). An exception in a worker thread, which ends the process, is Throw. C63_overflow_refuted: a thread's main loop writes past a bin that is full instead of throwing; C63_index_type_full: 255, 65535 and 2^32-1 sparse columns are refused."
  },
  {
   "property": "C64",
   "status": "partial",
   "theorems": [
    "C64_exact_partial",
    "C64_complete",
    "C64_own_items",
    "C64_reported_iff",
    "C64_returns",
    "C64_extra_items_refuted"
   ],
   "note": "Completeness, exact characterisation of what is reported and termination of the run are proved for the code with its OKVS (C62, C63). Exactness is proved when the compared values collide only for common items (C64_exact_partial). This fails systematically: GenOkvs solves without randomness, so an item that meets only unused columns decodes to 0 at the receiver and at the helper, and an item only these two have is reported (C64_extra_items_refuted, with the table size the code uses for four items)."
  },
  {
   "property": "C65",
   "status": "proved",
   "theorems": [
    "C65_params",
    "C65_to_ntt",
    "C65_to_ntt_no_reduce",
    "C65_multiply",
    "C65_add",
    "C65_from_ntt",
    "C65_product",
    "C65_round_trip",
    "C65_is_product",
    "C65_decode_exact",
    "C65_canonical_refuted",
    "C65_large_modulus_refuted"
   ],
   "note": "Proved for moduli of fewer than 30 bits; for one modulus the product discharges the hypothesis is_product of C58 (C65_decode_exact). The refuted variants are outside the claim: the AVX2 build can return the modulus instead of 0, so the two builds differ word by word (C65_canonical_refuted), and for moduli of 31 and 32 bits, which kQ2Values offers, coming back is wrong (C65_large_modulus_refuted). SEAL's root finder and inverse are arguments with their specification as hypotheses."
  },
  {
   "property": "C66",
   "status": "proved",
   "theorems": [
    "C66_answer",
    "C66_database",
    "C66_second_database",
    "C66_reload_refuted"
   ],
   "note": "Keys and query are any words that stand for polynomials (stands_ntt, stands_raw); C59 says what the selected polynomials decode to. Outside the claim: loading a second database of several partitions appends to the first, and queries are still answered from the first (C66_second_database, C66_reload_refuted)."
  },
  {
   "property": "C67",
   "status": "proved",
   "theorems": [
    "C67_secret_key",
    "C67_public_keys",
    "C67_query",
    "C67_rebuilt_refuted",
    "C67_shape_check_refuted"
   ],
   "note": "Two generators are streams of words; the sampler's table and std::shuffle are arbitrary. C67_rebuilt_refuted and C67_shape_check_refuted prove the two negative sentences of the statement."
  },
  {
   "property": "C68",
   "status": "proved",
   "theorems": [
    "C68_retrieves"
   ],
   "note": "Messages are protobuf objects, not their bytes. The noise bound is a worst case that the default parameters do not meet; C68_example is an instance with small parameters."
  },
  {
   "property": "C69",
   "status": "proved",
   "theorems": [
    "C69_retrieves",
    "C69_second_database",
    "C69_reload_refuted",
    "C69_root_refuted",
    "C69_indices_refuted",
    "C69_zero_refuted"
   ],
   "note": "SEAL is an argument: the operations of the scheme, its noise growth (seal_scheme) and the batch encoder are hypotheses, met by a toy scheme in the example; serialisation is left out."
  },
  {
   "property": "C70",
   "status": "proved",
   "theorems": [
    "C70_map_to_curve",
    "C70_addition",
    "C70_clear_cofactor",
    "C70_doubling"
   ],
   "note": "SHA-512 and MPInt (integers with modular operations) are arguments or taken as specified; inversion is any function that inverts."
  },
  {
   "property": "C71",
   "status": "proved",
   "theorems": [
    "C71_hash_to_curve",
    "C71_sound",
    "C71_total_refuted",
    "C71_byte_order_refuted"
   ],
   "note": "SHA-512 is any function with 64-byte outputs; X25519 itself is not modelled."
  },
  {
   "property": "C72",
   "status": "proved",
   "theorems": [
    "C72_dp_psi_result",
    "C72_index_batches",
    "C72_no_noise",
    "C72_all_common_refuted",
    "C72_bob_checks_refuted"
   ],
   "note": "C72_dp_psi_result for all coins, C72_index_batches, C72_no_noise. C72_all_common_refuted: no noise and every row common gives an empty result. C72_bob_checks_refuted: the receiver does not check what it is sent. Coins and shuffle are arguments; messages are not interleaved."
  },
  {
   "property": "C73",
   "status": "partial",
   "theorems": [
    "C73_answer_law",
    "C73_private_partial",
    "C73_private_distinct_partial",
    "C73_all_common",
    "C73_private_refuted"
   ],
   "note": "C73_answer_law (exact distribution), C73_private_partial and C73_private_distinct_partial where some sampled row is not common on both sides; C73_all_common and C73_private_refuted show that the proviso cannot be dropped. Coins are ideal and independent; the masked items sent before are not part of the event."
  },
  {
   "property": "C74",
   "status": "proved",
   "theorems": [
    "C74_retrieves",
    "C74_test_parameters",
    "C74_reduction_refuted",
    "C74_wire"
   ],
   "note": "Noise bound explicit; refuted without the allowance for the missing reduction modulo q. Doubles for sqrt and floor idealised below 2^53; the Gaussian sampler is not modelled (errors are arguments)."
  },
  {
   "property": "C75",
   "status": "proved",
   "theorems": [
    "C75_chunks",
    "C75_retrieves",
    "C75_no_error",
    "C75_first_query",
    "C75_repeat",
    "C75_answers_refuted"
   ],
   "note": "For the model, with the pseudorandom function, the replacements and the masks as arguments and the two numbers of sets before rounding as arguments (the code takes them from formulas over doubles). C75_answers_refuted uses the numbers the code computes for nine entries and a function chosen for it; with AES such a loss is unlikely, not impossible."
  },
  {
   "property": "C76",
   "status": "proved",
   "theorems": [
    "C76_uniform",
    "C76_indistinguishable"
   ],
   "note": "Exact count over all random tables, run through the whole client and server: AES is replaced by a random function, as are the generators. Repeated indices, and chunks asked more often than they have backup sets, are outside the statement. Timing and the downloads of the offline phase are not part of the view."
  },
  {
   "property": "C77",
   "status": "partial",
   "theorems": [
    "C77_threshold_partial",
    "C77_sender_counts_refuted",
    "C77_equal_inputs_refuted",
    "C77_batch_size_refuted"
   ],
   "note": "Partial: the sender's extra counts are proved only when the receiver has no repeated keys (C77_sender_counts_refuted), the equal-input shortcut ignores the threshold (C77_equal_inputs_refuted), batch sizes that are multiples of 2^32 fail (C77_batch_size_refuted). Recovery and interleavings are not modelled; collision-freeness of the compared values is a hypothesis."
  },
  {
   "property": "C78",
   "status": "partial",
   "theorems": [
    "C78_order_hidden_partial",
    "C78_single_item_batches",
    "C78_beyond_threshold_refuted"
   ],
   "note": "Partial: proved within each batch; refuted across batches (C78_beyond_threshold_refuted). Counts shuffle results; no cryptographic reduction for the masking."
  },
  {
   "property": "C79",
   "status": "partial",
   "theorems": [
    "C79_threshold",
    "C79_thresholds_differ",
    "C79_server_threshold_refuted"
   ],
   "note": "Partial: with different thresholds only the refusal when the server gets a result is proved; without it the server's threshold is not enforced (C79_server_threshold_refuted). Honest parties; collision-freeness and correctness of the OPRF are hypotheses."
  },
  {
   "property": "C80",
   "status": "partial",
   "theorems": [
    "C80_unselected_hidden",
    "C80_two_runs_refuted"
   ],
   "note": "Partial: one run only; over two runs on one cache refuted (C80_two_runs_refuted). Counts arrangements of the shuffle; no cryptographic reduction for the OPRF."
  },
  {
   "property": "C81",
   "status": "partial",
   "theorems": [
    "C81_common_found",
    "C81_few_items",
    "C81_few_items_refuted",
    "C81_duplicates_refuted"
   ],
   "note": "Partial: runs with fewer items than parties write out of bounds (C81_few_items, C81_few_items_refuted); a repeated key of the leader is output once (C81_duplicates_refuted). That a run ends (cuckoo insertion succeeds, a separating nonce is found) is not proved. The OT extension is replaced by a function of bin and item."
  },
  {
   "property": "C82",
   "status": "proved",
   "theorems": [
    "C82_lacking_rare",
    "C82_others_rare"
   ],
   "note": "Counting over one random value with the rest fixed; the OT extension is replaced by a function of bin and item. No cryptographic reduction."
  },
  {
   "property": "C83",
   "status": "partial",
   "theorems": [
    "C83_single",
    "C83_multi",
    "C83_multi_step",
    "C83_reused_key_refuted",
    "C83_zero_node_refuted",
    "C83_one_element_refuted",
    "C83_too_many_shifts"
   ],
   "note": "Correctness proved for all executions with fresh objects under stated conditions on the trees; reused key objects, zero nodes and one-element sets refuted."
  },
  {
   "property": "C84",
   "status": "partial",
   "theorems": [
    "C84_linked_refuted",
    "C84_own_index",
    "C84_all_indices",
    "C84_one_query_refuted"
   ],
   "note": "Refuted: linked queries reveal an index, and the messages of one query depend on the index; the exact counts are proved."
  },
  {
   "property": "C85",
   "status": "partial",
   "theorems": [
    "C85_offline",
    "C85_online",
    "C85_offline_many",
    "C85_single",
    "C85_multi",
    "C85_offline_cut_refuted",
    "C85_online_cut_refuted",
    "C85_position_refuted",
    "C85_shift_refuted"
   ],
   "note": "Round trips and runs over messages proved; reading past the end of a cut message and trusting the client's key refuted."
  },
  {
   "property": "C86",
   "status": "partial",
   "theorems": [
    "C86_values",
    "C86_many",
    "C86_no_point",
    "C86_zero_key",
    "C86_bad_element",
    "C86_false_match_refuted",
    "C86_full_collision",
    "C86_set_key_refuted",
    "C86_short_items_refuted",
    "C86_compare_length",
    "C86_ub_psi",
    "C86_ub_psi_refuted"
   ],
   "note": "Values, lists, failures and the composition with C35 proved; false match, SetPrivateKey and short lists refuted. The curve is an argument with the laws of a group of prime order; FourQ classes not modelled."
  },
  {
   "property": "C87",
   "status": "partial",
   "theorems": [
    "C87_blind_hides",
    "C87_repeats_refuted"
   ],
   "note": "Single blinded items proved over the keys below the order (a key is 32 random bytes, so keys from the order up, a fraction 1 - n/2^256, are left out); repetitions refuted."
  },
  {
   "property": "C88",
   "status": "partial",
   "theorems": [
    "C88_phases",
    "C88_full",
    "C88_nothing_built",
    "C88_stale_refuted",
    "C88_not_sent_refuted",
    "C88_other_key_refuted"
   ],
   "note": "Online results after any sequence of runs proved; stale, missing and wrongly keyed caches give wrong or empty results without an error (refuted). The OPRF is a parameter with its correctness as hypothesis."
  },
  {
   "property": "C89",
   "status": "partial",
   "theorems": [
    "C89_outside",
    "C89_build",
    "C89_input_lost",
    "C89_key_lost",
    "C89_client",
    "C89_reuse",
    "C89_failed_run_refuted"
   ],
   "note": "Files outside cache_path are proved untouched, contents of cache_path characterised, cache kept in the modes that do not build it; keeping the old cache on failure refuted."
  },
  {
   "property": "C90",
   "status": "partial",
   "theorems": [
    "C90_start",
    "C90_lines",
    "C90_exec",
    "C90_ub",
    "C90_dispatch",
    "C90_left_side_refuted",
    "C90_left_rank_refuted",
    "C90_ub_left_rank_refuted",
    "C90_compared_refuted"
   ],
   "note": "Start conditions, roles and line counts proved for all configurations; unchecked fields refuted."
  },
  {
   "property": "C91",
   "status": "partial",
   "theorems": [
    "C91_broadcast",
    "C91_sequence",
    "C91_withheld",
    "C91_kkrt",
    "C91_kkrt_no_empty_bucket",
    "C91_rr22",
    "C91_ecdh_stores",
    "C91_kkrt_counts_refuted",
    "C91_kkrt_empty_bucket_refuted"
   ],
   "note": "Positions, broadcast, the sequence of buckets and the sender's counts proved; counts at KKRT's receiver and empty buckets refuted. RR22's runner and the ECDH run enter as results."
  },
  {
   "property": "C92",
   "status": "partial",
   "theorems": [
    "C92_words",
    "C92_bytes",
    "C92_bytes_whole_blocks",
    "C92_davis_meyer",
    "C92_davis_meyer_sizes",
    "C92_final_hash",
    "C92_overlap_refuted",
    "C92_overlap_machine_refuted",
    "C92_output_size_refuted"
   ],
   "note": "Values proved for spans that are equal or apart; partial overlap and short outputs refuted. AES is an argument."
  },
  {
   "property": "C93",
   "status": "partial",
   "theorems": [
    "C93_agree",
    "C93_peers",
    "C93_unchecked",
    "C93_twice_refuted",
    "C93_same_name_refuted"
   ],
   "note": "Agreement proved for configurations without parties and different names; both conditions shown necessary. JSON parsing is not modelled."
  },
  {
   "property": "C94",
   "status": "partial",
   "theorems": [
    "C94_interrupted",
    "C94_open",
    "C94_rebuild",
    "C94_interrupted_refuted",
    "C94_rebuild_refuted",
    "C94_done_refuted"
   ],
   "note": "Lookups after early or late interruption and after a rebuild, and the conditions for opening, proved; interruption at other times, change of source and the mark after a failed group refuted. APSI's library enters as build, save, load."
  },
  {
   "property": "C95",
   "status": "partial",
   "theorems": [
    "C95_blocks",
    "C95_quotes",
    "C95_divided",
    "C95_source",
    "C95_key_refuted",
    "C95_row_refuted",
    "C95_group_refuted",
    "C95_open",
    "C95_cut_refuted"
   ],
   "note": "Exact for rows without quotes and line ends; with quotes the round trip is shown to fail always. Arrow's CSV parser is modelled from its documented defaults."
  },
  {
   "property": "C96",
   "status": "partial",
   "theorems": [
    "C96_grouped",
    "C96_switched",
    "C96_single",
    "C96_params",
    "C96_start",
    "C96_stop",
    "C96_unanswered",
    "C96_silent",
    "C96_params_refuted",
    "C96_switch_refuted",
    "C96_unstripped_refuted",
    "C96_load_refuted"
   ],
   "note": "answers, start, end and silence proved for all sequences; parameters after an empty bucket, failed bucket files, unstripped databases and escaping exceptions refuted"
  },
  {
   "property": "C97",
   "status": "partial",
   "theorems": [
    "C97_room",
    "C97_threads",
    "C97_share",
    "C97_overfull",
    "C97_threads_refuted"
   ],
   "note": "room for the average load proved; number of threads other than a power of two refuted; the probability of overflow is not modelled"
  },
  {
   "property": "C98",
   "status": "partial",
   "theorems": [
    "C98_query",
    "C98_twice",
    "C98_answers",
    "C98_file",
    "C98_api",
    "C98_header",
    "C98_header_refuted",
    "C98_api_header_refuted",
    "C98_short",
    "C98_null_refuted",
    "C98_vectors_refuted"
   ],
   "note": "Answers, lines and counts proved. Refuted: the header with two labels or, in the API, after a first bucket without matches; empty packages being noticed; equal lengths of keys and values. A wrong OPRF reply leads to a read past the end."
  },
  {
   "property": "C99",
   "status": "partial",
   "theorems": [
    "C99_string",
    "C99_array",
    "C99_result",
    "C99_receiver",
    "C99_null",
    "C99_count",
    "C99_free_twice",
    "C99_leak_refuted",
    "C99_edges_refuted"
   ],
   "note": "Round trips and freeing proved. Refuted: no leak when an allocation fails; the label flag without matches, a null pointer to BucketSenderFree, counts beyond 2^32."
  },
  {
   "property": "C100",
   "status": "partial",
   "theorems": [
    "C100_start",
    "C100_empty",
    "C100_three",
    "C100_many",
    "C100_kkrt",
    "C100_dp",
    "C100_documented_refuted",
    "C100_types",
    "C100_world_refuted"
   ],
   "note": "Refuted: the documented type runs; two-party types are refused among more than two parties. The rest is proved."
  },
  {
   "property": "C101",
   "status": "partial",
   "theorems": [
    "C101_created_when",
    "C101_curve_partial",
    "C101_secp256k1_refuted",
    "C101_oprf",
    "C101_machines",
    "C101_mask",
    "C101_double",
    "C101_key_moves",
    "C101_check",
    "C101_mismatch_refuted",
    "C101_key_range",
    "C101_set_key_refuted"
   ],
   "note": "proved for every curve, machine and schedule; the curve in use is the requested one except for secp256k1 and keys set by hand are not clamped, shown by C101_secp256k1_refuted, C101_mismatch_refuted and C101_set_key_refuted"
  },
  {
   "property": "C102",
   "status": "partial",
   "theorems": [
    "C102_fresh",
    "C102_old",
    "C102_believed",
    "C102_history",
    "C102_read_only",
    "C102_cut",
    "C102_columns_refuted",
    "C102_result",
    "C102_bare_refuted",
    "C102_unnoticed_refuted",
    "C102_index_file",
    "C102_nested_refuted",
    "C102_legacy_folder"
   ],
   "note": "the positive parts hold for all files, columns, disks and paths; reuse after a change of columns, bare result names, unwritable results and nested legacy directories are refuted"
  },
  {
   "property": "C103",
   "status": "partial",
   "theorems": [
    "C103_sorted",
    "C103_no_input",
    "C103_blank_refuted",
    "C103_blank_output",
    "C103_inplace",
    "C103_inplace_refuted",
    "C103_check",
    "C103_check_rows",
    "C103_cpuset",
    "C103_quota",
    "C103_positive"
   ],
   "note": "the positive parts hold for all paths, files and sorts in byte order; blanks in paths are refuted; other characters special to the shell are undefined behaviour in the model"
  },
  {
   "property": "C104",
   "status": "partial",
   "theorems": [
    "C104_share",
    "C104_returns",
    "C104_default",
    "C104_small_budget_refuted",
    "C104_large_budget_refuted",
    "C104_few_rows_refuted",
    "C104_sigma",
    "C104_sigma_found"
   ],
   "note": "In exact real arithmetic; that every budget is shared out is refuted (small and large budgets never end, few rows give NaN)."
  },
  {
   "property": "C105",
   "status": "partial",
   "theorems": [
    "C105_values",
    "C105_counts",
    "C105_queries",
    "C105_result",
    "C105_comma",
    "C105_quotes_refuted",
    "C105_line_refuted",
    "C105_empty_query_refuted"
   ],
   "note": "Cells without commas, double quotes and line ends; that all cells survive is refuted."
  },
  {
   "property": "C106",
   "status": "partial",
   "theorems": [
    "C106_rows",
    "C106_first_empty",
    "C106_any_client",
    "C106_partial_item",
    "C106_undecoded_refuted",
    "C106_joined_refuted"
   ],
   "note": "Strings decoding to whole items; that undecodable strings are noticed and that short strings are not joined is refuted."
  },
  {
   "property": "C107",
   "status": "partial",
   "theorems": [
    "C107_seal",
    "C107_seal_pieces",
    "C107_spiral",
    "C107_spiral_second",
    "C107_client_refuted"
   ],
   "note": "SEAL as in C69; that a client made with the server's options reads the table is refuted."
  },
  {
   "property": "C108",
   "status": "partial",
   "theorems": [
    "C108_read",
    "C108_read_failed",
    "C108_buckets",
    "C108_buckets_failed",
    "C108_group",
    "C108_read_unnoticed_refuted",
    "C108_buckets_unnoticed_refuted"
   ],
   "note": "Batches with rows; that a failure is always noticed is refuted."
  },
  {
   "property": "C109",
   "status": "partial",
   "theorems": [
    "C109_dump_load",
    "C109_unfilled",
    "C109_second_dump",
    "C109_ask_before_load",
    "C109_reoriented",
    "C109_both",
    "C109_refill",
    "C109_refill_dump",
    "C109_loaded_asks_inside",
    "C109_dump_keeps_answers_refuted"
   ],
   "note": "False for servers that were loaded, and for those filled only by GenerateFromRawDataAndReorient: their dumps are refused on loading (C109_dump_keeps_answers_refuted, C109_second_dump, C109_reoriented). Polynomial arithmetic is the ideal one of C40."
  }
 ]
}