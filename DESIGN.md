# Formal model of secretflow/psi in Rocq 8.16.1

## Layout

* `properties.jsonl` - the properties in English.
* `rocq/theories/<Area>Model.v` - executable model of the C++ code; every
  definition cites the file and lines of `/repo` it follows.
* `rocq/theories/<Area>Spec.v` - small independent specification (where it is
  more than a line).
* `rocq/theories/<Area>Proofs*.v` - lemmas.
* `rocq/theories/<Area>Props.v` - the property theorems with `Print
  Assumptions` below each and a concrete `Example` meeting the hypotheses.
* `MANIFEST.json` - property, status, theorem names.
* `seeded/LOG.jsonl` - mutation log: wrong versions of the model, the theorems
  that failed on them and those tightened because they did not.

## Trusted base

1. The kernel of Coq 8.16.1 (type checking and the `vm_compute` machine, which
   is used in proofs of closed computations).
2. Axioms: `Print Assumptions` answers `Closed under the global context` for
   every theorem named in `MANIFEST.json` except those of C73, which speak of
   probabilities and exp in the real numbers of the standard library, and those of C97,
   which speak of logarithms and powers (`C97_overfull` does not), and of C104, which speak of the same and of continuity; they depend on its `ClassicalDedekindReals.sig_forall_dec`, `ClassicalDedekindReals.sig_not_dec`,
   `FunctionalExtensionality.functional_extensionality_dep` and
   `Classical_Prop.classic`. Only the standard library is
   imported. No axiom, section-less variable, functor, module type, plugin or
   unchecked definition is used. Section variables are discharged and appear
   as universally quantified arguments of the theorems. `coqchk` on the whole
   context also lists the seven parameters of `Coq.ssr.ssrunder.Under_rel`,
   which the standard library loads; no theorem depends on them.
3. The reading of the C++ text. The model is written by hand from the sources
   of `/repo`; nothing was extracted or executed. A mistake in reading shows
   neither in the proofs nor in the examples. The citations are there to check it.
4. The English statements in `properties.jsonl` against the Coq statements.

## Conventions of the model

* C++ exceptions (`YACL_ENFORCE`, `YACL_THROW`) are the value `Throw`; undefined
  behaviour, where the code can run into it, is the distinct value `UB`; a wait
  that never ends is `Diverge`.
* Unsigned machine arithmetic that a property depends on is written with an
  explicit `mod 2^32` / `mod 2^64`; otherwise numbers are unbounded and the
  hypothesis that they fit is stated.
* External components are arguments of the model; what is assumed about them is
  an explicit hypothesis of the theorem.
* A theorem named `..._refuted` shows that the full statement is false of the
  model, by a witness; `..._partial` proves the statement under a restriction
  which is said in its comment.

## What is assumed about external components

| component | assumption |
|---|---|
| elliptic curves, hash to curve | commuting scalar multiplications, fixed-length serialisation, no collision among the (truncated) values of one run |
| hashes, random oracles, AES | functions; no collision among the values of one run where a result depends on it |
| `yacl::link` | reliable, ordered per sender, receiver and context; peers do not send malformed messages unless a theorem says so |
| KKRT OT extension, silent VOLE, OKVS `Solve` | their defining equations |
| APSI and SEAL | APSI: lookups answer from the rows a database was built from; SEAL primitives used by Spiral: exact word arithmetic |
| arrow CSV reader, OS `sort` | rows in file order; a sorted permutation |
| file system | writes of one stream are durable in order; a crash keeps a prefix |
| `std::log2`, `std::ceil` on doubles | stated accuracy (C50) |
| unordered containers | traversal in an arbitrary order |

## Parts of the code that are not modelled

* Protobuf and JSON encodings, flag and configuration parsing, logging,
  `psi/apps`, the trace and statistics code.
* CSV quoting rules: files are lists of lines or records. Consequences of
  missing escaping are listed under observations only.
* `psi/cryptor` apart from `hash_to_curve_elligator2.cc` and the parts of
  `ecc_utils.h` the OPRF calls; the elliptic-curve and OT libraries in yacl,
  SEAL, APSI.
* `PaxosParam::Init` (floating-point choice of the sizes) and OKVS encoding with
  a PRNG, and `GetBinSize` (floating point): C62 and C63 hold for all sizes and
  for `prng == nullptr`. C27 and C29 hold for every solver that keeps its
  contract; C63 proves that the one in the code does.
* The bytes of Spiral's protobuf messages (the message objects are modelled,
  C67) and the sampler's floating-point table (any table). One seed is
  taken to give client and server the same words although one uses
  `Prg::Fill` and the other one call per word. The noise bound of C59 and C68 is a
  worst case; that the default parameters meet it with overwhelming
  probability is not expressed.
* `psi/algorithm/sealpir`, `/repo/experiment`, differential-privacy PSI
  (`psi/legacy/dp_psi`).
* I/O errors, memory exhaustion, cancellation, signal handling.

## Properties

For each property: the model file, how it is proved, status and remarks.

### C01 Key summary of a sorted table is exact

*Model*: `JoinModel.v`. *Proof*: `KeyInfo::Make` is a fold over batches; an invariant relates the accumulator to the run-length encoding of the keys read so far, which is compared with an independent grouping.
*Status*: proved. Tables of up to 2^32-1 rows (the counters are uint32_t); R is the order used by the sort step.
*Theorems*: `C01_key_summary_exact`.

### C02 Applying the intersection indices splits the table exactly

*Model*: `JoinModel.v`. *Proof*: `InterIndexProcessor::GetBatchInfo` with explicit provider and reader state; induction over the provider batches; the output is equated with a filter of the key entries by membership in the index list.
*Status*: proved. Composes with C01: the key entries are those of key_info_make.
*Theorems*: `C02_result_split_exact`.

### C03 A corrupt index list is never silently accepted

*Model*: `JoinModel.v`. *Proof*: `InterIndexProcessor::GetBatchInfo` with explicit provider and reader state; induction over the provider batches; the output is equated with a filter of the key entries by membership in the index list.
*Status*: proved. 
*Theorems*: `C03_corrupt_index_rejected`.

### C04 Joined outputs of the two parties are aligned

*Model*: `JoinModel.v`. *Proof*: Key summary, exact index list, `ApplyPeerDupCnt` and `GenerateResult` composed for both parties and compared with an SQL join written as a list comprehension (JoinSpec).
*Status*: proved. Index files are those of an exact PSI (C10, C21 etc.), in any order.
*Theorems*: `C04_outputs_aligned`.

### C05 Each party's joined output is the projection of the SQL join

*Model*: `JoinModel.v`. *Proof*: Key summary, exact index list, `ApplyPeerDupCnt` and `GenerateResult` composed for both parties and compared with an SQL join written as a list comprehension (JoinSpec).
*Status*: proved. Index files are those of an exact PSI, in any order.
*Theorems*: `C05_outputs_project_sql_join`.

### C06 Pasting the two aligned outputs side by side gives the SQL join

*Model*: `JoinModel.v`. *Proof*: Key summary, exact index list, `ApplyPeerDupCnt` and `GenerateResult` composed for both parties and compared with an SQL join written as a list comprehension (JoinSpec).
*Status*: partial. Full statement is false of the code: witness with a key occurring twice on both sides. Proved when one side's keys are unique.
*Theorems*: `C06_paste_is_sql_join_refuted`, `C06_paste_is_sql_join_partial`.

### C07 Unique-key inputs are aligned too

*Model*: `JoinModel.v`. *Proof*: Key summary, exact index list, `ApplyPeerDupCnt` and `GenerateResult` composed for both parties and compared with an SQL join written as a list comprehension (JoinSpec).
*Status*: partial. Full statement is false of the code: the intersect file is sorted by all columns, so a value column before the key column breaks the alignment. Proved when the line order refines the key order.
*Theorems*: `C07_unique_outputs_aligned_refuted`, `C07_unique_outputs_aligned_partial`.

### C08 Intersection index file round trip

*Model*: `IndexModel.v`. *Proof*: Writer and reader are state machines over the list of lines of the file; induction over the history of calls.
*Status*: proved. 
*Theorems*: `C08_index_file_history`, `C08_index_file_readback`.

### C09 In-memory index reader returns sorted pairs

*Model*: `IndexModel.v`. *Proof*: Writer and reader are state machines over the list of lines of the file; induction over the history of calls.
*Status*: proved. 
*Theorems*: `C09_memory_reader`.

### C10 Two-party ECDH PSI returns exactly the intersection

*Model*: `EcdhModel.v`. *Proof*: Both parties' activities form a transition system over FIFO channels; an invariant describes every reachable state, a local confluence argument and a decreasing measure give schedule independence and termination.
*Status*: proved. Both parties run the four activities of EcdhPsiContext with FIFO channels; curve operations are parameters assumed commuting, serialisable at fixed length and collision-free on the transmitted truncation for the items at hand. Counts below 2^32; in-memory, bucketed and item-returning result paths.
*Theorems*: `C10_two_party_exact`, `C10_two_party_exact_bins`, `C10_in_memory_items`, `C10_result_meaning`.

### C11 ECDH PSI result does not depend on thread scheduling and cannot deadlock

*Model*: `EcdhModel.v`. *Proof*: Both parties' activities form a transition system over FIFO channels; an invariant describes every reachable state, a local confluence argument and a decreasing measure give schedule independence and termination.
*Status*: proved. Every interleaving of the eight activities, every throttle window of at least one message: no failure, no deadlock, bounded length, unique final state.
*Theorems*: `C11_no_failure_no_deadlock`, `C11_schedule_independent`, `C11_finished_run_exists`.

### C12 A party not entitled to the result receives nothing it could intersect

*Model*: `EcdhModel.v`. *Proof*: Both parties' activities form a transition system over FIFO channels; an invariant describes every reachable state, a local confluence argument and a decreasing measure give schedule independence and termination.
*Status*: proved. Proved for every reachable state, not only at the end.
*Theorems*: `C12_outsider_gets_nothing`.

### C13 Resuming ECDH PSI keeps duplicate counts attached to the right items

*Model*: `EcdhModel.v`. *Proof*: `MaskSelf` run from an arbitrary resume position, computed exactly.
*Status*: partial. Refuted: resuming inside a batch with repeated items attaches counts to the wrong items (ecdh_psi.cc 81-89). The partial theorem gives the items always, the counts at batch boundaries or without repeats, and the exact wrong counts otherwise.
*Theorems*: `C13_resume_counts_refuted`, `C13_resume_partial`.

### C14 Disk-bucketed intersection equals the in-memory intersection

*Model*: `StoreModel.v`. *Proof*: Bin-wise matching against matching of the whole lists; thread ranges as a partition of the positions; arbitrary interleavings of the ranges.
*Status*: proved. Fresh stores of both lists, any positive number of bins, any hash function.
*Theorems*: `C14_bins_equal_whole`, `C14_sorted_indices`, `C14_on_end_memory`, `C14_on_end_bins`.

### C15 Threaded index computation is independent of thread count

*Model*: `StoreModel.v`. *Proof*: Bin-wise matching against matching of the whole lists; thread ranges as a partition of the positions; arbitrary interleavings of the ranges.
*Status*: proved. Any schedule in which each thread walks its own range in order; with more than one thread the order of the result (not its content) depends on the thread count.
*Theorems*: `C15_matching_any_threads`, `C15_schedule_irrelevant`, `C15_schedules_exist`, `C15_lookup_any_threads`.

### C16 Three-party ECDH PSI returns exactly the three-way intersection

*Model*: `Ecdh3pcModel.v`. *Proof*: Every activity is a function from received to sent messages; the three parties are composed.
*Status*: proved. Message lists per link; the interleaving of the asynchronous activities is not represented.
*Theorems*: `C16_roles`, `C16_three_party_exact`.

### C17 Hash-bucket cache is a lossless partition

*Model*: `StoreModel.v`. *Proof*: Cache files as lists of records; induction over the history of writes and reopenings.
*Status*: proved. Fresh (empty) directory; the case of a directory with old contents is C18.
*Theorems*: `C17_cache_is_partition`, `C17_equal_data_equal_bucket`.

### C18 Reopening a hash-bucket cache keeps item positions unique

*Model*: `StoreModel.v`. *Proof*: Cache files as lists of records; induction over the history of writes and reopenings.
*Status*: partial. Full statement is false of the code: item positions restart at 0 on every reopening. Proved: old contents survive and new entries are numbered from 0.
*Theorems*: `C18_reopened_positions_unique_refuted`, `C18_reopened_positions_always_clash`, `C18_reopened_cache_partial`.

### C19 Parties agree on the number of buckets

*Model*: `BucketModel.v`. *Proof*: Bucket count arithmetic with wrap-around, duplicate handling per bucket and composition over the buckets with any PSI exact on one bucket.
*Status*: proved. Item counts plus bucket size below 2^64; the bucket sizes are equal because CheckPeerConfig enforces it.
*Theorems*: `C19_bucket_count`.

### C20 Bucket-local results are translated to global positions and counts

*Model*: `BucketModel.v`. *Proof*: Bucket count arithmetic with wrap-around, duplicate handling per bucket and composition over the buckets with any PSI exact on one bucket.
*Status*: proved. Items distinct within a bucket and PSI exact on the bucket (C23, C29 give such a PSI).
*Theorems*: `C20_bucket_results`.

### C21 Bucket-wise PSI equals PSI on the whole sets

*Model*: `BucketModel.v`. *Proof*: Bucket count arithmetic with wrap-around, duplicate handling per bucket and composition over the buckets with any PSI exact on one bucket.
*Status*: proved. Fresh caches; any PSI exact on buckets of distinct items.
*Theorems*: `C21_bucketwise_equals_whole`.

### C22 Cuckoo table never loses or misplaces an item

*Model*: `CuckooModel.v`. *Proof*: Insertion with bounded retries; invariant: every input is in exactly one bin or the stash.
*Status*: proved. Constructor plus any sequence of Insert calls; NumBins() itself (double arithmetic) is a parameter; 1..5 hashes, inputs below 2^56.
*Theorems*: `C22_every_input_placed_once`, `C22_checks`.

### C23 KKRT PSI reports each common item exactly once

*Model*: `KkrtModel.v`. *Proof*: Sender and receiver over an ideal OPRF; arrival of corrections is an arbitrary monotone function of time.
*Status*: proved. Ideal OPRF, encodings of different items different; the receiver may throw when cuckoo insertion fails. Raw counts of KkrtPsiRecvIndices are stated separately.
*Theorems*: `C23_kkrt_exact`, `C23_kkrt_indices_exact`, `C23_bucket_form`.

### C24 KKRT sender output does not depend on correction arrival timing

*Model*: `KkrtModel.v`. *Proof*: Sender and receiver over an ideal OPRF; arrival of corrections is an arbitrary monotone function of time.
*Status*: proved. Arrival of corrections is an arbitrary non-decreasing function of time; early Encode is UB in the model.
*Theorems*: `C24_timing_independent`.

### C25 RR22 pipeline processes every bucket once, in order, without deadlock

*Model*: `Rr22RunModel.v`. *Proof*: Three threads per party as a transition system; a counter invariant gives exactly-once and progress; for C51 an invariant shows that the waiting thread is never woken.
*Status*: proved. AsyncRun of both parties as a six-thread transition system with an arbitrary set of stage calls waiting for the peer; proved by a counter invariant. Run is covered by C25_sequential. Stage calls are atomic intervals; exceptions are C51.
*Theorems*: `C25_pipeline_exactly_once_no_deadlock`, `C25_sequential`.

### C26 RR22 parallel mode processes each bucket from the start index on exactly once

*Model*: `Rr22RunModel.v`. *Proof*: Three threads per party as a transition system; a counter invariant gives exactly-once and progress; for C51 an invariant shows that the waiting thread is never woken.
*Status*: partial. False when resuming with more buckets than threads: ParallelRun never uses start_idx. Proved for start 0 and for bucket_num <= parallel_num; refuted, and shown to repeat every earlier bucket, otherwise.
*Theorems*: `C26_parallel_from_zero_partial`, `C26_resumed_parallel_refuted`, `C26_resume_repeats_all_partial`.

### C27 RR22 OPRF: both sides derive the same value for the same item

*Model*: `Rr22OprfModel.v`. *Proof*: OPRF algebra over the modelled field GF(2^128) (C52) with decoding from OkvsModel; Solve and VOLE are given by their equations.
*Status*: proved. Solve and the VOLE are abstract (their contracts are hypotheses); decoding, messages and both modes concrete.
*Theorems*: `C27_same_function`, `C27_wrong_match_fixes_delta`.

### C28 RR22 truncated comparison transports the right bytes

*Model*: `Rr22MatchModel.v`. *Proof*: Byte-level compaction in place, chunked transfer and hash-map matching; merge order is an arbitrary permutation.
*Status*: partial. memcpy taken to behave like memmove on overlapping ranges; that the calls do overlap is C28_disjoint_copies_refuted.
*Theorems*: `C28_truncated_transport`, `C28_overlapping_copies`, `C28_disjoint_copies_refuted`.

### C29 RR22 result is independent of worker scheduling and correct on both sides

*Model*: `Rr22MatchModel.v`. *Proof*: Byte-level compaction in place, chunked transfer and hash-map matching; merge order is an arbitrary permutation.
*Status*: proved. dense_hash_map with reserved key 0 modelled as UB; truncated values assumed non-zero and collision free.
*Theorems*: `C29_same_matches`, `C29_schedule_independent`, `C29_end_to_end`.

### C30 Checkpoint stage never moves backwards within a run and restart negotiation is consistent

*Model*: `RecoveryModel.v`. *Proof*: Histories of runs on one recovery folder; a crash keeps a prefix of the disk events.
*Status*: partial. Stages written by one run are proved non-decreasing when the run starts at ONLINE_START or earlier or makes no Update call; refuted otherwise (a finished KKRT/RR22 party restarted with an unfinished peer falls back to ONLINE_START). Restart positions proved consistent. Saving the checkpoint is refuted to be atomic.
*Theorems*: `C30_stage_monotone_partial`, `C30_stage_monotone_refuted`, `C30_same_start_bucket`, `C30_same_start_item`, `C30_save_atomic_refuted`, `C30_parties_agree_finished`, `C30_counts_durable`.

### C31 Restarted bucket PSI records every result exactly once

*Model*: `ResumeModel.v`. *Proof*: Index file and bucket counter under arbitrary crash points of both parties.
*Status*: partial. Proved: after any crashes the completed index file has exactly the right set of entries, and exactly once each when both parties stop cleanly. Refuted: a crash between committing a bucket and storing its count duplicates entries, and the result stage then throws.
*Theorems*: `C31_exactly_once_partial`, `C31_clean_stop_exactly_once`, `C31_exactly_once_refuted`.

### C32 A checkpoint of a different task is rejected

*Model*: `RecoveryModel.v`. *Proof*: Histories of runs on one recovery folder; a crash keeps a prefix of the disk events.
*Status*: proved. All runs past Init on one folder have one configuration and digest, for all protocols, histories and crash points; a rejected run writes nothing. Digest equality is taken as byte equality of the recorded digests (see C48 for what the digest itself distinguishes).
*Theorems*: `C32_one_task`, `C32_rejected_run_harmless`.

### C33 A failing step fails every party

*Model*: `SyncModel.v`. *Proof*: Round-based transition system over n parties with arbitrary interleaving; broadcast as rank-wise functions.
*Status*: proved. Transition system of SyncWait over n parties with arbitrary interleaving.
*Theorems*: `C33_all_or_none`, `C33_at_first_return`, `C33_ends`.

### C34 Broadcast result is the same for all parties

*Model*: `SyncModel.v`. *Proof*: Round-based transition system over n parties with arbitrary interleaving; broadcast as rank-wise functions.
*Status*: partial. Rejection of two holders is refuted when rank 0 is one of them; with a single holder the statement is proved for every rank.
*Theorems*: `C34_two_holders_refuted`, `C34_broadcast_partial`.

### C35 Unbalanced PSI: client and server agree on matched rows

*Model*: `UbPsiModel.v`. *Proof*: Offline generation, transfer and online phase composed, using the byte-level caches of UbCacheModel and the shuffled provider of ShufModel.
*Status*: proved. Offline generation (shuffled), transfer through the cache files, and the online phase composed; both result modes; byte-level cache files. The OPRF is given by its equations; link delivery and serialisation are assumed lossless; the client uses one OPRF key as in client.cc.
*Theorems*: `C35_both_sides`, `C35_join_input`.

### C36 Client cache store returns what was saved or fails

*Model*: `UbCacheModel.v`. *Proof*: Byte-level file contents; histories of sessions; crash points are prefixes of the byte stream.
*Status*: partial. Round trip proved for any number of sessions. Consistency after a crash holds for crashes in the data stream; refuted for a torn meta file (uninitialised members are read) and for appending after a torn first item (garbage items are returned).
*Theorems*: `C36_round_trip`, `C36_consistent_or_rejected_partial`, `C36_torn_meta_refuted`, `C36_append_after_tear_refuted`.

### C37 Server cache file round trip

*Model*: `UbCacheModel.v`. *Proof*: Byte-level file contents; histories of sessions; crash points are prefixes of the byte stream.
*Status*: proved. Byte-level round trip of the record struct for every record list and batch size; a truncated data file is refused. File errors and the JSON encoding of the meta file are not modelled.
*Theorems*: `C37_round_trip`, `C37_truncated_rejected`.

### C38 Filtering a CSV by indices keeps exactly the selected lines

*Model*: `LegacyModel.v`. *Proof*: Files are lists of lines; induction over the lines.
*Status*: proved. Files as lists of lines; a file without its header line is the refuted corner.
*Theorems*: `C38_filter_exact`, `C38_missing_header_rejected`.

### C39 N-party PSI computes the intersection of all parties

*Model*: `NPartyModel.v`. *Proof*: Tournament as a recursion over the survivors; invariant: survivors' sets intersect to the common elements.
*Status*: proved. Exact result for the master, empty result for others, consistent pairing, and agreement on the gather groups and the final broadcast. Two-party PSI is assumed exact (C10-C12, C22-C24 treat it).
*Theorems*: `C39_pairing`, `C39_common_elements`, `C39_no_straggler`.

### C40 PIR database partition and reassembly are inverse

*Model*: `PirPackModel.v`. *Proof*: Bit-level packing characterised by `testbit`; layout arithmetic of server and client composed.
*Status*: proved. Partition/Combine and both ways the server lays rows out in plaintexts (GenerateFromRawDataAndReorient, and GenerateFromRawData dumped and loaded), with the dimensions UpdateByDatabaseInfo picks; the client's own index arithmetic and decoding recover row i. The homomorphic answer is taken as the exact plaintext (see C58, C59).
*Theorems*: `C40_partition_combine`, `C40_row_retrieval`, `C40_row_retrieval_dump`.

### C41 Spiral packing of bytes into plaintext coefficients is lossless

*Model*: `PirPackModel.v`. *Proof*: Bit-level packing characterised by `testbit`; layout arithmetic of server and client composed.
*Status*: proved. Bit exact for every width 1..64 on whole bytes and for the round trip bytes to coefficients to bytes. A last incomplete byte is right aligned and mixed with earlier bits, so coefficients to bytes to coefficients is not lossless (C41_last_byte_refuted).
*Theorems*: `C41_pack`, `C41_unpack`, `C41_round_trip`, `C41_last_byte_refuted`.

### C42 Gadget decomposition recomposes

*Model*: `SpGadgetModel.v`. *Proof*: Loop nests over flat arrays turned into closed forms; digits recomposed by positional arithmetic.
*Status*: proved. Proved for every poly_len, modulus size, digit count and one-column input, which is the only shape any caller passes. GadgetInvertRdim reads in.Poly(i, j) with row and column exchanged, so the identity fails for two or more columns (C42_columns_refuted).
*Theorems*: `C42_gadget_recomposes`, `C42_columns_refuted`.

### C43 Spiral modular arithmetic is exact

*Model*: `SpArithModel.v`. *Proof*: Word arithmetic with explicit reduction; Barrett error bounds; Chinese remainder theorem.
*Status*: proved. Moduli from 2 to 2^63 as the statement says; C43_large_modulus_refuted shows the bound is needed. CRT composition for coprime moduli with product up to 2^63.
*Theorems*: `C43_barrett_u64`, `C43_barrett_u128`, `C43_multiply`, `C43_large_modulus_refuted`, `C43_crt`, `C43_recenter`, `C43_recenter_mod`, `C43_rescale`.

### C44 Grouped database: every row has exactly one bucket and one group, and lookups go there

*Model*: `GroupDbModel.v`. *Proof*: Bucket and group arithmetic, file contents per group and query dispatch, over any library that answers from the rows it was built from.
*Status*: partial. Proved for the dispatcher used by the command line tool: partition of buckets, process ranges, exact lookups in any generation state, duplicates rejected. C44_api_refuted: the library entry point returns an empty answer for an empty bucket and the whole batch fails; C44_restart_refuted: dividing again after a crash appends rows twice.
*Theorems*: `C44_groups_partition`, `C44_processes_cover`, `C44_lookup_exact`, `C44_generated_state`, `C44_duplicates_rejected`, `C44_api_lookup_exact_partial`, `C44_api_refuted`, `C44_divide_once`, `C44_restart_refuted`.

### C45 Row order is restored after DK-PIR shuffling

*Model*: `DkPirModel.v`. *Proof*: Shuffle as an arbitrary permutation, sender threads in any interleaving, merge and split of rows through the separators, count check in the exponent.
*Status*: proved. Any permutation, any thread interleaving; the permutation itself is an argument.
*Theorems*: `C45_each_query_once`, `C45_response_placed`, `C45_order_restored`.

### C46 Shuffled batch provider visits every item once

*Model*: `ShufModel.v`. *Proof*: One pass over arbitrary raw batches with arbitrary permutations.
*Status*: proved. Every split of the input into raw batches, every permutation of each, every positive batch size; the pass is a permutation and every (index, shuffled index) pair is right.
*Theorems*: `C46_shuffled_pass`.

### C47 Distinct composite keys are not confused

*Model*: `DigestModel.v`. *Proof*: Key concatenation and digest input as byte strings; injectivity where it holds, witnesses where not.
*Status*: partial. Proved for tables in which no key column but the last contains a comma, and for one key column without restriction. False otherwise: KeysJoin does not escape the separator (C47_composite_keys_refuted).
*Theorems*: `C47_composite_keys_partial`, `C47_single_key`, `C47_grouping_partial`, `C47_composite_keys_refuted`.

### C48 Early stop on equal digests only happens for equal key lists

*Model*: `DigestModel.v`. *Proof*: Key concatenation and digest input as byte strings; injectivity where it holds, witnesses where not.
*Status*: partial. Proved for keys none of which is a prefix of another (for example fixed length). False otherwise: keys are hashed without separators (C48_same_keys_refuted).
*Theorems*: `C48_when_skipped`, `C48_duplicates_seen`, `C48_same_keys_partial`, `C48_legacy_same_keys_partial`, `C48_same_keys_refuted`.

### C49 Progress is monotone and ends at 100%

*Model*: `ProgressModel.v`. *Proof*: Tree of progress objects; sequences of calls.
*Status*: partial. Holds for disciplined callers and for BucketPsi::Run with any bucket count; the class alone does not enforce it (two refuted statements).
*Theorems*: `C49_bounded`, `C49_monotone`, `C49_done_is_100`, `C49_bucket_psi`, `C49_update_lowers_refuted`, `C49_done_below_100_refuted`.

### C50 Comparison length is long enough

*Model*: `CmpLenModel.v`. *Proof*: `log2` and `ceil` on doubles are arguments with a stated accuracy; the security bound is integer arithmetic.
*Status*: partial. Proved for sizes (RR22: product) up to 2^47 with log2 accurate to one ulp; beyond that, for wrapping products and for empty sides the claim is refuted.
*Theorems*: `C50_compare_bytes`, `C50_truncate_size`, `C50_final_compare_bytes`, `C50_large_sizes_refuted`, `C50_truncate_wrap_refuted`, `C50_empty_side_refuted`.

### C51 A failing RR22 stage is reported

*Model*: `Rr22RunModel.v`. *Proof*: Three threads per party as a transition system; a counter invariant gives exactly-once and progress; for C51 an invariant shows that the waiting thread is never woken.
*Status*: partial. False: an exception in Prepare or RunOprf makes AsyncRun wait forever. A concrete stuck state is exhibited and it is shown that no execution with such a failure returns (unless GetIntersection throws too).
*Theorems*: `C51_failure_not_reported_refuted`, `C51_failed_stage_never_returns`.

### C52 GF(2^128) arithmetic is a field and does not depend on the CPU

*Model*: `GfModel.v`. *Proof*: Carry-less product modulo the field polynomial; both CPU paths shown equal to it; irreducibility by a computed certificate.
*Status*: proved. Both multiplication paths, Pow and Inv over numbers below 2^128; field laws via carry-less product modulo the polynomial; irreducibility through a checked inverse of e -> e^2+e.
*Theorems*: `C52_mul_is_the_field_product`, `C52_cpu_independent`, `C52_field_laws`, `C52_inverse`, `C52_power`.

### C53 OKVS rows are legal and unique per key

*Model*: `OkvsModel.v`. *Proof*: Row generation and decoding, block and scalar paths equated with the inner product they should compute.
*Status*: proved. Both BuildRow paths and the AVX2 lane code modelled; sparse size at most 2^63 (signed compare) and at least the weight.
*Theorems*: `C53_rows`.

### C54 OKVS decoding is a function of key and table only

*Model*: `OkvsModel.v`. *Proof*: Row generation and decoding, block and scalar paths equated with the inner product they should compute.
*Status*: proved. Decode side modelled in full except add_to_decode_ (never set); libdivide and AES abstract.
*Theorems*: `C54_baxos_decode`, `C54_paxos_decode`.

### C55 Legacy bucket PSI writes exactly the common rows

*Model*: `LegacyModel.v`. *Proof*: Files are lists of lines; induction over the lines.
*Status*: proved. The in-memory PSI is a contract (exact per bucket); sorting of the output by key not included.
*Theorems*: `C55_legacy_output`.

### C56 Every resumed ECDH run masks with the same private key

*Model*: `RecoveryModel.v`. *Proof*: Histories of runs on one recovery folder; a crash keeps a prefix of the disk events.
*Status*: proved. Histories of ECDH runs (cryptor present) with any crash point between any two writes.
*Theorems*: `C56_one_key`.

### C57 Online unbalanced PSI refuses an incomplete client cache

*Model*: `UbPsiModel.v`. *Proof*: The client's online run on every cache state an interrupted transfer leaves behind.
*Status*: partial. Refuted: a missing cache, or one whose transfer stopped before its first item reached the disk, opens as an empty store and the run returns an empty intersection. A transfer that stopped later is refused.
*Theorems*: `C57_missing_cache_refuted`, `C57_incomplete_transfer_partial`.

### C58 A Spiral response decodes to the selected plaintext

*Model*: `SpDecodeModel.v`. *Proof*: Exact rounding analysis of the two rescalings; the noise bound is explicit.
*Status*: proved. Server modulus switch composed with client decoding, with an explicit noise bound that the default parameters meet. The client adds denominator / p where the scheme needs a multiple of p: the result is right exactly when p divides (4 q2) / p (C58_decode_value, C58_offset_refuted, C58_q2_table). Polynomial multiplication modulo q2 is a hypothesis (is_product), discharged for the real transform in C65_decode_exact.
*Theorems*: `C58_decode_value`, `C58_decode_exact`, `C58_q2_table`, `C58_offset_refuted`.

### C60 Duplicate-key PIR returns all rows of the queried keys

*Model*: `DkPirModel.v`. *Proof*: Shuffle as an arbitrary permutation, sender threads in any interleaving, merge and split of rows through the separators, count check in the exponent.
*Status*: partial. Proved whenever at least one row matches, without and with the count check (C60_plain_exact_partial, C60_checked_exact). C60_no_match_fails and C60_refuted: a batch without a match ends in an error instead of an empty result. Labels must not contain the two separator bytes; the APSI library is ideal.
*Theorems*: `C60_plain_exact_partial`, `C60_checked_exact`, `C60_no_match_fails`, `C60_refuted`.

### C61 The duplicate-key PIR count check accepts exactly the true row count

*Model*: `DkPirModel.v`. *Proof*: Shuffle as an arbitrary permutation, sender threads in any interleaving, merge and split of rows through the separators, count check in the exponent.
*Status*: partial. Proved if every queried key occurs (C61_check_exact_partial). C61_missing_key_refused and C61_refuted: an honest receiver with one unknown key is refused (README of the code says so). The receiver's ciphertext sum is taken honest.
*Theorems*: `C61_check_exact_partial`, `C61_honest_report`, `C61_missing_key_refused`, `C61_refuted`.

### C59 A Spiral query retrieves exactly the plaintext it names

*Model*: `SpSelModel, SpRingModel.v`. *Proof*: Ring theory of Z[X]/(X^n+1) with automorphisms; every server step is shown to keep the phase near an explicit target with a tracked noise bound (expansion, Regev to GSW, first dimension, folding, packing), then composed with C58.
*Status*: proved. Polynomials are elements of Z_q[X]/(X^n+1); C66 shows that the server's words compute the same. The automorphism is that of the code: its unreduced words (q for the negative of 0) are what is cut into digits. Randomness is a parameter. The noise bound is a worst case over all masks; the shipped default parameters rely on average noise, so for them the theorem says what is returned when the bound holds, not that it holds. C59_one_dimension_throws records that the server refuses every query for one-dimensional parameters.
*Theorems*: `C59_response_selects`, `C59_retrieves`, `C59_one_dimension_throws`.

### C62 What the OKVS encoder encodes, the decoder returns

*Model*: `PaxEncModel.v`. *Proof*: Triangulation invariant (weights = unset rows of a column, every later main row avoids earlier columns); FC^-1 is a linear combination; Gauss-Jordan inverse exact over bits; backward substitution; peelable sets always leave a weight-one column.
*Status*: proved. Encoding without randomness (prng == nullptr, as all callers do). Success is shown for key sets that can be peeled; with gap rows only correctness of what is returned is shown, since success then depends on the hash values. Refuted side claims: two gap rows under GF128 are undefined behaviour, the table must be zeroed, and SetInput needs exactly num_items inputs.
*Theorems*: `C62_encode_decode`, `C62_peelable`, `C62_stops`, `C62_two_gap_rows_refuted`, `C62_any_table_refuted`, `C62_fewer_inputs_refuted`.

### C63 What Baxos solves, it decodes, and the RR22 OPRF built on it is right

*Model*: `BaxEncModel.v`. *Proof*: Each thread's bins are the filtered keys of its slice; the in-place merge of overlapping regions yields their concatenation; parts of the table are disjoint, so any completion order gives the same table; every bin by C62; composed with C27 and C29.
*Status*: proved. Given: the bin capacities from GetBinSize (floating point, any values) and PaxosParam (any sizes). An exception in a worker thread, which ends the process, is Throw. C63_overflow_refuted: a thread's main loop writes past a bin that is full instead of throwing; C63_index_type_full: 255, 65535 and 2^32-1 sparse columns are refused.
*Theorems*: `C63_solve_decode`, `C63_threads`, `C63_peelable`, `C63_stops`, `C63_oprf`, `C63_psi`, `C63_overflow_refuted`, `C63_index_type_full`.

### C64 Multi-party PSI with an aided server returns exactly the items all parties have

*Model*: `NtyModel.v`. *Proof*: Every table decodes to a function that agrees with the encoded values on the encoded set (C63); common items get one value on both sides; multiplicities through sorting, shuffling, set_intersection and the first-wins map.
*Status*: partial. Completeness, exact characterisation of what is reported and termination of the run are proved for the code with its OKVS (C62, C63). Exactness is proved when the compared values collide only for common items (C64_exact_partial). This fails systematically: GenOkvs solves without randomness, so an item that meets only unused columns decodes to 0 at the receiver and at the helper, and an item only these two have is reported (C64_extra_items_refuted, with the table size the code uses for four items).
*Theorems*: `C64_exact_partial`, `C64_complete`, `C64_own_items`, `C64_reported_iff`, `C64_returns`, `C64_extra_items_refuted`.

### C65 Spiral's number theoretic transform multiplies polynomials correctly

*Model*: `NttModel.v`. *Proof*: Butterfly layers by an invariant over a tree of residues (each layer splits X^m - w^2 into X^(m/2) - w and X^(m/2) + w) with bounds on the lazy values in both builds; the inverse undoes each layer; products pointwise; CRT composition.
*Status*: proved. Proved for moduli of fewer than 30 bits; for one modulus the product discharges the hypothesis is_product of C58 (C65_decode_exact). The refuted variants are outside the claim: the AVX2 build can return the modulus instead of 0, so the two builds differ word by word (C65_canonical_refuted), and for moduli of 31 and 32 bits, which kQ2Values offers, coming back is wrong (C65_large_modulus_refuted). SEAL's root finder and inverse are arguments with their specification as hypotheses.
*Theorems*: `C65_params`, `C65_to_ntt`, `C65_to_ntt_no_reduce`, `C65_multiply`, `C65_add`, `C65_from_ntt`, `C65_product`, `C65_round_trip`, `C65_is_product`, `C65_decode_exact`, `C65_canonical_refuted`, `C65_large_modulus_refuted`.

### C66 The Spiral server's word-level computation is the selection over polynomials

*Model*: `SpSrvModel.v`. *Proof*: Every matrix operation refines the one on polynomials (a relation between words and polynomials modulo both primes); loops by invariants, the packed database by its halves; then ProcessQuery step by step. The ring-level query expansion works on the unreduced words the automorphism writes.
*Status*: proved. Keys and query are any words that stand for polynomials (stands_ntt, stands_raw); C59 says what the selected polynomials decode to. Outside the claim: loading a second database of several partitions appends to the first, and queries are still answered from the first (C66_second_database, C66_reload_refuted).
*Theorems*: `C66_answer`, `C66_database`, `C66_second_database`, `C66_reload_refuted`.

### C67 The Spiral client's keys and query survive the wire and say what they should

*Model*: `SpCliModel, SpWireModel.v`. *Proof*: The relation of C66 between words and polynomials, for the client: each sample takes its words in order from the two generators; matrices round trip through the transform and the message; the seed gives back minus the mask modulo q.
*Status*: proved. Two generators are streams of words; the sampler's table and std::shuffle are arbitrary. C67_rebuilt_refuted and C67_shape_check_refuted prove the two negative sentences of the statement.
*Theorems*: `C67_secret_key`, `C67_public_keys`, `C67_query`, `C67_rebuilt_refuted`, `C67_shape_check_refuted`.

### C68 A row of bytes asked of the Spiral server comes back unchanged, end to end

*Model*: `SpWireModel.v`. *Proof*: Composition of C40 (layout), C67 (keys, query), C66 (server on words), C59 (selection and noise), C65 (product) and C58 (decoding), partition by partition.
*Status*: proved. Messages are protobuf objects, not their bytes. The noise bound is a worst case that the default parameters do not meet; C68_example is an instance with small parameters.
*Theorems*: `C68_retrieves`.

### C69 A row asked of a SealPIR server comes back unchanged

*Model*: `SealPirModel.v`. *Proof*: Packing and extraction are inverse on bytes (bit streams, as C40); the expansion of a selection polynomial gives one encryption per entry (substitution X -> X^(2^k+1) splits indices by parity), scaled by the inverse client multiplies in; a dimension selects one ciphertext per group; decomposition and composition are inverse, so dimensions nest by induction over the list of dimensions.
*Status*: proved. SEAL is an argument: the operations of the scheme, its noise growth (seal_scheme) and the batch encoder are hypotheses, met by a toy scheme in the example; serialisation is left out.
*Theorems*: `C69_retrieves`, `C69_second_database`, `C69_reload_refuted`, `C69_root_refuted`, `C69_indices_refuted`, `C69_zero_refuted`.

### C70 The Elligator 2 map is RFC 9380's, on every input, and the curve arithmetic around it is the chord and tangent law

*Model*: `EllModel.v`. *Proof*: p = 2^255 - 19 is proved prime (Pocklington over a chain down to trial division); the integers modulo p as a field (ring and field tactics); Euler's criterion and p = 5 mod 8 give the square roots; the exceptional cases of the map are impossible as -1/2 and J^2 - 4 are not squares; sums as lines meeting the curve with multiplicity.
*Status*: proved. SHA-512 and MPInt (integers with modular operations) are arguments or taken as specified; inversion is any function that inverts.
*Theorems*: `C70_map_to_curve`, `C70_addition`, `C70_clear_cofactor`, `C70_doubling`.

### C71 HashToCurveElligator2 returns the x coordinate of RFC 9380's point

*Model*: `EllModel.v`. *Proof*: expand_message_xmd by induction on the blocks, then C70; uniqueness of every step makes the RFC's relation a function; refutations on explicit points.
*Status*: proved. SHA-512 is any function with 64-byte outputs; X25519 itself is not modelled.
*Theorems*: `C71_hash_to_curve`, `C71_sound`, `C71_total_refuted`, `C71_byte_order_refuted`.

### C72 Differentially private PSI returns exactly the rows the coins select

*Model*: `DpPsiModel.v`. *Proof*: each activity a function of the messages received; the coins and the shuffle are arguments; positions through the sampled list are followed by lemmas on numbered lists; two sorted lists with the same elements are equal.
*Status*: proved. C72_dp_psi_result for all coins, C72_index_batches, C72_no_noise. C72_all_common_refuted: no noise and every row common gives an empty result. C72_bob_checks_refuted: the receiver does not check what it is sent. Coins and shuffle are arguments; messages are not interleaved.
*Theorems*: `C72_dp_psi_result`, `C72_index_batches`, `C72_no_noise`, `C72_all_common_refuted`, `C72_bob_checks_refuted`.

### C73 The indices sent in differentially private PSI are eps-differentially private

*Model*: `DpPsiModel.v`. *Proof*: the distribution as a finite sum over coin lists with real weights; the two streams of coins are woven into one coin per row, after which the same sum ranges over both inputs and is compared term by term. Uses the axioms of the standard library's real numbers (below).
*Status*: partial. C73_answer_law (exact distribution), C73_private_partial and C73_private_distinct_partial where some sampled row is not common on both sides; C73_all_common and C73_private_refuted show that the proviso cannot be dropped. Coins are ideal and independent; the masked items sent before are not part of the event.
*Theorems*: `C73_answer_law`, `C73_private_partial`, `C73_private_distinct_partial`, `C73_all_common`, `C73_private_refuted`.

### C74 SimplePIR gives back the database value asked for

*Model*: `SimPirModel.v`. *Proof*: the scaled difference is followed modulo q, lifted to 2^64 because q divides it; the rounding lemma bounds it between two multiples of delta; state of the client by induction on the queries; refutation by one small run.
*Status*: proved. Noise bound explicit; refuted without the allowance for the missing reduction modulo q. Doubles for sqrt and floor idealised below 2^53; the Gaussian sampler is not modelled (errors are arguments).
*Theorems*: `C74_retrieves`, `C74_test_parameters`, `C74_reduction_refuted`, `C74_wire`.

### C75 PIANO returns the entry asked for or logs an error

*Model*: `PianoModel.v`. *Proof*: invariants of the client: every parity is the sum over the set with its programmed point, backup parities leave out their chunk, caches hold entries; preserved by preprocessing in any order and by every round; the number of sets containing an index falls by at most one per query.
*Status*: proved. For the model, with the pseudorandom function, the replacements and the masks as arguments and the two numbers of sets before rounding as arguments (the code takes them from formulas over doubles). C75_answers_refuted uses the numbers the code computes for nine entries and a function chosen for it; with AES such a loss is unlikely, not impossible.
*Theorems*: `C75_chunks`, `C75_retrieves`, `C75_no_error`, `C75_first_query`, `C75_repeat`, `C75_answers_refuted`.

### C76 What the PIANO server sees does not depend on the indices asked

*Model*: `PianoModel.v`. *Proof*: the view is computed from the tables of offsets alone; an involution exchanges the hit set's other offsets with the backup row, so that the tables left after a round are again uniform and independent of the query sent; induction over the queries.
*Status*: proved. Exact count over all random tables, run through the whole client and server: AES is replaced by a random function, as are the generators. Repeated indices, and chunks asked more often than they have backup sets, are outside the statement. Timing and the downloads of the offline phase are not part of the view.
*Theorems*: `C76_uniform`, `C76_indistinguishable`.

### C77 Threshold ECDH PSI outputs exactly min(threshold, size of the intersection) common keys

*Model*: `ThrModel.v`. *Proof*: the shuffles of the batches compose to one permutation of the receiver's rows; the bins find each common pair once, the cap takes a prefix; restoring inverts the permutation at the selected positions record by record.
*Status*: partial. Partial: the sender's extra counts are proved only when the receiver has no repeated keys (C77_sender_counts_refuted), the equal-input shortcut ignores the threshold (C77_equal_inputs_refuted), batch sizes that are multiples of 2^32 fail (C77_batch_size_refuted). Recovery and interleavings are not modelled; collision-freeness of the compared values is a hypothesis.
*Theorems*: `C77_threshold_partial`, `C77_sender_counts_refuted`, `C77_equal_inputs_refuted`, `C77_batch_size_refuted`.

### C78 Threshold ECDH PSI hides which of the receiver's items are common beyond the threshold

*Model*: `ThrModel.v`. *Proof*: reordering a batch composes each arrangement with a fixed one, which permutes the list of all arrangements; lifted over the batches. For one-item batches the only arrangement is the identity.
*Status*: partial. Partial: proved within each batch; refuted across batches (C78_beyond_threshold_refuted). Counts shuffle results; no cryptographic reduction for the masking.
*Theorems*: `C78_order_hidden_partial`, `C78_single_item_batches`, `C78_beyond_threshold_refuted`.

### C79 Threshold unbalanced PSI gives both sides the same min(threshold, size of the intersection) keys

*Model*: `UbThrModel.v`. *Proof*: the offline phase and matching of C35 over the shuffled client table; the matches kept are a prefix, the restored places are those of the arrangement at the kept positions, so they name the same keys.
*Status*: partial. Partial: with different thresholds only the refusal when the server gets a result is proved; without it the server's threshold is not enforced (C79_server_threshold_refuted). Honest parties; collision-freeness and correctness of the OPRF are hypotheses.
*Theorems*: `C79_threshold`, `C79_thresholds_differ`, `C79_server_threshold_refuted`.

### C80 In one run of threshold unbalanced PSI the client does not learn which unselected items are common

*Model*: `UbThrModel.v`. *Proof*: the two caches are equal by induction over the shuffled reader; the view is a function of the arranged values and the arrangement at the kept positions, so composing arrangements with the relabelling is a bijection between those that give a view. The attack compares the finalised values of two runs with the cache.
*Status*: partial. Partial: one run only; over two runs on one cache refuted (C80_two_runs_refuted). Counts arrangements of the shuffle; no cryptographic reduction for the OPRF.
*Theorems*: `C80_unselected_hidden`, `C80_two_runs_refuted`.

### C81 KMPRT17 multi-party PSI: the leader outputs every item that all parties have

*Model*: `KmModel.v`. *Proof*: cuckoo: every inserted element stays in one of its bins (invariant of the eviction loop); the table of a bin unmasks to the programmed value at the first copy of the item; sums over parties exchange and each zero sharing sums to 0.
*Status*: partial. Partial: runs with fewer items than parties write out of bounds (C81_few_items, C81_few_items_refuted); a repeated key of the leader is output once (C81_duplicates_refuted). That a run ends (cuckoo insertion succeeds, a separating nonce is found) is not proved. The OT extension is replaced by a function of bin and item.
*Theorems*: `C81_common_found`, `C81_few_items`, `C81_few_items_refuted`, `C81_duplicates_refuted`.

### C82 KMPRT17 multi-party PSI: an item that somebody lacks is output only by accident

*Model*: `KmModel.v`. *Proof*: a sender without the item sends the same tables whatever the OPRF gives for it, so the sum at the item is a constant xor the unmasked value; each of the table's places allows one value. For the others the sum is linear in the varied word.
*Status*: proved. Counting over one random value with the rest fixed; the OT extension is replaced by a function of bin and item. No cryptographic reduction.
*Theorems*: `C82_lacking_rare`, `C82_others_rare`.

### C83 Two-server PIR with puncturable sets: an answer is the bit asked for

*Model*: `PpsModel.v`. *Proof*: the punctured tree evaluates to the leaves without the punctured one (induction over the height, no zero inner node); the hint of a shift is the sum over the set, so the answer completes it; over many queries the invariant is that each hint is the sum of its key's shifted set.
*Status*: partial. Correctness proved for all executions with fresh objects under stated conditions on the trees; reused key objects, zero nodes and one-element sets refuted.
*Theorems*: `C83_single`, `C83_multi`, `C83_multi_step`, `C83_reused_key_refuted`, `C83_zero_node_refuted`, `C83_one_element_refuted`, `C83_too_many_shifts`.

### C84 Two-server PIR with puncturable sets: what the online server learns about the index

*Model*: `PpsModel.v`. *Proof*: (1) two holes in one shifted set: the difference of the lists read is the earlier index. (2) counting: the words pick each element once, so own occurrences are (s-1) for each of the s-1 true coins; double counting gives the total.
*Status*: partial. Refuted: linked queries reveal an index, and the messages of one query depend on the index; the exact counts are proved.
*Theorems*: `C84_linked_refuted`, `C84_own_index`, `C84_all_indices`, `C84_one_query_refuted`.

### C85 Two-server PIR with puncturable sets: messages are read as they were written

*Model*: `PpsWireModel.v`. *Proof*: little-endian encodings invert; a sorted set is rebuilt by inserting in order; the values sent are within range by invariants of Setup and Query; a cut message fails at the first read beyond its end.
*Status*: partial. Round trips and runs over messages proved; reading past the end of a cut message and trusting the client's key refuted.
*Theorems*: `C85_offline`, `C85_online`, `C85_offline_many`, `C85_single`, `C85_multi`, `C85_offline_cut_refuted`, `C85_online_cut_refuted`, `C85_position_refuted`, `C85_shift_refuted`.

### C86 OPRF of the unbalanced PSI over an OpenSSL curve: client and server compute the same value

*Model*: `EoModel.v`. *Proof*: the loop returns the point of the first candidate that lifts, by induction on the number of tries; the scalars cancel by the laws of the group; the composition instantiates C35 with the items that hash to the curve. False match: the candidates of the second item are those of the first without their head.
*Status*: partial. Values, lists, failures and the composition with C35 proved; false match, SetPrivateKey and short lists refuted. The curve is an argument with the laws of a group of prime order; FourQ classes not modelled.
*Theorems*: `C86_values`, `C86_many`, `C86_no_point`, `C86_zero_key`, `C86_bad_element`, `C86_false_match_refuted`, `C86_full_collision`, `C86_set_key_refuted`, `C86_short_items_refuted`, `C86_compare_length`, `C86_ub_psi`, `C86_ub_psi_refuted`.

### C87 OPRF of the unbalanced PSI over an OpenSSL curve: what the server sees of the client's items

*Model*: `EoModel.v`. *Proof*: the second point is a multiple of the first; multiplying keys by that scalar permutes the keys below the order.
*Status*: partial. Single blinded items proved over the keys below the order (a key is 32 random bytes, so keys from the order up, a fraction 1 - n/2^256, are left out); repetitions refuted.
*Theorems*: `C87_blind_hides`, `C87_repeats_refuted`.

### C88 Unbalanced PSI run in phases: what an online run returns

*Model*: `PhModel.v`. *Proof*: invariant over the runs: the server's cache is that of the last build, the client holds a cache once sent, and it is the last built one if nothing was built since; an online run then is C35's run on those files.
*Status*: partial. Online results after any sequence of runs proved; stale, missing and wrongly keyed caches give wrong or empty results without an error (refuted). The OPRF is a parameter with its correctness as hypothesis.
*Theorems*: `C88_phases`, `C88_full`, `C88_nothing_built`, `C88_stale_refuted`, `C88_not_sent_refuted`, `C88_other_key_refuted`.

### C89 Unbalanced PSI: which files a run keeps, replaces and removes

*Model*: `UbFsModel.v`. *Proof*: case analysis of each file operation at a path: writes and removals touch only paths below cache_path.
*Status*: partial. Files outside cache_path are proved untouched, contents of cache_path characterised, cache kept in the modes that do not build it; keeping the old cache on failure refuted.
*Theorems*: `C89_outside`, `C89_build`, `C89_input_lost`, `C89_key_lost`, `C89_client`, `C89_reuse`, `C89_failed_run_refuted`.

### C90 Configurations: which pairs may run, who receives, who is left

*Model*: `LaunchModel.v`. *Proof*: each check is decided by the field it reads; Equals on the cleared messages is equality of the shared fields. The line counts follow by cases on join type and side.
*Status*: partial. Start conditions, roles and line counts proved for all configurations; unchecked fields refuted.
*Theorems*: `C90_start`, `C90_lines`, `C90_exec`, `C90_ub`, `C90_dispatch`, `C90_left_side_refuted`, `C90_left_rank_refuted`, `C90_ub_left_rank_refuted`, `C90_compared_refuted`.

### C91 Operators: what a bucketed run hands to both parties

*Model*: `OpModel.v`. *Proof*: the receiver's map from item to position is inverted on distinct items; induction over the buckets with the protocol's exactness as hypothesis, which for KKRT is C23.
*Status*: partial. Positions, broadcast, the sequence of buckets and the sender's counts proved; counts at KKRT's receiver and empty buckets refuted. RR22's runner and the ECDH run enter as results.
*Theorems*: `C91_broadcast`, `C91_sequence`, `C91_withheld`, `C91_kkrt`, `C91_kkrt_no_empty_bucket`, `C91_rr22`, `C91_ecdh_stores`, `C91_kkrt_counts_refuted`, `C91_kkrt_empty_bucket_refuted`.

### C92 Batched hashes of RR22 equal the hash of each value, also in place

*Model*: `SpanModel.v`. *Proof*: induction over batches: after each batch the cells behind it still have their first values, as spans are equal or apart.
*Status*: partial. Values proved for spans that are equal or apart; partial overlap and short outputs refuted. AES is an argument.
*Theorems*: `C92_words`, `C92_bytes`, `C92_bytes_whole_blocks`, `C92_davis_meyer`, `C92_davis_meyer_sizes`, `C92_final_hash`, `C92_overlap_refuted`, `C92_overlap_machine_refuted`, `C92_output_size_refuted`.

### C93 Parties started by Kuscia agree on ranks and addresses

*Model*: `KusModel.v`. *Proof*: a std::map is a sorted list without repetition, which its set of keys determines; so all parties get the same order.
*Status*: partial. Agreement proved for configurations without parties and different names; both conditions shown necessary. JSON parsing is not modelled.
*Theorems*: `C93_agree`, `C93_peers`, `C93_unchecked`, `C93_twice_refuted`, `C93_same_name_refuted`.

### C94 Grouped APSI database: opened again after a crash, with other settings or another source

*Model*: `GdfModel.v`. *Proof*: the meta text is read back number by number whether or not the last line end is there; offsets lead to serialised databases by the layout lemma of C44; a rebuild finds the state BUCKETED and the generated items.
*Status*: partial. Lookups after early or late interruption and after a rebuild, and the conditions for opening, proved; interruption at other times, change of source and the mark after a failed group refuted. APSI's library enters as build, save, load.
*Theorems*: `C94_interrupted`, `C94_open`, `C94_rebuild`, `C94_interrupted_refuted`, `C94_rebuild_refuted`, `C94_done_refuted`.

### C95 Grouped APSI database: rows pass unchanged through the group files

*Model*: `QuoteModel.v`. *Proof*: the parser's run over a written line is computed; conversely a value with a quote is followed through the parser until its output differs, by cases on the character after the quote; blocks that end at line ends are whole lines.
*Status*: partial. Exact for rows without quotes and line ends; with quotes the round trip is shown to fail always. Arrow's CSV parser is modelled from its documented defaults.
*Theorems*: `C95_blocks`, `C95_quotes`, `C95_divided`, `C95_source`, `C95_key_refuted`, `C95_row_refuted`, `C95_group_refuted`, `C95_open`, `C95_cut_refuted`.

### C96 APSI sender: every request is answered from the bucket it names

*Model*: `DispModel.v`. *Proof*: induction over the messages with the state described by what it may hold: any state for a grouped database (each request sets it anew), a loaded bucket for files, the one database; each kind of request computed by cases.
*Status*: partial. answers, start, end and silence proved for all sequences; parameters after an empty bucket, failed bucket files, unstripped databases and escaping exceptions refuted
*Theorems*: `C96_grouped`, `C96_switched`, `C96_single`, `C96_params`, `C96_start`, `C96_stop`, `C96_unanswered`, `C96_silent`, `C96_params_refuted`, `C96_switch_refuted`, `C96_unstripped_refuted`, `C96_load_refuted`.

### C97 RR22: the bins have places for the keys

*Model*: `BinModel.v`. *Proof*: every table entry is checked by computation against the difference of its column and row; between entries the interpolation is shown to stay above the logarithm of the average load, by cases on which of the two numbers are powers of two; the refutation bounds one entry and counts the items of a thread against the places. Uses the axioms of the standard library's real numbers; doubles are reals. The probability that a bin overflows is not modelled.
*Status*: partial. room for the average load proved; number of threads other than a power of two refuted; the probability of overflow is not modelled
*Theorems*: `C97_room`, `C97_threads`, `C97_share`, `C97_overfull`, `C97_threads_refuted`.

### C98 APSI receiver: what is reported for a query

*Model*: `RcvModel.v`. *Proof*: the translation table is shown to hold the last item of each place; the scan of a package and the merge are described record by record with the invariant that a record and the packages still to come show at most one match; the output by induction over the buckets. Decryption, the cuckoo table and the label's text are arguments.
*Status*: partial. Answers, lines and counts proved. Refuted: the header with two labels or, in the API, after a first bucket without matches; empty packages being noticed; equal lengths of keys and values. A wrong OPRF reply leads to a read past the end.
*Theorems*: `C98_query`, `C98_twice`, `C98_answers`, `C98_file`, `C98_api`, `C98_header`, `C98_header_refuted`, `C98_api_header_refuted`, `C98_short`, `C98_null_refuted`, `C98_vectors_refuted`.

### C99 APSI C interface: strings, arrays and results in memory

*Model*: `CapiModel.v`. *Proof*: the heap is a list of blocks with increasing addresses; making strings, arrays and results is shown to put a known layout in front of it, reading and freeing are computed on that layout with anything before and behind it. malloc(0) is taken to succeed.
*Status*: partial. Round trips and freeing proved. Refuted: no leak when an allocation fails; the label flag without matches, a null pointer to BucketSenderFree, counts beyond 2^32.
*Theorems*: `C99_string`, `C99_array`, `C99_result`, `C99_receiver`, `C99_null`, `C99_count`, `C99_free_twice`, `C99_leak_refuted`, `C99_edges_refuted`.

### C100 In-memory PSI: results by protocol and number of parties

*Model*: `MemModel.v`. *Proof*: the run of all parties at once over the protocol models of C16, C23/C91, C39 and C72, and the broadcast of C34: when only the receiver's OnRun returns something, the broadcast hands exactly that to everybody; the protocol theorems give what it is. Parties with different configurations, and what a two-party protocol does on the link among more than two parties, are not modelled.
*Status*: partial. Refuted: the documented type runs; two-party types are refused among more than two parties. The rest is proved.
*Theorems*: `C100_start`, `C100_empty`, `C100_three`, `C100_many`, `C100_kkrt`, `C100_dp`, `C100_documented_refuted`, `C100_types`, `C100_world_refuted`.

### C101 Curve types: which curve, hash and masks a party gets on which machine

*Model*: `CrypModel.v`. *Proof*: the selection by curve type and processor; one step per index or batch of at most eight lanes, in any order, over a result in which every step only writes the right values into the slots it covers, so any complete schedule gives the image of the points; clamping by bits; the text of the configuration is read back by its digits. The group operations, hashes onto the curves and lengths of points are parameters, with their agreement between libraries and their commutation as hypotheses; races on the shared junk buffer are modelled only batch by batch.
*Status*: partial. proved for every curve, machine and schedule; the curve in use is the requested one except for secp256k1 and keys set by hand are not clamped, shown by C101_secp256k1_refuted, C101_mismatch_refuted and C101_set_key_refuted
*Theorems*: `C101_created_when`, `C101_curve_partial`, `C101_secp256k1_refuted`, `C101_oprf`, `C101_machines`, `C101_mask`, `C101_double`, `C101_key_moves`, `C101_check`, `C101_mismatch_refuted`, `C101_key_range`, `C101_set_key_refuted`.

### C102 Digests kept beside the input, and where result files go

*Model*: `MetaModel.v`. *Proof*: the file <input>.meta beside the input through a sequence of runs: its text is either absent or the print of an earlier run's digest, so a run takes that digest or makes its own; result files as what an unchecked stream leaves on a disk with limited room. CSV reading, JSON and SHA-256 are parameters; the machine is a table of directories and permissions that does not change during a run.
*Status*: partial. the positive parts hold for all files, columns, disks and paths; reuse after a change of columns, bare result names, unwritable results and nested legacy directories are refuted
*Theorems*: `C102_fresh`, `C102_old`, `C102_believed`, `C102_history`, `C102_read_only`, `C102_cut`, `C102_columns_refuted`, `C102_result`, `C102_bare_refuted`, `C102_unnoticed_refuted`, `C102_index_file`, `C102_nested_refuted`, `C102_legacy_folder`.

### C103 Sorting and checking CSV files through the shell

*Model*: `ShellModel.v`. *Proof*: an unquoted path as the words the shell makes of it; the command line as what tail, sort and uniq do with these words; duplicates by the neighbours in byte order, the file of joined keys by what its lines are. sort itself, SHA-256 and the CSV reader are parameters; shell characters other than the blank are undefined behaviour here.
*Status*: partial. the positive parts hold for all paths, files and sorts in byte order; blanks in paths are refuted; other characters special to the shell are undefined behaviour in the model
*Theorems*: `C103_sorted`, `C103_no_input`, `C103_blank_refuted`, `C103_blank_output`, `C103_inplace`, `C103_inplace_refuted`, `C103_check`, `C103_check_rows`, `C103_cpuset`, `C103_quota`, `C103_positive`.

### C104 Calibration of the differentially private protocol

*Model*: `DpCalModel.v`. *Proof*: exact real numbers of the standard library, searches with fuel, the root of a negative number as a missing value. The shares by induction on the search; that the searches end by continuity on the interval (Heine) and halving; that they do not by a bound on the error at every point. The deviation by the algebra of conjugate roots against the formula of Balle and Wang in the specification. The normal distribution is a parameter with its continuity, symmetry and limit as hypotheses; rounding of doubles is not modelled.
*Status*: partial. In exact real arithmetic; that every budget is shared out is refuted (small and large budgets never end, few rows give NaN).
*Theorems*: `C104_share`, `C104_returns`, `C104_default`, `C104_small_budget_refuted`, `C104_large_budget_refuted`, `C104_few_rows_refuted`, `C104_sigma`, `C104_sigma_found`.

### C105 Temporary CSV files of duplicate-key PIR

*Model*: `DkTextModel.v`. *Proof*: the files as byte strings, written as the code writes them and read by the CSV parser of C95 (QuoteModel); the merged map of C60 in any order. A line of clean cells is parsed into these cells by induction, the rest is the splitting of joined labels. Arrow itself is the parser modelled; its errors end the run; files are read as one block.
*Status*: partial. Cells without commas, double quotes and line ends; that all cells survive is refuted.
*Theorems*: `C105_values`, `C105_counts`, `C105_queries`, `C105_result`, `C105_comma`, `C105_quotes_refuted`, `C105_line_refuted`, `C105_empty_query_refuted`.

### C106 Rows reported back to the server of unbalanced PSI

*Model*: `MaskIdxModel.v`. *Proof*: messages as flattened bytes or the last mark, workers as slices of each cache batch, base64 decoding as a parameter that may refuse. The slices of the workers are shown to join to the whole batch by induction on the workers; the cache is the one of C37. absl clears the destination when decoding fails, as its header says; the set is the list of what was inserted.
*Status*: partial. Strings decoding to whole items; that undecodable strings are noticed and that short strings are not joined is refuted.
*Theorems*: `C106_rows`, `C106_first_empty`, `C106_any_client`, `C106_partial_item`, `C106_undecoded_refuted`, `C106_joined_refuted`.

### C107 Index PIR servers loaded from a hash table

*Model*: `HashDbModel.v`. *Proof*: the loading of SealPirModel (C69) and PirPackModel (C40) with the parameters replaced on the way, as the code does; the stores are shown to be those of a server made for the table, so the theorems of C69 and C40 apply. The declared shape of Spiral is overwritten and not modelled; ValidCheck as in C40.
*Status*: partial. SEAL as in C69; that a client made with the server's options reads the table is refuted.
*Theorems*: `C107_seal`, `C107_seal_pieces`, `C107_spiral`, `C107_spiral_second`, `C107_client_refuted`.

### C108 APSI tables whose CSV reader fails

*Model*: `RdErrModel.v`. *Proof*: the calls of ReadNext as a list of batches and failures, with the pointer kept on failure as arrow::Result does; the rest by induction on the list: a failure leaves two equal neighbours, whose keys are repeated in the table and in the bucket of any of them. Which failures Arrow reports, and what GroupBucketize has written when it throws, are not modelled.
*Status*: partial. Batches with rows; that a failure is always noticed is refuted.
*Theorems*: `C108_read`, `C108_read_failed`, `C108_buckets`, `C108_buckets_failed`, `C108_group`, `C108_read_unnoticed_refuted`, `C108_buckets_unnoticed_refuted`.

### C109 A Spiral PIR server filled, dumped, loaded and asked

*Model*: `PirDumpModel.v`. *Proof*: the members of the server as a record and every call as a function on it, over the packing of C40; the round trips use the retrieval theorems of C40, and the refusals the size checks of PtDbsToReorientedDbs. The polynomial arithmetic is the ideal one; streams, the type tag and failing writes are not modelled.
*Status*: partial. False for servers that were loaded, and for those filled only by GenerateFromRawDataAndReorient: their dumps are refused on loading (C109_dump_keeps_answers_refuted, C109_second_dump, C109_reoriented). Polynomial arithmetic is the ideal one of C40.
*Theorems*: `C109_dump_load`, `C109_unfilled`, `C109_second_dump`, `C109_ask_before_load`, `C109_reoriented`, `C109_both`, `C109_refill`, `C109_refill_dump`, `C109_loaded_asks_inside`, `C109_dump_keeps_answers_refuted`.

## Observations about the code

Behaviour found while modelling. Where a theorem shows it, it is named.

| no. | behaviour | shown by |
|---|---|---|
| F1 | Resuming `MaskSelf` inside a batch with repeated items attaches counts to the wrong items | `C13_resume_counts_refuted` |
| F2 | A reopened `HashBucketCache` numbers items from 0 again | `C18_reopened_positions_unique_refuted` |
| F3 | The key digest hashes keys without separators | `C48_same_keys_refuted` |
| F4 | `KeysJoin` does not escape the comma between columns | `C47_composite_keys_refuted` |
| F5 | `BroadcastResult` does not notice a second holder if rank 0 is one | `C34_two_holders_refuted` |
| F6 | Progress can fall, and `Done` can be reached below 100 | `C49_update_lowers_refuted`, `C49_done_below_100_refuted` |
| F7 | Recovery updates can move the recorded stage backwards | `C30_stage_monotone_refuted` |
| F8 | The checkpoint file is not replaced atomically | `C30_save_atomic_refuted` |
| F9 | A torn client cache is read as garbage or with uninitialised members | `C36_torn_meta_refuted`, `C36_append_after_tear_refuted` |
| F10 | A key-info file is reused if its meta file agrees in size only | `C102_old`, `C102_believed` |
| F11 | Quotes are not escaped on output; rows are sorted as raw text but compared as parsed text | not modelled |
| F12 | Sizes of zero reach `log2` | `C50_empty_side_refuted` |
| F13 | A receiver without broadcast generates an empty result on the other side | not modelled |
| F14 | With more threads the order of the matched indices changes | C15 (content unchanged) |
| F15 | Unique-key output is sorted by all columns | `C07_unique_outputs_aligned_refuted` |
| F16 | Joins of keys repeated on both sides are no cross product | `C06_paste_is_sql_join_refuted` |
| F17 | A crash between index commit and bucket count duplicates entries, the result stage then fails | `C31_exactly_once_refuted` |
| F18 | `ParallelRun` ignores the start bucket | `C26_resumed_parallel_refuted` |
| F19 | The KKRT operator reports a peer count of 0 for unique items | not modelled |
| F20 | `ConvertCoeffsToBytes` misplaces a last incomplete byte | `C41_last_byte_refuted` |
| F21 | Dividing a grouped database again after a crash appends rows twice | `C44_restart_refuted` |
| F22 | ECDH recovery with one bin throws | not modelled |
| F23 | RR22 compaction calls `memcpy` on overlapping ranges | `C28_disjoint_copies_refuted` |
| F24 | `AsyncRun` hangs if a stage throws | `C51_failure_not_reported_refuted` |
| F25 | `ComputeTruncateSize` multiplies with wrap-around | `C50_truncate_wrap_refuted` |
| F26 | The offline transfer of the client removes its cache path if a server cache exists there | not modelled |
| F27 | The unbalanced client returns an empty intersection if its cache is missing | `C57_missing_cache_refuted` |
| F28 | The unbalanced server does not check that the key matches the cache; the batch size is cut to 32 bits | not modelled |
| F29 | `GadgetInvertRdim` exchanges row and column | `C42_columns_refuted` |
| F30 | Decoding a Spiral response adds a value that is no multiple of p for some parameters | `C58_offset_refuted` |
| F31 | The duplicate-key PIR count check refuses honest runs with an unknown key | `C61_refuted` |
| F32 | Result extraction fails if nothing matched | `C60_refuted` |
| F33 | Failed child processes of the grouped database are ignored; the library entry point answers an empty bucket with nothing | `C44_api_refuted` |
| F34 | A one-dimensional Spiral database is refused by `ExpandQuery`, although `GenQueryInternal` supports it | `C59_one_dimension_throws` |
| F35 | `GenQueryInternal` shifts by 64 or more bits for some digit counts, where `BuildGadget` clamps; with one GSW ciphertext the expansion reads keys past the end | `query_sigma`, outside C59's hypotheses |
| F36 | `MatrixGf128Inv` makes a vector of `row_size` elements instead of `row_size * col_size`: undefined behaviour for two or more gap rows under GF128; the pivot search also looks for 1 instead of a non-zero element | `C62_two_gap_rows_refuted` |
| F37 | `Encode` relies on a zeroed table (its own `ZeroFill` is commented out) and `SetInput` reads past the inputs if there are fewer than `Init` was told | `C62_any_table_refuted`, `C62_fewer_inputs_refuted` |
| F38 | Encoding with a PRNG is wrong: random free columns are not taken into account in gap rows, and a fill overruns its vector; no caller uses it | not modelled |
| F39 | `PopNode` calls `back()` on an empty vector when the last listed column is removed | `pop_node`, excluded by two spare columns in `C62_peelable` |
| F40 | `Baxos::ImplParSolve` checks the bin size of a thread only in its tail loop; the main loop writes past the bin | `C63_overflow_refuted` |
| F41 | The index type is chosen by `Log2Ceil(sparse + 1)` but `Paxos::Init` needs `sparse < max`: exactly 255, 65535 or 2^32-1 sparse columns per bin are refused for every input | `C63_index_type_full` |
| F42 | `NtyMPsi::GenOkvs` passes no PRNG to `Baxos::Solve`: unused columns of the table are 0, items outside the encoded set often decode to 0 (55% for four items, about 0.7% per table for large sets), and with four or more parties an item only helper and receiver have is reported as common | `C64_extra_items_refuted` |
| F43 | The transform is wrong for moduli of 31 or more bits (AVX2) or 32 or more bits (portable), although `kQ2Values` offers `q2` of up to 36 bits and `Params` accepts them | `C65_large_modulus_refuted` |
| F44 | The AVX2 forward transform compares with `>` and returns the modulus instead of 0: right modulo q, but not reduced and not what the portable build returns | `C65_canonical_refuted` |
| F45 | `GenerateFromRawDataAndReorient` appends to `reoriented_dbs_` when there are several partitions: after a second call queries are still answered from the first database | `C66_second_database`, `C66_reload_refuted` |
| F46 | `SpiralQuery::DeserializeRng` rebuilds the first row as `q - (word mod q)`: where the word is a multiple of q it stores q, the client 0, so the rebuilt query is not `==` the one sent (the ciphertext is the same modulo q) | `C67_rebuilt_refuted` |
| F47 | `PolyMatrixRaw::FromProto` compares the number of words with `rows * cols * n` modulo 2^64: an empty message with 2^63 rows and 2 columns passes | `C67_shape_check_refuted` |
| F48 | Spiral's `Deserialize*` ignore the result of `ParseFromArray` and copy 16 bytes from the seed field whatever its length | not modelled |
| F49 | `PublicKeys::operator==` does not compare `v_conversion_` | not modelled |
| F50 | SealPIR: `GenerateFromRawData` appends to the plaintext store; after a second call queries are answered from the first database | `C69_second_database`, `C69_reload_refuted` |
| F51 | SealPIR `GetDimensions` takes `floor(pow(n, 1.0 / d))`: for an exact cube such as 64 the root is rounded down to 3, after which no database is accepted | `C69_root_refuted` |
| F52 | SealPIR `ComputeIndices` multiplies the dimensions in an `int` (`accumulate` from 1) | `C69_indices_refuted` |
| F53 | SealPIR: an all-zero plaintext makes `multiply_plain` throw in builds of SEAL that refuse transparent ciphertexts | `C69_zero_refuted` |
| F54 | SealPIR `CoeffsToBytes` counts bits in 32 bits: elements of 2^29 bytes or more wrap | excluded in `C69_retrieves` |
| F55 | SealPIR `MultiplyPowerOfX` negates a zero word to q, not 0: right modulo q, not reduced | allowed for in `C69_retrieves` |
| F56 | `HashToCurveElligator2` returns x most significant byte first; the cryptors pass the array to X25519, which reads it least significant byte first: a different number, for the RFC's own vector not on the curve at all | `C71_byte_order_refuted` |
| F57 | `HashToCurveElligator2` throws if both mapped points are equal (the RFC doubles); unreachable in practice | `C71_total_refuted` |
| F58 | `MapToCurveElligator2` compares 2u^2 mod p with -1 instead of p - 1, so the guard for the exceptional case never fires; harmless, as the case does not occur | `C70_map_to_curve` |
| F59 | `IppEccCryptor::EccMask`: the threads of `parallel_for` share one junk buffer for the unused lanes of a batch (a data race on bytes nobody reads) | not modelled |
| F60 | DP PSI: if the sender holds every sampled row, the receiver is told 0 although all rows are common | `C72_all_common_refuted` |
| F61 | the same early return breaks differential privacy: an answer other than "none" proves that some sampled row is not the sender's | `C73_private_refuted` |
| F62 | DP PSI: the coins and the shuffle come from std::mt19937 seeded with 64 random bits cut to 32: 2^32 possible outcomes, which a peer can enumerate | not modelled (coins are arguments) |
| F63 | DP PSI receiver: neither the announced size nor the indices are checked: a batch longer than announced overruns the vector, an index too large reads past the sampled rows | `C72_bob_checks_refuted` |
| F64 | SimplePIR `Recover` does not reduce answer minus hint modulo q: for moduli p that do not divide q nearly, values come out wrong without any noise (q = 2^32, p = 2039) | `C74_reduction_refuted` |
| F65 | SimplePIR `SetDatabase` looks at the length of the first row only; `DeserializeVector` trusts the count in the buffer and reads past its end; `Setup` trusts the length of the hint | `C74_wire_example`, not proved further |
| F66 | PIANO: when no primary set contains the index any more, or the replacements of its chunk are used up, the client sends a mask query and returns zeroes; only the log tells this from an entry of zeroes | `C75_answers_refuted` |
| F67 | PIANO: neither side checks what it parses: a chunk shorter than chunk_size entries is read past its end, a chunk index past the last writes past the replacement groups, an index at or above entry_num reads past them | not proved |
| F68 | PIANO: `is_mask_query` stays set when a reply to a mask query is never recovered, so the next recovery returns zeroes or a cached entry and skips the refresh; "No backup set available" cannot happen, replacements run out first | `C75_retrieves` (queries and recoveries alternate there) |
| F69 | threshold ECDH PSI: `SaveData` stores `dup_cnts[i]` of position i before the shuffle with item `shuffled_indices[i]`, so the sender's output repeats its rows by another item's count | `C77_sender_counts_refuted` |
| F70 | threshold ECDH PSI: with `check_hash_digest` and equal inputs both parties output everything, whatever the threshold, and write no count file | `C77_equal_inputs_refuted` |
| F71 | threshold ECDH PSI: the permutation stays inside a batch, though the README describes one permutation of all items; an item alone in its batch is not hidden | `C78_single_item_batches`, `C78_beyond_threshold_refuted` |
| F72 | threshold ECDH PSI: `batch_size` is cut to 32 bits for the cache's reader; a multiple of 2^32 ends the restoring at once and every row reads 0 | `C77_batch_size_refuted` |
| F73 | threshold ECDH PSI: on recovery the sender's cache is opened anew and starts again at index 0 while the receiver continues, so restored indices belong to other rows | not proved (recovery is not modelled) |
| F74 | threshold UB PSI: `RecvAndRestoreIndexes` restores as many indexes as the client sends; the server compares with its own threshold only if it gets a result | `C79_server_threshold_refuted` |
| F75 | threshold UB PSI: the server's key is that of the cache, so the values of the client's items are the same in every run; two runs whose inputs differ in one key tell whether that key is common | `C80_two_runs_refuted` |
| F76 | threshold UB PSI: the server does not check the indexes it restores: one at or past the number of items reads past the vector | `ubt_restore` (UB) |
| F77 | KMPRT17: `recv_shares` is a vector of `count` shares indexed by rank: with fewer items than parties SwapShares and Reconstruct write past its end | `C81_few_items`, `C81_few_items_refuted` |
| F78 | KMPRT17: a key the leader has twice is output once; the other copy's share does not match | `C81_duplicates_refuted` |
| F79 | KMPRT17: Run reads `inputs[k]` for every place up to the largest input of any party; a dummy whose sum is 0 reads past the end; an item whose hash is 0 is never inserted | modelled (UB), excluded by hypotheses |
| F80 | KMPRT17: a table value that happens to be 0 counts as empty and is overwritten, losing the item; two items of a bin with equal OPRF values make the sender loop for ever | hypotheses of `C81_common_found`; Diverge |
| F81 | PPS PIR: `Punc` appends to `k_`; a PIRPuncKey used for a second Query yields a wrong answer | `C83_reused_key_refuted` |
| F82 | PPS PIR: a node 0 of the tree counts as unknown in `Eval` of a punctured key; wrong answer | `C83_zero_node_refuted` |
| F83 | PPS PIR: sets of one element are accepted; `AnswerMulti` reads `k_[0]` of an empty vector | `C83_one_element_refuted` |
| F84 | PPS PIR: Setup wants ceil(n/s)*ceil(log n) distinct shifts of n; for small n (8 with sets of 2) it always throws | `C83_too_many_shifts` |
| F85 | PPS PIR: left and right query go to the same server; two queries using one key reveal the earlier index | `C84_linked_refuted` |
| F86 | PPS PIR: with a true coin the punctured element is drawn from the whole set, the index included; the index is read less often than others | `C84_one_query_refuted`, `C84_own_index`, `C84_all_indices` |
| F87 | PPS PIR: the shifts are kept in a sorted set and the smallest fitting one is used, so its distribution depends on the index as well | observation |
| F88 | PPS PIR: the readers trust counts, the server trusts position and shift | `C85_offline_cut_refuted`, `C85_online_cut_refuted`, `C85_position_refuted`, `C85_shift_refuted` |
| F89 | CreateEcPointByHashToCurve hashes the failed candidate alone, so half of all items share their point with a 32-byte item; the unbalanced PSI with SimpleEvaluate reports a match between them | `C86_false_match_refuted`, `C86_ub_psi_refuted` |
| F90 | SetPrivateKey, public on the OPRF client too, leaves sk_inv_ unchanged | `C86_set_key_refuted` |
| F91 | EcPointMul ignores what EC_POINT_oct2point returns; bad bytes are caught only because the point at infinity has a short encoding | `C86_bad_element` |
| F92 | Inverse ignores failure of BN_mod_inverse; a client key that is 0 modulo the order fails at Blind | `C86_zero_key` |
| F93 | Finalize(items, evaluated) does not compare the lengths | `C86_short_items_refuted` |
| F94 | FourQPointMul reads byte 15 and decodes 32 bytes of an element without looking at its length | observation |
| F95 | Unbalanced PSI does not check that the client's cache is the server's current one; after a rebuild that was not sent the server writes wrong rows | `C88_stale_refuted` |
| F96 | An online run without a transferred cache succeeds with an empty intersection | `C88_not_sent_refuted` |
| F97 | An online run with another key than the cache's succeeds with an empty intersection | `C88_other_key_refuted` |
| F98 | Building modes empty cache_path before the input and the key are read; both are lost if they are inside | `C89_input_lost`, `C89_key_lost` |
| F99 | A mistyped input path costs the existing cache | `C89_failed_run_refuted` |
| F100 | The client's transfer removes everything in cache_path if there is an old server_cache | `C89_client` |
| F101 | left_side SERVER or CLIENT is accepted in balanced PSI; left and right joins then give files of different lengths | `C90_left_side_refuted` |
| F102 | A left_side_rank that is no rank is accepted; in unbalanced PSI the parties then disagree on the left side | `C90_left_rank_refuted`, `C90_ub_left_rank_refuted` |
| F103 | disable_alignment and the number of keys are not compared; a threshold is ignored with KKRT and RR22 | `C90_compared_refuted` |
| F104 | GetStdOutFileStream with a file name without directory calls create_directories(""), an error: a run of the new interface fails when it writes its result | `C102_bare_refuted` |
| F105 | DirResource::Release removes a directory that existed before Acquire | observation |
| F106 | The Kuscia adapter appends the parties to those already in link_config; each is then in the link twice | `C93_twice_refuted` |
| F107 | Two Kuscia parties of one name are accepted; they take the same rank and one loses its listening address | `C93_same_name_refuted` |
| F108 | The results of KkrtOperator's receiver have count 0 for items the sender has once (`duplicate_item_cnt[i]`) | `C91_kkrt_counts_refuted` |
| F109 | A bucket that is empty at one party stops the whole KKRT run | `C91_kkrt_empty_bucket_refuted` |
| F110 | EcdhOperator with a recovery manager and bin size at most 1 throws in OnEnd | `C91_ecdh_stores` |
| F111 | DavisMeyerHash and AesCrHash::Hash do not check the size of the output; with partly overlapping spans values depend on the machine | `C92_output_size_refuted`, `C92_overlap_machine_refuted` |
| F112 | LoadMeta does not check the stream: a meta file cut short is read with unset values or a wrong offset; the database file's tail is written after the meta file | `C94_interrupted_refuted` |
| F113 | GroupDB in a used directory ignores the source file and `compress` | `C94_rebuild_refuted` |
| F114 | A group that fails in its process is not noticed; the state becomes GENERATED | `C94_done_refuted` |
| F115 | Group files put keys and values in quotes without doubling the quotes in them: such rows are changed, swallow other rows or make the group unreadable | `C95_quotes`, `C95_key_refuted`, `C95_row_refuted`, `C95_group_refuted` |
| F116 | SenderDispatcher(sender_db, oprf_key) dereferences the moved-from parameter if the database is not stripped (sender_dispatcher.cc 42-58) | `C96_unstripped_refuted` |
| F117 | In group mode a request for parameters after one about an empty bucket gets no reply; the receiver waits | `C96_params_refuted` |
| F118 | A request for a bucket out of range or unreadable is only logged; the receiver waits | `C96_unanswered` |
| F119 | BucketSenderDbSwitcher records the bucket before loading it: after a failed load the next request is answered with the previous bucket's key | `C96_switch_refuted` |
| F120 | GetBinSize interpolates with swapped weights; if the number of items is a power of two and that of bins is not, the result is that of the next power of two of bins, below the average load. With 3, 6, 12 or 24 threads 49152 keys always overflow the threads' bins, unchecked in the main loop (baxos.cc 302-317) | `C97_threads_refuted` |
| F121 | print_intersection_results adds ",value" to the header for every labelled match, so a labelled result with two matches has header key,value,value; the API takes the header from the first bucket even if it has no match | `C98_header_refuted`, `C98_api_header_refuted` |
| F122 | An OPRF reply of unexpected size is logged and taken for no items; printing then reads past the end of the results | `C98_short` |
| F123 | A null result package is skipped without an error when results are not streamed | `C98_null_refuted` |
| F124 | FreeCString and FreeCStringArray clear the size and keep the pointer: a second call frees the block again | `C99_free_twice` |
| F125 | If malloc fails in the middle of MakeCStringArray or MakeQueryResult, the blocks already made are lost; a labelled database's result without matches is marked as unlabelled; BucketSenderFree raises on a null pointer across the C interface | `C99_leak_refuted`, `C99_edges_refuted` |
| F126 | The documentation's example of mem_psi uses ECDH_PSI_2PC, for which no operator is registered: MemoryPsi is constructed and the run fails once both sides have items (with an empty side it succeeds) | `C100_documented_refuted`, `C100_types` |
| F127 | MemoryPsi accepts the two-party types KKRT_PSI_2PC and DP_PSI_2PC in worlds of more than two parties | `C100_world_refuted` |
| F128 | Sm2Cryptor creates the group "sm2" for every type: CURVE_SECP256K1 in ECDH PSI computes on SM2 while GetCurveType says secp256k1 (the OPRF of unbalanced PSI uses the real curve) | `C101_secp256k1_refuted`, `C101_oprf` |
| F129 | The Elligator2 cryptors report CURVE_25519, so CheckConfig passes between a party with CURVE_25519 and one with CURVE_25519_ELLIGATOR2; their hashes differ and common items are not found | `C101_mismatch_refuted`, `C101_check` |
| F130 | SetPrivateKey does not clamp the key as the constructor of the libsodium cryptors does; three-party PSI sets random bytes | `C101_set_key_refuted` |
| F131 | With keys_unique the digest of an earlier run is taken from <input>.meta by file size alone: after other key columns or an edit of equal length the equality check compares old keys, and all rows may be called common | `C102_columns_refuted`, `C102_old` |
| F132 | keys_unique writes <input>.meta next to the user's input; a directory without write permission stops the run, a file cut by a full disk stops every later run | `C102_read_only`, `C102_cut` |
| F133 | GenerateResult and ResultDumper never look at their streams: a result file that cannot be opened or a full disk goes unnoticed | `C102_unnoticed_refuted` |
| F134 | Legacy CreateOutputFolder makes one level of directories, the new interface all | `C102_nested_refuted` |
| F135 | MultiKeySort passes unquoted paths to the shell and only sees the status of the last command: a blank in the input path gives an empty table without an error | `C103_blank_refuted` |
| F136 | CsvChecker writes joined keys as lines: a quoted cell with a line end can be called a duplicate of another row | `C103_check`, `C103_example` |
| F137 | ComputeEpsilon2 searches between 2.5 and 4 until the error is below 1e-12: for a budget of 2 or less, or a very large one, it never returns | `C104_small_budget_refuted`, `C104_large_budget_refuted` |
| F138 | With five rows or fewer ComputeEpsilon1 takes the root of a negative number; the comparison with NaN ends the search at 3.25 for every budget | `C104_few_rows_refuted` |
| F139 | CalibrateAnalyticGaussianMechanism settles for a delta within 1e-5 of the threshold at s = 0, which may be far off for small deltas whatever the tolerance | `C104_sigma` |
| F140 | The temporary files of duplicate-key PIR are written without quoting: commas stop the sender, quotes are lost, line ends make new records | `C105_comma`, `C105_quotes_refuted`, `C105_line_refuted` |
| F141 | An empty query is written as an empty line, which the reader skips: it is not asked and nothing says so | `C105_empty_query_refuted` |
| F142 | SendIntersectionMaskedItems ignores whether Base64Unescape succeeded: strings that are not base64 are dropped and the server ends with an empty result | `C106_undecoded_refuted` |
| F143 | The lengths of the decoded strings are checked only in sum, so two short ones are read as one item of the server | `C106_joined_refuted`, `C106_partial_item` |
| F144 | GenerateFromSimpleHashTable changes the parameters of the SealPIR server only: a client made with the server's options gets other bytes, or makes the server read past its query | `C107_client_refuted` |
| F145 | SpiralServer::GenerateFromSimpleHashTable appends rows longer than a plaintext to pt_dbs_; after a second table the dump cannot be loaded | `C107_spiral_second` |
| F146 | ApsiCsvReader::read only logs a failed ReadNext and takes the previous batch again; the error shows as repeated keys, or not at all when that batch has no rows | `C108_read_failed`, `C108_read_unnoticed_refuted` |
| F147 | ApsiCsvReader::bucketize ends well with empty buckets when the first ReadNext fails, and with rows twice when a later one does | `C108_buckets_failed`, `C108_buckets_unnoticed_refuted` |
| F148 | A loaded SpiralServer does not keep pt_dbs_: dumping it again writes the sizes without plaintexts, and that dump never loads | `C109_second_dump`, `C109_dump_keeps_answers_refuted` |
| F149 | SpiralServer::GenerateFromRawData sets database_seted_ without filling reoriented_dbs_; ProcessQuery then reads past an empty vector | `C109_ask_before_load` |
| F150 | SpiralServer::GenerateFromRawDataAndReorient appends partitions: after a second table the server goes on answering from the first | `C109_refill` |
