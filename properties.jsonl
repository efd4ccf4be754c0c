{"id": "C01", "title": "Key summary of a sorted table is exact", "statement": "When a party loads a non-empty table whose keys may repeat, the key summary the library produces lists every distinct key exactly once in file order, the row block attributed to each key is exactly the set of rows carrying that key, the blocks tile the file with no gap or overlap, and the reported original_count / original_key_count equal the number of data rows / distinct keys.", "quantifier": "for every sorted list of row keys and every way the CSV reader splits it into non-empty batches", "why_tests_cant": "Key runs can straddle any batch boundary; a finite test fixes one table and one batch size.", "anchors": ["psi/utils/table_utils.cc: KeyInfo::Make(SortedTable) 280-374"]}
{"id": "C02", "title": "Applying the intersection indices splits the table exactly", "statement": "Given the list of intersecting key positions with the peer's multiplicities, the intersect file is the header followed by every row of each listed key repeated (peer multiplicity) times, in table order; the except file is the header followed by every other row once, in table order; no row is lost, invented or put in both files.", "quantifier": "for every table, every strictly increasing in-range index list, every peer multiplicity and every provider batch size", "why_tests_cant": "Interaction of batch boundaries, multiplicities and index gaps is unbounded.", "anchors": ["psi/utils/table_utils.cc: KeyInfo::ApplyPeerDupCnt 497-542", "psi/utils/table_utils.cc: InterIndexProcessor::GetBatchInfo 551-598", "psi/utils/table_utils.cc: ResultDumper 452-491"]}
{"id": "C03", "title": "A corrupt index list is never silently accepted", "statement": "If the index list handed to the result stage contains a repeated position, is out of order, or mentions a position beyond the table, the call ends with an exception instead of producing a result; conversely a strictly increasing in-range list never raises.", "quantifier": "for every table, every index list whatsoever and every provider batch size", "why_tests_cant": "The detection logic depends on where the bad entry falls relative to batch ends and to the end of the table.", "anchors": ["psi/utils/table_utils.cc: InterIndexProcessor::GetBatchInfo 551-598"]}
{"id": "C04", "title": "Joined outputs of the two parties are aligned", "statement": "With result broadcast on, for each of inner/left/right/full/difference joins and for the plain intersection, the two output files have the same number of rows and on every line the two parties' keys are equal unless one of the two lines is the all-NULL line; no line is NULL on both sides.", "quantifier": "for every pair of tables, every join type and every choice of left side", "why_tests_cant": "Row counts depend on products of multiplicities and on the complement sizes exchanged between the parties.", "anchors": ["psi/utils/join_processor.cc: GenerateResult 283-341", "psi/utils/join_processor.cc: DealResultIndex 270-281", "psi/interface.cc: AbstractPsiParty::Finalize 145-193"]}
{"id": "C05", "title": "Each party's joined output is the projection of the SQL join", "statement": "With result broadcast on, the multiset of non-NULL rows in a party's output equals the projection onto that party of the SQL inner/left/right/full join (or symmetric difference) of the two tables on the keys, and the number of NULL rows equals the number of SQL result rows in which that party's side is NULL.", "quantifier": "for every pair of tables, every join type and every choice of left side", "why_tests_cant": "SQL semantics is a statement about all tables with arbitrary multiplicities.", "anchors": ["psi/utils/join_processor.cc: GenerateResult 283-341", "psi/utils/table_utils.cc: KeyInfo::ApplyPeerDupCnt 497-542", "psi/proto/psi_v2.proto: Advanced Joins 176-305"]}
{"id": "C06", "title": "Pasting the two aligned outputs side by side gives the SQL join", "statement": "Reading line i of the receiver's output together with line i of the sender's output yields, as a multiset, exactly the rows of the SQL join of the two tables.", "quantifier": "for every pair of tables (duplicates allowed on both sides)", "why_tests_cant": "Documentation only shows one example; the property is about all multiplicity pairs.", "anchors": ["psi/utils/table_utils.cc: ResultDumper::Dump 473-481", "psi/utils/table_utils.cc: KeyInfo::ApplyPeerDupCnt 521-524", "docs: psi_v2.proto 176-305, faq.rst"]}
{"id": "C07", "title": "Unique-key inputs are aligned too", "statement": "When keys_unique is set and alignment is not disabled, the two parties' inner-join outputs list the common keys in the same order.", "quantifier": "for every pair of tables with unique keys, every column layout", "why_tests_cant": "Depends on the relative position of key columns among all columns; tests use keys in the first column.", "anchors": ["psi/utils/join_processor.cc: DealResultIndex 270-281", "psi/utils/key.cc: MultiKeySort 122-183"]}
{"id": "C08", "title": "Intersection index file round trip", "statement": "Whatever sequence of index writes, commits and closes a party performs, after close the index file read back yields exactly the written (index, peer count) pairs in write order, closing twice changes nothing, writing after close is rejected, reopening without truncation appends after the old entries and reopening with truncation discards them.", "quantifier": "for every sequence of writer operations, every cache size and every number of reopenings", "why_tests_cant": "Cache-full boundaries and interleavings of commit/close/reopen are unbounded.", "anchors": ["psi/utils/index_store.cc: IndexWriter 33-127", "psi/utils/index_store.cc: FileIndexReader 131-197"]}
{"id": "C09", "title": "In-memory index reader returns sorted pairs", "statement": "The in-memory reader yields exactly the given (index, duplicate count) pairs, each once, in ascending index order, then reports end of data for ever; vectors of different length are rejected.", "quantifier": "for every pair of vectors and every number of reads", "why_tests_cant": "Quantifies over all vectors and all read histories.", "anchors": ["psi/utils/index_store.cc: MemoryIndexReader 199-229"]}
{"id": "C10", "title": "Two-party ECDH PSI returns exactly the intersection", "statement": "After both parties finish, a party entitled to the result obtains exactly the positions of its own items that the peer also holds, each position once, together with the peer's multiplicity of that item.", "quantifier": "for all item lists of both parties, all duplicate-count maps, all batch sizes (possibly different per party), given a commutative and injective masking", "why_tests_cant": "Inputs, batch splits and multiplicities are unbounded.", "anchors": ["psi/algorithm/ecdh/ecdh_psi.cc: MaskSelf 60-144, MaskPeer 146-236, RecvDualMaskedSelf 238-281, RunEcdhPsi 451-535", "psi/algorithm/ecdh/ecdh_operator.cc: OnEnd 113-177"]}
{"id": "C11", "title": "ECDH PSI result does not depend on thread scheduling and cannot deadlock", "statement": "The three concurrent activities of each party (send own masked items, re-mask the peer's items, collect own doubly masked items) reach completion under every interleaving and every completed run delivers the same stores.", "quantifier": "for all interleavings of the six activities over the message channels, all inputs and batch sizes", "why_tests_cant": "The number of interleavings is exponential/unbounded; tests sample a few.", "anchors": ["psi/algorithm/ecdh/ecdh_psi.cc: RunEcdhPsi 451-535, MaskSelf, MaskPeer, RecvDualMaskedSelf"]}
{"id": "C12", "title": "A party not entitled to the result receives nothing it could intersect", "statement": "When a target rank is set, the other party is never sent its own doubly masked items and ends with no intersection indices.", "quantifier": "for all inputs, batch sizes and schedules", "why_tests_cant": "Absence of a message on all runs cannot be tested exhaustively.", "anchors": ["psi/algorithm/ecdh/ecdh_psi.cc: MaskPeer 146-236, RecvDualMaskedSelf 238-281", "psi/algorithm/ecdh/ecdh_psi.h: SelfCanTouchResults 107-115"]}
{"id": "C13", "title": "Resuming ECDH PSI keeps duplicate counts attached to the right items", "statement": "After a restart that skips the first k already processed items, each remaining item is sent with the same duplicate count as in an uninterrupted run.", "quantifier": "for every item list, batch size and every resume position k", "why_tests_cant": "Resume positions may fall anywhere inside a batch.", "anchors": ["psi/algorithm/ecdh/ecdh_psi.cc: MaskSelf 60-144"]}
{"id": "C14", "title": "Disk-bucketed intersection equals the in-memory intersection", "statement": "Computing the intersection bin by bin from the hashed on-disk point stores gives exactly the same set of (index, peer count) results as comparing the two complete lists, for any number of bins, and the reported peer total equals the sum of peer multiplicities over the intersection.", "quantifier": "for all store contents and all bin counts", "why_tests_cant": "Bin assignment is by hash over unbounded data.", "anchors": ["psi/utils/ec_point_store.cc: FinalizeAndComputeIndices 67-131, HashBucketEcPointStore 50-65"]}
{"id": "C15", "title": "Threaded index computation is independent of thread count", "statement": "The multithreaded in-memory matching reports the same indices and duplicate counts whatever the number of worker threads and however they are scheduled.", "quantifier": "for all inputs and all positive thread counts", "why_tests_cant": "Thread count is machine dependent and chunk boundaries are input dependent.", "anchors": ["psi/utils/ec_point_store.cc: ComputeIndicesWithDupCnt 133-222, GetIndicesByItems 224-286"]}
{"id": "C16", "title": "Three-party ECDH PSI returns exactly the three-way intersection", "statement": "The master obtains exactly those of its items that both other parties hold.", "quantifier": "for all three item lists, batch sizes and shuffle permutations, given a commutative injective masking", "why_tests_cant": "Quantifies over all inputs and all random shuffles.", "anchors": ["psi/algorithm/ecdh/ecdh_3pc_psi.cc: MaskMaster 188-233, PartnersPsi 235-321, FinalPsi 323-349"]}
{"id": "C17", "title": "Hash-bucket cache is a lossless partition", "statement": "Every item written is found in exactly one bucket, with its data, duplicate count and write position intact; items with equal data always fall in the same bucket on both parties; reading all buckets returns every written item once.", "quantifier": "for all item sequences and all positive bucket counts", "why_tests_cant": "Item data is arbitrary and bucket assignment is hash based.", "anchors": ["psi/utils/hash_bucket_cache.h: BucketItem 34-70", "psi/utils/hash_bucket_cache.cc: WriteItem 49-61, LoadBucketItems 70-81"]}
{"id": "C18", "title": "Reopening a hash-bucket cache keeps item positions unique", "statement": "Items appended to an existing (non-deleted) on-disk cache get positions different from the ones already stored.", "quantifier": "for all previously stored and newly written item sequences", "why_tests_cant": "Crash/restart points are unbounded.", "anchors": ["psi/utils/hash_bucket_cache.cc: ctor 30-42, WriteItem 49-61", "psi/utils/multiplex_disk_cache.cc"]}
{"id": "C19", "title": "Parties agree on the number of buckets", "statement": "After negotiation all parties hold the same bucket count, it is enough for the largest party at the requested bucket size, and it is zero exactly when some party has no items.", "quantifier": "for all numbers of parties, item counts and bucket sizes", "why_tests_cant": "Arithmetic over all sizes.", "anchors": ["psi/utils/bucket.cc: NegotiateBucketNum 141-168"]}
{"id": "C20", "title": "Bucket-local results are translated to global positions and counts", "statement": "The indices and peer multiplicities that sender and receiver record for a bucket are the global positions of their own bucket items that are in the intersection, paired with the other party's multiplicity for the same item.", "quantifier": "for all bucket contents of both parties and all intersection lists", "why_tests_cant": "Index arithmetic over arbitrary bucket contents.", "anchors": ["psi/utils/bucket.cc: HandleBucketResultBySender 68-102, HandleBucketResultByReceiver 104-127"]}
{"id": "C21", "title": "Bucket-wise PSI equals PSI on the whole sets", "statement": "Running an exact PSI independently on every bucket and concatenating the translated results gives exactly the intersection of the complete inputs, each position once.", "quantifier": "for all inputs and bucket counts", "why_tests_cant": "Quantifies over all inputs and bucket counts.", "anchors": ["psi/utils/bucket.cc", "psi/algorithm/kkrt/receiver.cc", "psi/algorithm/rr22/receiver.cc"]}
{"id": "C22", "title": "Cuckoo table never loses or misplaces an item", "statement": "After any successful sequence of insertions every inserted item sits in exactly one place: a bin that is one of its candidate bins, tagged with the matching hash number, or the stash; nothing else is in the table; if the stash overflows the call throws.", "quantifier": "for all item sequences, all hash values, all table and stash sizes", "why_tests_cant": "Eviction chains depend on arbitrary hash collisions.", "anchors": ["psi/utils/cuckoo_index.cc: Insert 32-73, PutToStash 75-84, SanityCheck 86-108", "psi/utils/cuckoo_index.h: Bin 60-112"]}
{"id": "C23", "title": "KKRT PSI reports each common item exactly once", "statement": "The receiver's result lists exactly the positions of its items the sender also holds, each exactly once, with the sender's multiplicity, even when several hash functions map an item to the same bin.", "quantifier": "for all item sets, hash values and sender permutations, given a collision-free OPRF and a cuckoo table without stash", "why_tests_cant": "Hash self-collisions are rare in random tests.", "anchors": ["psi/algorithm/kkrt/kkrt_psi.cc: KkrtPsiSend 111-307, KkrtPsiRecvIndices 309-423", "psi/utils/cuckoo_index.cc: MinCollidingHashIdx 136-148"]}
{"id": "C24", "title": "KKRT sender output does not depend on correction arrival timing", "statement": "The encodings the sender transmits are the same whatever the relative speed of the thread receiving the corrections, and no encoding is computed before the correction of its bin has arrived.", "quantifier": "for every monotone schedule of arrivals interleaved with the encoding loop", "why_tests_cant": "Race outcomes are not controllable in tests.", "anchors": ["psi/algorithm/kkrt/kkrt_psi.cc: KkrtPsiSend 155-301"]}
{"id": "C25", "title": "RR22 pipeline processes every bucket once, in order, without deadlock", "statement": "In pipelined mode each bucket from the start index on is prepared, run and intersected exactly once and in increasing order, under every interleaving of the three threads, and no interleaving gets stuck.", "quantifier": "for all bucket counts, start indices and thread interleavings", "why_tests_cant": "Schedules are unbounded.", "anchors": ["psi/algorithm/rr22/rr22_psi.h: Rr22Runner::AsyncRun 189-248"]}
{"id": "C26", "title": "RR22 parallel mode processes each bucket from the start index on exactly once", "statement": "In parallel mode the set of processed buckets is exactly start..bucket_num-1, each once.", "quantifier": "for all bucket counts, start indices and degrees of parallelism", "why_tests_cant": "Resume indices are rarely exercised.", "anchors": ["psi/algorithm/rr22/rr22_psi.h: Rr22Runner::ParallelRun 250-280"]}
{"id": "C27", "title": "RR22 OPRF: both sides derive the same value for the same item", "statement": "For every item encoded by the receiver, the value the receiver derives equals the value the sender derives for the same item; hence a common item is never missed.", "quantifier": "for all item lists, all VOLE correlations, all linear encodings that decode correctly, both fast and low-communication modes", "why_tests_cant": "Algebraic identity over all field elements.", "anchors": ["psi/algorithm/rr22/rr22_oprf.cc: Send/Recv/Eval"]}
{"id": "C28", "title": "RR22 truncated comparison transports the right bytes", "statement": "The compacted buffer the sender transmits, after chunked transfer and re-reading at the receiver, yields for every item exactly the low mask_size bytes of its OPRF value.", "quantifier": "for all lists of 128-bit values, all mask sizes 1..16, all chunk sizes", "why_tests_cant": "In-place compaction and chunk boundaries depend on all sizes.", "anchors": ["psi/algorithm/rr22/rr22_utils.cc: GetIntersectionSender 229-306", "psi/algorithm/rr22/rr22_utils.h: SendChunked/RecvChunked 54-86"]}
{"id": "C29", "title": "RR22 result is independent of worker scheduling and correct on both sides", "statement": "The receiver's pairs and the sender's pairs describe the same matches; their content does not depend on the order in which workers merge partial results.", "quantifier": "for all OPRF value lists without collisions, all chunkings and merge orders", "why_tests_cant": "Merge order is scheduler dependent.", "anchors": ["psi/algorithm/rr22/rr22_utils.cc: GetIntersectionReceiver 51-150"]}
{"id": "C30", "title": "Checkpoint stage never moves backwards within a run and restart negotiation is consistent", "statement": "Over any sequence of checkpoint calls in protocol order the persisted stage is non-decreasing, and after the restart handshake both parties start from the same bucket / item position, which is at most what either has durably recorded.", "quantifier": "for all call histories, restart points and both parties' persisted records", "why_tests_cant": "Crash points and histories are unbounded.", "anchors": ["psi/checkpoint/recovery.cc: MarkInitEnd 99-120, MarkPreProcessEnd 122-146, MarkOnlineStart 148-211, Update* 213-238"]}
{"id": "C31", "title": "Restarted bucket PSI records every result exactly once", "statement": "If a party crashes at any moment during bucket-wise PSI with recovery enabled and both restart, the final index file contains each intersection index exactly once.", "quantifier": "for all crash points of either party, any number of crashes", "why_tests_cant": "Crash points lie between any two file operations.", "anchors": ["psi/algorithm/kkrt/receiver.cc", "psi/algorithm/rr22/receiver.cc", "psi/utils/bucket.cc: HandleBucketResult*", "psi/checkpoint/recovery.cc: UpdateParsedBucketCount"]}
{"id": "C32", "title": "A checkpoint of a different task is rejected", "statement": "Restarting with a recovery folder written under a different configuration or different input keys raises instead of resuming.", "quantifier": "for all pairs of configurations / inputs and all stages", "why_tests_cant": "All stages and mismatches.", "anchors": ["psi/checkpoint/recovery.cc: RecoveryManager ctor, MarkInitEnd 99-120"]}
{"id": "C33", "title": "A failing step fails every party", "statement": "When all parties run a synchronised step, either every party returns normally and every party's own function returned, or every party gets an exception.", "quantifier": "for all numbers of parties, all subsets of failing parties and all relative timings", "why_tests_cant": "Timing and failure subsets.", "anchors": ["psi/utils/sync.h: SyncWait 41-91"]}
{"id": "C34", "title": "Broadcast result is the same for all parties", "statement": "After broadcasting, every party holds the holder's result; results offered by two parties at once are rejected.", "quantifier": "for all party counts, holders and result lists", "why_tests_cant": "All configurations.", "anchors": ["psi/utils/sync.cc: BroadcastResult 55-81"]}
{"id": "C35", "title": "Unbalanced PSI: client and server agree on matched rows", "statement": "After offline cache generation (with shuffling) and transfer and the online phase, the client's result is exactly the positions of its items present at the server with the server multiplicity, and the row positions the server derives from the client's indices are exactly its matching rows with the client multiplicity.", "quantifier": "for all server and client item lists, all shuffles, batch sizes and multiplicities, given injective commuting masking", "why_tests_cant": "Random shuffles and batch structure.", "anchors": ["psi/algorithm/ecdh/ub_psi/ecdh_oprf_psi.cc", "psi/algorithm/ecdh/ub_psi/server.cc: TransCacheIndexesToRowIndexs 116-146", "psi/algorithm/ecdh/ub_psi/client.cc: Online 89-141"]}
{"id": "C36", "title": "Client cache store returns what was saved or fails", "statement": "Reading the client's on-disk cache after any number of saves and flushes yields exactly the saved ciphertexts with their duplicate counts; a data file and meta file that disagree are rejected, never partially used.", "quantifier": "for all save histories, crash points between data and meta writes", "why_tests_cant": "Crash points.", "anchors": ["psi/utils/ec_point_store.cc: UbPsiClientCacheFileStore 371-439, UbPsiClientCacheFileStoreProvider 290-367"]}
{"id": "C37", "title": "Server cache file round trip", "statement": "Every record saved in the server cache is read back with the same ciphertext, row index, shuffle index and duplicate count, in order, for any read batch size.", "quantifier": "for all record lists and batch sizes", "why_tests_cant": "All data and batch sizes.", "anchors": ["psi/algorithm/ecdh/ub_psi/ub_psi_cache.cc: UbPsiCacheProvider 44-113, UbPsiCache 115-160"]}
{"id": "C38", "title": "Filtering a CSV by indices keeps exactly the selected lines", "statement": "Given sorted distinct in-range indices, the output is the header plus exactly the selected (or, in difference mode, the unselected) lines in order; any other index list is rejected.", "quantifier": "for all files, index lists and both modes", "why_tests_cant": "All index lists.", "anchors": ["psi/legacy/bucket_psi.cc: FilterFileByIndices 125-232"]}
{"id": "C39", "title": "N-party PSI computes the intersection of all parties", "statement": "For any number of parties the master's final result is exactly the set of items held by every party.", "quantifier": "for all numbers of parties >= 2, all item sets, all sizes and master ranks, given exact two-party PSI", "why_tests_cant": "The elimination schedule depends on the number of parties.", "anchors": ["psi/legacy/nparty_psi.cc: OnRun 60-156, Run2PartyPsi 158-187, GetPsiRank 215-246"]}
{"id": "C40", "title": "PIR database partition and reassembly are inverse", "statement": "Splitting a record into partitions and recombining the partitions returns the record, for every record length and partition length, and a query for row i returns row i.", "quantifier": "for all record sizes, partition sizes, record contents", "why_tests_cant": "All sizes including non-multiples.", "anchors": ["psi/algorithm/pir_interface/pir_db.cc: Combine 51-79, Partition 81-127"]}
{"id": "C41", "title": "Spiral packing of bytes into plaintext coefficients is lossless", "statement": "Converting a byte string to coefficients of a given bit width and back returns the original bytes.", "quantifier": "for all byte strings and all coefficient widths", "why_tests_cant": "Bit alignment cases are unbounded.", "anchors": ["psi/algorithm/spiral/util.cc: ConvertBytesToCoeffs 149-178, ConvertCoeffsToBytes 97-147"]}
{"id": "C42", "title": "Gadget decomposition recomposes", "statement": "The digits produced by the gadget inversion, multiplied by the gadget vector, give back the decomposed values.", "quantifier": "for all values, dimensions and numbers of digits that cover the modulus", "why_tests_cant": "All values.", "anchors": ["psi/algorithm/spiral/gadget.cc: BuildGadget 34-53, GadgetInvertRdim 55-84, GetBitsPer 26-32"]}
{"id": "C43", "title": "Spiral modular arithmetic is exact", "statement": "The Barrett reductions return the true remainder and the modular product the true product; CRT composition returns the unique number with the two given residues; recentering returns the representative closest to zero of the same class; rescaling returns the nearest multiple.", "quantifier": "for all 64-bit / 128-bit inputs and all moduli from 2 to 2^63 (the refuted theorem shows larger moduli fail)", "why_tests_cant": "2^128 inputs per modulus; off-by-one errors in the quotient estimate show up on rare inputs only.", "anchors": ["psi/algorithm/spiral/arith/arith.h", "psi/algorithm/spiral/arith/arith.cc", "psi/algorithm/spiral/params.cc Params::CrtCompose2"]}
{"id": "C44", "title": "Grouped database: every row has exactly one bucket and one group, and lookups go there", "statement": "Every key is stored in exactly one bucket file of exactly one group, and the bucket/group a query is routed to is the one where the key was stored.", "quantifier": "for all keys, bucket counts and group counts", "why_tests_cant": "All count combinations including non-divisible ones.", "anchors": ["psi/wrapper/apsi/utils/group_db.cc: GetBucketIndexOfGroup 530-537, GetBucketGroupIdx 554-559", "psi/wrapper/apsi/utils/csv_reader.cc: GroupBucketize"]}
{"id": "C45", "title": "Row order is restored after DK-PIR shuffling", "statement": "The value returned for query i is the value belonging to query i, whatever random permutation the two parties applied to the queries.", "quantifier": "for all query lists and permutations", "why_tests_cant": "All permutations.", "anchors": ["psi/algorithm/dkpir/common.cc", "psi/algorithm/dkpir/sender.cc, receiver.cc"]}
{"id": "C46", "title": "Shuffled batch provider visits every item once", "statement": "Over a full pass the shuffled provider returns every item exactly once, and each returned index / shuffled index pair correctly identifies where the item came from.", "quantifier": "for all item lists, batch sizes and permutations", "why_tests_cant": "All permutations.", "anchors": ["psi/utils/batch_provider_impl.cc: SimpleShuffledBatchProvider 156-252"]}
{"id": "C47", "title": "Distinct composite keys are not confused", "statement": "Two rows are treated as having the same key only if they agree on every key column.", "quantifier": "for all key-column values", "why_tests_cant": "All strings, including those containing separators.", "anchors": ["psi/utils/key.cc: KeysJoin 185-187", "psi/utils/arrow_csv_batch_provider.cc 81-140"]}
{"id": "C48", "title": "Early stop on equal digests only happens for equal key lists", "statement": "If the parties skip the protocol because their key digests agree, they hold the same keys (given a collision-free hash).", "quantifier": "for all key lists of both parties", "why_tests_cant": "All key lists.", "anchors": ["psi/interface.cc: Init 98-126", "psi/utils/table_utils.cc: KeyInfo::Make 280-422", "psi/utils/bucket.cc: HashListEqualTest 129-139"]}
{"id": "C49", "title": "Progress is monotone and ends at 100%", "statement": "Reported progress never decreases over time and is 100% after all stages are done.", "quantifier": "for all stage counts, weights and update sequences", "why_tests_cant": "All update histories.", "anchors": ["psi/utils/progress.cc"]}
{"id": "C50", "title": "Comparison length is long enough", "statement": "The number of bytes used to compare ciphertexts keeps the union-bound collision probability below 2^-40 for the two set sizes.", "quantifier": "for all pairs of set sizes", "why_tests_cant": "All sizes.", "anchors": ["psi/utils/serialize.h: GetCompareBytesLength 125-131", "psi/algorithm/rr22/rr22_psi.cc: ComputeTruncateSize 41-52"]}
{"id": "C51", "title": "A failing RR22 stage is reported", "statement": "When a stage of a bucket fails in pipelined mode, the call ends with an exception instead of hanging.", "quantifier": "for all bucket counts, failing stages and thread interleavings", "why_tests_cant": "Needs a failure injected at every stage and bucket under every schedule.", "anchors": ["psi/algorithm/rr22/rr22_psi.h: Rr22Runner::AsyncRun 189-248"]}
{"id": "C52", "title": "GF(2^128) arithmetic is a field and does not depend on the CPU", "statement": "Mul, Pow and Inv compute product, power and inverse in GF(2)[x]/(x^128+x^7+x^2+x+1); the AVX2 and portable code paths agree on every input, and Inv fails only for zero.", "quantifier": "for all 128-bit operands, all 64-bit exponents and both code paths", "why_tests_cant": "2^256 operand pairs; a machine runs only one of the two paths.", "anchors": ["psi/algorithm/rr22/okvs/galois128.cc: cc_gf128Mul, mm_gf128Mul, mm_gf128Reduce, Galois128::Mul, Pow, Inv"]}
{"id": "C53", "title": "OKVS rows are legal and unique per key", "statement": "Every key's sparse row has exactly `weight` distinct columns below the sparse size, and it is the same row whether the key is hashed alone or in a batch of 32, with or without AVX2, and for every index type that is wide enough.", "quantifier": "for all 128-bit hashes, weights, sparse sizes, index widths and both CPU paths", "why_tests_cant": "2^128 hashes and sparse sizes up to 2^63; a machine runs only one path.", "anchors": ["psi/algorithm/rr22/okvs/paxos_hash.cc: BuildRow, BuildRow32"]}
{"id": "C54", "title": "OKVS decoding is a function of key and table only", "statement": "Baxos::Decode and Paxos::Decode return, for each input, the sum of the table entries selected by that key (sparse part plus dense part in its bin); the number of threads, the batching, the position of the key, the other keys and the CPU do not matter.", "quantifier": "for all tables, inputs of any length, bin counts, thread counts, dense types and value widths", "why_tests_cant": "Unbounded inputs; pending batches of 512 per bin fill in input-dependent order.", "anchors": ["psi/algorithm/rr22/okvs/baxos.cc: Decode, ImplParDecode, ImplDecodeBatch, ImplDecodeBin", "psi/algorithm/rr22/okvs/paxos.cc: Decode, Decode32, Decode1, DecodeU64"]}
{"id": "C55", "title": "Legacy bucket PSI writes exactly the common rows", "statement": "With distinct keys and an exact in-memory PSI per bucket, the output file of the legacy bucket PSI is the header followed by exactly those input lines whose key the peer holds, in input order.", "quantifier": "for all input files, peer key lists, bucket counts and hash functions, and every order in which the in-memory PSI returns its result", "why_tests_cant": "Bucket assignment, result order and the shortcut for complete buckets depend on all inputs.", "anchors": ["psi/legacy/bucket_psi.cc: RunBucketPsi 400-446, GetResultIndices 448-471, ProduceOutput 326-350, FilterFileByIndices 125-175"]}
{"id": "C56", "title": "Every resumed ECDH run masks with the same private key", "statement": "All ECDH runs on one recovery folder that get past PreProcess, through any number of crashes and restarts, use one and the same private key, so dual-masked items stored before a crash stay comparable with those computed after it.", "quantifier": "for all sequences of runs and crash points on one recovery folder", "why_tests_cant": "Crash points between the key file and the checkpoint file and repeated restarts are unbounded.", "anchors": ["psi/checkpoint/recovery.cc: MarkPreProcessEnd 122-146", "psi/algorithm/ecdh/receiver.cc: PreProcess", "psi/algorithm/ecdh/sender.cc: PreProcess"]}
{"id": "C57", "title": "Online unbalanced PSI refuses an incomplete client cache", "statement": "If the client's cache of the server's items was never transferred, or its transfer did not complete, an online run fails instead of returning a result computed from a part of the server's items.", "quantifier": "for all transfers and all points at which they stop", "why_tests_cant": "Crash points.", "anchors": ["psi/algorithm/ecdh/ub_psi/client.cc: OfflineTransferCache 54-80, Online 89-141", "psi/utils/ec_point_store.cc: UbPsiClientCacheFileStore 371-439"]}
{"id": "C58", "title": "A Spiral response decodes to the selected plaintext", "statement": "The matrix the server switches to the small moduli, decoded by the client, is coefficient by coefficient the encrypted message, whenever the noise fits the stated bound.", "quantifier": "for all ring sizes, moduli, keys, ciphertexts and messages with noise within the bound", "why_tests_cant": "Noise and key space are unbounded; the tests use one parameter set and random noise far from the bound.", "anchors": ["psi/algorithm/spiral/spiral_server.cc: ProcessQuery 741-752", "psi/algorithm/spiral/poly_matrix.cc: Rescale 181-195, SubMatrix 121-139", "psi/algorithm/spiral/spiral_client.cc: DecodeResponseInternal 390-455", "psi/algorithm/spiral/common.h: kQ2Values 101-137"]}
{"id": "C60", "title": "Duplicate-key PIR returns all rows of the queried keys", "statement": "The receiver's result file holds, in query order, every row the sender's table has for each queried key and nothing else, and the reported row count is the number of these rows.", "quantifier": "for all tables with duplicate keys, label counts, query lists, OPRF keys, blindings, permutations and thread schedules", "why_tests_cant": "Tables, duplicates and permutations are unbounded; the test uses one table and all queries match.", "anchors": ["psi/utils/csv_converter.cc: MergeColumnAndRow 108-166, ExtractResult 210-281", "psi/algorithm/dkpir/common.cc: WriteIntersectionResults 84-140", "psi/algorithm/dkpir/entry.cc: SenderOnline, ReceiverOnline"]}
{"id": "C61", "title": "The duplicate-key PIR count check accepts exactly the true row count", "statement": "The sender accepts the row count a receiver reports if and only if it is the number of rows of the queried keys, and an honest receiver is always accepted.", "quantifier": "for all tables, queries, reports, polynomial coefficients, keys and encryption randomness", "why_tests_cant": "A false report must be refused for every value, not only those tried.", "anchors": ["psi/algorithm/dkpir/sender.cc: CheckRowCount 480-493", "psi/algorithm/dkpir/sender_cnt_db.cc: EncryptCount 47-85", "psi/algorithm/dkpir/receiver.cc: ComputeRowCountCt 214-250, ComputeRowCount 252-266", "psi/algorithm/dkpir/common.cc: ComputePoly 28-47"]}
{"id": "C59", "title": "A Spiral query retrieves exactly the plaintext it names", "statement": "The query the client forms for a plaintext index, expanded and processed by the server over the whole database with the client's public keys and decoded by the client, yields the polynomial coefficients of that plaintext and of no other, whenever the stated worst-case noise bound fits the parameters.", "quantifier": "for all databases, indices, secret keys, masks, noise polynomials within the bound, and all two-dimensional parameter sets that pass the parameter check", "why_tests_cant": "Tests retrieve a few indices with one parameter set and random noise; wrong selection for other indices, dimensions or noise values is not visible.", "anchors": ["psi/algorithm/spiral/spiral_client.cc: GenPublicKeys 119-214, GenQueryInternal 228-353", "psi/algorithm/spiral/spiral_server.cc: ProcessQuery 683-752, ExpandQuery 464-590, CoefficientExpansion 592-681, RegevToGsw, FoldCiphertexts, PackCts", "psi/algorithm/spiral/gadget.cc: BuildGadget, GadgetInvert", "psi/algorithm/spiral/params.h: ValidCheck 166-189"]}
{"id": "C62", "title": "What the OKVS encoder encodes, the decoder returns", "statement": "Whenever Paxos Init, SetInput and Encode into a zeroed table return, Decode of that table gives every encoded key exactly its value, in order, on any CPU and with any wide enough index type; Encode returns for every set of keys whose rows can be peeled (no column in 200 or more rows, two columns to spare), and it always stops.", "quantifier": "for all weights, sparse and dense sizes, dense types, key and value lists, hash functions with 128-bit results, numbers of gap rows and CPU variants", "why_tests_cant": "Tests encode a few thousand random keys, which almost never leave gap rows; the linear algebra on gap rows, both dense types and all key sets cannot be enumerated.", "anchors": ["psi/algorithm/rr22/okvs/paxos.cc: SetInput 238-300, Triangulate 498-589, GetFCInv 1422-1505, GetGapCols 1508-1546, GetEPrime 1659-1683, MatrixGf128Inv 29-99, BackfillGf128 984-1182, BackfillBinary 1294-1419, Encode 457-496, EncodeU64 411-454", "psi/algorithm/rr22/okvs/paxos_utils.h: WeightData 28-190", "psi/algorithm/rr22/okvs/dense_mtx.cc: Invert 105-145"]}
{"id": "C63", "title": "What Baxos solves, it decodes, and the RR22 OPRF built on it is right", "statement": "Baxos::Solve hashes the keys into bins with several threads, merges the threads' bins and encodes every bin by Paxos into its own part of the table. If Solve into a zeroed table returns, Decode of that table gives every key the value it was solved for, in order, whatever the number of bins, the thread counts and CPUs of the two calls and the order in which bins are finished; the table itself does not depend on threads, on the sizes of their buffers or on that order. Solve returns whenever every bin can be peeled and no bin gets more keys than there is room for, and it always stops. Consequently a run of the RR22 OPRF with this solver (fast or low-communication mode) either gives both sides the values of one function on their items or does not return because the solver did not, and OPRF and matching together report exactly the common items.", "quantifier": "for all hash functions into 128-bit numbers, all numbers of bins, all OKVS parameters with weight between 1 and 20, all lists of keys and 128-bit values, all thread counts, buffer sizes and completion orders, both CPU code paths, and for the OPRF all tables, VOLE correlations and item lists", "why_tests_cant": "Tests run a few sizes with random keys and a few thread counts; they cannot cover every distribution of keys over threads and bins (merging moves overlapping memory) nor every order of completion, and do not reach parameters for which a table must or must not exist.", "anchors": ["psi/algorithm/rr22/okvs/baxos.cc:Baxos::Solve", "psi/algorithm/rr22/okvs/baxos.cc:Baxos::ImplParSolve", "psi/algorithm/rr22/okvs/paxos.cc:Paxos::SetInput", "psi/algorithm/rr22/rr22_oprf.cc:Rr22OprfReceiver::RecvFast", "psi/algorithm/rr22/rr22_oprf.cc:Rr22OprfReceiver::RecvLowComm"]}
{"id": "C64", "title": "Multi-party PSI with an aided server returns exactly the items all parties have", "statement": "When NtyMPsi::Run returns at every party, the receiver (and everybody, if the result is broadcast) gets exactly the items that are in the sets of all parties, each as often as receiver and helper both have it, and nobody else gets anything; this for three parties and for more, any choice of the three special ranks, any thread counts and CPUs.", "quantifier": "for all numbers of parties, ranks, item lists, seeds, shuffles, OKVS sizes and hash functions, thread counts and bin orders; exactness whenever the values compared by the server collide only for common items", "why_tests_cant": "The tests give the parties no items beyond the common ones that two parties share, so that an item only the helper and the receiver have is never tried; such items are reported although nobody else has them.", "anchors": ["psi/algorithm/nty/nty_mp_psi.cc: NtyMPsi 48-68, Run 70-86, MultiPartyPsi 88-240, ThreePartyPsi 242-322, GenOkvs 324-344, DecodeOkvs 346-364, GetIntersection 366-389", "psi/algorithm/nty/server_aided_psi.cc: SendEncItems 26-40, ServerAidedPsi 42-81, ServerAssist 83-118"]}
{"id": "C65", "title": "Spiral's number theoretic transform multiplies polynomials correctly", "statement": "ToNtt (and ToNttNoReduce for its input range) turns a matrix of polynomials into their values at the odd powers of the root, Multiply and Add on transformed matrices are product and sum modulo X^n + 1, and FromNtt returns the coefficients modulo the product of the moduli: FromNtt(Multiply(ToNtt(a), ToNtt(b))) is the product of the matrices and FromNtt(ToNtt(a)) is a, in the portable and in the AVX2 build, so that decoding a Spiral response with the real transform returns the message.", "quantifier": "for all powers of two n from 4, one to four odd moduli of fewer than 30 bits with a 2n-th root of unity (one or two to come back), both builds, all matrix shapes and all 64-bit coefficients", "why_tests_cant": "The tests transform a few random polynomials for one parameter set in the build at hand; lazy reductions (values up to four times the modulus), 32-bit overflow and strict comparisons matter only for special values.", "anchors": ["psi/algorithm/spiral/arith/ntt.cc: NttForward 38-91 and 96-214, NttInverse 218-263 and 267-368", "psi/algorithm/spiral/arith/ntt_table.cc: BuildNttTables 118-159", "psi/algorithm/spiral/poly_matrix_utils.cc: ToNtt 378-394, ToNttNoReduce 396-412, FromNtt 348-376, Multiply 414-457, Add 265-298, MultiplyAddPoly 51-100", "psi/algorithm/spiral/params.cc: Params 26-75, CrtCompose 166-173"]}
{"id": "C66", "title": "The Spiral server's word-level computation is the selection over polynomials", "statement": "What ProcessQuery computes on 64-bit words - the database packed as two 28-bit residues per word, query expansion with the automorphism's unreduced words, unreduced digits, lazy sums, 128-bit accumulation over the first dimension, folding and packing in transformed form - is, word for word, the modulus switch of what the same selection yields on polynomials modulo X^n + 1 and q; nothing throws and nothing is read or written out of bounds.", "quantifier": "for all keys, queries (any 64-bit words), databases of any number of partitions, two coprime moduli of fewer than 30 bits, both builds of the transform and all parameters with two dimensions whose expansion digits fit ToNttNoReduce; for a server whose database was set once", "why_tests_cant": "The tests compare decoded plaintexts for a few random databases; overflow of a lazy sum or accumulator, an unreduced word that is decomposed differently, or an index past a partition shows only for particular words.", "anchors": ["psi/algorithm/spiral/spiral_server.cc: GenerateFromRawDataAndReorient 430-462, CoefficientExpansion 464-574, FoldCiphertexts 576-609, GetVFoldingNeg 611-633, Pack 635-687, ProcessQuery 690-757, RegevToGsw 761-797, ExpandQuery 799-881, MultiplyRegByDatabase 884-950, GetVneg1 953-964, ReorientDatabase 1014-1064", "psi/algorithm/spiral/spiral_client.cc: ReorientRegCiphertexts 539-583", "psi/algorithm/spiral/poly_matrix_utils.cc: Automorphism, Invert, ScalarMultiply, AddInto, AddIntoAt", "psi/algorithm/spiral/poly_matrix.cc: CopyInto 102-119, 243-261"]}
{"id": "C67", "title": "The Spiral client's keys and query survive the wire and say what they should", "statement": "Init's secret keys are ternary with exactly the chosen weight whatever the shuffle; the public keys the server reads from GeneratePksString's message are encryptions of the right polynomials, with masks taken in order from the public generator and every noise coefficient within the sampler's range; the query the server rebuilds from a seed and one row is an encryption of the query polynomial for the wanted plaintext. The rebuilt query is not always word for word the client's (q in place of 0), and FromProto's shape check multiplies modulo 2^64.", "quantifier": "for all words of both generators, all sampler tables, shuffles, secret keys, plaintext indices and seeds, both builds of the transform and all parameters with two coprime moduli of fewer than 30 bits, two dimensions and matrices of fewer than 2^64 words", "why_tests_cant": "Keys and queries are random: tests decode the plaintext of a few runs, which succeeds also with masks reused between keys, noise beyond its range or a weight that is off.", "anchors": ["psi/algorithm/spiral/spiral_client.cc: 66-101 SerializeRng/DeserializeRng, Init 103-117, GetFreshGswPublicKey 119-135, GetRegevSample 137-154, GetFreshRegevPublicKey 156-166, EncryptMatrixGsw, EncryptMatrixRegev 168-190, GenExpansionParams 199-216, GenPublicKeys 218-281, GenQueryInternal 283-353", "psi/algorithm/spiral/poly_matrix.cc: ToProto, FromProto, ToProtoRng, FromProtoRng 36-98, RandomPrg", "psi/algorithm/spiral/poly_matrix_utils.cc: GenTernaryMatrix, Noise, Stack", "psi/algorithm/spiral/discrete_gaussian.cc: Sample, SampleMatrix", "psi/algorithm/spiral/serialize.cc: SerializePublicKeys, DeserializePublicKeys"]}
{"id": "C68", "title": "A row of bytes asked of the Spiral server comes back unchanged, end to end", "statement": "A database of rows of bytes is laid out in plaintexts and packed into words, the client generates its keys and the query for row i and serializes them, the server deserializes them and responds, the client decodes the response and converts it to bytes: the result is row i.", "quantifier": "for all databases, rows i, row lengths (one or many partitions), secret keys Init can draw, words of all generators, both builds of the transform, and all parameters for which the worst-case noise bound fits, the plaintext modulus being a power of two that makes 4 * q2 / p divisible by p", "why_tests_cant": "The end-to-end tests draw a handful of random databases, keys and indices; decoding fails only for particular noise, and only for particular rows if a layout index is off.", "anchors": ["psi/algorithm/spiral/spiral_client.h: GeneratePksString, GenQuery, GenerateIndexQueryStr, DecodeIndexResponse", "psi/algorithm/spiral/spiral_client.cc: DecodeResponse 355-388, DecodeResponseInternal", "psi/algorithm/spiral/spiral_server.h: Response 88-112", "psi/algorithm/spiral/spiral_server.cc: GenerateFromRawDataAndReorient, ProcessQuery", "psi/algorithm/spiral/serialize.cc: SerializeResponse, DeserializeResponse"]}
{"id": "C69", "title": "A row asked of a SealPIR server comes back unchanged", "statement": "A database of rows of bytes is partitioned, packed into plaintexts and stored; the client computes the indices of the plaintext that holds row i, encrypts one selection polynomial per group of a dimension, the server expands the queries, selects dimension by dimension (decomposing ciphertexts into plaintexts between dimensions) and the client composes, decrypts and extracts: the bytes are those of row i. A second GenerateFromRawData is ignored (the answers remain those of the first database); an exact root rounded down makes every database be refused; dimensions with a product of 2^32 divide by zero.", "quantifier": "for all databases, rows i, row lengths (several rows per plaintext or several partitions per row), numbers of dimensions, degrees, plain moduli, randomness of the encryptions, and every homomorphic scheme with additive noise bounds for which the worst-case noise of each dimension can be decrypted", "why_tests_cant": "The tests query a few random indices of random databases for d = 1 and 2 with one degree; a wrong packing index, expansion power or carry between dimensions shows only for particular rows and sizes, and the tests' databases never have a number of plaintexts that is an exact cube, nor an all-zero plaintext.", "anchors": ["psi/algorithm/sealpir/seal_pir.cc: ElementsPerPtxt, PlaintextsPerDb, GetDimensions, ComputeIndices, InvertMod, BytesToCoeffs, CoeffsToBytes, VectorToPlaintext, DecomposeToPlaintexts, ComposeToCiphertext 29-238, SetPirParams 267-312, GenerateFromRawData 743-836, GenerateResponse, ExpandQuery, MultiplyPowerOfX 984-1190, GenerateQuery, DecodeResponse 1255-1452", "psi/algorithm/sealpir/seal_pir_utils.cc: MemoryDbPlaintextStore 38-58", "psi/algorithm/pir_interface/pir_db.cc: RawDatabase::Partition"]}
{"id": "C70", "title": "The Elligator 2 map is RFC 9380's, on every input, and the curve arithmetic around it is the chord and tangent law", "statement": "For every buffer MapToCurveG2 returns the x and y coordinates of the point that section 6.7.1 of RFC 9380 assigns to the number in the buffer: the one square root with the prescribed sign of whichever of g(x1), g(x2) is a square; MapToCurveElligator2, written differently, returns the same bytes; the point satisfies the curve equation. PointAdd and PointAddX return P + Q for points with different x and throw for equal x; PointDbl and PointDblProjective agree and return P + P, throwing exactly where it is at infinity; the two functions that clear the cofactor agree and return 8P or throw where a doubling has no result.", "quantifier": "for all buffers, all pairs of curve points with reduced coordinates, and every implementation of modular inversion that inverts what can be inverted", "why_tests_cant": "The tests compare a handful of vectors; a wrong constant among sqrt(-1), c2 or the exponents changes only one of the four square-root branches, and the exceptional inputs (x = 0, equal x) have probability 2^-255.", "anchors": ["psi/cryptor/hash_to_curve_elligator2.cc: constants 33-108, MapToCurveG2 266-376, MapToCurveElligator2 378-469, PointAdd, PointAddX, PointDbl, PointDblProjective, PointClearCofactorProjective, PointClearCofactor, CheckPoint 471-683, IsSquare, CurveSqrt, Sgn0 218-263"]}
{"id": "C71", "title": "HashToCurveElligator2 returns the x coordinate of RFC 9380's point", "statement": "With a tag of 16 to 255 bytes, HashToCurveElligator2 returns 32 big endian bytes: the x coordinate of the point that hash_to_curve of the suite curve25519_XMD:SHA-512_ELL2_RO_ gives for the message and the tag (expand_message_xmd to 96 bytes, two field elements, two mapped points, their sum, times eight); it throws exactly if the two mapped points have the same x or eight times the sum is at infinity, and for tags of other lengths. The RFC's function is total, the code's is not; and the bytes are most significant first although X25519, to which the cryptors hand them, reads least significant first.", "quantifier": "for all messages, all tags, every hash function with 64-byte outputs in the place of SHA-512", "why_tests_cant": "The tests check five vectors of the RFC; they cannot show agreement for all messages, never reach the exceptional cases, and never look at what the cryptor does with the bytes.", "anchors": ["psi/cryptor/hash_to_curve_elligator2.cc: I2OSP, ExpandMessageXmd, HashToField 110-216, HashToCurveElligator2 687-705", "psi/cryptor/sodium_curve25519_cryptor.cc: SodiumElligator2Cryptor::HashToCurve", "psi/cryptor/ipp_ecc_cryptor.cc: IppElligator2Cryptor::HashToCurve, IppEccCryptor::EccMask"]}
{"id": "C72", "title": "Differentially private PSI returns exactly the rows the coins select", "statement": "After a run of DP_PSI_2PC between honest parties the receiver's indices are, in increasing order and without repetition, the positions in its input of those sampled rows that the other party holds and whose keep coin came up, together with those the other party does not hold and whose fake coin came up; if the other party holds every sampled row, there are none. The returned items are the receiver's rows at these positions; both parties agree on the number; the reported sample sizes are right; the batches of indices reassemble whatever their number. With no noise it is the intersection, unless every row is common (then it is empty, refuted).", "quantifier": "for all inputs of both parties, all shuffles, all outcomes of the three streams of coins, all batch sizes, every commuting mask whose truncated dual masks separate the rows compared", "why_tests_cant": "Unit tests run with random coins and can only check sizes within a tolerance; that exactly the right rows are dropped and added, through a shuffle, a sub-sample, a sort and two index spaces, does not show in a size. Batches of more than 8192 indices need inputs larger than the tests'.", "anchors": ["psi/legacy/dp_psi/dp_psi.cc: BernoulliSamples 43-91, GetShuffledIdx 93-103, RunDpEcdhPsiAlice 107-220, RunDpEcdhPsiBob 222-311", "psi/legacy/dp_2party_psi.cc: DpPsiOperator::OnRun 39-65", "psi/algorithm/ecdh/ecdh_psi.cc: MaskSelf, MaskPeer", "psi/algorithm/ecdh/ecdh_3pc_psi.cc: EcdhP2PExtendCtx::SendItems, RecvItems"]}
{"id": "C73", "title": "The indices sent in differentially private PSI are eps-differentially private", "statement": "For two inputs of the sending party that differ in one item, every event about the indices the receiver gets is at most e^eps times as likely with one as with the other, when the receiver's sampled rows are distinct (e^(k eps) if the item occurs k times among them). The exact law: each sampled row is reported on its own, with probability p2 = e^eps/(1+e^eps) if common and q = 1 - p2 if not. Holds if on both sides some sampled row is not common; false otherwise: when every sampled row is common the code reports none, so removing one item makes an impossible answer possible (refuted for every eps).", "quantifier": "for all inputs, all privacy budgets eps >= 0 as real numbers, all events; independent coins of exactly these probabilities", "why_tests_cant": "A privacy guarantee is a statement about the distribution of answers for all pairs of neighbouring inputs; no number of runs can establish the ratio of two probabilities, in particular where one is zero.", "anchors": ["psi/legacy/dp_psi/dp_psi.h: DpPsiOptions 31-51", "psi/legacy/dp_psi/dp_psi.cc: BernoulliSamples 43-65, RunDpEcdhPsiAlice 150-220"]}
{"id": "C74", "title": "SimplePIR gives back the database value asked for", "statement": "After the offline phase, every query with one client returns what GetValue of the server returns for the index, whatever the matrix, the secrets and the order of the queries, provided the errors of the query, weighted with the row asked, stay within delta/2 on either side after allowing for q mod p and for (2^64 - q) mod (delta p). With the parameters of the test this always holds, so no run of it can fail. The second allowance is needed because Recover takes the difference of answer and hint modulo 2^64 and does not reduce it modulo q: with other plaintext moduli a value can be wrong without any error (refuted). Vectors of 64-bit words survive serialisation.", "quantifier": "for all dimensions, all database sizes m x m, all q dividing 2^64, all p with 2p <= q, all databases with entries below p, all matrices, secrets and errors within the bound, all sequences of queries", "why_tests_cant": "The tests draw a few indices at one parameter set with small random errors; whether the rounding holds for every secret, when the 64-bit difference wraps and whether a client's state carries over between queries is a statement about all values.", "anchors": ["experiment/pir/simplepir/client.cc: SimplePirClient 22-38, Setup 40-55, Query 57-80, Recover 82-90", "experiment/pir/simplepir/server.cc: SetDatabase 35-50, GenerateLweMatrix 52-64, GetHint 68-83, Answer 85-95, GetValue 97-103", "experiment/pir/simplepir/util.cc: InnerProductModq 44-59", "experiment/pir/simplepir/network_util.cc: SerializeVector 22-40, DeserializeVector 49-70"]}
{"id": "C75", "title": "PIANO returns the entry asked for or logs an error", "statement": "After preprocessing all chunks in any order and with any number of threads, every query for an index below entry_num returns that entry of the database, unless an error is logged, and then zeroes. The server is always sent exactly one index in every chunk. The first query is always answered; an index answered once is answered again; and no error is logged for an index while fewer queries for its chunk than it has backup sets came before it and more primary sets contained it at first than there were queries before (or none did). Chunks have the least power of two at or above twice the square root as size. Not every query is answered: with the numbers of sets the code uses, answering one query can replace the last set containing another entry, whose query then returns zeroes (refuted).", "quantifier": "for all databases, entry sizes, thread counts, numbers of primary and backup sets, pseudorandom functions, replacements, masks, orders of the chunks and sequences of queries", "why_tests_cant": "The test runs queries at three sizes with a random key; whether the parities stay right after any number of refreshes, how threads split the sets and what happens when a set is lost depends on all keys and all sequences of queries.", "anchors": ["experiment/pir/piano/client.cc: Initialize 28-65, InitializeLocalSets 67-100, PreprocessDBChunk 102-190, GenerateMaskQuery 192-199, GenerateIndexQuery 201-263, RecoverIndexReply 265-314", "experiment/pir/piano/server.cc: AlignDBToChunkBoundary 26-39, GetDBChunk 41-48, GenerateIndexReply 50-59, DBAccess 61-70", "experiment/pir/piano/util.cc: GenChunkParams 19-30, ExpandWithLongKey 51-62, MemberTestWithLongKey 64-70, FNVHash 72-89", "experiment/pir/piano/util.h: DBEntry 29-81"]}
{"id": "C76", "title": "What the PIANO server sees does not depend on the indices asked", "statement": "With a random function in place of AES and random replacements and masks, the queries the server receives for any sequence of distinct indices are exactly uniform over sequences of one index per chunk, provided no chunk is asked more often than it has backup sets and the tags do not run over 2^32. Hence two such sequences of the same length give the server the same distribution, although a query is an edited set of the client's tables and answering it changes the tables.", "quantifier": "for all databases, sizes, thread counts, numbers of sets and orders of preprocessing, all sequences of distinct indices with at most as many in a chunk as it has backup sets, and all views of the server", "why_tests_cant": "A test can look at the indices of single queries; that no sequence of queries is more likely for one sequence of indices than for another, across all refreshes, is a statement about the whole distribution.", "anchors": ["experiment/pir/piano/client.cc: GenerateIndexQuery 201-263, GenerateMaskQuery 192-199, RecoverIndexReply 265-314, InitializeLocalSets 67-100", "experiment/pir/piano/util.cc: PRFEvalWithLongKeyAndTag 40-49, ExpandWithLongKey 51-62"]}
{"id": "C77", "title": "Threshold ECDH PSI outputs exactly min(threshold, size of the intersection) common keys", "statement": "If the inputs are not found equal by their digests, then for every result of the shuffles, every placing in bins and every cut into batches the run finishes; the receiver's output names, each once, min(threshold, number of common keys) of its rows whose keys the sender also has, with the sender's extra count; the count file gives the true size of the intersection and the size of the output; with broadcast the sender's output names its own rows of the same keys in the same order and its count file says the same; without broadcast the sender outputs nothing. The extra counts given to the sender are right only if the receiver has no repeated keys: with repeats they are those of other items (refuted). With check_hash_digest and equal inputs the threshold is ignored and the whole input is output without a count file (refuted). A batch_size that is a multiple of 2^32 makes every output row name row 0 (refuted).", "quantifier": "for all inputs and extra counts, thresholds, batches, shuffles, hash functions and numbers of bins, and every group with commuting masks without collisions among the values compared", "why_tests_cant": "The tests use one configuration of tens of items without repeated keys; which items are selected depends on the hash, the bins and the shuffle, and the counts go wrong only under shuffles that move a repeated key.", "anchors": ["experiment/psi/threshold_ecdh_psi/threshold_ecdh_psi.cc: MaskAndShufflePeer 52-151, RecvAndMaskPeer 153-214, RunSender 216-273, RunReceiver 275-336", "experiment/psi/threshold_ecdh_psi/threshold_ecdh_psi_cache.cc: ReadNextShuffledBatch 55-76, SaveData 100-108, Flush 110-119", "experiment/psi/threshold_ecdh_psi/receiver.cc: Online 32-54, PostProcess 56-74, ComputeAndStoreIndex 76-147, SendShuffledIndexAndCount 149-161, RecvRestoredIndex 171-181", "experiment/psi/threshold_ecdh_psi/sender.cc: RestoreAndSendIndex 81-157", "psi/interface.h: AbstractPsiParty::Run 46-61", "psi/interface.cc: Init 95-126"]}
{"id": "C78", "title": "Threshold ECDH PSI hides which of the receiver's items are common beyond the threshold", "statement": "Over all results of the shuffles, each counted once, the messages with doubly masked values that the sender returns are the same, with the same multiplicities, for every order of the receiver's items within each batch, so they do not tell which item of a batch a value belongs to. The shuffle does not cross batches: an item alone in its batch (always the case for a batch size of one, and for a last batch of one item) is not hidden, and with batches of one item the receiver learns the whole intersection whatever the threshold (proved, and so the claim for the whole input is refuted).", "quantifier": "for all inputs, cuts into batches and lists of all arrangements of the positions of each batch, and every group with commuting masks", "why_tests_cant": "That a reply is independent of the order is a statement about all arrangements at once; no run of the program shows it, and the tests only compare results.", "anchors": ["experiment/psi/threshold_ecdh_psi/threshold_ecdh_psi.cc: MaskAndShufflePeer 52-151, shuffled_indices 87-107", "experiment/psi/threshold_ecdh_psi/README.md", "psi/algorithm/ecdh/ecdh_psi.cc: MaskSelf 92-142, RecvDualMaskedSelf 244-280"]}
{"id": "C79", "title": "Threshold unbalanced PSI gives both sides the same min(threshold, size of the intersection) keys", "statement": "After an offline phase and its transfer, an online run with equal thresholds finishes and there is one selection of exactly min(threshold, number of common keys) distinct common keys such that the client, if it gets a result, is given for each its place in its own table and the server's extra copies; the server, if it gets a result, is given the places of the same keys in its own table and the client's extra copies; both are told the size of the whole intersection, the size of the selection and the other side's row count. If the server gets a result and the two thresholds select different numbers of keys the run is refused. If the server gets no result its own threshold is not looked at and the client gets as many keys as it likes (refuted).", "quantifier": "for all tables and extra copies, thresholds, batch sizes, thread counts and schedules, arrangements by the server's shuffle and choices of who gets a result; for every correct OPRF of fixed lengths without collisions on the keys of the two tables", "why_tests_cant": "Tests run one arrangement over small tables with equal thresholds; that the restored places belong to the selected keys for every arrangement and schedule, and that both sides end with the same keys, is not settled by examples.", "anchors": ["experiment/psi/threshold_ub_psi/client.cc: Online 27-122, ResizeIntersection 124-130", "experiment/psi/threshold_ub_psi/server.cc: Online 29-115", "experiment/psi/threshold_ub_psi/threshold_ecdh_oprf_psi.cc: RecvAndRestoreIndexes 24-45, SendShuffledIndexes 59-66, SendIntersectionUniqueKeyCount 78-86", "psi/algorithm/ecdh/ub_psi/ecdh_oprf_psi.cc: RecvBlindAndShuffleSendEvaluate 257-346"]}
{"id": "C80", "title": "In one run of threshold unbalanced PSI the client does not learn which unselected items are common", "statement": "Take two worlds whose server caches are the same and in which the values of the client's items are the same set, possibly assigned differently to items whose places are not restored. Every pair of evaluated messages and restored places comes from equally many of the server's arrangements in the two worlds. Over two runs on one cache this fails: the values do not change with the arrangement, threshold or blinding key, and a client that leaves out one key in the second run learns whether that key is in the server's table (refuted).", "quantifier": "for all client tables, OPRF keys, thresholds, batch sizes, thread counts and schedules and lists of all arrangements; the attack for all tables, arrangements and blinding keys", "why_tests_cant": "A statement about all arrangements at once, and about what can be computed from messages; no run shows it and tests only compare results.", "anchors": ["experiment/psi/threshold_ub_psi/client.cc: Online 27-122", "experiment/psi/threshold_ub_psi/threshold_ecdh_oprf_psi.cc: RecvAndRestoreIndexes 24-45", "psi/algorithm/ecdh/ub_psi/ecdh_oprf_psi.cc: RecvBlindAndShuffleSendEvaluate 257-346, FullEvaluate 94-192"]}
{"id": "C81", "title": "KMPRT17 multi-party PSI: the leader outputs every item that all parties have", "statement": "If a run of KmprtParty::Run at all parties ends, every party's output consists of its own input rows in their order, and the leader's contains every item that all parties have, whatever the sizes of the inputs, repeated rows, cuckoo evictions, nonces, fillers and order of walking the maps; provided the item's hash is not 0 nor that of another input and no OPRF value for it equals a value programmed for it. A run whose largest input has fewer items than there are parties never ends properly: recv_shares is written past its end (proved for all inputs; refuted by three parties with one item each). A key that the leader has twice is output once only (refuted).", "quantifier": "for all numbers of parties, leaders, inputs, random oracles, hashes, OPRFs, zero shares, dummies, cuckoo choices, nonces and orders of walking the maps", "why_tests_cant": "Tests use a few fixed sizes, at least as many items as parties and no repeated rows; evictions and collisions that lose an item are rare events, and the out-of-bounds write needs fewer items than parties.", "anchors": ["experiment/psi/kmprt17_mp_psi/kmprt17_mp_psi.cc: Run 46-68, EncodeInputs 70-81, ZeroSharing 83-94, SwapShares 96-132, Reconstruct 134-161", "experiment/psi/kmprt17_mp_psi/kmprt17_opprf.cc: KmprtOpprfRecv 53-121, KmprtOpprfSend 123-186", "experiment/psi/kmprt17_mp_psi/kmprt17_hashing.cc: Insert 25-46, Lookup 48-59, Insert 61-67"]}
{"id": "C82", "title": "KMPRT17 multi-party PSI: an item that somebody lacks is output only by accident", "statement": "Fix the inputs and all randomness of a run but one value. An item that a party other than the leader lacks is output by the leader for at most 64 of the 2^64 possible OPRF values of that party at the leader's bin for the item. A party that is not the leader outputs an item for at most one of the 2^64 possible words of its own zero sharing.", "quantifier": "for all numbers of parties, leaders, inputs, items, hashes, OPRFs and other randomness", "why_tests_cant": "Events of probability 2^-58 do not show in tests; that nothing but such an event adds an item is a statement about all randomness.", "anchors": ["experiment/psi/kmprt17_mp_psi/kmprt17_mp_psi.cc: Run 46-68, SwapShares 96-132, Reconstruct 134-161", "experiment/psi/kmprt17_mp_psi/kmprt17_opprf.cc: KmprtOpprfRecv 53-121, KmprtOpprfSend 123-186"]}
{"id": "C83", "title": "Two-server PIR with puncturable sets: an answer is the bit asked for", "statement": "PpsPirClient and PpsPirServer, fresh objects for a query: after Setup the query for index i is answered exactly when the coin falls on false and one of the shifts takes an element of the key's set to i, and then with bit i. For many queries, after any number of them, an answer is never wrong, and the next query is answered exactly when the coin is false and a key of the client has a shifted set containing i; the refreshed hints stay right. Proved provided no inner node of a tree is 0, sets have at least two elements and the keys drawn have distinct children. Refuted otherwise: a PIRPuncKey used for a second query gives a wrong answer, a node 0 gives a wrong answer, and sets of one element make AnswerMulti read an empty vector. Setup never succeeds when it wants more shifts than there are indices.", "quantifier": "for all generators, universes, set sizes, databases, keys, shifts, coins, random words, map orders and sequences of queries", "why_tests_cant": "Tests run a fixed size with random keys and accept an abort; that every answer given is right over all key and query sequences, and exactly which queries abort, needs all of them. Wrong answers need a reused key object or a rare node.", "anchors": ["experiment/pir/pps/client.cc: Setup 37-55, Query 59-85, Reconstruct 87-95, Setup 97-119, Query 121-166, Reconstruct 168-178", "experiment/pir/pps/server.cc: Hint 19-32, Answer 34-43, Hint 45-58, AnswerMulti 60-69", "experiment/pir/pps/ggm_pset.cc: Gen 27-38, Gen 40-53, Punc 55-76, EvalMap 78-90, Eval 92-146", "experiment/pir/pps/ggm_pset.h: MODULE_ADD 33, MODULE_SUB 35, LemireTrick 62-69, PPS 107-114"]}
{"id": "C84", "title": "Two-server PIR with puncturable sets: what the online server learns about the index", "statement": "Expected: the online server learns nothing of the index. Refuted in two ways. (1) Many queries: AnswerMulti gives the server both punctured keys; when a key placed by one query is used by a later query for another index, the two messages determine the earlier index, for all generators and executions. (2) One query: over all coins and punctured elements, and any setups, the index asked for is among the indices read in (s-1)(s-1) of n*s choices, an average index in s(s-1); so the messages' distribution depends on the index. The cause is that the client punctures a random element of the whole set, the index included, when the coin is true.", "quantifier": "for all generators, universes, set sizes of at least 2, setups, map orders, databases and sequences of queries", "why_tests_cant": "Privacy is a statement about the distribution of messages for every pair of indices; tests look at answers only.", "anchors": ["experiment/pir/pps/client.cc: Bernoulli 23-30, Query 59-85, Query 121-166", "experiment/pir/pps/server.cc: AnswerMulti 60-69"]}
{"id": "C85", "title": "Two-server PIR with puncturable sets: messages are read as they were written", "statement": "Every message of the protocol is read back as the value written: key and shifts, punctured key, list of keys with shifts, hints and answer; so a retrieval over the messages gives the result of the retrieval without them, for one query and for many. The readers trust the counts in a message: every message cut short is read past its end (refuted). The server trusts the key: a position of at least twice the number of leaves, or a shift beyond the universe, makes it access memory outside its vectors (refuted).", "quantifier": "for all keys, shifts, punctured keys, hints, databases, queries and all ways of cutting a message", "why_tests_cant": "Tests exchange a few random messages; byte order and counts agree for all values only by proof, and malformed messages are not tested.", "anchors": ["experiment/pir/pps/sender.cc: Uint128_to_bytes 24-31, SerializeOfflineMessage 33-49, SerializeOnlineMessage 51-65, SerializeOfflineMessage 67-82", "experiment/pir/pps/receiver.cc: Bytes_to_uint128 24-30, DeserializeOfflineMessage 32-49, DeserializeOnlineMessage 51-62, DeserializeOfflineMessage 64-80, ClientRecvFromOfflineServer 89-94, ClientRecvFromOnlineServer 102-107"]}
{"id": "C86", "title": "OPRF of the unbalanced PSI over an OpenSSL curve: client and server compute the same value", "statement": "BasicEcdhOprfServer and BasicEcdhOprfClient with keys that are not 0 modulo the order: for every item that hashes to the curve, Finalize(item, Evaluate(Blind(item))) and FullEvaluate(item) both return the first bytes of H2(item, k H1(item)), Finalize(Evaluate(Blind(item))) and SimpleEvaluate(item) both return the first bytes of H2(k H1(item)), for one item and for lists; a compare length over 32 bytes is refused by both; with a key that is 0 modulo the order, bytes that are no point, or no candidate on the curve they throw. The unbalanced PSI with this OPRF returns the intersection if the values of different items differ. Refuted: that different items have different points. The next candidate for the x coordinate is the hash of the candidate alone, so an item whose first candidate is off the curve has the point, and the SimpleEvaluate value, of the item that consists of the candidate's 32 bytes, for every curve, key and hash; the unbalanced PSI then reports a match between two tables without a common item. With FullEvaluate equal values of different items are a collision of the (cut) hash. Also refuted: SetPrivateKey on a client keeps the inverse of the old key, so Finalize is wrong unless the keys agree modulo the order; Finalize of lists reads past the items when there are more evaluated elements.", "quantifier": "for all curves with a prime number of points, keys, items, hashes, compare lengths, tables, batch sizes and schedules", "why_tests_cant": "Tests compare a few random items under random keys; colliding items differ for every hash and must be constructed, about half of all items have one. Zero keys and malformed points do not arise in tests.", "anchors": ["psi/algorithm/ecdh/ub_psi/basic_ecdh_oprf.cc: HashItem 34-58, EcPointMul 68-92, ItemMul 102-122, EccPrivateKeyInv 124-144, BasicEcdhOprfServer 148-192, BasicEcdhOprfClient 194-250", "psi/algorithm/ecdh/ub_psi/ecdh_oprf.h: IEcdhOprf 62-96", "psi/algorithm/ecdh/ub_psi/ecdh_oprf.cc: Evaluate 25-37, FullEvaluate 39-50, Blind 52-63, Finalize 65-78, Finalize 80-92", "psi/cryptor/ecc_utils.h: BigNumSt 61-122, CreateEcPointByHashToCurve 164-199, ToBytes 218-236, PointMul 238-246", "psi/algorithm/ecdh/ub_psi/ecdh_oprf_psi.cc: 148, 641"]}
{"id": "C87", "title": "OPRF of the unbalanced PSI over an OpenSSL curve: what the server sees of the client's items", "statement": "Blind: over all client keys below the order of the curve, the blinded forms of any two items are the same list up to order, so one blinded item tells nothing of the item. Refuted beyond one item: a client object has one key, so the blinded forms of two items are equal exactly when the items have the same point; the server sees repetitions.", "quantifier": "for all curves with a prime number of points, pairs of items and keys", "why_tests_cant": "Hiding is a statement about the distribution over all keys; a test sees single values.", "anchors": ["psi/algorithm/ecdh/ub_psi/basic_ecdh_oprf.cc: ItemMul 102-122, Blind 214-219", "psi/algorithm/ecdh/ub_psi/ecdh_oprf.h: IEcdhOprf 64-67"]}
{"id": "C88", "title": "Unbalanced PSI run in phases: what an online run returns", "statement": "After any sequence of successful runs of unbalanced PSI (building the cache, sending it, both, online, all at once) an online run succeeds and gives both parties the keys common to the client's input and to the table from which the cache was last built, if that cache was sent to the client afterwards and the run uses the key the cache was built with. A run of all phases does so whatever was on disk before. Before anything was built, sending and the online phase throw. Refuted without these conditions: after a rebuild that was not sent the online run succeeds, the server writes out rows whose keys the client does not have and the client gets keys of the old table; if the cache was never sent, or the key file was replaced, the online run succeeds with an empty intersection.", "quantifier": "for all sequences of runs, tables, inputs, keys, OPRFs, batch sizes, schedules and shuffles", "why_tests_cant": "Tests run the phases once each in the intended order; a property of all orders of runs over changing tables and keys is out of their reach.", "anchors": ["psi/interface.cc: AbstractUbPsiParty::Run 281-312", "psi/algorithm/ecdh/ub_psi/server.cc: 38-203", "psi/algorithm/ecdh/ub_psi/client.cc: 32-141", "psi/utils/join_processor.cc: CheckUbPsiServerConfig 53-79, GetUniqueKeysInfo 239-268", "psi/utils/ec_point_store.cc: 383-426"]}
{"id": "C89", "title": "Unbalanced PSI: which files a run keeps, replaces and removes", "statement": "Outside cache_path a run of unbalanced PSI (Init, building and sending the cache) removes and changes no file, and creates only directories on the way to cache_path. A building run with input and key outside leaves exactly the four cache files there. If the input or the key file lies in cache_path, or the input does not exist although cache_path does, the run throws and everything in cache_path is gone. The client's transfer writes server_cache and its meta file; if there was a server_cache before, everything else in cache_path is removed. In the modes that do not build a cache the server leaves what is in cache_path as it is. Refuted: that a run that throws leaves the old cache in place.", "quantifier": "for all file trees, paths, modes and file contents", "why_tests_cant": "Tests use fresh temporary directories; loss of files depends on what else is in the directory.", "anchors": ["psi/utils/join_processor.cc: CheckUbPsiServerConfig 53-79, JoinProcessor 100-140", "psi/algorithm/ecdh/ub_psi/server.cc: OfflineGenCache 63-87", "psi/utils/ec.cc: 24-42", "psi/algorithm/ecdh/ub_psi/ub_psi_cache.cc: 123-143", "psi/algorithm/ecdh/ub_psi/client.cc: OfflineTransferCache 54-79", "psi/utils/ec_point_store.cc: 383-426"]}
{"id": "C90", "title": "Configurations: which pairs may run, who receives, who is left", "statement": "RunPsi at two parties starts if and only if both configurations are valid (protocol, role, curve for ECDH, CSV files, one or more different keys, left side given unless inner join), one role is receiver and the other sender, and the shared fields agree; otherwise it throws. Each party runs the protocol of its configuration. If left_side is receiver or sender, both files have as many lines as the joined table for all numbers of rows with and without partner, and each party writes its unmatched rows exactly if the join keeps them. PsiExecute at ranks 0 and 1 starts if and only if both configurations are valid and agree and receiver_rank is 0 or 1; that rank receives, and left_side_rank 0 or 1 is the left party. UbPsiExecute names the same left party at both ranks. PsiExecute accepts every protocol but the unspecified one. Refuted: left_side SERVER is accepted in balanced PSI, neither file then has its own unmatched rows in a left join and the lengths differ; a left_side_rank that is no rank makes the sender the left party in PsiExecute, and in UbPsiExecute each party takes the other as left; the number of keys and disable_alignment are not compared and a threshold is ignored with KKRT and RR22.", "quantifier": "for all pairs of configurations, ranks, join types and row counts", "why_tests_cant": "The product of the settings of two parties is far too large to test, and tests use matching settings.", "anchors": ["psi/apps/psi_launcher/launch.cc: maps 325-364, ExecConfToV2Conf 366-423, ExecConfToBucketConf 425-449, PsiExecute 451-478, UbExecConfToUbconf 493-540", "psi/apps/psi_launcher/factory.cc: createPsiParty 36-81", "psi/interface.cc: CheckSelfConfig 195-228, CheckPeerConfig 230-279", "psi/utils/join_processor.cc: JoinProcessor 100-230, GenerateResult 283-341", "psi/config/psi.h", "psi/config/protocol.h", "psi/config/ub_psi.h"]}
{"id": "C91", "title": "Operators: what a bucketed run hands to both parties", "statement": "BroadcastIntersection leaves the results of the party that has them as they are and gives the other, in order and once each, exactly the positions of its items that were found, with the count at the first party; also if nothing was found. OnSequenceRun over a protocol that is exact on each bucket yields, for every bucket not finished by both parties before, the right results at the parties that may have them and nothing elsewhere. KkrtOperator raises or has the right positions at both parties in every bucket, and the right counts at the sender. Rr22Operator passes on exact results of its runner unchanged. EcdhOperator finds at the end the stores it made at the start unless there is a recovery manager and a bin size of at most 1. Refuted: the count in the results of KKRT's receiver is 0, not 1, for items that the sender has once; one bucket that is empty at one party stops the whole KKRT run, also if others have common items.", "quantifier": "for all numbers of buckets, bucket contents, item counts, roles and protocols exact on a bucket", "why_tests_cant": "Tests run operators on one data set with a few buckets, none of them empty, and do not look at the counts.", "anchors": ["psi/algorithm/psi_operator.cc: BroadcastIntersection, OnSequenceRun", "psi/algorithm/kkrt/kkrt_operator.cc", "psi/algorithm/rr22/rr22_operator.cc", "psi/algorithm/ecdh/ecdh_operator.cc: OnInit, OnEnd", "psi/algorithm/kkrt/kkrt_psi.cc: KkrtPsiRecv"]}
{"id": "C92", "title": "Batched hashes of RR22 equal the hash of each value, also in place", "statement": "AesCrHash::Hash writes for each value of its input the hash of that value alone, on 128-bit words for every length and on bytes for every length of whole blocks, and DavisMeyerHash for each pair of key and value, with and without vector instructions, if each input span is the output span or apart from it; nothing outside the output changes. A byte length that is no multiple of 16 and keys and values of different numbers are refused. The in-place final hash of the RR22 OPRF is therefore the one-element function used in C27. Refuted: with spans that overlap partly the values differ from the single ones and depend on the machine, and an output shorter than the input is written past its end.", "quantifier": "for all memories, spans, lengths, ciphers and both instruction sets", "why_tests_cant": "Tests compare a few batch sizes on separate buffers; which overlaps are safe for which lengths is not visible in them.", "anchors": ["psi/algorithm/rr22/okvs/aes_crhash.cc: AesCrHash::Hash", "psi/algorithm/rr22/davis_meyer_hash.cc: DavisMeyerHash", "psi/algorithm/rr22/rr22_oprf.cc: final hash"]}
{"id": "C93", "title": "Parties started by Kuscia agree on ranks and addresses", "statement": "If the task files of the parties of one cluster name the same parties, in any order, with different non-empty names, an address for each, a port and a configuration without parties, then every party starts with the same list of parties, sorted by name, and its own place in that list as its rank, so that no two parties have the same rank; it listens on its first allocated port, reaches every other party at the first endpoint of its first service, and the rest of its configuration is unchanged. A party without a configuration stops. Refuted: parties already in the configuration are kept in front, so that each party is in the link twice and its rank is no longer below the number of parties; two parties of one name are accepted, take the same rank and one of them loses its listening address.", "quantifier": "for all sets of party names, orders in the task files, endpoints, ports and configurations", "why_tests_cant": "The adapter is tested with one file; agreement is a property of all files of a cluster together.", "anchors": ["psi/apps/psi_launcher/kuscia_adapter.cc: FromKusciaConfig 33-98", "psi/utils/resource_manager.cc: LinkResource::Acquire 36-45", "psi/apps/psi_launcher/main.cc: 49-58, 85-90"]}
{"id": "C94", "title": "Grouped APSI database: opened again after a crash, with other settings or another source", "statement": "If generating a group was interrupted before its meta file was created, or after both files but for a last line end were on disk, every bucket of the group is found later with exactly its rows, in whatever order the maps are written. A used directory can be opened again exactly if the numbers of groups and buckets, the nonce size and the parameters are the same (counts below 2^32). Refuted: that an interruption at any other time is noticed; a meta file cut short is read with undefined values or makes a bucket answer from other bytes of the file, a database file cut short (its last bytes are written after the meta file) makes a bucket answer as if it had no rows. A build in a used directory ignores its source: every query is answered from the first source. The directory is marked as generated although a group failed in its process; all queries to that group then fail.", "quantifier": "for all tables, hashes, numbers of groups and buckets, orders of the maps, buffer contents and times of a crash", "why_tests_cant": "Tests build once in a fresh directory and never stop in the middle; the states a crash can leave are too many to enumerate.", "anchors": ["psi/wrapper/apsi/utils/group_db.cc: LoadMeta 207-237, LoadBucket 239-255, Generate 264-402, GroupDB 435-499, DivideGroup 510-526, GenerateGroupBucketDB 184-193", "psi/wrapper/apsi/utils/group_db_status.proto", "psi/wrapper/apsi/utils/sender_db.cc: TryLoadSenderDB 42-63"]}
{"id": "C95", "title": "Grouped APSI database: rows pass unchanged through the group files", "statement": "Rows whose keys and values have no double quote and no end of line are read from a group file exactly as they were written, in order, wherever the reader cuts the file into blocks; so every group of a divided table holds its rows. A group file read as one block gives its rows back if, and only if, no key and no value has a double quote (values are put in quotes without doubling the quotes in them). A source table in the form of RFC 4180 is read with all its quotes, so such rows do reach the group files. Refuted for them: a key with a quote is stored as another key; a key that ends with a quote swallows the next row of its group; a value that ends with a quote makes its whole group unreadable, also for other keys; a value with a line end is torn apart where a block ends inside it.", "quantifier": "for all tables, labelled or not, hashes, numbers of groups and buckets and cuts into blocks", "why_tests_cant": "Tests use keys and labels of letters and digits in files of one block; whether a text survives writing and parsing is a statement about all texts.", "anchors": ["psi/wrapper/apsi/utils/csv_reader.cc: GetCsvColumnNames 52-76, GroupBucketize 235-313", "psi/wrapper/apsi/utils/group_db.cc: IsGrouopLabeled 256-262, Generate 281-336", "psi/wrapper/apsi/utils/common.cc: MakeArrowCsvReader 93-111"]}
{"id": "C96", "title": "APSI sender: every request is answered from the bucket it names", "statement": "In a sender with a grouped database, with bucket files or with one database, whatever requests came before and whatever messages are skipped in between, an OPRF request is answered once, with the key of the bucket it names, and a query with the number of packages followed by the packages its bucket gives; a bucket without rows gives zero packages. Requests for parameters are answered with the parameters of the one database, of a bucket that was loaded, and in groups whose buckets all have rows and share their parameters with those. A sender with a grouped database starts if, and only if, a bucket has rows and those before it can be read. The loop ends exactly at the empty OPRF request for the largest bucket number and answers before it do not depend on it. Requests for a bucket that cannot be read get no reply at all. Refuted: parameters are not answered after a request about a bucket without rows; a second request about a bucket file that cannot be loaded is answered with the key of another bucket; a database that still has its key makes the constructor read a moved-from pointer; an exception of another kind while a message is loaded ends the loop.", "quantifier": "for all sequences of messages, databases, keys, numbers of buckets and results of the APSI library", "why_tests_cant": "A test asks one bucket after another in a fixed order; that no earlier request changes a later answer is a statement about all sequences.", "anchors": ["psi/wrapper/apsi/cli/sender_dispatcher.cc: SenderDispatcher, run, dispatch_parms, dispatch_oprf, dispatch_query", "psi/wrapper/apsi/utils/bucket.cc: BucketSenderDbSwitcher::SetBucketIdx, LoadBucket", "psi/wrapper/apsi/utils/sender_db.cc: TryLoadSenderDB", "psi/wrapper/apsi/yacl_channel.cc: receive_operation"]}
{"id": "C97", "title": "RR22: the bins have places for the keys", "statement": "The bin size computed from the tables gives places for all items, so at least for the average load, for up to 2^30 items and 2^32 bins and every security parameter, unless the number of items is a power of two and the number of bins is not. With the bins of 2^14 keys that RR22 uses, this holds for all keys together and for the share of every thread, for one thread or a power of two of threads up to 2^14, and for any number of threads if the share is no power of two. Where there are not places for a thread's share, the solver writes beyond its bins whatever the keys are. Refuted: the places suffice for every number of threads. With 49152 keys and 3, 6, 12 or 24 threads (by default one for each processor) every set of keys overflows.", "quantifier": "for all numbers of items, bins and threads, security parameters, keys, hashes and results of the search used outside the tables; doubles are real numbers", "why_tests_cant": "Tests run a few sizes with one number of threads; the sizes at which the interpolation falls below the average are isolated.", "anchors": ["psi/algorithm/rr22/okvs/simple_index.cc: GetBinSize 881-967, logbin_sizes_40bit, logbin_sizes_50bit, logbin_sizes_60bit, logbin_sizes_80bit", "psi/algorithm/rr22/okvs/baxos.h: Baxos::Init 52-60", "psi/algorithm/rr22/okvs/baxos.cc: ImplParSolve 175-332", "psi/algorithm/rr22/common.cc: GenerateRr22PsiOptions"]}
{"id": "C98", "title": "APSI receiver: what is reported for a query", "statement": "With a sender whose packages show, for every item's place, what its database has and nothing else, a query gives for every key what the database has for it; the packages may come in any order. Nothing that is not in the database is reported and every item that is in it is reported exactly once, of equal items the last. The output file has the lines of all buckets in order; the tool puts the header of the first bucket with a match above them, the API that of the first bucket. The header is right if that bucket has no label or one. If the reply to the OPRF request has another number of values, printing the results reads past their end, whatever the sender answers next. Refuted: the header fits the lines. For two labelled matches it is key,value,value; with the API, a first bucket without a match leaves key above lines with labels. Refuted: a package that arrives empty is noticed; its matches are lost. Refuted: keys and values of the API have the same length when only some matches have labels.", "quantifier": "for all keys, buckets, places of the cuckoo table, packages and their orders, labels and earlier contents of the file", "why_tests_cant": "Tests run one sender with one match or compare only keys; they do not read the header and have no faulty sender.", "anchors": ["psi/wrapper/apsi/receiver.cc: ExtractHashes 160-190, create_query 234-369, request_query 371-441, process_result_part 443-619, process_result 621-666, process_result_worker", "psi/wrapper/apsi/utils/common.cc: stream_intersection_results 182-211, print_intersection_results 213-258", "psi/wrapper/apsi/cli/entry.cc: RunReceiver", "psi/wrapper/apsi/api/receiver.cc: RequestQuery 122-162, ProcessResult 164-243"]}
{"id": "C99", "title": "APSI C interface: strings, arrays and results in memory", "statement": "Strings and arrays of strings go through the C interface unchanged, zero bytes included; nothing else in memory changes, and freeing them leaves exactly the blocks there were before. A program that reads up to the first zero byte sees the whole string exactly if it has no zero byte. A query result with as many values as keys, or no values, holds both and freeing it gives all memory back; with another number of values it is null. A receiver's handle may be freed again and is null then. The number of matches returned is the total modulo 2^32. Freeing a string, array, result or query context a second time is undefined: the first call clears the size and keeps the pointer. Refuted: memory is given back when an allocation fails in the middle of an array. Refuted: a result says whether the database has labels (without matches it says no), freeing a sender through a null pointer does nothing (it raises), the count of matches is right beyond 2^32.", "quantifier": "for all strings, arrays, results and heaps; allocations that succeed, except in the refutation about failing ones", "why_tests_cant": "Tests pass short strings and do not look at what is left in memory.", "anchors": ["psi/wrapper/apsi/api/wrapper_util.cc: MakeCString, MakeString, MakeCStringArray, MakeStringArray", "psi/wrapper/apsi/api/wrapper_common.h: FreeCString, FreeCStringArray", "psi/wrapper/apsi/api/receiver_c_wrapper.cc: MakeQueryResult, FreeQueryResult, BucketReceiverFree, BucketReceiverFreeQueryCtx, BucketReceiverProcessResultToFile", "psi/wrapper/apsi/api/sender_c_wrapper.cc: BucketSenderFree"]}
{"id": "C100", "title": "In-memory PSI: results by protocol and number of parties", "statement": "MemoryPsi can be constructed exactly with a type set, a receiver in the world and, for ECDH_PSI_3PC, three parties. If a party has no items, every party returns nothing, whatever the protocol. Otherwise the receiver (with broadcast: every party) gets, with ECDH_PSI_3PC, those of the receiver's items that both others have, in the receiver's order; with ECDH_PSI_NPC and KKRT_PSI_NPC the items all parties have, each once; with KKRT_PSI_2PC between two parties the common items, each once, unless the cuckoo table has no room; with DP_PSI_2PC items of the receiver only: the common ones among its sampled items that were kept and others that were added, and none at all when all sampled items are common. Everybody else gets nothing. Any other type fails once all parties have items. Refuted: the type of the documentation's example (ECDH_PSI_2PC) runs. Refuted: the two-party types are refused among more than two parties.", "quantifier": "for all configurations, inputs, numbers of parties, receivers and keys; all parties use the same configuration", "why_tests_cant": "Tests run each protocol on generated sets of a few sizes; the unregistered types and the unequal numbers of parties are not run.", "anchors": ["psi/legacy/memory_psi.cc: MemoryPsi::CheckOptions, MemoryPsi::Run", "psi/legacy/base_operator.cc: PsiBaseOperator::Run", "psi/legacy/factory.h: OperatorFactory::Create", "psi/legacy/kkrt_2party_psi.cc: KkrtPsiOperator::OnRun", "psi/legacy/dp_2party_psi.cc: DpPsiOperator::OnRun", "psi/legacy/ecdh_3party_psi.cc: Ecdh3PartyPsiOperator::OnRun", "psi/legacy/nparty_psi.cc: NpartyPsiOperator::OnRun"]}
{"id": "C101", "title": "Curve types: which curve, hash and masks a party gets on which machine", "statement": "CreateEccCryptor succeeds exactly for the five curve types (FourQ on x86 only with AVX2). Two machines that create a cryptor of one type get the same curve, hash and reported type, whichever library their processors select. EccMask returns the products in the order of the points for every way parallel_for cuts the indices and every order of the batches, and fails exactly if some point has no product. Items masked by one party and then the other end in the same bytes as the other way round, also between a party on IPP and a party on libsodium; a key saved on one machine is accepted on another and continues the same masks. New libsodium keys lie in the range of X25519 keys. The OPRF selectors accept FourQ, SM2 and secp256k1, the same for clients and servers, with the curve named. Refuted: the curve is the one named (CURVE_SECP256K1 computes on SM2). Refuted: parties with different curve types are stopped by the check of the configurations (CURVE_25519 and CURVE_25519_ELLIGATOR2 pass and find nothing in common). Refuted: keys that are set lie in the range.", "quantifier": "for all machines, curve types, keys, items, partitions into ranges and orders of the batches, given libraries that compute the same X25519 and commuting multiplications", "why_tests_cant": "A test run has one processor and one way of cutting the ranges; mixed machines, the equality of curves behind the two names and parties with different types are not run.", "anchors": ["psi/cryptor/cryptor_selector.cc: CreateEccCryptor", "psi/cryptor/sm2_cryptor.h: Sm2Cryptor", "psi/cryptor/ipp_ecc_cryptor.cc: IppEccCryptor::EccMask", "psi/cryptor/ecc_cryptor.cc: IEccCryptor::EccMask, IEccCryptor::HashInputs", "psi/cryptor/sodium_curve25519_cryptor.h: SodiumCurve25519Cryptor", "psi/algorithm/ecdh/ecdh_psi.cc: EcdhPsiContext::CheckConfig", "psi/algorithm/ecdh/ub_psi/ecdh_oprf_selector.cc: CreateEcdhOprfServer, CreateEcdhOprfClient"]}
{"id": "C102", "title": "Digests kept beside the input, and where result files go", "statement": "With keys_unique a run of balanced PSI leaves hash and counts of its keys in <input>.meta and a later run uses them if the file's size is the same. Without such a file, or with one of another size, hash and counts are those of the present file and key columns; any such file whose size fits is believed, whatever it says. Over any sequence of runs every run uses its own keys' hash and counts if files of one size always have the same keys. If the directory cannot be written the run fails; if the kept file was cut by a full disk, the run succeeds and every later one fails. The result file holds the whole result exactly if its path names a directory that is there or can be made, the file can be opened and the disk has room. Refuted: the digests compared are those of the keys in use (after a run on one column, a run of both parties on another column calls all rows common). Refuted: a result path without a directory works (the run fails at its end; legacy bucket PSI takes it). Refuted: a result that could not be written is noticed. Refuted: legacy bucket PSI makes missing directories as the new interface does.", "quantifier": "for all files, key columns, sequences of runs, hash functions, disks and paths, given a JSON printer whose output can be read back once its line ends are gone", "why_tests_cant": "Tests use a new temporary directory for every run, with room, and absolute paths; a second run on the same input with other columns or an edited file of equal size is not run.", "anchors": ["psi/utils/table_utils.cc: KeyInfo::Make", "psi/utils/pb_helper.cc: DumpPbMessageToJsonFile, LoadJsonFileToPbMessage", "psi/utils/io.cc: GetStdOutFileStream, GetArrowOutputStream", "psi/utils/join_processor.cc: JoinProcessor::GetUniqueKeysInfo, JoinProcessor::GenerateResult", "psi/legacy/bucket_psi.cc: CreateOutputFolder"]}
{"id": "C103", "title": "Sorting and checking CSV files through the shell", "statement": "Sorting a CSV file from and to paths without characters special to the shell gives the header and exactly the rows of the input, sorted; a missing input is an error. A blank in the output path is an error unless files named like its other words exist. Refuted: any path of an existing file will do: with a blank in the input path the sorted file has the header only and the run goes on as if the party had no rows, and a result path with a blank fails when the result is sorted in place. The check of a legacy CSV file succeeds exactly if there is no byte order mark, no selected cell is empty and, unless this is skipped, no line occurs twice among the joined keys, however the rows come in batches, and then gives the number of rows and the digest of the joined keys; for cells without commas and line ends this is exactly that no row occurs twice. The number of processors handed to sort is that of the listed ranges, or the fewest that cover the quota, and at least one.", "quantifier": "for all paths, files, rows, batches, hash functions, lists of processor ranges and quotas, and every sort in byte order", "why_tests_cant": "Tests sort temporary files whose paths have no blanks and run on a machine whose cgroup files are whatever the host has; the shell's status is that of the last command, which hides the failure of the first.", "anchors": ["psi/utils/key.cc: MultiKeySort, ParseCpuset, GetCpuCount", "psi/utils/csv_checker.cc: CsvChecker::CsvChecker, CheckIfBOMExists", "psi/utils/table_utils.cc: Table::Sort, Table::SortInplace", "psi/interface.cc: AbstractPsiParty::Finalize"]}
{"id": "C104", "title": "Calibration of the differentially private protocol", "statement": "What ComputeEpsilon2 returns lies between 2.5 and 4 and, together with the epsilon ComputeEpsilon1 then spends on sampling, makes up the given budget to within 1e-12, whenever that epsilon is a number. From a hundred rows on it returns for every budget between what the two ends of its interval need, and from a thousand rows on it returns for the budget 4. The standard deviation CalibrateAnalyticGaussianMechanism returns gives the delta asked for by the formula of the analytic Gaussian mechanism to within the tolerance, or to within 1e-5 if it is the sensitivity over the root of twice epsilon; and for every positive epsilon, every delta strictly between 0 and 1 and every positive tolerance it does return. Refuted: every budget is shared out: from a hundred rows on the loop never ends for budgets up to 2, nor for any budget that is large enough, and for one to five rows 3.25 is returned for every budget although the epsilon of sampling is not a number.", "quantifier": "for all numbers of rows, budgets, deltas, sensitivities and tolerances, and every continuous symmetric distribution function in place of the normal one; real numbers instead of doubles", "why_tests_cant": "Tests calibrate a few sizes with budgets that happen to lie in the interval; that a search converges for all inputs, or for none of a range, cannot be sampled.", "anchors": ["psi/legacy/dp_psi/dp_psi_utils.cc: ComputeEpsilon2, ComputeEpsilon1, ComputeDelta1, DoublingTrick, BinarySearch, CalibrateAnalyticGaussianMechanism", "psi/legacy/dp_psi/dp_psi_utils.h: ComputePSubKeep"]}
{"id": "C105", "title": "Temporary CSV files of duplicate-key PIR", "statement": "For a table whose keys and labels have no comma, double quote or end of line, the sender's value file, read again, has every key of the table exactly once with the labels of exactly its rows in table order, and its count file has the number of rows of every key; the queries asked are the non-empty ones of the query file in order, and the run fails if one of them is repeated or none is left; and the receiver's result file, read as CSV, has the header and for every answered query exactly its rows, whose number is the count reported. A comma in a value stops the sender, wherever the record stands. Refuted: cells survive whatever they contain: a label in quotes loses them without notice, a label with a line end can add a record under a key the table does not have, and an empty query is never asked although the table has rows for it.", "quantifier": "for all tables, label names, query lists and orders of the hash map", "why_tests_cant": "The converter's tests use short alphanumeric cells; the files are written without quoting, so which cells survive depends on every character.", "anchors": ["psi/utils/csv_converter.cc: WriteCsvFile, ApsiCsvConverter::MergeColumnAndRow, ApsiCsvConverter::ExtractQueryTo, ApsiCsvConverter::ExtractResult", "psi/algorithm/dkpir/receiver.cc: DkPirReceiver::ExtractItems, DkPirReceiver::SaveResult", "psi/algorithm/dkpir/sender_cnt_db.cc: GetCount", "psi/algorithm/dkpir/common.cc: WriteIntersectionResults", "psi/wrapper/apsi/utils/csv_reader.cc: ApsiCsvReader::read"]}
{"id": "C106", "title": "Rows reported back to the server of unbalanced PSI", "statement": "When the client of unbalanced PSI sends the masked items of the intersection, the server gets exactly the row indices of its cached items among them, each record once and in cache order, together with the number of its cached items, whatever the number of processors, the batches of the client and the batch size of the cache; nothing after the provider's first empty batch is reported. Whatever any client sends, a server that ends returns rows of its own cache only, for items that are pieces of the messages, and always the same count. A batch that does not fill whole items ends the run with an error. Refuted: strings that are not base64 are noticed: they are dropped and the server ends with an empty result; and every row reported was named by a string: two strings decoding to half an item each are read as one item.", "quantifier": "for all caches, provider batches, decoders, processor counts and batch sizes; for all message sequences of a foreign client", "why_tests_cant": "The test runs one intersection on the machine's own processor count and only logs the number of indices; the split among workers, foreign clients and undecodable strings are not run.", "anchors": ["psi/algorithm/ecdh/ub_psi/ecdh_oprf_psi.cc: EcdhOprfPsiClient::SendIntersectionMaskedItems, EcdhOprfPsiServer::RecvIntersectionMaskedItems", "psi/algorithm/ecdh/ub_psi/ub_psi_cache.cc: UbPsiCacheProvider::ReadNextShuffledBatch"]}
{"id": "C107", "title": "Index PIR servers loaded from a hash table", "statement": "A new SealPIR server made for any number of rows, row length and dimension takes over the shape of the hash table it is given, provided the rows of both are cut into the same number of pieces, and a client with the parameters of the table in two dimensions reads every row unchanged; a table of another number of pieces is refused. A Spiral server whose rows fit into one plaintext replaces what it held, and a new server takes rows of any length; dumped and loaded, every row comes back to a client with the shape of the table. A second table of longer rows is appended to the first in Spiral, and the dump can never be loaded. Refuted: a client made with the same options as the SealPIR server reads the rows of the table: with another number of rows it gets other bytes without an error, with another number of dimensions the server reads past the query.", "quantifier": "for all tables, declared shapes, degrees, plaintext widths and randomness (SealPIR); for all tables, plaintext sizes and previous contents (Spiral)", "why_tests_cant": "No test calls GenerateFromSimpleHashTable; which declared shapes fit which tables and what a client with stale parameters reads depends on all the sizes together.", "anchors": ["psi/algorithm/sealpir/seal_pir.cc: SealPirServer::GenerateFromSimpleHashTable, SealPir::SetPirParams", "psi/algorithm/spiral/spiral_server.cc: SpiralServer::GenerateFromSimpleHashTable, SpiralServer::PtDbsToReorientedDbs", "psi/algorithm/pir_interface/pir_db.h: IndexPirDataBase::GenerateFromSimpleHashTable"]}
{"id": "C108", "title": "APSI tables whose CSV reader fails", "statement": "However a table is cut into batches, reading it gives its rows in order and throws exactly when there are none or a key is repeated, and bucketizing it puts every row into the bucket of its key and nowhere else, in order. If a call of the Arrow reader fails, reading throws as long as no batch is without rows: the batch before the failure is taken a second time and its keys are repeated. If a call fails after the first, bucketizing ends well, but some bucket holds a row twice and reading that bucket throws. The grouped form used by the sender throws on any failure and on a table without rows, and otherwise writes what it would for the whole table. Refuted: a failure is always noticed: after a batch without rows the table is cut short silently, and if the first call fails all buckets are left empty without an error.", "quantifier": "for all tables, cuts into batches, places and numbers of failures, hash functions and bucket counts up to 2^31", "why_tests_cant": "Arrow's reader fails on damaged or unreadable blocks at places the tests do not produce; the status is only logged, so the outcome follows from what the stale batch does to later checks.", "anchors": ["psi/wrapper/apsi/utils/csv_reader.cc: ApsiCsvReader::read, ApsiCsvReader::bucketize, ApsiCsvReader::GroupBucketize"]}
{"id": "C109", "title": "A Spiral PIR server filled, dumped, loaded and asked", "statement": "A server filled with GenerateFromRawData, dumped and loaded again answers every row of its table, and a server filled with GenerateFromRawDataAndReorient answers every row at once; a server filled in both ways, in this order, answers and can be dumped, and what is loaded from that dump answers the same. A server that was not filled refuses to be dumped and to answer. A server made only for dumping reports a set database, but answering any query with it is undefined. A dump of a server made only for answering is written and refused when it is loaded. Whatever message a server with at least one partition was loaded from, it can be dumped, and that second dump is refused when it is loaded. Filling a server a second time replaces the table if a row fits a plaintext; otherwise every answer comes from the first table, and a dump is refused when it is loaded. A message is loaded only if its sizes are those of the default parameters for its table, and the loaded server has the plaintexts of all its partitions, so no query reads past them. Refuted: dumping a server that answers and loading the dump keeps its answers.", "quantifier": "for all tables, shapes for which parameters exist, and dump messages", "why_tests_cant": "The tests dump a freshly generated server once and ask only the loaded one; other orders of the calls allowed by the interface are never run.", "anchors": ["psi/algorithm/spiral/spiral_server.cc: SpiralServer::SerializeToProto, SpiralServer::DeserializeFromProto, SpiralServer::PtDbsToReorientedDbs, SpiralServer::Dump, SpiralServer::Load, SpiralServer::GenerateFromRawData, SpiralServer::GenerateFromRawDataAndReorient, SpiralServer::ProcessQuery", "psi/algorithm/spiral/spiral_server.h: SpiralServer::DbSeted"]}
