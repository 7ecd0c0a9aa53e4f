{"id": "C01", "title": "Point queries never miss a stored key", "statement": "After a filter has been bulk loaded and any sequence of Insert calls has run on it, PointQuery(k) returns true for every key k that was bulk loaded or inserted.", "quantifier": "every set of bulk-loaded keys, every finite insertion history, every stored key, every infix size in the supported range", "why_tests_cant": "The number of key sets and insertion orders is unbounded; a miss can depend on how runs collide and shift inside one block, which sampled workloads reach only by luck.", "anchors": ["include/diva.hpp: Diva::PointQuery, PointQueryInfixStore, Insert, InsertSimple, InsertRawIntoInfixStore"]}
{"id": "C02", "title": "Range queries never miss a stored key", "statement": "If some stored key k satisfies l <= k <= r then RangeQuery(l, r) returns true.", "quantifier": "every filter reachable by bulk load and inserts, every pair l <= r, every stored key between them", "why_tests_cant": "Pairs of end points are quadratic in the key space and end points that fall in different implicit runs, or in empty runs, take different code paths.", "anchors": ["include/diva.hpp: Diva::RangeQuery, RangeQueryInfixStore, ExtractPartialKey"]}
{"id": "C03", "title": "Insert keeps everything already stored", "statement": "Inserting a key changes no other key's membership from present to absent: whatever element content a block had before Insert is exactly its content afterwards plus the new element.", "quantifier": "every valid block, every element, every position of the free slots (shift right, shift left, resize)", "why_tests_cant": "Whether an insertion shifts left or right, and across how many runs, depends on the exact occupancy pattern; there are exponentially many.", "anchors": ["include/diva.hpp: InsertRawIntoInfixStore, ShiftSlotsRight, ShiftSlotsLeft, ShiftRunendsRight, ShiftRunendsLeft, FindEmptySlotAfter, FindEmptySlotBefore"]}
{"id": "C04", "title": "Bulk load of fixed-length keys loses nothing", "statement": "Constructing a filter from a sorted range of distinct fixed-length keys yields a filter that answers true for each of them, for every number of keys.", "quantifier": "every count of keys n >= 0 and every sorted sequence of n distinct keys", "why_tests_cant": "The failure depends on n modulo the block size; tests use a handful of values of n.", "anchors": ["include/diva.hpp: BulkLoadFixedLength"]}
{"id": "C05", "title": "Bulk load of variable-length keys loses nothing", "statement": "Constructing a filter from a sorted range of distinct strings yields a filter that answers true for each of them, for every number and shape of keys.", "quantifier": "every count of keys and every sorted sequence of distinct byte strings", "why_tests_cant": "Depends on the count modulo the block size and on keys made of zero bytes, which random strings do not contain.", "anchors": ["include/diva.hpp: BulkLoad"]}
{"id": "C06", "title": "Streaming bulk load loses nothing", "statement": "Feeding sorted distinct keys one at a time through BulkLoadStreaming and then calling BulkLoadStreamingFinish yields a filter that answers true for each of them, and the same filter as the iterator-based bulk load.", "quantifier": "every count of keys and every sorted sequence of distinct keys", "why_tests_cant": "Depends on where the stream stops relative to the block size and on whether the extreme keys are in the stream.", "anchors": ["include/diva.hpp: BulkLoadStreaming, BulkLoadStreamingFinish"]}
{"id": "C07", "title": "Delete removes only the deleted key", "statement": "After Delete(k) of a stored key k, every other stored key is still reported present by PointQuery and by every RangeQuery containing it.", "quantifier": "every filter reachable by bulk load, inserts and deletes of stored keys, every deleted key", "why_tests_cant": "Deletion compacts runs in two directions and may merge neighbouring blocks; a lost element shows only for particular occupancy patterns.", "anchors": ["include/diva.hpp: Delete, DeleteMerge, DeleteRawFromInfixStore, UpdateInfixListDelete"]}
{"id": "C08", "title": "Shrinking the infix size loses nothing", "statement": "ShrinkInfixSize(m) with m smaller than the current infix size keeps every stored key present for point and range queries.", "quantifier": "every reachable filter and every new infix size", "why_tests_cant": "Depends on the byte alignment of the slot count of each block.", "anchors": ["include/diva.hpp: ShrinkInfixSize, ShrinkInfixStoreInfixSize"]}
{"id": "C09", "title": "Serialize then deserialize gives an equal filter", "statement": "Deserializing the buffer written by Serialize gives a filter that answers every point and range query as the original does.", "quantifier": "every reachable filter, every query", "why_tests_cant": "Equality must hold for every query and for every number and length of boundary keys, including lengths that need padding.", "anchors": ["include/diva.hpp: Serialize, SerializeMetadata, SerializeInfixStore, Diva(const char *), DeserializeMetadata, DeserializeInfixStore"]}
{"id": "C10", "title": "Size() is the number of bytes Serialize writes", "statement": "For a filter, Size() equals the number of bytes written and returned by Serialize.", "quantifier": "every reachable filter", "why_tests_cant": "Callers allocate the output buffer with Size(); a mismatch for one boundary length overflows it.", "anchors": ["include/diva.hpp: Size, Serialize"]}
{"id": "C11", "title": "A point query is a one-key range query", "statement": "PointQuery(k) and RangeQuery(k, k) return the same answer.", "quantifier": "every valid filter and every key inside the filter's boundaries", "why_tests_cant": "The two code paths search a run in different ways (linear scan against binary search with early exits).", "anchors": ["include/diva.hpp: PointQuery, RangeQuery, PointQueryInfixStore, RangeQueryInfixStore"]}
{"id": "C12", "title": "Range answers grow with the range", "statement": "If RangeQuery(l, r) is true and l' <= l and r <= r' then RangeQuery(l', r') is true.", "quantifier": "every valid filter, every pair of nested ranges inside the filter's boundaries", "why_tests_cant": "Quantifies over four end points and all filter contents.", "anchors": ["include/diva.hpp: RangeQuery, RangeQueryInfixStore"]}
{"id": "C13", "title": "Positive answers are explained by a stored key", "statement": "Without splits, PointQuery(k) is true only if k is a boundary key or some stored key between the same two boundary keys agrees with k on the prefix the filter keeps; and RangeQuery(l, r) is true only if some kept prefix meets [l, r] or a boundary lies in it.", "quantifier": "every filter reachable by bulk load and simple inserts, every query", "why_tests_cant": "Absence of spurious positives cannot be sampled: the answer must be exact for all keys.", "anchors": ["include/diva.hpp: PointQueryInfixStore, RangeQueryInfixStore, ExtractPartialKey"]}
{"id": "C14", "title": "The order of insertions does not matter", "statement": "Two filters that received the same inserts in different orders (without splits) give the same answer to every query.", "quantifier": "every permutation of every insertion sequence, every query", "why_tests_cant": "The slot layouts differ; only the answers must agree, over factorially many orders.", "anchors": ["include/diva.hpp: InsertRawIntoInfixStore, InsertSimple"]}
{"id": "C15", "title": "Block accesses stay inside the block", "statement": "Every read and write of a block performed by queries, inserts, list loads and list dumps stays inside the block's allocation.", "quantifier": "every valid block, every operation, every position", "why_tests_cant": "The tail of a block is touched only when the last slots are used, and an overrun by a few bytes is usually silent.", "anchors": ["include/diva.hpp: GetSlot, SetSlot, FindEmptySlotAfter, GetPtrWordCount; include/util.hpp: shift_bitmap_right, shift_bitmap_left"]}
{"id": "C16", "title": "An insertion always finds room", "statement": "Insert never overfills a block: after the growth test there is at least one free slot, and the element counter equals the number of stored elements.", "quantifier": "every valid block and element", "why_tests_cant": "Room depends on rounding in 500 floating-point scale factors and on the growth threshold.", "anchors": ["include/diva.hpp: InsertRawIntoInfixStore, ResizeInfixStore, SetupScaleFactors"]}
{"id": "C17", "title": "Every operation terminates", "statement": "Bulk load, Insert, queries and Delete return for every input inside the filter's boundaries.", "quantifier": "every input", "why_tests_cant": "A loop that runs forever for one pair of keys is invisible to tests that do not contain the pair.", "anchors": ["include/diva.hpp: GetSharedIgnoreImplicitLengths, Insert, BulkLoad, BulkLoadFixedLength"]}
{"id": "C18", "title": "Bit-range shifts move exactly the range", "statement": "shift_bitmap_right(a,l,r,d) and shift_bitmap_left(a,l,r,d) move bits l..r by d places, clear the vacated bits and change no other bit.", "quantifier": "every bitmap, every l <= r, every distance, every alignment", "why_tests_cant": "64*64 alignments times overlapping and non-overlapping distances times all contents.", "anchors": ["include/util.hpp: shift_bitmap_right, shift_bitmap_left"]}
{"id": "C19", "title": "Select and rank agree with their definition on every build", "statement": "bit_select(v, i) is the position of the (i+1)-th set bit of v when v has more than i set bits, both in the BMI2 build and in the portable build, and bit_rank(v, p) counts the set bits at positions below p.", "quantifier": "all 2^64 words and all ranks", "why_tests_cant": "2^64 inputs, and the portable table-driven code is not compiled on the test machine.", "anchors": ["include/util.hpp: bit_select, _select64, kSelectInByte, bit_rank"]}
{"id": "C20", "title": "Integer keys keep their order as byte strings", "statement": "The byte string built from a 64-bit integer compares as the integer does, so integer ranges are exactly byte-string ranges.", "quantifier": "all pairs of 64-bit integers", "why_tests_cant": "2^128 pairs.", "anchors": ["include/diva.hpp: to_big_endian_order, Insert(uint64_t), RangeQuery(uint64_t, uint64_t), InfiniteByteString::operator<"]}
{"id": "C21", "title": "Slot tables are well formed", "statement": "For the supported load factor the capacity table strictly increases, no product in the slot mapping overflows, and the preferred slot of an element is inside the block and monotone in the element.", "quantifier": "all grades that fit the 8-bit grade field, all implicit parts", "why_tests_cant": "Needs all combinations of grade, interval width and implicit part, and exact IEEE rounding.", "anchors": ["include/diva.hpp: SetupScaleFactors, GetMappedPos"]}
{"id": "C22", "title": "Integer-optimised and generic range queries agree", "statement": "For 8-byte keys RangeQuery gives the same answer in the integer-optimised and in the generic instantiation.", "quantifier": "all boundary pairs, all query end points, all infix sizes", "why_tests_cant": "The two instantiations compute the infixes with different shift arithmetic; agreement is over 2^256 inputs.", "anchors": ["include/diva.hpp: RangeQuery (int_optimized branch), ExtractPartialKey"]}
{"id": "C23", "title": "Growing or shrinking a block keeps its content", "statement": "Moving a block to another size grade keeps the element list, so every query on the block has the same answer before and after.", "quantifier": "every valid block and every target grade with enough slots", "why_tests_cant": "Positions of all elements change; correctness depends on the layout algorithm for all contents.", "anchors": ["include/diva.hpp: ResizeInfixStore, GetInfixList, LoadListToInfixStore"]}
{"id": "C24", "title": "Splitting a block keeps every stored key", "statement": "When Insert promotes a key to a boundary, every key stored in the split block stays present for point and range queries.", "quantifier": "every valid block, every promoted key between the boundaries, every random choice", "why_tests_cant": "Splits happen once per 1024 insertions at random and re-encode all elements of a block with new offsets.", "anchors": ["include/diva.hpp: InsertSplit, UpdateInfixList, GetExpandedInfixListLength"]}
{"id": "C25", "title": "Merging two blocks keeps every other stored key", "statement": "When Delete removes a boundary key, every key stored in the two merged blocks stays present for point and range queries.", "quantifier": "every pair of adjacent valid blocks", "why_tests_cant": "Elements are re-encoded with different offsets on the two sides.", "anchors": ["include/diva.hpp: DeleteMerge, UpdateInfixListDelete"]}
{"id": "C26", "title": "Keys map monotonically into their interval", "statement": "Between two boundary keys a <= k1 <= k2 <= b, the integer the filter stores or searches for k1 is not larger than the one for k2, and it lies in the interval reserved for (a, b).", "quantifier": "all byte strings a < b and all keys between", "why_tests_cant": "Unbounded strings; shared prefixes and runs of ignored bits of any length.", "anchors": ["include/diva.hpp: GetSharedIgnoreImplicitLengths, ExtractPartialKey, InfiniteByteString"]}
{"id": "C27", "title": "The interval of a block always has 512 to 1024 implicit values", "statement": "For any two boundary keys a < b whose zero-padded bit strings differ, the number of implicit values used for the block between them is at least 512 and at most 1024, so it is a valid index of the scaling table and fits the occupieds bitmap.", "quantifier": "all pairs of distinct byte strings", "why_tests_cant": "Unbounded strings.", "anchors": ["include/diva.hpp: GetSharedIgnoreImplicitLengths, Insert, RangeQuery, PointQuery"]}
{"id": "C28", "title": "Block metadata fields do not disturb each other", "statement": "Setting the element count, size grade, invalid-bit count or partial flag of a block changes only that field, as long as the value fits its field.", "quantifier": "all 32-bit status words and all field values", "why_tests_cant": "All combinations of packed fields; overflow of one field corrupts the next.", "anchors": ["include/diva.hpp: InfixStore::SetElemCount, UpdateElemCount, SetSizeGrade, SetInvalidBits, SetPartialKey"]}
{"id": "C29", "title": "A deserialized filter owns its memory", "statement": "A filter built from a serialized buffer can be modified and destroyed like any other filter.", "quantifier": "every serialized filter and every later operation", "why_tests_cant": "Freeing foreign memory is undefined behaviour that a test may survive.", "anchors": ["include/diva.hpp: DeserializeInfixStore, ~Diva, ResizeInfixStore"]}
{"id": "C30", "title": "Answers do not depend on the random choices", "statement": "For every outcome of the internal random generator, stored keys are reported present.", "quantifier": "every sequence of random outcomes", "why_tests_cant": "Tests fix one seed.", "anchors": ["include/diva.hpp: Insert, rng_"]}
{"id": "C31", "title": "A block answers queries exactly by its content", "statement": "A point query on a block is true exactly if some stored element covers the queried value, and a range query exactly if some stored element covers a value of the range.", "quantifier": "every block content, every insertion sequence, every queried value and range", "why_tests_cant": "content and query space are unbounded; a single missed slot position shows up only for particular layouts", "anchors": ["include/diva.hpp:PointQuery(InfixStore)", "include/diva.hpp:RangeQuery(InfixStore)"]}
{"id": "C32", "title": "Elements are spread evenly over a block", "statement": "The slot where the search for an element of a block starts is proportional to the element: value p of total values belongs to slot p*S/total of S slots, up to an error of one slot upwards and two slots plus S/32768 downwards. So insertions and queries probe near the right place at every capacity and interval width.", "quantifier": "all capacities, all interval widths 512..1024, all values", "why_tests_cant": "Depends on floating-point tables rounded to integers; an error in one of 256 x 513 table combinations only shows as slow or lopsided blocks.", "anchors": ["include/diva.hpp: SetupScaleFactors, GetMappedPos"]}
{"id": "C33", "title": "One block behaves as an ordered list of elements under insertion and deletion", "statement": "After any sequence of insertions and deletions on one block, the block holds exactly the elements that the same operations leave in an ordered list (a deletion takes out the last element that covers the deleted value), its element counter equals their number, and it answers point and range queries exactly by them.", "quantifier": "every initial ordered list, every sequence of insertions and deletions of covered values, every slot width and number of implicit values", "why_tests_cant": "Elements are shifted between runs in both directions and blocks are resized on the way; the combination of run layouts is unbounded.", "anchors": ["include/diva.hpp: InsertRawIntoInfixStore, DeleteRawFromInfixStore, GetInfixList, PointQueryInfixStore, RangeQueryInfixStore, ResizeInfixStore"]}
{"id": "C34", "title": "The number of false positives is bounded by the number of stored keys", "statement": "Between two neighbouring boundary keys the filter distinguishes more than 510*2^(s-1) key prefixes, s being the configured infix size, and answers point queries positively for at most as many of these prefixes as keys are currently stored there. A range query strictly between the boundaries is positive only if it contains one of these prefixes. So the false positive rate shrinks by half with every additional infix bit, for every key distribution, and deletions lower it again.", "quantifier": "every loaded key set, every history of insertions and deletions, every pair of neighbouring boundaries, every queried key and range, every infix size", "why_tests_cant": "The rate must hold for adversarial key sets; measuring it on sampled keys says nothing about other distributions.", "anchors": ["include/diva.hpp: PointQuery, RangeQuery, InsertSimple, Delete"]}
{"id": "C35", "title": "Shrinking is the same as having used the smaller infix size", "statement": "After ShrinkInfixSize(m) every point and range query gets the answer that a filter with the same history and infix size m from the beginning gives.", "quantifier": "every loaded key set, every history of insertions and deletions, every pair of infix sizes, every queried key and range", "why_tests_cant": "A shrunk element could keep too little (false negatives) or too much (answers that differ from the documented precision); the comparison must hold for every content of every block.", "anchors": ["include/diva.hpp: ShrinkInfixSize, ShrinkInfixStoreInfixSize"]}
{"id": "C36", "title": "The filter stays small whatever is done to it", "statement": "With the default load factor, every block has at most 1077 slots of s+1 bits, or at most 1.12 slots per element that it holds, plus a fixed header of 17 words, after any sequence of bulk loading, insertions (with any random split decisions) and deletions; so the memory of the filter is linear in the number of boundaries and stored keys, never in the number of operations. A bulk load of n keys makes at most n/1024+4 blocks and needs about 1.05*(s+1)+1.1 bits per key. The boundaries stay strictly ordered, without duplicates.", "quantifier": "every loaded key set and loader, every sequence of insertions, splits and deletions during which no 20-bit element counter overflows, every infix size", "why_tests_cant": "A block is grown, shrunk, split and merged according to threshold tables in both directions; a threshold that is off by one grade lets the space creep up only along particular, arbitrarily long histories.", "anchors": ["include/diva.hpp: BulkLoad, BulkLoadFixedLength, BulkLoadStreaming, InsertSimple, InsertSplit, Delete, DeleteMerge, ResizeInfixStore, AllocateInfixStoreWithList, Size"]}
{"id": "C37", "title": "The index under the filter is an ordered map", "statement": "Starting from an empty index, and as long as the calls on its hash table return (C41), every sequence of puts, deletes and iterator walks (seek to a key, then any number of steps forward and backward) returns, without touching memory it must not, and answers exactly as a finite map ordered by key would: a put replaces or adds one binding, a delete removes one and says whether it was there, a seek finds the lowest key that is not below the argument, and each step moves to the next or previous bound key or makes the iterator invalid. Collisions of the 16-bit hashes in its prefix table never change an answer.", "quantifier": "every sequence of calls, every key of at most 65520 bytes, every value type, every pattern of hash collisions", "why_tests_cant": "Leaves split and merge, the table of all prefixes of all anchors is updated incrementally, and leaves are sorted lazily; a stale outermost-leaf pointer or bitmap bit shows only for particular key sets after particular histories, and hash collisions cannot be provoked systematically.", "anchors": ["include/wormhole/wh.c: wh_put, wh_del, wh_iter_seek, wh_iter_skip1, wh_iter_skip1_rev, wh_iter_peek_ref, wormhole_jump_leaf_read, wormhole_split_meta, wormhole_meta_merge"]}
{"id": "C38", "title": "The filter sees its boundaries as a sorted list", "statement": "Every sequence of index calls that the filter can make gets the same answers from the prefix-table index as from a plain sorted list of (boundary, block) pairs.", "quantifier": "every sequence of puts, deletes and walks with keys of at most 65520 bytes, every pattern of hash collisions", "why_tests_cant": "It is a refinement between two data structures over unbounded histories.", "anchors": ["include/wormhole/wh.c", "include/diva.hpp: better_tree_"]}
{"id": "C39", "title": "The index of the integer build is an ordered map for callers that look first", "statement": "With keys of at most 8 bytes, starting from an empty integer index, every sequence of puts, deletes and iterator walks in which a key that is already bound is put again or deleted only while it is in view (an iterator has shown it, and neither it nor a lower key was deleted since) returns without touching memory it must not, and answers exactly as a finite map ordered by key would, and as the sorted list in the model of the filter.", "quantifier": "every such sequence of calls, every pattern of hash collisions, every value type", "why_tests_cant": "Leaves are sorted lazily and searched only in their sorted part, and the count of sorted pairs is kept incrementally through insertions, removals, splits and merges; a wrong count shows only after particular histories of more than 32 boundaries.", "anchors": ["include/wormhole/wh_int.c: wh_int_put, wh_int_del, wh_int_iter_seek, wh_int_iter_skip1, wh_int_iter_skip1_rev, wormleaf_merge, wormleaf_int_search_eq, wormleaf_int_sync_sorted, wormhole_split_leaf", "include/diva.hpp: better_tree_int_"]}
{"id": "C40", "title": "Splits and deletions add no unexplained positives", "statement": "However many inserted keys became boundaries and however many keys were deleted since, a query is answered positively only if a boundary of the loaded filter lies in it, or if, between two neighbouring boundaries of the loaded filter, some key that was loaded or inserted agrees with a key of the query on the prefix that the filter would keep there without splits. So splitting blocks never raises the number of positive prefixes above the number of keys.", "quantifier": "every fixed-length key set, every interleaving of insertions, splits and deletions, every query of that length", "why_tests_cant": "A split rewrites every element of a block at a new resolution and truncates the new boundary; that none of the rewritten elements covers more than before has to hold for all of them and for all histories.", "anchors": ["include/diva.hpp: InsertSplit, UpdateInfixList, Delete, PointQueryInfixStore, RangeQueryInfixStore"]}
{"id": "C41", "title": "The hash table inside the index is a finite map", "statement": "Whatever the hash function, and whatever prefixes are stored, removed and exchanged: every such call returns and reaches the node it is meant for, no write leaves a bucket, and afterwards looking up a prefix gives exactly the node that is stored for it, or nothing. The quick test on 16-bit tags never misses a stored prefix. Pushing nodes between buckets and doubling the table lose and duplicate nothing.", "quantifier": "every hash function, every sequence of additions of absent prefixes and of removals and exchanges of stored nodes, every prefix looked up", "why_tests_cant": "Nodes are pushed along chains of buckets that depend on all hashes in the table; whether a chain can come back to a slot it has already changed, and whether it ends, shows only for key sets whose hashes collide in particular ways.", "anchors": ["include/wormhole/wh.c: wormhmap_get, wormhmap_peek, wormhmap_set, wormhmap_cuckoo, wormhmap_expand, wormhmap_squeeze, wormhmap_del, wormhmap_replace", "include/wormhole/wh_int.c: the same functions", "include/wormhole/kv.c: kv_crc32c"]}
{"id": "C42", "title": "A leaf of the index finds exactly the pairs it stores", "statement": "Whatever the hash function, however many keys share a hash, and whatever pairs are stored, replaced, removed and reordered in a leaf: as long as it holds at most 32 keys, no call reads or writes outside the leaf's arrays, and looking up, replacing or removing a key reaches exactly the pair that is stored for it, or reports that there is none. The order in which the leaf lists its pairs is changed by nothing but the calls that are meant to change it. Splitting a leaf and merging two leaves neither lose, duplicate nor reorder a pair, and leave leaves for which the same holds. Sorting a leaf in place, of which a first part is in order, puts all pairs in order, loses and makes up none, and never leaves the arrays nor the buffer for half of the pairs.", "quantifier": "every assignment of 16-bit tags to keys, every sequence of storing, looking up, removing and reordering with at most 32 keys at a time, every key", "why_tests_cant": "Entries are pushed to the left or the right of the slot their hash asks for, past both ends of the array, and pulled back after removals; a search stops early, so one entry on the wrong side of an empty slot is lost, and this depends on all tags in the leaf and on the order of the calls.", "anchors": ["include/wormhole/wh.c: wormleaf_match_hs, wormleaf_insert_hs, wormleaf_insert_e13, wormleaf_shift_inc, wormleaf_shift_dec, wormleaf_pull_ih, wormleaf_remove, wormleaf_remove_ih, wormleaf_search_is, wormleaf_update, wormhole_split_leaf_move1, wormleaf_merge, wormleaf_sort_m2, wormleaf_sort_range, wormleaf_sync_sorted"]}
{"id": "C43", "title": "The index never gets memory that is in use for a leaf or node", "statement": "After every history of requests for leaves and nodes, of giving them back one by one or all at once, of reserving some in advance, and of writes by their owners, with an operating system that may refuse memory at any time: the leaves and nodes in use do not overlap, are aligned and lie inside memory of the operating system; no request or return changes one that stays in use; a request fails only if the operating system refuses memory, which is asked only when all the memory it has given for such objects is in use; after reserving n nodes the next n requests succeed without the operating system; and the reported number of objects in use is right.", "quantifier": "every size that the allocator accepts, every sequence of calls by one thread, every content written by the owners, every behaviour of the operating system", "why_tests_cant": "The list of free objects is kept inside the free objects and the list of blocks inside the blocks, so one wrong link or offset hands out an object twice only after a particular order of requests, returns, refusals and contents.", "anchors": ["include/wormhole/lib.c: slab_create, slab_check_sizes, slab_add, slab_expand, slab_reserve_unsafe, slab_alloc_unsafe, slab_alloc_safe, slab_free_unsafe, slab_free_safe, slab_free_all, slab_get_nalloc, astk_push_safe, astk_push_unsafe, astk_pop_safe, astk_pop_unsafe", "include/wormhole/wh.c: wormleaf_alloc, wormleaf_free, wormmeta_alloc, wormmeta_free, wormhole_slab_reserve"]}
