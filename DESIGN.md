# Formal model of n3slami/Diva in Rocq

## 1. What is modelled

The model is a set of total Gallina functions, one per C++ function, over
unbounded integers (`Z`) with explicit truncation to 64/32 bits where it can
matter.  Every definition cites the lines of `/repo` it models; a simplification
is stated in the same comment.

| file | contents | models |
|---|---|---|
| `Base.v` | outcome type `Ok / UB / Fuel`, loops, 64-bit words | - |
| `Util.v` | BITMASK, lowbit/highbit, rank, select with pdep | `include/util.hpp:7-35, 142-170` |
| `Broadword.v` | the portable select with its byte table | `include/util.hpp:36-137` |
| `Store.v` | a block of memory as one bit string; bitmap shifts; all InfixStore functions | `include/util.hpp:171-264`, `include/diva.hpp:157-227`, `2010-2881` |
| `Tables.v` | SetupScaleFactors in IEEE double arithmetic (`SpecFloat`) | `include/diva.hpp:405-426` |
| `Key.v` | InfiniteByteString, GetSharedIgnoreImplicitLengths, ExtractPartialKey | `include/diva.hpp:97-155, 1021-1052, 1434-1445` |
| `Diva.v` | tree + public operations: bulk loaders, Insert (with splits), Delete (with merges), queries, ShrinkInfixSize | `include/diva.hpp:315-1095, 1448-2007` |
| `Serial.v` | Size, Serialize, deserialization, destructor | `include/diva.hpp:1098-1431` |
| `Wormhole.v` | the ordered index under the filter: prefix table, leaves, splits and merges of leaves, iterators | `include/wormhole/wh.c:39-310, 1058-1160, 1390-2120, 2200-2640, 2860-2910, 3040-3220, 3659-3678, 3771-3854` |
| `WhInt.v` | the integer index `wh_int.c`: its leaves (binary search, lazy sorting, merge, split), put, delete, iterators; the prefix table is shared with `Wormhole.v` | `include/wormhole/wh_int.c:127-155, 1414-1871, 2339-2510, 2660-2811, 3144-3331` |
| `WhHash.v` | the hash table inside the index (wormhmap) and its hash function | `wh.c` 311-321, 653-1055, `lib.c` 241-311 |
| `WhSlots.v` | the arrays `hs` and `ss` of a leaf: finding a pair by the tag of its hash, inserting, removing, replacing, splitting and merging leaves | `include/wormhole/wh.c:1408-1537, 1684-1945, 2001-2046, 2109-2121` |
| `WhSort.v` | sorting `ss` in place: merging two sorted parts forwards or backwards with a buffer of 16 | `include/wormhole/wh.c:1587-1682` |
| `Slab.v` | the allocator for leaves and nodes, on a memory of words: free objects and blocks as linked lists in that memory | `include/wormhole/lib.c:2256-2564` |
| `WhIntRun.v` | sequences of calls on the integer index | - |
| `WhRun.v` | sequences of calls on the index, and on the sorted list of `Diva.v` | - |

Specification vocabulary (no proofs, not used by the model):

| file | contents |
|---|---|
| `Spec.v` | well-formed tables, crammed blocks |
| `SpecBlock.v` | elements of a block, what an element covers, histories of one block, `ones_below` |
| `SpecFilter.v` | byte-string keys and their order, prefixes (`top`), loadable key sets, histories with insertions, splits and deletions |
| `SpecSerial.v` | limits of the serialized form, size of the written filter |
| `SpecSpace.v` | memory of a filter, filters reached by any operations |
| `SpecSplit.v` | histories with splits for short keys, splits that return |
| `SpecIndex.v` | an ordered map and what a sequence of calls on it must answer |
| `SpecHash.v` | proper calls on the hash table, room in its buckets |
| `SpecSlots.v` | calls on a leaf, what a finite map answers, at most 32 keys |
| `SpecSlab.v` | histories of calls of the allocator, blocks of the operating system |
| `SpecInt.v` | callers that look before they write, at most n keys, no erasing |

Theorems: `Properties.v`, `MixProperties.v`, `IndexProperties.v`, `IntProperties.v`, `HashProperties.v`, `SlotProperties.v`, `SlabProperties.v` (what holds) and `Findings.v` (what
does not hold, with witnesses).  Each theorem of the first seven is followed by `Print Assumptions` and
by an `Example` that shows a concrete case meeting its hypotheses.

Proof files, bottom up: `Bits`, `Shift`, `View` (memory), `Cells`, `Lowbit`,
`StoreFind`, `StoreInsert`, `StoreQuery`, `Layout`, `StoreList`, `StoreRep`,
`DelCells`, `StoreDelete` (one block refines an ordered list), `TablesProofs`,
`KeyBits`, `KeyOrder`, `Tree`, `Filter`, `RangeInt`, `Contents`, `Bulk`, `Hist`,
`BulkSame`
(whole filters), `DelHist`, `Merge`, `MergeTree`, `DelRun`, `DelClaims`
(deletions), `SplitList`, `SplitKeys`, `Split`, `SplitHist`,
`SplitTotal` (splits),
`SerialProofs`, `SerialClaims`, `HistClaims`, `Shrink`, `ShrinkTree`, `Space`, `SpaceTree`,
`SpaceClaims` (the memory of a filter), `WhKey`, `WhBits`, `WhMeta` (prefix table),
`WhLeaf`, `WhIndex`, `WhClaims` (the ordered index), `WhIntProofs`, `WhIntClaims` (the
integer index), `WhHashProofs`, `WhHashClaims` (its hash table), `WhSlotsProofs`,
`WhSlotsClaims`, `WhSortProofs` (the arrays of a leaf), `SlabProofs` (the allocator), `Claims`, `BlockClaims`, `Words`,
`BroadwordProofs`.

### Outcomes
`UB` is returned for an access outside an allocation, a read of uninitialised
data, a `delete[]` of memory that was not allocated by `new[]`, a dereference of an
invalid tree iterator, an out-of-range table index, and a stack array of 2^20 or
more words in a split (it does not fit the default stack of 8 MiB).  `Fuel` is
returned when a loop needs more rounds than its bound; where the C++ loop can run
forever the fuel is a parameter, and non-termination is stated as "`Fuel` for every
fuel".  A theorem that concludes `= Ok ...` therefore also says: no such access and
no endless loop.

### Two machines
`standard` (`c_strict = true`) is the letter of the C++ standard: no byte outside an
allocation, no shift by 64 or more.  `machine junk` (`c_strict = false`) is the
x86-64 execution the authors rely on: up to 8 bytes behind an allocation can be
read (and written back unchanged), shift counts are taken modulo 64; `junk` is what
those bytes contain and every theorem holds for all values of it.

## 2. What is not modelled (trusted)

* In the model of the filter (`Diva.v`) the tree is its sorted list of (key, store)
  pairs with `put`, `del`, `seek`, `peek`, `skip1`, `skip1_rev`.  For the byte-string
  index `wh.c` these functions are not assumptions: C38 proves that the model of
  `wh.c` gives the same answers.  What is left of `wh.c` to trust:
  reference counts, and that leaves and nodes are given back only when they are out of
  use (C43 proves that they then do not share memory).  In that model a leaf is the list of its pairs; C42 proves that the
  arrays `hs` and `ss` of the code (one byte of `ss` at a time: `simd_range`) are such a
  list, also when a leaf is split, sorted in place or merged with another; `qsort_r` of
  the C library is trusted to sort.  In that model the
  hash table from prefixes to nodes is a finite map whose 16-bit tag test may err in
  every way on absent prefixes; C41 proves that the code of the table is such a map as
  long as its calls return, and that they do not always return.  That the index only
  adds absent prefixes and only drops or replaces present nodes (`proper`), and that
  hashing a prefix byte by byte or several bytes at a time gives the same value, is
  read off the code.  References into the tree are copies plus a `put`.
* For the integer index `wh_int.c` C39 proves the same, for callers that look before
  they write (an iterator has shown a bound key before it is bound again or erased),
  but only until two of its leaves are merged: `wormleaf_merge` (wh_int.c:1860-1871)
  counts the sorted pairs twice and the next iterator sorts about 2^32 pairs
  (`C39_integer_index_refuted`).  So the theorems about deletions in the integer build
  speak of the filter with that line repaired (`C39_integer_index_repaired`) or with at
  most 32 boundaries.  That every call of diva.hpp is of this kind is read off the
  code: Insert, InsertSplit, Delete and DeleteMerge open an iterator at the key or
  its neighbour and rebind or erase only keys that it has shown.  The values in the
  leaves of `wh_int.c` are copied, as the model does; that an iterator hands out
  pointers into the leaf, which a later put would overwrite, is not modelled.
* locks, epochs (QSBR), threads: the filter is used from one thread.
* `malloc` failure, alignment of the deserialized `uint64_t` pointers, leaks.
* `std::mt19937`: an arbitrary Boolean per Insert.
* `bench/`, `examples/`, the test helpers, the code under `#ifdef DEBUG`.
* lengths are unbounded (`uint32_t` overflow of key lengths over 512 MB is left out).

## 3. Trusted base
* Coq 8.16.1's kernel, with its `vm_compute` (used for the tables, for the examples
  and for the witnesses of `Findings.v`).
* The reading of the C++ that the comments in the model files state.
* `Print Assumptions` prints "Closed under the global context" for every theorem of
  `Properties.v`, `MixProperties.v`, `IndexProperties.v`, `IntProperties.v`, `HashProperties.v`, `SlotProperties.v`, `SlabProperties.v` and `Findings.v`: no axiom is used.
* The development adds no axioms.  The checker lists seven constants of
  `Coq.ssr.ssrunder.Under_rel` as library axioms; they are the opaque fields of a
  module of Coq's own ssreflect library, which the standard library loads, and no
  theorem depends on them.
* No plugin beyond those of the standard library is loaded.

## 4. Hypotheses of the theorems, and why they are there

| hypothesis | meaning | what happens outside |
|---|---|---|
| `1 <= s <= 46` | infix size of the filter | larger sizes do not fit the 64-bit extraction |
| `loadable` | sorted, distinct keys, number of keys not 1 mod 1024 | the load hangs or loses a key (`C04_C05_load_refuted`, `C06_last_key_refuted`, `C05_padded_duplicates_refuted`) |
| `insertable`, `counters_free` | between the artificial end keys, fewer than 2^20 elements per block | the 20-bit counter overflows into the size grade |
| `apart` | a promoted key keeps a distance from the boundaries around it | shift overflow (`C15_C24_near_boundary_refuted`); automatic for short keys (`C01_C02_C24_short_keys_partial`) |
| `splittable` (only for "the split returns") | the cut is not the boundary below, and no part is so narrow that its elements expand to 2^20 or more | an endless loop (`C17_insert_refuted`), a stack overflow |
| keys of one length in split histories | | false negative (`C01_C24_strings_refuted`) |
| `uncrammed` | the used slots of the block do not end at its last slot in a certain pattern | live keys are lost (`C07_C01_delete_then_insert_refuted`) |
| no splits before a deletion that merges blocks (`steady`) | deletions that leave the boundaries alone may follow splits (`MixProperties.v`) | a live key is lost, at once (`C07_C25_delete_after_split_refuted`) or with the next deletion (`C07_C25_merge_after_split_refuted`) |
| the last seven bits in `reason` | positives after splits are explained up to the last seven bits of the keys | keys that were told apart become positive (`C40_split_adds_positives_refuted`) |
| `shrinkable` | every block is empty or has the default capacity | out-of-bounds write (`C08_shrink_refuted`) |
| `reached` (`deletable`, `counters_free`) | a deletion hits a non-empty block or an untruncated boundary; counters stay below 2^20 | 20-bit counters wrap around |
| `readable`, `keys_fit` | default load factor, keys up to 20000 bytes, below 4 GiB | `C09_load_factor_refuted`, `C09_long_boundary_refuted` |
| `usable` | keys of at most 65520 bytes in the index | a boundary is silently not stored (`C37_long_keys_refuted`) |
| calls on the hash table return (in C37) | | nine prefixes with one hash, or an unlucky pair of buckets, make the index run forever (`C41_equal_hashes_refuted`, `C41_round_moves_refuted`) |

## 5. Plan per property

Vocabulary: a *store* (block) has an abstract content, a list of non-zero integers
`x = implicit << s | explicit`, each marking a key prefix (all bits above the
lowest set bit).  A *valid* store is one whose bits represent such a content.

| id | plan |
|---|---|
| C01 | invariant over operation histories: every stored key is covered by the tree (boundary, partial boundary prefix, or an element of the right block whose prefix matches); point query is true on covered keys |
| C02 | same invariant; range query is true when it contains a covered key |
| C03 | refinement: `insert_raw` on a valid store gives a valid store whose content is the old one plus the element |
| C04, C05, C06 | the loaders establish the invariant; executions that hang or lose keys become `_refuted` theorems |
| C07 | store level: `delete_raw` removes exactly one element, the last one that covers the key, from a block that is not crammed (`StoreDelete.v`); filter level: the invariant `holds` ties the multiset of live keys to the blocks through insertions, deletions and merges (`DelRun.v`); with splits the elements of a block are no longer the infixes of its keys, but every key can be matched with an element of its own that covers it (`Match.v`, `Held.v`): splits keep the matching, and a deletion, which takes the most precise element that covers the key, can be repaired by swapping partners (`MixDel.v`, `MixHist.v`); the two ways to lose a key are refutations |
| C08, C35 | `shrink_store` maps the content by `cut`, which drops low bits and keeps what an element covers (`Shrink.v`, `ShrinkTree.v`); the bitmap is damaged for blocks that do not have the default capacity: refutation |
| C09 | round trip of bytes, then equality of the queries |
| C10 | equality of the two length computations; refutation for the integer build if they differ |
| C11 | both queries are characterised by the content, then compared |
| C12 | characterisation of range queries by intervals |
| C13 | characterisation of positives |
| C14 | content is a sorted list, hence independent of the insertion order |
| C15 | no `UB` in strict mode under an explicit bound, counterexample outside |
| C16 | counter and capacity invariant of `insert_raw` |
| C17 | no `Fuel`; total correctness of `insert_split` (`SplitTotal.v`); hang witnesses as refutations |
| C18 | bit-by-bit specification of the two shift loops |
| C19 | pdep select and the broadword `_select64` (byte table checked for all 256 x 8 entries) against `ones_below` |
| C20 | order isomorphism of 8-byte big-endian strings |
| C21 | evaluation of the tables with IEEE arithmetic plus general monotonicity lemmas |
| C22 | the two extraction formulas agree on 64-bit keys |
| C23 | `resize` keeps the content |
| C24 | `insert_split` keeps coverage, or refutation |
| C25 | `delete_merge`: the list transformation of `UpdateInfixListDelete` maps the infix of a key in the old interval to its infix in the merged one (`Merge.one_eq`), so the merged block holds the keys of both; refutation after splits |
| C26 | extraction is the integer of a key prefix minus a constant, hence monotone |
| C27 | arithmetic of `GetSharedIgnoreImplicitLengths` |
| C28 | bit algebra of the status word |
| C29 | ownership bit: `free_block` on a deserialized store is `UB` |
| C30 | C01/C02 with the random choice universally quantified |
| C31 | queries of a block characterised by its content (`StoreQuery.v`) |
| C32 | error analysis of the fixed-point scale tables |
| C33 | a block under insertions and deletions refines an ordered list (`BlockClaims.v`) |
| C34 | counting corollary of the characterisation of positives |
| C36 | partial correctness logic for the status word and the allocation size (`Space.v`), invariant `good` over all reachable filters (`SpaceTree.v`) |
| C37 | invariants of the prefix table (`WhMeta.hinv`: every prefix of every anchor has a node with its outermost leaves, the leaf before them and the set of next bytes) and of the leaves (`WhIndex.winv`); search, split and merge keep them; iterators stand at the least (greatest) key of an up-set (down-set) |
| C38 | both the index and the sorted list serve the same map, and the answers are unique |
| C39 | the leaves of the integer index keep the invariant of the other one; what is in view of the caller is in the sorted part of its leaf; part, because of the merge of leaves |
| C40 | reverse coverage: every element of the two halves of a split block covers only what its preimage covered or what cannot be told from the new key (`SplitList.v`, `Split.v` field `dn_back`); along a history by induction, relative to the boundaries of the loaded filter, whose resolution is never finer (`Explain.v`); part, because merging deletions are missing |
| C41 | the buckets as lists of nodes; the chain of moves that makes room is a function of bucket and depth, so a chain that ends does not come back to a bucket with the same depth; with the depths the code uses (1, 1, then 2) it does not come back to a bucket at all (`WhHashProofs.path_one`, `path_two`), and so moves every node once; part, because the calls do not always return |
| C42 | invariant of `hs`: tags ascend, and no empty slot lies between an entry and the slot its tag belongs to (`WhSlotsProofs.good`); `ss` lists the used slots once; every operation moves entries by an injection that is also applied to `ss` (`WhSlotsProofs.ok_moved`, `ok_renamed`); the merge in place keeps the array as done part, parts already read, and rest (`WhSortProofs.m2_left_ok`, `m2_right_ok`) |
| C43 | the free objects, the blocks in use and the spare blocks are linked lists in memory (`SlabProofs.lists`); the free objects and those in use are a permutation of the objects of the blocks in use, so no two overlap and no owner can write to a link |

## 6. How to read seeded/LOG.jsonl

Each line is one edit of a copy of the model and the rebuild that followed.
`theorems_failed` holds the lemmas at which the rebuild stopped.
`theorems_not_reached` holds the theorems of the claim, which come after these lemmas
and so were not checked.  A rebuild that stops shows that the proof no longer goes
through; it does not by itself show that the theorem is false of the edited model.
An edit with claim `none` breaks no property in the list, although a lemma about the
internals may fail.
For the edits of the allocator (C43) and of the portable select (C19) the field
`false_on_a_case` says whether evaluating the edited model on a few short histories or
words gave a case that contradicts the statements.  Where it is true, the statements
themselves are false of the edit, not only their proofs.  The histories are in
seeded/slab_histories.txt.
