{
 "claims": [
  {
   "property": "C01",
   "status": "partial",
   "theorems": [
    "C01_point_queries_never_miss_partial",
    "C01_point_queries_never_miss_with_splits_partial",
    "C01_C02_C24_short_keys_partial",
    "C01_C24_strings_refuted",
    "C07_deletes_lose_nothing_with_splits_partial"
   ],
   "note": "all bulk loads and insert histories without splits; with splits for keys of one length; splits of variable-length strings refuted; splits next to a boundary missing unless the keys are short (8*len+s <= 53)"
  },
  {
   "property": "C02",
   "status": "partial",
   "theorems": [
    "C02_range_queries_never_miss_partial",
    "C02_range_queries_never_miss_with_splits_partial",
    "C01_C02_C24_short_keys_partial",
    "C07_deletes_lose_nothing_with_splits_partial"
   ],
   "note": "as C01, both instantiations of RangeQuery"
  },
  {
   "property": "C03",
   "status": "proved",
   "theorems": [
    "C03_insert_keeps_content",
    "C03_insert_keeps_positives_partial"
   ],
   "note": "block content after any insertions is the old content plus the new elements; second theorem: whole filters"
  },
  {
   "property": "C04",
   "status": "partial",
   "theorems": [
    "C04_fixed_length_load_partial",
    "C04_C05_load_refuted"
   ],
   "note": "all key counts except 1 modulo 1024, where the code does not terminate (refuted)"
  },
  {
   "property": "C05",
   "status": "partial",
   "theorems": [
    "C05_string_load_partial",
    "C04_C05_load_refuted",
    "C05_padded_duplicates_refuted"
   ],
   "note": "as C04, strings that stay distinct under zero padding; the rest is refuted"
  },
  {
   "property": "C06",
   "status": "partial",
   "theorems": [
    "C06_streaming_load_partial",
    "C06_same_as_iterators_partial",
    "C06_last_key_refuted"
   ],
   "note": "as C04, for 1 modulo 1024 keys the last one is lost (refuted); otherwise the streamed filter is the one of the iterator-based loads, up to the length of the artificial lowest boundary for strings"
  },
  {
   "property": "C07",
   "status": "partial",
   "theorems": [
    "C07_deletes_lose_nothing_partial",
    "C07_deleted_keys_leave_no_trace_partial",
    "C07_only_net_effect_matters_partial",
    "C07_C01_delete_then_insert_refuted",
    "C07_C25_delete_after_split_refuted",
    "C07_deletes_lose_nothing_with_splits_partial",
    "C07_C17_delete_returns_with_splits_partial",
    "C07_C25_merge_after_split_refuted"
   ],
   "note": "Any history of insertions and deletions (boundaries included) after any loader: remaining keys are found, positives are explained by remaining keys, only the net effect matters. With splits in between, for keys of one length: remaining keys are found as long as no deletion merges two blocks. Crammed blocks are refuted (two live keys are lost), and so are merges behind a truncated boundary after splits (a live key is lost, the deleted one stays) and merges at a whole boundary followed by one more deletion (a live key is lost)."
  },
  {
   "property": "C08",
   "status": "partial",
   "theorems": [
    "C08_shrink_keeps_keys_partial",
    "C08_load_then_shrink_partial",
    "C08_shrink_after_splits_partial",
    "C08_shrink_refuted",
    "C08_shrink_after_mixed_partial"
   ],
   "note": "proved for filters whose blocks are empty or have the default capacity; refuted for others: out-of-bounds write"
  },
  {
   "property": "C09",
   "status": "partial",
   "theorems": [
    "C09_round_trip_partial",
    "C09_round_trip_with_splits_partial",
    "C09_load_factor_refuted",
    "C09_long_boundary_refuted",
    "C09_round_trip_after_deletes_partial",
    "C09_round_trip_mixed_partial"
   ],
   "note": "all histories of C01 and C07, default load factor, boundary keys up to 20000 bytes, below 4 GiB; the other load factors and longer keys are refuted"
  },
  {
   "property": "C10",
   "status": "partial",
   "theorems": [
    "C10_size_partial",
    "C10_size_with_splits_partial",
    "C10_integer_size_refuted",
    "C10_size_after_deletes_partial",
    "C10_size_mixed_partial"
   ],
   "note": "exact for the generic build; the integer build is exact without splits of 8-byte keys and otherwise too small by the padding (refuted)"
  },
  {
   "property": "C11",
   "status": "proved",
   "theorems": [
    "C11_point_is_one_key_range",
    "C11_point_is_one_key_range_with_splits",
    "C11_point_is_one_key_range_after_deletes",
    "C11_C22_queries_agree_mixed"
   ],
   "note": "every key, also outside the boundaries"
  },
  {
   "property": "C12",
   "status": "proved",
   "theorems": [
    "C12_range_answers_grow",
    "C12_range_answers_grow_with_splits",
    "C12_range_answers_grow_after_deletes",
    "C12_range_answers_grow_mixed"
   ],
   "note": "every pair of nested ranges"
  },
  {
   "property": "C13",
   "status": "proved",
   "theorems": [
    "C13_answers_explained"
   ],
   "note": "exact characterisation of answers between neighbouring boundaries"
  },
  {
   "property": "C14",
   "status": "proved",
   "theorems": [
    "C14_any_order"
   ],
   "note": ""
  },
  {
   "property": "C15",
   "status": "partial",
   "theorems": [
    "C15_C17_queries_return_partial",
    "C01_point_queries_never_miss_partial",
    "C15_slot_access_refuted",
    "C15_C24_near_boundary_refuted",
    "C15_C17_queries_return_after_deletes_partial",
    "C15_C17_queries_return_after_splits_partial",
    "C17_insert_returns_partial",
    "C07_deletes_lose_nothing_partial",
    "C15_C17_queries_return_mixed_partial",
    "C17_mixed_histories_return_partial"
   ],
   "note": "accesses stay within 8 bytes behind the block; strictly inside the block is refuted, and so are splits next to a boundary"
  },
  {
   "property": "C16",
   "status": "proved",
   "theorems": [
    "C03_insert_keeps_content"
   ],
   "note": "the insertion returns a block, counter exact, at most as many elements as slots"
  },
  {
   "property": "C17",
   "status": "partial",
   "theorems": [
    "C15_C17_queries_return_partial",
    "C01_point_queries_never_miss_partial",
    "C17_equal_keys_loop_forever_refuted",
    "C17_insert_refuted",
    "C15_C17_queries_return_after_deletes_partial",
    "C15_C17_queries_return_after_splits_partial",
    "C17_insert_returns_partial",
    "C17_growth_returns_partial",
    "C07_deletes_lose_nothing_partial",
    "C15_C17_queries_return_mixed_partial",
    "C17_mixed_histories_return_partial",
    "C07_C17_delete_returns_with_splits_partial"
   ],
   "note": "loads, insertions with and without splits, deletions, merges and queries return; a split whose cut falls on the boundary below does not (refuted), splits of strings of different lengths are missing"
  },
  {
   "property": "C18",
   "status": "proved",
   "theorems": [
    "C18_shift_right",
    "C18_shift_left"
   ],
   "note": ""
  },
  {
   "property": "C19",
   "status": "proved",
   "theorems": [
    "C19_rank",
    "C19_select",
    "C19_select_missing"
   ],
   "note": "rank, select with pdep and the portable broadword select"
  },
  {
   "property": "C20",
   "status": "proved",
   "theorems": [
    "C20_integer_order"
   ],
   "note": ""
  },
  {
   "property": "C21",
   "status": "proved",
   "theorems": [
    "C21_slot_tables"
   ],
   "note": ""
  },
  {
   "property": "C22",
   "status": "proved",
   "theorems": [
    "C22_builds_agree",
    "C22_builds_agree_with_splits",
    "C22_builds_agree_after_deletes",
    "C11_C22_queries_agree_mixed"
   ],
   "note": ""
  },
  {
   "property": "C23",
   "status": "proved",
   "theorems": [
    "C23_resize_keeps_content"
   ],
   "note": ""
  },
  {
   "property": "C24",
   "status": "partial",
   "theorems": [
    "C24_split_keeps_keys_partial",
    "C01_C02_C24_short_keys_partial",
    "C17_insert_returns_partial",
    "C01_C24_strings_refuted",
    "C15_C24_near_boundary_refuted"
   ],
   "note": "keys of one length, promoted keys not next to a boundary; refuted for strings and next to a boundary"
  },
  {
   "property": "C25",
   "status": "partial",
   "theorems": [
    "C25_merge_keeps_keys_partial",
    "C07_deletes_lose_nothing_partial",
    "C07_deleted_keys_leave_no_trace_partial",
    "C07_C25_delete_after_split_refuted",
    "C07_C25_merge_after_split_refuted"
   ],
   "note": "Merging in any filter reachable by load, insertions and deletions: returns, the boundaries lose exactly the deleted key, all other keys are found, positives are explained by keys that are left. After splits a truncated boundary is merged away although it stands for another key (refuted), and merged elements can end up out of order, so that the next deletion takes the wrong one (refuted). Missing: merged block of 2^20 elements or more."
  },
  {
   "property": "C26",
   "status": "proved",
   "theorems": [
    "C26_monotone_mapping"
   ],
   "note": ""
  },
  {
   "property": "C27",
   "status": "proved",
   "theorems": [
    "C27_interval_size"
   ],
   "note": ""
  },
  {
   "property": "C28",
   "status": "proved",
   "theorems": [
    "C28_fields_apart"
   ],
   "note": ""
  },
  {
   "property": "C29",
   "status": "partial",
   "theorems": [
    "C29_built_filters_can_be_destroyed_partial",
    "C29_destroy_refuted",
    "C29_can_be_destroyed_after_deletes_partial",
    "C29_can_be_destroyed_mixed_partial"
   ],
   "note": "true for filters that were built, refuted for every filter that was read from a buffer"
  },
  {
   "property": "C30",
   "status": "partial",
   "theorems": [
    "C30_any_random_outcome_partial",
    "C17_growth_returns_partial",
    "C01_point_queries_never_miss_partial"
   ],
   "note": "keys of one length, promoted keys not next to a boundary"
  },
  {
   "property": "C31",
   "status": "proved",
   "theorems": [
    "C31_block_answers"
   ],
   "note": ""
  },
  {
   "property": "C32",
   "status": "proved",
   "theorems": [
    "C32_even_spread"
   ],
   "note": ""
  },
  {
   "property": "C33",
   "status": "partial",
   "theorems": [
    "C33_block_is_an_ordered_list_partial",
    "C07_C01_delete_then_insert_refuted"
   ],
   "note": "every sequence of insertions and deletions, except deletions from crammed blocks (refuted)"
  },
  {
   "property": "C34",
   "status": "partial",
   "theorems": [
    "C34_few_positives_partial"
   ],
   "note": "histories of loads, insertions and deletions; for splits see C40"
  },
  {
   "property": "C35",
   "status": "partial",
   "theorems": [
    "C35_shrunk_like_narrow_partial",
    "C08_shrink_refuted"
   ],
   "note": "filters whose blocks are empty or have the default capacity"
  },
  {
   "property": "C36",
   "status": "proved",
   "theorems": [
    "C36_block_space",
    "C36_filter_space",
    "C36_space_of_load",
    "C36_space_of_history"
   ],
   "note": "all operations, as long as no 20-bit element counter overflows and nothing is deleted from an empty block"
  },
  {
   "property": "C37",
   "status": "proved",
   "theorems": [
    "C37_index_is_an_ordered_map",
    "C37_answers_unique",
    "C37_long_keys_refuted"
   ],
   "note": "model of wh.c, one thread, as long as the calls on its hash table return (C41); keys of at most 65520 bytes (longer ones can be dropped: refuted); the integer copy wh_int.c is C39"
  },
  {
   "property": "C38",
   "status": "proved",
   "theorems": [
    "C38_index_is_the_sorted_list"
   ],
   "note": ""
  },
  {
   "property": "C39",
   "status": "partial",
   "theorems": [
    "C39_integer_index_partial",
    "C39_is_the_sorted_list_partial",
    "C39_integer_index_repaired",
    "C39_integer_index_refuted",
    "C39_unordered_calls_refuted"
   ],
   "note": "proved while at most 32 keys are bound or nothing is erased; beyond that refuted: merging two leaves counts the sorted pairs twice (wh_int.c:1860-1871); with that repaired, proved without limit; callers that do not look first: refuted"
  },
  {
   "property": "C40",
   "status": "partial",
   "theorems": [
    "C40_answers_explained_mixed_partial",
    "C40_few_positives_mixed_partial",
    "C40_split_adds_positives_refuted"
   ],
   "note": "deletions that merge blocks missing; the last seven bits of the keys have to be left out, because the boundary of a repeated key covers up to 127 neighbours where blocks are finer than keys (refuted otherwise)"
  },
  {
   "property": "C41",
   "status": "partial",
   "theorems": [
    "C41_table_is_a_map_partial",
    "C41_no_UB",
    "C41_calls_return_partial",
    "C41_equal_hashes_refuted",
    "C41_round_moves_refuted"
   ],
   "note": "every hash function, every proper sequence of calls; that the calls return is proved only while every new prefix finds room in its first bucket, and refuted in general"
  },
  {
   "property": "C42",
   "status": "proved",
   "theorems": [
    "C42_leaf_is_a_map",
    "C42_leaf_with_crc32c",
    "C42_split_leaf",
    "C42_merge_leaves",
    "C42_sort_leaf"
   ],
   "note": "for every tag function; the arrays agree with the list of pairs of the index model"
  },
  {
   "property": "C43",
   "status": "proved",
   "theorems": [
    "C43_objects_apart",
    "C43_objects_kept",
    "C43_alloc_answers",
    "C43_reserve",
    "C43_counts"
   ],
   "note": "for one thread at a time; the operating system is trusted to give blocks that do not overlap"
  }
 ]
}