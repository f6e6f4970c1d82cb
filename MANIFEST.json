{
 "claims": [
  {
   "property": "C01",
   "status": "proved",
   "theorems": [
    "C01_any",
    "C01_any_desc",
    "C01_array_any",
    "C01_array_len_any",
    "C01_runes_desc",
    "C01_comparators_ok"
   ],
   "note": ""
  },
  {
   "property": "C02",
   "status": "partial",
   "theorems": [
    "C02_any_ex",
    "C02_array_any_ex_partial",
    "C02_array_any_ex_refuted",
    "C02_array_any_ex_mixed_mirrored"
   ],
   "note": "AnyEx proved in full. For ArrayAnyEx the full statement is false: C02_array_any_ex_refuted shows it decides no strict total order; the same-length half is proved."
  },
  {
   "property": "C03",
   "status": "proved",
   "theorems": [
    "C03_heap_refines_bag"
   ],
   "note": ""
  },
  {
   "property": "C04",
   "status": "proved",
   "theorems": [
    "C04_heap_sort"
   ],
   "note": ""
  },
  {
   "property": "C05",
   "status": "proved",
   "theorems": [
    "C05_array_stack"
   ],
   "note": ""
  },
  {
   "property": "C06",
   "status": "proved",
   "theorems": [
    "C06_list_stack"
   ],
   "note": ""
  },
  {
   "property": "C07",
   "status": "proved",
   "theorems": [
    "C07_segmented_stack",
    "C07_segmented_stack_with_cap"
   ],
   "note": ""
  },
  {
   "property": "C08",
   "status": "partial",
   "theorems": [
    "C08_capacity_zero_refuted",
    "C08_capacity_partial"
   ],
   "note": "The statement is false of the code at capacity 0 (C08_capacity_zero_refuted); every positive capacity is proved to work."
  },
  {
   "property": "C09",
   "status": "proved",
   "theorems": [
    "C09_arrayqueue_is_deque",
    "C09_arrayqueue_ends"
   ],
   "note": ""
  },
  {
   "property": "C10",
   "status": "partial",
   "theorems": [
    "C10_negative_index_refuted",
    "C10_index_past_end_partial",
    "C10_empty_ends_partial"
   ],
   "note": "False for negative indexes: Index(-1) can return an element popped earlier (C10_negative_index_refuted). Proved: Index at or past the size panics, and Front/Back of an empty queue return the zero value."
  },
  {
   "property": "C11",
   "status": "proved",
   "theorems": [
    "C11_listqueue_is_deque"
   ],
   "note": ""
  },
  {
   "property": "C12",
   "status": "proved",
   "theorems": [
    "C12_arraylist_sequence",
    "C12_arraylist_no_oom_growing",
    "C12_arraylist_no_oom_short",
    "C12_arraylist_set_out_of_range"
   ],
   "note": "Stated with an explicit allocation limit: answers are exact until an allocation may fail; two further theorems bound when that can happen."
  },
  {
   "property": "C13",
   "status": "proved",
   "theorems": [
    "C13_arraylist_iterator",
    "C13_arraylist_circular"
   ],
   "note": ""
  },
  {
   "property": "C14",
   "status": "partial",
   "theorems": [
    "C14_remove_at_ends_refuted",
    "C14_remove_partial",
    "C14_set_swap_partial"
   ],
   "note": "False at the ends of the list (C14_remove_at_ends_refuted): RemoveToNext on the last element steps an ordinary iterator back and leaves a circular one invalid on a non-empty list; mirror image for RemoveToPrev. Proved: exactly the current element is removed at every position, with the exact resulting iterator position; SetValue and Swap are sequence edits."
  },
  {
   "property": "C15",
   "status": "partial",
   "theorems": [
    "C15_arraylist_contains_partial",
    "C15_arraylist_plain_refuted",
    "C15_linkedlist_contains_partial",
    "C15_linkedlist_plain_refuted"
   ],
   "note": "Proved for comparators of the Ex convention (array list and linked list); refuted for the plain comparators (C15_arraylist_plain_refuted, C15_linkedlist_plain_refuted)."
  },
  {
   "property": "C16",
   "status": "proved",
   "theorems": [
    "C16_linkedlist_sequence",
    "C16_linkedlist_chains"
   ],
   "note": "All operation sequences; the chain theorem gives the node names from head to tail, linked both ways."
  },
  {
   "property": "C17",
   "status": "proved",
   "theorems": [
    "C17_iterators_are_cursors",
    "C17_iterators_keep_chains"
   ],
   "note": "Any interleaving of list operations and actions of any number of iterators of both kinds, as long as no iterator is used whose cell was removed (c_spec is then undefined)."
  },
  {
   "property": "C18",
   "status": "proved",
   "theorems": [
    "C18_hashmap_is_finite_map",
    "C18_hashmap_other_keys",
    "C18_hashset_is_finite_set"
   ],
   "note": ""
  },
  {
   "property": "C19",
   "status": "proved",
   "theorems": [
    "C19_linkedhashmap_association_list",
    "C19_linkedhashmap_index_agrees"
   ],
   "note": ""
  },
  {
   "property": "C20",
   "status": "proved",
   "theorems": [
    "C20_avl_sorted_map",
    "C20_avl_answers_right",
    "C20_avl_strictly_increasing"
   ],
   "note": "Every answer of every call sequence equals that of a sorted map, for every weak order on keys, every threshold 1..127. Assumes the tree never exceeds 126 levels (int8 heights); without that bound, answers that are given are still right (C20_avl_answers_right). Size is modelled as nat."
  },
  {
   "property": "C21",
   "status": "proved",
   "theorems": [
    "C21_avl_heights_exact",
    "C21_int8_overflow_refuted"
   ],
   "note": "Proved for trees of at most 126 levels; beyond that the int8 heights overflow, which C21_int8_overflow_refuted exhibits with NewEx(cmp,127)."
  },
  {
   "property": "C22",
   "status": "partial",
   "theorems": [
    "C22_threshold_balanced_partial",
    "C22_threshold_two_is_avl_partial",
    "C22_avl_balance_refuted",
    "C22_avl_balance_insert_only_refuted"
   ],
   "note": "False for avl.New (threshold 1): witnesses with and without removals. Proved instead: with threshold d>=2 (NewEx) imbalance stays below d, and with d=2 the tree is a genuine AVL tree of logarithmic height. Missing: nothing can be proved for New as stated; no weaker bound for threshold 1 is proved."
  },
  {
   "property": "C23",
   "status": "proved",
   "theorems": [
    "C23_avl_iterator",
    "C23_treeset_iterator",
    "C23_full_walk"
   ],
   "note": "Iterators of tree/avl (trees of at most 126 levels) and set/treeset on an unmodified tree behave like a cursor over the sorted entries for every sequence of calls; C23_full_walk says what that means for a full walk."
  },
  {
   "property": "C24",
   "status": "proved",
   "theorems": [
    "C24_avls_stable_multimap",
    "C24_avls_answers_right",
    "C24_insert_is_stable",
    "C24_remove_takes_the_oldest"
   ],
   "note": "All call sequences of fewer than 2^64 calls on New() trees; for NewEx with any threshold, every answer that is given is right. Two theorems spell out what the specification means: inserting is stable and removing takes the oldest entry."
  },
  {
   "property": "C25",
   "status": "proved",
   "theorems": [
    "C25_avls_balanced"
   ],
   "note": "New() (threshold 2), all call sequences of fewer than 2^64 calls; the height bound is stated with Fibonacci numbers."
  },
  {
   "property": "C26",
   "status": "proved",
   "theorems": [
    "C26_avls_iterator"
   ],
   "note": "All trees of C24, all sequences of iterator calls, iterator used on an unmodified tree."
  },
  {
   "property": "C27",
   "status": "proved",
   "theorems": [
    "C27_treeset_sorted_map",
    "C27_treeset_strictly_increasing"
   ],
   "note": "For fewer than 2^64 calls (so that the size stays a uint)."
  },
  {
   "property": "C28",
   "status": "proved",
   "theorems": [
    "C28_treeset_balanced"
   ],
   "note": "For fewer than 2^64 calls; includes the logarithmic height bound."
  },
  {
   "property": "C29",
   "status": "partial",
   "theorems": [
    "C29_treeset_algebra",
    "C29_self_difference_refuted"
   ],
   "note": "Proved for two different sets under any mixture of calls. False when the argument is the receiver itself: a.Difference(a) leaves {3,4} of {1,2,3,4} (heap-level model with node identities)."
  },
  {
   "property": "C30",
   "status": "partial",
   "theorems": [
    "C30_indextree_sorted_map_partial",
    "C30_indextree_content",
    "C30_set_on_empty_refuted",
    "C30_delete_nil_refuted"
   ],
   "note": "All answers of all operation sequences, for any weak order and any rotation threshold, except: Set on an empty tree answers true (refuted), Delete of a key whose value is nil answers (nil,false) although it removes it (refuted). The contents are right in all cases; only a TrimByIndex that panics half way is excluded."
  },
  {
   "property": "C31",
   "status": "partial",
   "theorems": [
    "C31_sizes_exact_partial",
    "C31_index",
    "C31_index_of",
    "C31_remove_index",
    "C31_sizes_exact_refuted"
   ],
   "note": "Index, IndexOf, RemoveIndex and the stored sizes proved after every operation sequence without a TrimByIndex whose lower bound is inside and upper bound outside; that call panics and leaves wrong sizes (refuted)."
  },
  {
   "property": "C32",
   "status": "partial",
   "theorems": [
    "C32_remove_range",
    "C32_remove_range_by_index",
    "C32_trim",
    "C32_trim_by_index_partial",
    "C32_trim_by_index_refuted"
   ],
   "note": "RemoveRange, RemoveRangeByIndex and Trim for all bounds; TrimByIndex for bounds inside the tree; a TrimByIndex that panics on its upper bound has already dropped entries (refuted)."
  },
  {
   "property": "C33",
   "status": "partial",
   "theorems": [
    "C33_split_partial",
    "C33_split_empty_refuted"
   ],
   "note": "Split and SplitContain proved for every non-empty tree; on an empty tree no tree is returned (refuted)."
  },
  {
   "property": "C34",
   "status": "partial",
   "theorems": [
    "C34_indextree_iterator_partial",
    "C34_small_tree_iterator_partial",
    "C34_seek_gt_refuted",
    "C34_seek_gt_panics_refuted",
    "C34_seek_lt_refuted",
    "C34_rank_after_seek_refuted",
    "C34_next_after_seek_by_index_refuted",
    "C34_rank_beyond_end_refuted",
    "C34_deep_tree_refuted",
    "C34_deep_default_tree_refuted"
   ],
   "note": "On trees of at most 128 levels (in particular of at most 128 entries): SeekToFirst/Last, Next/Prev, SeekGE/SeekLE, SeekByIndex, Clone, Key/Value/Valid and Index behave as a cursor that knows its rank, for all call sequences that do not move after SeekByIndex or ask for the rank after an inexact seek or after moving beyond an end twice. Refuted: SeekGT/SeekLT, moving after SeekByIndex, rank after an inexact seek, rank drifting beyond the ends, deeper trees (int8 stack index): 130 insertions with tolerance 0, 514 with the default."
  },
  {
   "property": "C35",
   "status": "partial",
   "theorems": [
    "C35_ordered_map_partial",
    "C35_content",
    "C35_concrete_values_partial",
    "C35_iterator_partial",
    "C35_get_nil_refuted",
    "C35_remove_nil_refuted",
    "C35_delete_nil_refuted",
    "C35_values_nil_refuted",
    "C35_remove_index_nil_refuted",
    "C35_set_on_empty_refuted"
   ],
   "note": "Every answer is that of the sorted list of entries, for all sequences, where no nil value is handed out and Set is not called on an empty map; the content is right for all sequences without restriction. Refuted otherwise: Get, Index, Values and RemoveIndex panic on a nil value, Remove and Delete report it absent, Set on an empty map reports a replacement. The iterator is the index tree's (C34)."
  },
  {
   "property": "C36",
   "status": "partial",
   "theorems": [
    "C36_tree_list_partial",
    "C36_small_tree_list_partial",
    "C36_thread_partial",
    "C36_put_panics_refuted",
    "C36_size_after_panics_refuted"
   ],
   "note": "All operation sequences and orders, the thread included, except: a TrimByIndex that starts inside and ends beyond the last entry, Head/Tail of a list emptied by Trim (both refuted under C37), and a Put into a tree of more than 63 levels, which panics. Such trees are reached: the 251st Put of a sequence of distinct keys panics with the entry inserted (C36_put_panics_refuted), and after 258 of them Size is wrong (C36_size_after_panics_refuted). With at most 63 entries no Put fails."
  },
  {
   "property": "C37",
   "status": "partial",
   "theorems": [
    "C37_remove_range_partial",
    "C37_remove_range_reversed_partial",
    "C37_remove_range_by_index_partial",
    "C37_trim_partial",
    "C37_trim_by_index_partial",
    "C37_trim_to_empty_refuted",
    "C37_trim_by_index_refuted"
   ],
   "note": "RemoveRange, RemoveRangeByIndex, Trim and TrimByIndex proved for all reached lists and bounds, with thread, ends and sizes; refuted: Trim to nothing leaves stale ends, TrimByIndex past the end panics half done."
  },
  {
   "property": "C38",
   "status": "partial",
   "theorems": [
    "C38_set_operations_partial",
    "C38_stale_refuted"
   ],
   "note": "All pairs of reached tree lists, values of common keys from the receiver, result threaded and usable; excluded: lists emptied by Trim, whose stale ends are followed (C38_stale_refuted)."
  },
  {
   "property": "C39",
   "status": "partial",
   "theorems": [
    "C39_iterator_partial",
    "C39_range_iterator_partial",
    "C39_empty_refuted",
    "C39_trimmed_refuted",
    "C39_prev_refuted",
    "C39_unset_range_refuted"
   ],
   "note": "All call sequences of iterators and all ranges on lists reached by any calls. Refuted: seeks and ranges on the empty tree panic, a list emptied by Trim still yields Valid iterators, a panicking Prev moves the index, Range on an unset range iterator dereferences nil. Depends on the C36 exclusions."
  },
  {
   "property": "C40",
   "status": "partial",
   "theorems": [
    "C40_stable_queue_partial",
    "C40_stable_queue_without_remove_index"
   ],
   "note": "Every call sequence, any weak order, any Ex comparator for it: all answers are those of the sorted sequence with equal keys in insertion order (C40_stable_queue_without_remove_index has no further condition). C40_stable_queue_partial also allows RemoveIndex, but only with positions inside the queue (or on a queue of at most one entry): a RemoveIndex outside corrupts the sizes, see C41."
  },
  {
   "property": "C41",
   "status": "partial",
   "theorems": [
    "C41_positions_partial",
    "C41_remove_index_outside_partial",
    "C41_remove_index_outside_refuted",
    "C41_hang_refuted"
   ],
   "note": "Index (with its negative positions) and RemoveIndex address the i-th entry, stored sizes are exact after every sequence whose RemoveIndex calls are in range; an out-of-range RemoveIndex panics and leaves the entries and their order alone. False in general: it counts sizes down before it panics (C41_remove_index_outside_refuted), and repeated it makes PopHead report an empty queue and Remove loop for ever (C41_hang_refuted)."
  },
  {
   "property": "C42",
   "status": "partial",
   "theorems": [
    "C42_gets_partial",
    "C42_gets_order_refuted"
   ],
   "note": "Gets returns the values of exactly the entries with the key (a permutation of them). The order claim is false: three Puts of one key come back second, first, third (C42_gets_order_refuted)."
  },
  {
   "property": "C43",
   "status": "partial",
   "theorems": [
    "C43_iterator_partial",
    "C43_small_queue",
    "C43_deep_refuted"
   ],
   "note": "If the tree has at most as many levels as newIterator makes stack cells, the iterator is a cursor over the sorted entries for all call sequences that seek only for keys held at most once; this covers every queue of at most four entries (C43_small_queue). False in general: after seven Puts the usual loop panics (C43_deep_refuted)."
  },
  {
   "property": "C44",
   "status": "proved",
   "theorems": [
    "C44_bloom_exact",
    "C44_no_false_negatives",
    "C44_hit_counter"
   ],
   "note": "All sizes 1..2^64-8, all sequences of calls with encodable keys; New(0) is outside (example new_zero_panics)."
  },
  {
   "property": "C45",
   "status": "partial",
   "theorems": [
    "C45_roundtrip_refuted",
    "C45_counters_only_partial"
   ],
   "note": "Refuted (C45_roundtrip_refuted): Decode and NewByDecode never read the bit array, so the decoded filter panics at its first query; only the two counters survive (C45_counters_only_partial)."
  },
  {
   "property": "C46",
   "status": "proved",
   "theorems": [
    "C46_search_decides",
    "C46_default_cost",
    "C46_free_tile_refuted"
   ],
   "note": "Fresh or cleared grids built by New or NewWithTiles and changed by SetAttr, SetStringTiles, SetTarget, SetNeighbor; any CountWeight, any CountCost that grows on the attributes of the free tiles (the default one on all: C46_default_cost; the one of astar_extend_test.go: my_grows), both neighbourhoods and every other whose moves can be taken back; start and end count as free. With a cost that charges nothing for some tile, outside the statement, Search need not return: C46_free_tile_refuted. Without Clear in between a second search fails (ex_C46_no_clear)."
  },
  {
   "property": "C47",
   "status": "partial",
   "theorems": [
    "C47_shortest_partial",
    "C47_by_cost",
    "C47_shortest_refuted"
   ],
   "note": "Proved for grids whose rectangle between start and end is free (C47_shortest_partial); refuted in general: C47_shortest_refuted is a 5x5 grid where Search takes ten moves and eight are enough. If the weight is minus the cost, Search takes a shortest path on every grid, in both neighbourhoods and every other whose moves can be taken back (C47_by_cost)."
  },
  {
   "property": "C48",
   "status": "partial",
   "theorems": [
    "C48_multi_paths_partial",
    "C48_end_twice_refuted"
   ],
   "note": "Refuted as stated: every path begins with the end tile twice (C48_end_twice_refuted). Proved, for any weight and any cost that grows: without that first entry each path is a simple path from end to start, and GetSteps is one more than its moves. sort.Sort is any permutation."
  },
  {
   "property": "C49",
   "status": "proved",
   "theorems": [
    "C49_sorted_map",
    "C49_levels"
   ],
   "note": "Every answer of every sequence of calls, for any weak order, any comparator whose sign follows it, any maximum level and any outcome of the random levels; C49_levels gives the chain of every level as a subsequence of the one below."
  },
  {
   "property": "C50",
   "status": "proved",
   "theorems": [
    "C50_positions",
    "C50_clamped"
   ],
   "note": "Index, IndexOf, RemoveIndex, RemoveRange, RemoveRangeByIndex, Trim and TrimByIndex for every reached list and all arguments, out-of-range indexes included."
  },
  {
   "property": "C51",
   "status": "proved",
   "theorems": [
    "C51_intersection_difference",
    "C51_union"
   ],
   "note": "All pairs of reached lists that share a comparator. Values of common keys: see the theorems. Aliased arguments deadlock (C54)."
  },
  {
   "property": "C52",
   "status": "partial",
   "theorems": [
    "C52_cursor_partial",
    "C52_index_partial",
    "C52_index_refuted"
   ],
   "note": "All seeks and moves are those of a cursor over the sorted entries (C52_cursor_partial). Index() is the rank for walks of the kind described by all_steady (C52_index_partial); after other seeks it is wrong (C52_index_refuted)."
  },
  {
   "property": "C53",
   "status": "partial",
   "theorems": [
    "C53_atomic_partial",
    "C53_coarse_partial",
    "C53_remove_head_refuted",
    "C53_remove_head_nil_refuted",
    "C53_difference_refuted"
   ],
   "note": "Proved for all calls but RemoveHead and DifferenceSets, any number of goroutines and lists, any schedule, any decomposition of the calls into steps under their locks. False for RemoveHead (panics, nil from a list never empty) and DifferenceSets (result that fits no moment). Iterators used while others write are not modelled."
  },
  {
   "property": "C54",
   "status": "partial",
   "theorems": [
    "C54_ordered_partial",
    "C54_upwards_partial",
    "C54_self_refuted",
    "C54_crossed_refuted"
   ],
   "note": "Proved when the arguments of Intersection and UnionSets rank above their receivers; false for a list with itself and for two or three lists in a ring."
  },
  {
   "property": "C55",
   "status": "partial",
   "theorems": [
    "C55_memory_refuted"
   ],
   "note": "False of the code: C55_memory_refuted shows that for every memory limit some sequence of PopBack/PushFront calls holding at most 19 elements runs out of memory."
  },
  {
   "property": "C56",
   "status": "partial",
   "theorems": [
    "C56_seeks_partial",
    "C56_duplicates_refuted"
   ],
   "note": "With at most as many levels as stack cells: exact cursor for keys held at most once (C43_iterator_partial); for repeated keys the booleans are exact and a seek stops at one of the equal entries, or next to one for the strict seeks (C56_seeks_partial). That it is the right one is false (C56_duplicates_refuted)."
  },
  {
   "property": "C57",
   "status": "partial",
   "theorems": [
    "C57_clear_restores_partial",
    "C57_search_again_partial",
    "C57_same_tile_refuted",
    "C57_retarget_refuted",
    "C57_no_target_refuted"
   ],
   "note": "Proved for start different from end, grids without start/end/path attributes, and no SetTarget between search and Clear; each of the excluded cases is refuted (C57_same_tile_refuted, C57_retarget_refuted, C57_no_target_refuted)."
  },
  {
   "property": "C58",
   "status": "partial",
   "theorems": [
    "C58_new_with_tiles",
    "C58_set_string_tiles",
    "C58_both_ways_partial",
    "C58_long_line_refuted",
    "C58_blank_line_refuted"
   ],
   "note": "Proved for lines of less than 4096 bytes. Refuted: a longer line is split into rows (bufio buffer); SetStringTiles counts lines of blanks as rows, NewWithTiles does not, so the two agree only without such lines, form feeds and returns (C58_both_ways_partial)."
  },
  {
   "property": "C59",
   "status": "partial",
   "theorems": [
    "C59_tiles",
    "C59_tiles_with_target",
    "C59_path_tiles",
    "C59_single_path_tiles",
    "C59_found_path",
    "C59_read_again_partial",
    "C59_read_target_again_partial",
    "C59_wide_refuted"
   ],
   "note": "Printing proved in full. Reading a printed grid again: proved up to 4095 columns (visible attributes other than '*', 's', 'e'); refuted for 4097 columns."
  },
  {
   "property": "C60",
   "status": "partial",
   "theorems": [
    "C60_index_tree_linear_refuted",
    "C60_index_tree_refuted",
    "C60_queue_linear_refuted",
    "C60_tree_list_refuted"
   ],
   "note": "False, so only refutations: an index tree with the default tolerance gets more than n/4 levels from n insertions of distinct keys, for every n of the form 4m+6, hence no multiple of log n bounds them (C60_index_tree_refuted); a priority queue gets n/2 levels from Puts of 1,0,3,2,5,4,... for every even n below 2^61; 246 Puts make 63 levels in a tree list. No positive bound is proved."
  },
  {
   "property": "C61",
   "status": "partial",
   "theorems": [
    "C61_indextree_partial",
    "C61_ordered_map",
    "C61_treelist_partial",
    "C61_set_operations_partial",
    "C61_range_refuted",
    "C61_treelist_range_refuted"
   ],
   "note": "False for RemoveRange and Trim: getRangeRoot compares two answers of the comparator with each other, so with a - b RemoveRange(20,30) removes 10 and Trim(20,30) keeps it (index tree and tree list). Proved for every other call: index tree, ordered map (which has no key ranges), tree list and its set operations."
  },
  {
   "property": "C62",
   "status": "partial",
   "theorems": [
    "C62_numbers_partial",
    "C62_indextree_partial",
    "C62_nan_refuted",
    "C62_tree_nan_refuted",
    "C62_hash_nan_refuted"
   ],
   "note": "Proved for all floats but NaN (finite, infinite, both zeros; floats are modelled as signed rationals and infinities, so every float32/float64 is one of them). With NaN refuted: no order fits Any or AnyEx (C62_nan_refuted); after putting NaN a tree refuses 1, answers for it and removes NaN in its stead (C62_tree_nan_refuted); hash maps never find NaN again and cannot remove it (C62_hash_nan_refuted)."
  },
  {
   "property": "C63",
   "status": "partial",
   "theorems": [
    "C63_nodes_do_what_trees_do",
    "C63_nodes_sorted_map_partial",
    "C63_nodes_well_linked_partial",
    "C63_nodes_well_linked_refuted"
   ],
   "note": "Proved for every sequence of calls without a TrimByIndex that panics half way (trims_in_range): the heap-level model, which follows the code assignment by assignment, answers exactly what the tree model and, where C30 holds, the sorted list of entries answers; all links and sizes are right and the package's own check goes through. Refuted after a TrimByIndex whose upper bound is beyond the end: it leaves a wrong size."
  },
  {
   "property": "C64",
   "status": "partial",
   "theorems": [
    "C64_trees_apart_partial",
    "C64_trees_sorted_maps_partial",
    "C64_other_trees_untouched_partial",
    "C64_no_shared_nodes_partial"
   ],
   "note": "Proved for every interleaving of New, Split and all other calls on any number of trees in one memory, as long as no TrimByIndex panics half way: the trees answer as trees each in a memory of its own and, where C30 holds, as sorted lists; no node is in two trees, all are well linked, and no call (also one that fails half way) changes a node of another tree. Not covered: what follows a TrimByIndex that failed half way."
  },
  {
   "property": "C65",
   "status": "partial",
   "theorems": [
    "C65_experiment_stats",
    "C65_stats_right",
    "C65_avl_stats",
    "C65_index_stats_partial"
   ],
   "note": "C65_stats_right holds for every tree of any shape. The agreement with Height() and Size() is proved for tree/avl (C65_avl_stats, trees of at most 126 levels), for experiment.Tree with any comparison function (C65_experiment_stats) and, as to Size(), for tree/indextree (C65_index_stats_partial, without TrimByIndex calls that fail half-way). The rotation counters are C81, those of the experiment trees C82, as is the agreement of the reported height with Height() for the ShiftToleranceTree. Missing: the rounding of AvgDepth."
  },
  {
   "property": "C66",
   "status": "partial",
   "theorems": [
    "C66_insertions_sorted_partial",
    "C66_not_found_refuted",
    "C66_wrong_key_refuted",
    "C66_direction_refuted"
   ],
   "note": "False as stated: Get, Upsert and Remove do not find the only key there is (C66_not_found_refuted, for every order, comparator, threshold and key), find other keys instead (C66_wrong_key_refuted), and with a direction comparator, which they would need, Put refuses smaller new keys and takes the same key twice (C66_direction_refuted). What holds: all other calls answer as a map sorted from the greatest key down (C66_insertions_sorted_partial). The node fields Size and Parent are C83, iterators and what holds of all calls C84."
  },
  {
   "property": "C67",
   "status": "partial",
   "theorems": [
    "C67_growing_sorted_partial",
    "C67_get_refuted",
    "C67_negative_shift_refuted",
    "C67_height_refuted"
   ],
   "note": "False as stated: Get does not find the only key and finds absent greater ones (C67_get_refuted), Height() is -128 after 128 increasing keys with shift 0 (C67_height_refuted), a negative shift panics (C67_negative_shift_refuted). What holds, for every shift that is not negative: Put and Size answer as a growing sorted map, all node fields are right and Height() is the height up to 127 levels (C67_growing_sorted_partial)."
  },
  {
   "property": "C68",
   "status": "proved",
   "theorems": [
    "C68_avl_calls_complete",
    "C68_avls_calls_complete",
    "C68_avl_comparisons",
    "C68_treeset_comparisons",
    "C68_avls_comparisons",
    "C68_heap_calls_complete",
    "C68_heap_comparisons"
   ],
   "note": "The list of questions is written beside each walk (CostModel.v); the _complete theorems prove nothing else is asked, for any comparator and state. How often a listed question is asked is read off the code: the theorems count the list. avl.New itself has height difference 1, for which no logarithmic height is proved (C22). indextree, treelist and priority_queue have no such bound (C60)."
  },
  {
   "property": "C69",
   "status": "partial",
   "theorems": [
    "C69_by_cost_partial",
    "C69_missing_refuted",
    "C69_lengths_refuted"
   ],
   "note": "Proved for the weight minus the cost, on every grid and in both neighbourhoods and every other whose moves can be taken back (C69_by_cost_partial). Refuted for the default weight: one of ten shortest paths of an open 4x3 grid is missing (C69_missing_refuted), and with eight neighbours two paths of different length are listed (C69_lengths_refuted)."
  },
  {
   "property": "C70",
   "status": "partial",
   "theorems": [
    "C70_nodes_do_what_trees_do",
    "C70_next_call_too",
    "C70_nodes_sorted_map_partial",
    "C70_nodes_well_linked_partial",
    "C70_nodes_threaded_partial",
    "C70_small_sorted_map_partial",
    "C70_head_after_trim_refuted",
    "C70_nodes_well_linked_refuted"
   ],
   "note": "Proved: the pointer code gives the answers of TreelistModel.v for all runs in which no Put panics and no TrimByIndex stops half way (C70_nodes_do_what_trees_do), also for the call after such a run whatever it is (C70_next_call_too); those of a sorted map (C70_nodes_sorted_map_partial, C70_small_sorted_map_partial without a condition on Puts); nodes well linked, sizes right, the package's check goes through; Direct pointers run through exactly the nodes in order. Refuted: Head and Tail after a Trim that keeps nothing answer removed entries; a half-done TrimByIndex leaves wrong sizes. Missing: runs that go on after a panicking Put (only in trees of more than 63 levels)."
  },
  {
   "property": "C71",
   "status": "partial",
   "theorems": [
    "C71_iterators_follow_the_list_partial",
    "C71_small_partial",
    "C71_puts_disturb_nothing_partial",
    "C71_walk_partial",
    "C71_removing_walk_refuted",
    "C71_no_key_twice_refuted",
    "C71_value_refuted",
    "C71_index_refuted"
   ],
   "note": "Proved for all interleavings in which no call removes the entry an iterator is at or one next to it (tc_all_ok), no Put panics and no TrimByIndex stops half way: the answers are those of positions in the sorted list (C71_iterators_follow_the_list_partial; C71_small_partial without a condition on Puts up to 63 entries; C71_puts_disturb_nothing_partial without a condition on positions); walks come in order and miss nothing that stays (C71_walk_partial). Refuted by witnesses: removing the entry a walk is at makes it skip an entry, removing the next one makes it answer a key twice, an iterator beside a removed entry reads outdated values, and Index is not updated by Puts."
  },
  {
   "property": "C72",
   "status": "proved",
   "theorems": [
    "C72_iterators_follow_the_list",
    "C72_walk",
    "C72_sieve",
    "C72_stays",
    "C72_removed_is_kept",
    "C72_put_is_met_refuted",
    "C72_prev_refuted",
    "C72_index_refuted"
   ],
   "note": "Proved for every interleaving of all calls of the list with all calls of any number of iterators: the answers are those of places in the sorted map, none panics (C72_iterators_follow_the_list). Derived: an iterator at a key that stays reads its current entry (C72_stays); a removed entry is read as it was for ever (C72_removed_is_kept); walks come in order, without repetition, and miss nothing that stays (C72_walk); entries may be removed as they are met (C72_sieve). Stronger claims refuted by witnesses: a key put in behind a removed entry may be skipped (C72_put_is_met_refuted), Prev from a removed entry leads nowhere (C72_prev_refuted), Index is not kept up to date (C72_index_refuted)."
  },
  {
   "property": "C73",
   "status": "partial",
   "theorems": [
    "C73_any_neighbor_partial",
    "C73_search_partial",
    "C73_search_multi_partial",
    "C73_one_way_forever_refuted",
    "C73_one_way_path_refuted",
    "C73_listed_twice_refuted",
    "C73_on_the_spot_refuted"
   ],
   "note": "Proved if every move can be taken back and none leads nowhere: Search returns, decides reachability, and its path is one of moves in both directions (C73_search_partial); every path of SearchMulti likewise, with the end in front twice (C73_search_multi_partial; C47_by_cost and C69_by_cost_partial hold for these Neighbors too). For any Neighbor: the answer false is right and always given, otherwise Search may not return, and if it does its path consists of moves from the end to the start (C73_any_neighbor_partial). Refuted for one-way moves: Search does not return (C73_one_way_forever_refuted), or its path cannot be walked from the start to the end (C73_one_way_path_refuted); a move listed twice gives every path twice (C73_listed_twice_refuted); a tile listed as its own neighbour can keep Search from returning (C73_on_the_spot_refuted)."
  },
  {
   "property": "C74",
   "status": "proved",
   "theorems": [
    "C74_heap_memory",
    "C74_heap_memory_peak",
    "C74_heap_work",
    "C74_heap_bill",
    "C74_queue_memory",
    "C74_queue_work",
    "C74_queue_bill",
    "C74_stack_memory",
    "C74_stack_memory_peak",
    "C74_stack_work",
    "C74_stack_bill",
    "C74_stack_clear_refuted"
   ],
   "note": "Heap: at most max(31, 2*size) slots without Clear, max(31, 2*peak) with; 15 slots per Put, 3 per Pop, 16 per Reset in all. Queue: max(8, 2*size); 15 per push, 3 per pop. Segmented stack: max(3*cap, 9*size) without Clear, peak + 2*max(cap, 2*peak) with; 10 per Push. C74_stack_clear_refuted shows that the stack's bound by present contents fails after Clear, which keeps the top block for ever (the heap's Clear keeps its slice as documented). The array list is C55. Slices returned by Values are not counted."
  },
  {
   "property": "C75",
   "status": "partial",
   "theorems": [
    "C75_lists_apart",
    "C75_other_lists_untouched",
    "C75_no_shared_nodes",
    "C75_lists_sorted_maps_partial",
    "C75_small_lists_sorted_maps_partial",
    "C75_lists_well_linked_partial",
    "C75_lists_threaded_partial",
    "C75_union_after_trim_refuted"
   ],
   "note": "Proved for all interleavings, all comparators and also after panics and with stale ends: lists in one memory answer as lists each in a memory of its own, no node belongs to two lists, no call changes a node of another (C75_lists_apart, C75_other_lists_untouched, C75_no_shared_nodes). Where C36 holds they answer as sorted lists and set operations give the right ones; all are well linked and threaded. Refuted: a union with a list that a Trim has emptied brings back what was removed. Missing: sorted answers after a panicking Put or with stale ends."
  },
  {
   "property": "C76",
   "status": "partial",
   "theorems": [
    "C76_avl_any_comparison",
    "C76_treeset_any_comparison",
    "C76_avls_any_comparison",
    "C76_no_direction_refuted",
    "C76_index_tree_any_comparison_partial",
    "C76_index_tree_trimless",
    "C76_trim_refuted",
    "C76_tree_list_any_comparison_partial",
    "C76_tree_list_trimless",
    "C76_tree_list_trim_refuted"
   ],
   "note": "index tree and tree list: everything but what follows a Trim by keys, which is refuted (C76_trim_refuted, C76_tree_list_trim_refuted: a Size of five with four entries), or a TrimByIndex that panicked; in the tree list also what follows a Put that panicked, which takes more than 63 entries (no bound on the depth of these trees is proved); without those calls there is no condition (C76_index_tree_trimless, C76_tree_list_trimless). avl, avls, treeset: in full for comparison functions with values up to 1, other values panic (C76_no_direction_refuted); avl with a threshold other than 2 under the condition that no height exceeds int8 (see C21). Skip list, heap and priority queue: see C79."
  },
  {
   "property": "C77",
   "status": "partial",
   "theorems": [
    "C77_hashmap",
    "C77_linkedhashmap",
    "C77_avl",
    "C77_avl_answers_right",
    "C77_treeset",
    "C77_avls",
    "C77_priority",
    "C77_indextree",
    "C77_orderedmap",
    "C77_interchangeable",
    "C77_nil_refuted",
    "C77_experiment_refuted",
    "C77_legacy_set_refuted"
   ],
   "note": "Full statement: for all values. Proved for all values that are not nil in tree/indextree and map/orderedmap.go, and for all values elsewhere; avl under the bound on the height of C20 (an answer that is given is right without it). Refuted: Delete of a nil value in tree/indextree; tree/indextree/experiment."
  },
  {
   "property": "C78",
   "status": "partial",
   "theorems": [
    "C78_array_stack_string",
    "C78_list_stack_string",
    "C78_segmented_stack_string",
    "C78_array_list_string",
    "C78_linked_list_string",
    "C78_linkedhashmap_string",
    "C78_hashmap_string",
    "C78_hashset_string",
    "C78_treeset_string",
    "C78_indextree_string_partial",
    "C78_print_injective",
    "C78_print_injective_refuted",
    "C78_treeset_keys_refuted"
   ],
   "note": "Index trees: not after a TrimByIndex that panicked half way. That equal printed forms mean equal contents is refuted for elements that print with blanks and for the keys of tree sets. fmt is modelled after its source, outside /repo."
  },
  {
   "property": "C79",
   "status": "partial",
   "theorems": [
    "C79_priority_queue_any_comparison_partial",
    "C79_heap_any_comparison",
    "C79_skiplist_any_comparison_partial",
    "C79_exact_for_orders",
    "C79_range_removal_refuted"
   ],
   "note": "Skip list: all calls but RemoveRangeByIndex, for every comparison function; for RemoveRangeByIndex the claim is false (C79_range_removal_refuted: Size goes wrong, and later a nil pointer is followed). Which entries Trim and TrimByIndex drop is left open. With an order the description determines everything else (C79_exact_for_orders). Heap: in full. Priority queue: comparison functions with values up to 1, as the code uses the value as an index; RemoveIndex only with positions inside (or on a queue of at most one entry), as outside it corrupts sizes whatever the comparison (C41)."
  },
  {
   "property": "C80",
   "status": "partial",
   "theorems": [
    "C80_list_queue",
    "C80_linked_list",
    "C80_linked_list_iterators",
    "C80_linked_hash_map",
    "C80_skip_list",
    "C80_index_tree_partial",
    "C80_tree_list_partial",
    "C80_array_stack_keeps",
    "C80_segmented_stack_refuted",
    "C80_circular_queue_partial",
    "C80_circular_queue_refuted",
    "C80_heap_refuted",
    "C80_array_list_refuted",
    "C80_tree_list_refuted"
   ],
   "note": "Containers made of nodes: proved with all calls for list queue, linked list, linked hash map and skip list; for index tree and tree list on the calls of C36 and C70. False of the containers built on arrays and of the tree list after a Trim that keeps nothing: refuted with witnesses; for the array stack in general (it keeps everything), for the circular queue with a bound on what it keeps."
  },
  {
   "property": "C81",
   "status": "partial",
   "theorems": [
    "C81_avl_same_tree",
    "C81_avl_counters_exact",
    "C81_avl_reported",
    "C81_avl_reset",
    "C81_avl_removal_once_a_level",
    "C81_avl_insertion_once_partial",
    "C81_avl_rotations_at_most_size_partial",
    "C81_threshold_two_partial",
    "C81_avl_insertion_once_refuted",
    "C81_avl_rotations_at_most_size_refuted",
    "C81_index_same_tree",
    "C81_index_counters_exact_partial",
    "C81_index_reported_partial",
    "C81_index_reset",
    "C81_index_insertion_once",
    "C81_index_range_once_a_level",
    "C81_index_others_never",
    "C81_index_rotations_at_most_insertions",
    "C81_treelist_same_list",
    "C81_treelist_counters_exact_partial",
    "C81_treelist_reported_partial",
    "C81_treelist_reset",
    "C81_treelist_insertion_once",
    "C81_treelist_range_once_a_level",
    "C81_treelist_others_never",
    "C81_treelist_rotations_at_most_insertions",
    "C81_shift_same_tree",
    "C81_shift_counters_exact",
    "C81_experiment_same_tree"
   ],
   "note": "Exactness of the counters and the bounds on removals hold for every tree and every threshold of tree/avl. At most one rotation per insertion is proved for thresholds 2 to 127 and refuted for threshold 1 (C81_avl_insertion_once_refuted, C81_avl_rotations_at_most_size_refuted); for thresholds above 2 it is assumed that the tree stays within 126 levels (stays_low), for threshold 2 this is proved. tree/indextree and tree/treelist: the bounds hold for every tree, comparison function and shift; exactness for calls that return, in histories without TrimByIndex calls that fail half-way and, for the tree list, without Puts that panic (which takes more than 63 levels). ShiftToleranceTree: any history of calls that return. Missing: exactness for removals from experiment.Tree (its insertions are those of tree/avl by C82) and the counters of the results of the tree list's set operations."
  },
  {
   "property": "C82",
   "status": "proved",
   "theorems": [
    "C82_shift_tree_is_index_tree",
    "C82_tree_is_avl_tree",
    "C82_shift_tree_linear_refuted"
   ],
   "note": "Height() of the ShiftToleranceTree agrees with the reported height while that is at most 127 (beyond that it wraps around, see C67). A negative shift panics in both (C67). That it can get deep is C82_shift_tree_linear_refuted, which refutes the logarithmic bound of C60 for this tree."
  },
  {
   "property": "C83",
   "status": "partial",
   "theorems": [
    "C83_nodes_do_what_trees_do",
    "C83_every_call_returns",
    "C83_parents_lead_up",
    "C83_parent_exact_partial",
    "C83_size_exact_partial",
    "C83_parent_exact_refuted",
    "C83_size_exact_refuted",
    "C83_let_go_refuted"
   ],
   "note": "The agreement with the trees of C66, that every call returns and that Parent leads up hold for all calls, every comparator and every threshold. Parent and Size exact: proved as long as nothing is removed (C83_parent_exact_partial, C83_size_exact_partial), refuted for all calls with witnesses (C83_parent_exact_refuted, C83_size_exact_refuted); that a removed value can stay reachable is C83_let_go_refuted. Not in this model: the rotation counters (C81, C82) and the iterators."
  },
  {
   "property": "C84",
   "status": "partial",
   "theorems": [
    "C84_experiment_any_comparison",
    "C84_nodes_any_comparison",
    "C84_iterators_walk_partial",
    "C84_seek_refuted"
   ],
   "note": "All calls, every comparison function (with answers up to 1 where Get, Upsert, Remove or Delete are called; above that they are an index out of range), also for the tree as nodes in memory (C84_nodes_any_comparison). Iterators: all calls but seeks (C84_iterators_walk_partial); seeks do not find a key that is there and find another, for every order (C84_seek_refuted)."
  },
  {
   "property": "C85",
   "status": "partial",
   "theorems": [
    "C85_stale_iterators_partial",
    "C85_stale_chains_partial",
    "C85_removed_iterators_panic",
    "C85_popped_iterators_refuted"
   ],
   "note": "Proved for every interleaving in which iterators on elements that are out are used for Valid, Value, SetValue and Swap only (anything else on iterators whose element is in the list); the rest of the calls through an iterator on a removed element is proved to panic (what such a call has changed before the panic is not modelled: InsertBefore and InsertAfter raise Size first, MoveBefore and MoveAfter unlink the element first). Refuted for elements that were popped or cleared: inserting or removing through them leaves a list whose Size is not the number of its values (C85_popped_iterators_refuted, C85_popped_case)."
  },
  {
   "property": "C86",
   "status": "proved",
   "theorems": [
    "C86_nodes_do_what_trees_do",
    "C86_parent_exact",
    "C86_fields_exact"
   ],
   "note": "Proved for Put, Get, Size and Height on nodes in memory, for every comparison function and shift. The model writes None both for a panic and for running out of steps; C86_nodes_do_what_trees_do shows that a call that returns in the model of C67, which has no steps to run out of, returns here. Sizes and balances are unbounded integers; Height is an int8, and C67_height_refuted shows what happens beyond 127 levels. What BenchmarkStats reads is C82."
  },
  {
   "property": "C87",
   "status": "partial",
   "theorems": [
    "C87_nodes_do_what_trees_do",
    "C87_height_reported",
    "C87_each_node_once",
    "C87_one_node_per_entry",
    "C87_avl_height_field_partial",
    "C87_treeset_height_field"
   ],
   "note": "Everything proved for every comparator and threshold; the Height field in tree/avl only for at most 126 levels (beyond that an int8 overflows, see C21). The iterators and the set operations are not in this model."
  },
  {
   "property": "C88",
   "status": "partial",
   "theorems": [
    "C88_avl_iterator_meanwhile_partial",
    "C88_treeset_iterator_meanwhile",
    "C88_iterator_panics_on_grown_tree_refuted",
    "C88_removal_moves_iterator_refuted",
    "C88_walk_and_remove_skips_refuted"
   ],
   "note": "Proved for both packages when iterators are not used any more after a key came or went: set/treeset for fewer than 2^64 calls, tree/avl with thresholds from 1 to 127 as long as there are at most 126 levels (beyond, int8 heights overflow, C21). Without that restriction on iterators the claim is refuted (panic on a grown tree, iterator moved by a removal, entries passed over). One iterator at a time."
  }
 ]
}
