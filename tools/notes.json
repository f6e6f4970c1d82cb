{
 "C02": {
  "status": "partial",
  "note": "AnyEx proved in full. For ArrayAnyEx the full statement is false: C02_array_any_ex_refuted shows it decides no strict total order; the same-length half is proved."
 },
 "C08": {
  "status": "partial",
  "note": "The statement is false of the code at capacity 0 (C08_capacity_zero_refuted); every positive capacity is proved to work."
 },
 "C10": {
  "status": "partial",
  "note": "False for negative indexes: Index(-1) can return an element popped earlier (C10_negative_index_refuted). Proved: Index at or past the size panics, and Front/Back of an empty queue return the zero value."
 },
 "C14": {
  "status": "partial",
  "note": "False at the ends of the list (C14_remove_at_ends_refuted): RemoveToNext on the last element steps an ordinary iterator back and leaves a circular one invalid on a non-empty list; mirror image for RemoveToPrev. Proved: exactly the current element is removed at every position, with the exact resulting iterator position; SetValue and Swap are sequence edits."
 },
 "C15": {
  "status": "partial",
  "note": "Proved for comparators of the Ex convention (array list and linked list); refuted for the plain comparators (C15_arraylist_plain_refuted, C15_linkedlist_plain_refuted)."
 },
 "C55": {
  "status": "partial",
  "note": "False of the code: C55_memory_refuted shows that for every memory limit some sequence of PopBack/PushFront calls holding at most 19 elements runs out of memory."
 },
 "C12": {
  "status": "proved",
  "note": "Stated with an explicit allocation limit: answers are exact until an allocation may fail; two further theorems bound when that can happen."
 },
 "C16": {
  "status": "proved",
  "note": "All operation sequences; the chain theorem gives the node names from head to tail, linked both ways."
 },
 "C17": {
  "status": "proved",
  "note": "Any interleaving of list operations and actions of any number of iterators of both kinds, as long as no iterator is used whose cell was removed (c_spec is then undefined)."
 },
 "C44": {
  "status": "proved",
  "note": "All sizes 1..2^64-8, all sequences of calls with encodable keys; New(0) is outside (example new_zero_panics)."
 },
 "C45": {
  "status": "partial",
  "note": "Refuted (C45_roundtrip_refuted): Decode and NewByDecode never read the bit array, so the decoded filter panics at its first query; only the two counters survive (C45_counters_only_partial)."
 },
 "C20": {
  "status": "proved",
  "note": "Every answer of every call sequence equals that of a sorted map, for every weak order on keys, every threshold 1..127. Assumes the tree never exceeds 126 levels (int8 heights); without that bound, answers that are given are still right (C20_avl_answers_right). Size is modelled as nat."
 },
 "C21": {
  "status": "proved",
  "note": "Proved for trees of at most 126 levels; beyond that the int8 heights overflow, which C21_int8_overflow_refuted exhibits with NewEx(cmp,127)."
 },
 "C22": {
  "status": "partial",
  "note": "False for avl.New (threshold 1): witnesses with and without removals. Proved instead: with threshold d>=2 (NewEx) imbalance stays below d, and with d=2 the tree is a genuine AVL tree of logarithmic height. Missing: nothing can be proved for New as stated; no weaker bound for threshold 1 is proved."
 },
 "C23": {
  "status": "proved",
  "note": "Iterators of tree/avl (trees of at most 126 levels) and set/treeset on an unmodified tree behave like a cursor over the sorted entries for every sequence of calls; C23_full_walk says what that means for a full walk."
 },
 "C27": {
  "status": "proved",
  "note": "For fewer than 2^64 calls (so that the size stays a uint)."
 },
 "C28": {
  "status": "proved",
  "note": "For fewer than 2^64 calls; includes the logarithmic height bound."
 },
 "C29": {
  "status": "partial",
  "note": "Proved for two different sets under any mixture of calls. False when the argument is the receiver itself: a.Difference(a) leaves {3,4} of {1,2,3,4} (heap-level model with node identities)."
 },
 "C24": {
  "status": "proved",
  "note": "All call sequences of fewer than 2^64 calls on New() trees; for NewEx with any threshold, every answer that is given is right. Two theorems spell out what the specification means: inserting is stable and removing takes the oldest entry."
 },
 "C25": {
  "status": "proved",
  "note": "New() (threshold 2), all call sequences of fewer than 2^64 calls; the height bound is stated with Fibonacci numbers."
 },
 "C26": {
  "status": "proved",
  "note": "All trees of C24, all sequences of iterator calls, iterator used on an unmodified tree."
 },
 "C30": {
  "status": "partial",
  "note": "All answers of all operation sequences, for any weak order and any rotation threshold, except: Set on an empty tree answers true (refuted), Delete of a key whose value is nil answers (nil,false) although it removes it (refuted). The contents are right in all cases; only a TrimByIndex that panics half way is excluded."
 },
 "C31": {
  "status": "partial",
  "note": "Index, IndexOf, RemoveIndex and the stored sizes proved after every operation sequence without a TrimByIndex whose lower bound is inside and upper bound outside; that call panics and leaves wrong sizes (refuted)."
 },
 "C32": {
  "status": "partial",
  "note": "RemoveRange, RemoveRangeByIndex and Trim for all bounds; TrimByIndex for bounds inside the tree; a TrimByIndex that panics on its upper bound has already dropped entries (refuted)."
 },
 "C33": {
  "status": "partial",
  "note": "Split and SplitContain proved for every non-empty tree; on an empty tree no tree is returned (refuted)."
 },
 "C34": {
  "status": "partial",
  "note": "On trees of at most 128 levels (in particular of at most 128 entries): SeekToFirst/Last, Next/Prev, SeekGE/SeekLE, SeekByIndex, Clone, Key/Value/Valid and Index behave as a cursor that knows its rank, for all call sequences that do not move after SeekByIndex or ask for the rank after an inexact seek or after moving beyond an end twice. Refuted: SeekGT/SeekLT, moving after SeekByIndex, rank after an inexact seek, rank drifting beyond the ends, deeper trees (int8 stack index): 130 insertions with tolerance 0, 514 with the default."
 },
 "C35": {
  "status": "partial",
  "note": "Every answer is that of the sorted list of entries, for all sequences, where no nil value is handed out and Set is not called on an empty map; the content is right for all sequences without restriction. Refuted otherwise: Get, Index, Values and RemoveIndex panic on a nil value, Remove and Delete report it absent, Set on an empty map reports a replacement. The iterator is the index tree's (C34)."
 },
 "C36": {
  "status": "partial",
  "note": "All operation sequences and orders, the thread included, except: a TrimByIndex that starts inside and ends beyond the last entry, Head/Tail of a list emptied by Trim (both refuted under C37), and a Put into a tree of more than 63 levels, which panics. Such trees are reached: the 251st Put of a sequence of distinct keys panics with the entry inserted (C36_put_panics_refuted), and after 258 of them Size is wrong (C36_size_after_panics_refuted). With at most 63 entries no Put fails."
 },
 "C37": {
  "status": "partial",
  "note": "RemoveRange, RemoveRangeByIndex, Trim and TrimByIndex proved for all reached lists and bounds, with thread, ends and sizes; refuted: Trim to nothing leaves stale ends, TrimByIndex past the end panics half done."
 },
 "C38": {
  "status": "partial",
  "note": "All pairs of reached tree lists, values of common keys from the receiver, result threaded and usable; excluded: lists emptied by Trim, whose stale ends are followed (C38_stale_refuted)."
 },
 "C39": {
  "status": "partial",
  "note": "All call sequences of iterators and all ranges on lists reached by any calls. Refuted: seeks and ranges on the empty tree panic, a list emptied by Trim still yields Valid iterators, a panicking Prev moves the index, Range on an unset range iterator dereferences nil. Depends on the C36 exclusions."
 },
 "C40": {
  "status": "partial",
  "note": "Every call sequence, any weak order, any Ex comparator for it: all answers are those of the sorted sequence with equal keys in insertion order (C40_stable_queue_without_remove_index has no further condition). C40_stable_queue_partial also allows RemoveIndex, but only with positions inside the queue (or on a queue of at most one entry): a RemoveIndex outside corrupts the sizes, see C41."
 },
 "C41": {
  "status": "partial",
  "note": "Index (with its negative positions) and RemoveIndex address the i-th entry, stored sizes are exact after every sequence whose RemoveIndex calls are in range; an out-of-range RemoveIndex panics and leaves the entries and their order alone. False in general: it counts sizes down before it panics (C41_remove_index_outside_refuted), and repeated it makes PopHead report an empty queue and Remove loop for ever (C41_hang_refuted)."
 },
 "C42": {
  "status": "partial",
  "note": "Gets returns the values of exactly the entries with the key (a permutation of them). The order claim is false: three Puts of one key come back second, first, third (C42_gets_order_refuted)."
 },
 "C43": {
  "status": "partial",
  "note": "If the tree has at most as many levels as newIterator makes stack cells, the iterator is a cursor over the sorted entries for all call sequences that seek only for keys held at most once; this covers every queue of at most four entries (C43_small_queue). False in general: after seven Puts the usual loop panics (C43_deep_refuted)."
 },
 "C56": {
  "status": "partial",
  "note": "With at most as many levels as stack cells: exact cursor for keys held at most once (C43_iterator_partial); for repeated keys the booleans are exact and a seek stops at one of the equal entries, or next to one for the strict seeks (C56_seeks_partial). That it is the right one is false (C56_duplicates_refuted)."
 },
 "C46": {
  "status": "proved",
  "note": "Fresh or cleared grids built by New or NewWithTiles and changed by SetAttr, SetStringTiles, SetTarget, SetNeighbor; any CountWeight, any CountCost that grows on the attributes of the free tiles (the default one on all: C46_default_cost; the one of astar_extend_test.go: my_grows), both neighbourhoods and every other whose moves can be taken back; start and end count as free. With a cost that charges nothing for some tile, outside the statement, Search need not return: C46_free_tile_refuted. Without Clear in between a second search fails (ex_C46_no_clear)."
 },
 "C47": {
  "status": "partial",
  "note": "Proved for grids whose rectangle between start and end is free (C47_shortest_partial); refuted in general: C47_shortest_refuted is a 5x5 grid where Search takes ten moves and eight are enough. If the weight is minus the cost, Search takes a shortest path on every grid, in both neighbourhoods and every other whose moves can be taken back (C47_by_cost)."
 },
 "C48": {
  "status": "partial",
  "note": "Refuted as stated: every path begins with the end tile twice (C48_end_twice_refuted). Proved, for any weight and any cost that grows: without that first entry each path is a simple path from end to start, and GetSteps is one more than its moves. sort.Sort is any permutation."
 },
 "C57": {
  "status": "partial",
  "note": "Proved for start different from end, grids without start/end/path attributes, and no SetTarget between search and Clear; each of the excluded cases is refuted (C57_same_tile_refuted, C57_retarget_refuted, C57_no_target_refuted)."
 },
 "C49": {
  "status": "proved",
  "note": "Every answer of every sequence of calls, for any weak order, any comparator whose sign follows it, any maximum level and any outcome of the random levels; C49_levels gives the chain of every level as a subsequence of the one below."
 },
 "C50": {
  "status": "proved",
  "note": "Index, IndexOf, RemoveIndex, RemoveRange, RemoveRangeByIndex, Trim and TrimByIndex for every reached list and all arguments, out-of-range indexes included."
 },
 "C51": {
  "status": "proved",
  "note": "All pairs of reached lists that share a comparator. Values of common keys: see the theorems. Aliased arguments deadlock (C54)."
 },
 "C52": {
  "status": "partial",
  "note": "All seeks and moves are those of a cursor over the sorted entries (C52_cursor_partial). Index() is the rank for walks of the kind described by all_steady (C52_index_partial); after other seeks it is wrong (C52_index_refuted)."
 },
 "C53": {
  "status": "partial",
  "note": "Proved for all calls but RemoveHead and DifferenceSets, any number of goroutines and lists, any schedule, any decomposition of the calls into steps under their locks. False for RemoveHead (panics, nil from a list never empty) and DifferenceSets (result that fits no moment). Iterators used while others write are not modelled."
 },
 "C54": {
  "status": "partial",
  "note": "Proved when the arguments of Intersection and UnionSets rank above their receivers; false for a list with itself and for two or three lists in a ring."
 },
 "C58": {
  "status": "partial",
  "note": "Proved for lines of less than 4096 bytes. Refuted: a longer line is split into rows (bufio buffer); SetStringTiles counts lines of blanks as rows, NewWithTiles does not, so the two agree only without such lines, form feeds and returns (C58_both_ways_partial)."
 },
 "C59": {
  "status": "partial",
  "note": "Printing proved in full. Reading a printed grid again: proved up to 4095 columns (visible attributes other than '*', 's', 'e'); refuted for 4097 columns."
 },
 "C60": {
  "status": "partial",
  "note": "False, so only refutations: an index tree with the default tolerance gets more than n/4 levels from n insertions of distinct keys, for every n of the form 4m+6, hence no multiple of log n bounds them (C60_index_tree_refuted); a priority queue gets n/2 levels from Puts of 1,0,3,2,5,4,... for every even n below 2^61; 246 Puts make 63 levels in a tree list. No positive bound is proved."
 },
 "C61": {
  "status": "partial",
  "note": "False for RemoveRange and Trim: getRangeRoot compares two answers of the comparator with each other, so with a - b RemoveRange(20,30) removes 10 and Trim(20,30) keeps it (index tree and tree list). Proved for every other call: index tree, ordered map (which has no key ranges), tree list and its set operations."
 },
 "C62": {
  "status": "partial",
  "note": "Proved for all floats but NaN (finite, infinite, both zeros; floats are modelled as signed rationals and infinities, so every float32/float64 is one of them). With NaN refuted: no order fits Any or AnyEx (C62_nan_refuted); after putting NaN a tree refuses 1, answers for it and removes NaN in its stead (C62_tree_nan_refuted); hash maps never find NaN again and cannot remove it (C62_hash_nan_refuted)."
 },
 "C63": {
  "status": "partial",
  "note": "Proved for every sequence of calls without a TrimByIndex that panics half way (trims_in_range): the heap-level model, which follows the code assignment by assignment, answers exactly what the tree model and, where C30 holds, the sorted list of entries answers; all links and sizes are right and the package's own check goes through. Refuted after a TrimByIndex whose upper bound is beyond the end: it leaves a wrong size."
 },
 "C64": {
  "status": "partial",
  "note": "Proved for every interleaving of New, Split and all other calls on any number of trees in one memory, as long as no TrimByIndex panics half way: the trees answer as trees each in a memory of its own and, where C30 holds, as sorted lists; no node is in two trees, all are well linked, and no call (also one that fails half way) changes a node of another tree. Not covered: what follows a TrimByIndex that failed half way."
 },
 "C65": {
  "status": "partial",
  "note": "C65_stats_right holds for every tree of any shape. The agreement with Height() and Size() is proved for tree/avl (C65_avl_stats, trees of at most 126 levels), for experiment.Tree with any comparison function (C65_experiment_stats) and, as to Size(), for tree/indextree (C65_index_stats_partial, without TrimByIndex calls that fail half-way). The rotation counters are C81, those of the experiment trees C82, as is the agreement of the reported height with Height() for the ShiftToleranceTree. Missing: the rounding of AvgDepth."
 },
 "C66": {
  "status": "partial",
  "note": "False as stated: Get, Upsert and Remove do not find the only key there is (C66_not_found_refuted, for every order, comparator, threshold and key), find other keys instead (C66_wrong_key_refuted), and with a direction comparator, which they would need, Put refuses smaller new keys and takes the same key twice (C66_direction_refuted). What holds: all other calls answer as a map sorted from the greatest key down (C66_insertions_sorted_partial). The node fields Size and Parent are C83, iterators and what holds of all calls C84."
 },
 "C67": {
  "status": "partial",
  "note": "False as stated: Get does not find the only key and finds absent greater ones (C67_get_refuted), Height() is -128 after 128 increasing keys with shift 0 (C67_height_refuted), a negative shift panics (C67_negative_shift_refuted). What holds, for every shift that is not negative: Put and Size answer as a growing sorted map, all node fields are right and Height() is the height up to 127 levels (C67_growing_sorted_partial)."
 },
 "C68": {
  "status": "proved",
  "note": "The list of questions is written beside each walk (CostModel.v); the _complete theorems prove nothing else is asked, for any comparator and state. How often a listed question is asked is read off the code: the theorems count the list. avl.New itself has height difference 1, for which no logarithmic height is proved (C22). indextree, treelist and priority_queue have no such bound (C60)."
 },
 "C69": {
  "status": "partial",
  "note": "Proved for the weight minus the cost, on every grid and in both neighbourhoods and every other whose moves can be taken back (C69_by_cost_partial). Refuted for the default weight: one of ten shortest paths of an open 4x3 grid is missing (C69_missing_refuted), and with eight neighbours two paths of different length are listed (C69_lengths_refuted)."
 },
 "C70": {
  "status": "partial",
  "note": "Proved: the pointer code gives the answers of TreelistModel.v for all runs in which no Put panics and no TrimByIndex stops half way (C70_nodes_do_what_trees_do), also for the call after such a run whatever it is (C70_next_call_too); those of a sorted map (C70_nodes_sorted_map_partial, C70_small_sorted_map_partial without a condition on Puts); nodes well linked, sizes right, the package's check goes through; Direct pointers run through exactly the nodes in order. Refuted: Head and Tail after a Trim that keeps nothing answer removed entries; a half-done TrimByIndex leaves wrong sizes. Missing: runs that go on after a panicking Put (only in trees of more than 63 levels)."
 },
 "C71": {
  "status": "partial",
  "note": "Proved for all interleavings in which no call removes the entry an iterator is at or one next to it (tc_all_ok), no Put panics and no TrimByIndex stops half way: the answers are those of positions in the sorted list (C71_iterators_follow_the_list_partial; C71_small_partial without a condition on Puts up to 63 entries; C71_puts_disturb_nothing_partial without a condition on positions); walks come in order and miss nothing that stays (C71_walk_partial). Refuted by witnesses: removing the entry a walk is at makes it skip an entry, removing the next one makes it answer a key twice, an iterator beside a removed entry reads outdated values, and Index is not updated by Puts."
 },
 "C72": {
  "status": "proved",
  "note": "Proved for every interleaving of all calls of the list with all calls of any number of iterators: the answers are those of places in the sorted map, none panics (C72_iterators_follow_the_list). Derived: an iterator at a key that stays reads its current entry (C72_stays); a removed entry is read as it was for ever (C72_removed_is_kept); walks come in order, without repetition, and miss nothing that stays (C72_walk); entries may be removed as they are met (C72_sieve). Stronger claims refuted by witnesses: a key put in behind a removed entry may be skipped (C72_put_is_met_refuted), Prev from a removed entry leads nowhere (C72_prev_refuted), Index is not kept up to date (C72_index_refuted)."
 },
 "C73": {
  "status": "partial",
  "note": "Proved if every move can be taken back and none leads nowhere: Search returns, decides reachability, and its path is one of moves in both directions (C73_search_partial); every path of SearchMulti likewise, with the end in front twice (C73_search_multi_partial; C47_by_cost and C69_by_cost_partial hold for these Neighbors too). For any Neighbor: the answer false is right and always given, otherwise Search may not return, and if it does its path consists of moves from the end to the start (C73_any_neighbor_partial). Refuted for one-way moves: Search does not return (C73_one_way_forever_refuted), or its path cannot be walked from the start to the end (C73_one_way_path_refuted); a move listed twice gives every path twice (C73_listed_twice_refuted); a tile listed as its own neighbour can keep Search from returning (C73_on_the_spot_refuted)."
 },
 "C74": {
  "status": "proved",
  "note": "Heap: at most max(31, 2*size) slots without Clear, max(31, 2*peak) with; 15 slots per Put, 3 per Pop, 16 per Reset in all. Queue: max(8, 2*size); 15 per push, 3 per pop. Segmented stack: max(3*cap, 9*size) without Clear, peak + 2*max(cap, 2*peak) with; 10 per Push. C74_stack_clear_refuted shows that the stack's bound by present contents fails after Clear, which keeps the top block for ever (the heap's Clear keeps its slice as documented). The array list is C55. Slices returned by Values are not counted."
 },
 "C75": {
  "status": "partial",
  "note": "Proved for all interleavings, all comparators and also after panics and with stale ends: lists in one memory answer as lists each in a memory of its own, no node belongs to two lists, no call changes a node of another (C75_lists_apart, C75_other_lists_untouched, C75_no_shared_nodes). Where C36 holds they answer as sorted lists and set operations give the right ones; all are well linked and threaded. Refuted: a union with a list that a Trim has emptied brings back what was removed. Missing: sorted answers after a panicking Put or with stale ends."
 },
 "C76": {
  "status": "partial",
  "note": "index tree and tree list: everything but what follows a Trim by keys, which is refuted (C76_trim_refuted, C76_tree_list_trim_refuted: a Size of five with four entries), or a TrimByIndex that panicked; in the tree list also what follows a Put that panicked, which takes more than 63 entries (no bound on the depth of these trees is proved); without those calls there is no condition (C76_index_tree_trimless, C76_tree_list_trimless). avl, avls, treeset: in full for comparison functions with values up to 1, other values panic (C76_no_direction_refuted); avl with a threshold other than 2 under the condition that no height exceeds int8 (see C21). Skip list, heap and priority queue: see C79."
 },
 "C77": {
  "status": "partial",
  "note": "Full statement: for all values. Proved for all values that are not nil in tree/indextree and map/orderedmap.go, and for all values elsewhere; avl under the bound on the height of C20 (an answer that is given is right without it). Refuted: Delete of a nil value in tree/indextree; tree/indextree/experiment."
 },
 "C78": {
  "status": "partial",
  "note": "Index trees: not after a TrimByIndex that panicked half way. That equal printed forms mean equal contents is refuted for elements that print with blanks and for the keys of tree sets. fmt is modelled after its source, outside /repo."
 },
 "C79": {
  "status": "partial",
  "note": "Skip list: all calls but RemoveRangeByIndex, for every comparison function; for RemoveRangeByIndex the claim is false (C79_range_removal_refuted: Size goes wrong, and later a nil pointer is followed). Which entries Trim and TrimByIndex drop is left open. With an order the description determines everything else (C79_exact_for_orders). Heap: in full. Priority queue: comparison functions with values up to 1, as the code uses the value as an index; RemoveIndex only with positions inside (or on a queue of at most one entry), as outside it corrupts sizes whatever the comparison (C41)."
 },
 "C80": {
  "status": "partial",
  "note": "Containers made of nodes: proved with all calls for list queue, linked list, linked hash map and skip list; for index tree and tree list on the calls of C36 and C70. False of the containers built on arrays and of the tree list after a Trim that keeps nothing: refuted with witnesses; for the array stack in general (it keeps everything), for the circular queue with a bound on what it keeps."
 },
 "C81": {
  "status": "partial",
  "note": "Exactness of the counters and the bounds on removals hold for every tree and every threshold of tree/avl. At most one rotation per insertion is proved for thresholds 2 to 127 and refuted for threshold 1 (C81_avl_insertion_once_refuted, C81_avl_rotations_at_most_size_refuted); for thresholds above 2 it is assumed that the tree stays within 126 levels (stays_low), for threshold 2 this is proved. tree/indextree and tree/treelist: the bounds hold for every tree, comparison function and shift; exactness for calls that return, in histories without TrimByIndex calls that fail half-way and, for the tree list, without Puts that panic (which takes more than 63 levels). ShiftToleranceTree: any history of calls that return. Missing: exactness for removals from experiment.Tree (its insertions are those of tree/avl by C82) and the counters of the results of the tree list's set operations."
 },
 "C82": {
  "status": "proved",
  "note": "Height() of the ShiftToleranceTree agrees with the reported height while that is at most 127 (beyond that it wraps around, see C67). A negative shift panics in both (C67). That it can get deep is C82_shift_tree_linear_refuted, which refutes the logarithmic bound of C60 for this tree."
 },
 "C83": {
  "status": "partial",
  "note": "The agreement with the trees of C66, that every call returns and that Parent leads up hold for all calls, every comparator and every threshold. Parent and Size exact: proved as long as nothing is removed (C83_parent_exact_partial, C83_size_exact_partial), refuted for all calls with witnesses (C83_parent_exact_refuted, C83_size_exact_refuted); that a removed value can stay reachable is C83_let_go_refuted. Not in this model: the rotation counters (C81, C82) and the iterators."
 },
 "C84": {
  "status": "partial",
  "note": "All calls, every comparison function (with answers up to 1 where Get, Upsert, Remove or Delete are called; above that they are an index out of range), also for the tree as nodes in memory (C84_nodes_any_comparison). Iterators: all calls but seeks (C84_iterators_walk_partial); seeks do not find a key that is there and find another, for every order (C84_seek_refuted)."
 },
 "C85": {
  "status": "partial",
  "note": "Proved for every interleaving in which iterators on elements that are out are used for Valid, Value, SetValue and Swap only (anything else on iterators whose element is in the list); the rest of the calls through an iterator on a removed element is proved to panic (what such a call has changed before the panic is not modelled: InsertBefore and InsertAfter raise Size first, MoveBefore and MoveAfter unlink the element first). Refuted for elements that were popped or cleared: inserting or removing through them leaves a list whose Size is not the number of its values (C85_popped_iterators_refuted, C85_popped_case)."
 },
 "C86": {
  "status": "proved",
  "note": "Proved for Put, Get, Size and Height on nodes in memory, for every comparison function and shift. The model writes None both for a panic and for running out of steps; C86_nodes_do_what_trees_do shows that a call that returns in the model of C67, which has no steps to run out of, returns here. Sizes and balances are unbounded integers; Height is an int8, and C67_height_refuted shows what happens beyond 127 levels. What BenchmarkStats reads is C82."
 },
 "C87": {
  "status": "partial",
  "note": "Everything proved for every comparator and threshold; the Height field in tree/avl only for at most 126 levels (beyond that an int8 overflows, see C21). The iterators and the set operations are not in this model."
 },
 "C88": {
  "status": "partial",
  "note": "Proved for both packages when iterators are not used any more after a key came or went: set/treeset for fewer than 2^64 calls, tree/avl with thresholds from 1 to 127 as long as there are at most 126 levels (beyond, int8 heights overflow, C21). Without that restriction on iterators the claim is refuted (panic on a grown tree, iterator moved by a removal, entries passed over). One iterator at a time."
 }
}