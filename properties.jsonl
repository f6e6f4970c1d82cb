{"id": "C01", "title": "Built-in comparators are total orders", "statement": "compare.Any, compare.AnyDesc, compare.ArrayAny and compare.ArrayLenAny each return 0 exactly on equal arguments, change sign when the arguments are swapped and are transitive; ArrayAny is the lexicographic (dictionary) order on byte strings, ArrayLenAny orders by length first, AnyDesc is the reverse of Any, RunesDesc and RunesLenDesc are the reverses of these two orders on rune slices.", "quantifier": "all pairs and triples of integer keys / byte strings / rune slices of any length", "why_tests_cant": "Transitivity and sign laws range over all triples of unboundedly long strings.", "anchors": ["compare/compare.go: Any, AnyDesc, ArrayAny, ArrayLenAny, RunesDesc, RunesLenDesc"]}
{"id": "C02", "title": "Direction comparators agree with the plain ones", "statement": "The 'Ex' comparators used by the AVL trees report equal (negative), left (0) and right (1) consistently with one total order: AnyEx with Any, ArrayAnyEx with the lexicographic order on byte strings.", "quantifier": "all pairs of integer keys / byte strings", "why_tests_cant": "A tree built with a comparator that is wrong for one pair of lengths silently loses keys; samples of equal-length strings never show it.", "anchors": ["compare/compare.go: AnyEx, ArrayAnyEx"]}
{"id": "C03", "title": "Heap pops a minimum and keeps the multiset", "statement": "After any sequence of Put, Pop, Top, Clear, Reset and Size calls the heap holds exactly the elements put and not yet popped (as a multiset); Pop and Top return an element that no held element precedes under the comparator, fail exactly when the heap is empty, and Size is the number held. No call panics, whatever the growth and shrinking of the backing array.", "quantifier": "all operation sequences, all comparators that agree with some total preorder", "why_tests_cant": "The array is resized and sifted along data-dependent paths; only an invariant covers all histories.", "anchors": ["tree/heap/heap.go: New, Put, Pop, Top, Clear, Reset, Size, grow, slimming"]}
{"id": "C04", "title": "Draining a heap sorts", "statement": "Putting any list of elements and popping until empty yields a permutation of the list in non-decreasing comparator order.", "quantifier": "all element lists, all comparators that agree with some total preorder", "why_tests_cant": "Sortedness of the output for every input permutation and every length cannot be sampled exhaustively.", "anchors": ["tree/heap/heap.go: Put, Pop"]}
{"id": "C05", "title": "Array stack is LIFO", "statement": "Any sequence of Push, Pop, Peek, Clear, Empty, Size and Values on the array stack behaves as a mathematical stack; Pop/Peek report failure exactly when empty.", "quantifier": "all operation sequences and element values", "why_tests_cant": "Histories are unbounded.", "anchors": ["stack/array/stack.go: Stack"]}
{"id": "C06", "title": "Linked stack is LIFO", "statement": "Any sequence of Push, Pop, Peek, Clear, Empty, Size and Values on the linked stack behaves as a mathematical stack; Pop/Peek report failure exactly when empty.", "quantifier": "all operation sequences and element values", "why_tests_cant": "Histories are unbounded.", "anchors": ["stack/list/stack.go: Stack"]}
{"id": "C07", "title": "Segmented stack is LIFO across block boundaries", "statement": "Any sequence of Push, Pop, Peek, Clear, Empty, Size and Values on the segmented (list of arrays) stack behaves as a mathematical stack for every initial capacity of at least one: no value is lost, duplicated or reordered when blocks are allocated, cached and reused, and nothing panics.", "quantifier": "all operation sequences, all initial capacities >= 1", "why_tests_cant": "The block cache makes the state depend on how often the top crossed a block boundary in the past.", "anchors": ["stack/listarray/stack.go: New, NewWithCap, Push, Pop, Peek, Clear, Values, grow, cacheRemove"]}
{"id": "C08", "title": "Segmented stack accepts every capacity", "statement": "A segmented stack created with any non-negative capacity accepts Push without panicking.", "quantifier": "all initial capacities, including zero", "why_tests_cant": "The boundary capacity is a single point that ordinary tests skip.", "anchors": ["stack/listarray/stack.go: NewWithCap, grow"]}
{"id": "C09", "title": "Circular-array queue is a deque", "statement": "Any sequence of PushBack, PushFront, PopBack, PopFront, Size, Index (non-negative), Values and Traverse on the array queue behaves as a double-ended queue, through any wrap-around, growth and shrinking of the ring; Front and Back of a non-empty queue are its ends; pops report nil exactly when empty; Index panics exactly when out of range; nothing else panics.", "quantifier": "all operation sequences", "why_tests_cant": "Wrap-around offset, growth and shrink interleave in unboundedly many ways.", "anchors": ["queue/linkedarray/queue.go: ArrayQueue"]}
{"id": "C10", "title": "Empty or out-of-range queue reads never return data", "statement": "On the circular-array queue, Front and Back of an empty queue and Index outside [0, size) never hand back a previously stored element.", "quantifier": "all reachable states and all indexes", "why_tests_cant": "Stale slots depend on the history of the ring buffer.", "anchors": ["queue/linkedarray/queue.go: Front, Back, Index"]}
{"id": "C11", "title": "Linked queue is a deque", "statement": "Any sequence of PushBack, PushFront, PopBack, PopFront, Front, Back and Size on the linked queue behaves as a double-ended queue; walking Next from Front and Prev from Back always lists the whole queue forwards and backwards.", "quantifier": "all operation sequences", "why_tests_cant": "Pointer structure under unbounded histories.", "anchors": ["queue/list/queue.go: ListQueue"]}
{"id": "C12", "title": "Array list is a sequence", "statement": "Any sequence of Push, PushFront, PushBack, PopFront, PopBack, Front, Back, Index, Remove, Set (in range), Clear, Size and Values on the array list behaves as a finite sequence, through growth, shrinking and index wrap-around; in-range Index/Remove succeed and out-of-range ones fail without changing the list.", "quantifier": "all operation sequences and indexes", "why_tests_cant": "Head/tail slots move with history and the unsigned head index passes through zero.", "anchors": ["list/array_list/array_list.go: ArrayList"]}
{"id": "C13", "title": "Array-list iterators visit every element once", "statement": "A forward (backward) walk of an array-list iterator visits exactly the elements of the list in order (reverse order), and a circular iterator visits them cyclically.", "quantifier": "all list contents and lengths", "why_tests_cant": "Quantifies over all lengths including 0 and 1.", "anchors": ["list/array_list/iterator.go: Iterator", "list/array_list/circular_iterator.go: CircularIterator"]}
{"id": "C14", "title": "Removing through an array-list iterator keeps the iterator usable", "statement": "RemoveToNext / RemoveToPrev on a valid array-list iterator deletes exactly the current element and leaves the iterator on the neighbour in that direction, or invalid when there is none; circular iterators stay valid while the list is non-empty.", "quantifier": "all list contents and all valid positions", "why_tests_cant": "The failing positions are the two ends and the singleton list.", "anchors": ["list/array_list/iterator.go: RemoveToNext, RemoveToPrev", "list/array_list/circular_iterator.go: RemoveToNext, RemoveToPrev"]}
{"id": "C15", "title": "List Contains counts equal elements", "statement": "Contains(values...) on array_list and linked_list counts, over the list, the elements equal to one of the given values under the list's comparator.", "quantifier": "all list contents, all arguments, both comparator conventions of the library", "why_tests_cant": "The count depends on the comparator convention chosen at construction.", "anchors": ["list/array_list/array_list.go: Contains", "list/linked_list/linked_list.go: Contains", "compare/compare.go"]}
{"id": "C16", "title": "Linked list is a sequence", "statement": "Any sequence of Push, PushFront, PushBack, PopFront, PopBack, Front, Back, Index, Clear, Size, Values and Traverse on the linked list behaves as a finite sequence and keeps the two pointer chains mutually inverse.", "quantifier": "all operation sequences and indexes", "why_tests_cant": "Pointer surgery under unbounded histories.", "anchors": ["list/linked_list/linked_list.go: LinkedList"]}
{"id": "C17", "title": "Linked-list iterator edits are sequence edits", "statement": "InsertBefore, InsertAfter, RemoveToNext, RemoveToPrev, Move, MoveBefore, MoveAfter, Swap and SetValue through an iterator at any position change the sequence exactly as the corresponding list edit, keep both chains consistent and keep Size right.", "quantifier": "all list contents, all iterator positions, all inserted sequences, adjacent or distant iterators", "why_tests_cant": "Adjacent-node swaps/moves are aliasing corner cases over all position pairs.", "anchors": ["list/linked_list/iterator.go: Iterator", "list/linked_list/circular_iterator.go: CircularIterator"]}
{"id": "C18", "title": "Hash map and hash set are finite maps and sets", "statement": "hashmap and hashset operations behave as a finite map and a finite set: InsertIfAbsent/Upsert/Delete/Put/Set/Get/Remove/Contains return the documented flags and leave every other key untouched; Size counts the distinct keys.", "quantifier": "all operation sequences, keys and values", "why_tests_cant": "All histories.", "anchors": ["map/hashmap/hashmap.go: HashMap", "set/hashset/hashset.go: HashSet"]}
{"id": "C19", "title": "Linked hash map remembers insertion order", "statement": "linkedhashmap behaves as an association list with distinct keys: Put/PushBack append new keys, PushFront prepends, SetBack/SetFront move an existing key to the end/front, Set and InsertIfAbsent/Upsert update in place, Delete/Remove drop exactly that key, and Keys, Values and Slices list the pairs in that order; the hash index and the chain never disagree.", "quantifier": "all operation sequences, keys and values", "why_tests_cant": "Two redundant structures must stay in step in every history.", "anchors": ["map/linkedhashmap/linked_hashmap.go: LinkedHashmap"]}
{"id": "C20", "title": "AVL tree is a sorted finite map", "statement": "avl.Tree behaves as a finite map from keys to values under the comparator: Put inserts only absent keys, Set/Upsert insert or overwrite, Get/Contains read the last write, Remove/Delete drop exactly that key and return its value, Size counts keys, and Traverse/Values list the entries in strictly increasing key order.", "quantifier": "all operation sequences, all total orders on keys, all rotation thresholds >= 1", "why_tests_cant": "Rotations reorganise the tree in every history; a lost key needs a specific shape.", "anchors": ["tree/avl/tree.go: Tree", "tree/avl/tree_hide.go: put, get, remove, neighboring, rebalance", "tree/avl/node.go: rotations"]}
{"id": "C21", "title": "AVL recorded heights are exact", "statement": "After every operation, Height() of avl.Tree is the true height of the tree and every stored node height is the true height of its subtree.", "quantifier": "all operation sequences, all rotation thresholds >= 1", "why_tests_cant": "Early exits of the rebalancing walk are only correct by an invariant over all shapes.", "anchors": ["tree/avl/tree_hide.go: put, remove, rebalance", "tree/avl/node.go: updateHeight"]}
{"id": "C22", "title": "AVL tree stays balanced", "statement": "avl.New trees satisfy the AVL condition: at every node the heights of the two subtrees differ by at most one, after any sequence of insertions and removals.", "quantifier": "all operation sequences", "why_tests_cant": "Balance is a universally quantified shape property.", "anchors": ["tree/avl/tree.go: New", "tree/avl/tree_hide.go: rebalance"]}
{"id": "C23", "title": "AVL iterator walks the sorted sequence", "statement": "On an unmodified avl.Tree, SeekToFirst/SeekToLast followed by Next/Prev visit all entries in increasing/decreasing order, SeekGE/GT/LE/LT position on the first/last entry satisfying the bound (or become invalid when there is none), Exact variants report whether the key is present, Next then Prev returns to the same entry, and no call overruns the fixed-size stack.", "quantifier": "all trees, all keys, all walks", "why_tests_cant": "The stack discipline must work for every shape and every sequence of direction changes.", "anchors": ["tree/avl/iterator.go: Iterator", "tree/avl/iterator_hide.go: down, up, seekEqual, seekThan, move"]}
{"id": "C24", "title": "Duplicate-key AVL tree is a stable sorted multimap", "statement": "avls.Tree behaves as a sequence of entries sorted by key in which equal keys keep insertion order: Put always inserts after its equals, Get reads the oldest entry of a key, Set/Upsert overwrite the oldest entry or insert, InsertIfAbsent inserts only when absent, Remove/Delete drop the oldest entry of the key and return its value, Size counts entries, Values/Traverse list them in order.", "quantifier": "all operation sequences, all total orders", "why_tests_cant": "Stability must survive every rotation.", "anchors": ["tree/avls/tree.go: Tree", "tree/avls/tree_hide.go: put, get, removeLeft, neighboring, rebalance"]}
{"id": "C25", "title": "Duplicate-key AVL tree stays balanced", "statement": "avls.New trees satisfy the AVL condition with exact stored heights after any operation sequence, so Height() is at most logarithmic in Size().", "quantifier": "all operation sequences", "why_tests_cant": "The constant-time height updates in the rotations are correct only under the invariant.", "anchors": ["tree/avls/node.go: updateHeightOneChild, rotations", "tree/avls/tree_hide.go: rebalance"]}
{"id": "C26", "title": "Duplicate-key AVL iterator", "statement": "On an unmodified avls.Tree iterators walk all entries, duplicates included, in order in both directions; SeekGE stops on the first entry with key >= k, SeekGT on the first with key > k, SeekLE/SeekLT on the last with key <= k / < k.", "quantifier": "all trees, all keys", "why_tests_cant": "Runs of equal keys are spread over the tree by rotations.", "anchors": ["tree/avls/iterator.go", "tree/avls/iterator_hide.go: seekBound, move"]}
{"id": "C27", "title": "Tree set is a sorted map-backed set", "statement": "treeset behaves as a finite set/map under the comparator: Add/Put/Set/InsertIfAbsent/Upsert return the documented flags, Contains/Get/Remove/Delete agree with membership, Size counts members and Traverse/Values are strictly increasing.", "quantifier": "all operation sequences, all total orders", "why_tests_cant": "All histories and shapes.", "anchors": ["set/treeset/tree.go: Tree", "set/treeset/treeset.go", "set/treeset/tree_hide.go"]}
{"id": "C28", "title": "Tree set stays balanced", "statement": "treeset trees satisfy the AVL condition with exact stored heights after any operation sequence.", "quantifier": "all operation sequences", "why_tests_cant": "Constant-time height updates are right only under the invariant.", "anchors": ["set/treeset/node.go", "set/treeset/tree_hide.go: rebalance"]}
{"id": "C29", "title": "Tree-set union, intersection and difference", "statement": "Union, Intersection and Difference leave in the receiver exactly the set-theoretic result and do not alter the argument.", "quantifier": "all pairs of sets", "why_tests_cant": "Quantifies over all pairs of sets.", "anchors": ["set/treeset/tree.go: Union, Intersection, Difference"]}
{"id": "C30", "title": "Index tree is a sorted finite map", "statement": "indextree.Tree behaves as a finite map sorted by key: Put inserts only absent keys, Set/Upsert overwrite or insert with the documented flag, Get reads, Remove/Delete drop exactly one key and return its value, Size counts, Traverse/Values are strictly increasing.", "quantifier": "all operation sequences, all total orders", "why_tests_cant": "Size-based rotations and unbalanced deletions over all histories.", "anchors": ["tree/indextree/tree.go: Put, Set, Upsert, Get, Remove, Delete, Traverse, Values", "tree/indextree/utils.go: fixPut, rotations"]}
{"id": "C31", "title": "Index tree ranks are exact", "statement": "Index(i) returns the i-th entry in key order for 0 <= i < Size, IndexOf(k) returns the number of smaller keys when k is present and -1 otherwise, RemoveIndex(i) removes exactly the i-th entry, and the stored subtree sizes are exact after every operation.", "quantifier": "all operation sequences, indexes and keys", "why_tests_cant": "Subtree sizes are maintained incrementally along every path.", "anchors": ["tree/indextree/tree.go: Index, IndexOf, RemoveIndex", "tree/indextree/utils.go: index"]}
{"id": "C32", "title": "Index tree range removal and trimming", "statement": "RemoveRange(lo,hi) removes exactly the entries with lo <= key <= hi, RemoveRangeByIndex(i,j) exactly positions i..j, Trim and TrimByIndex keep exactly that range; remaining entries, order and stored sizes are unaffected.", "quantifier": "all trees, all bounds", "why_tests_cant": "Whole subtrees are cut and re-attached; the cut point ranges over all shapes.", "anchors": ["tree/indextree/tree.go: RemoveRange, RemoveRangeByIndex, Trim, TrimByIndex", "tree/indextree/utils.go: mergeGroups, fixRemoveRange"]}
{"id": "C33", "title": "Index tree split", "statement": "Split(k) leaves the entries with key < k in the receiver and returns a tree with the entries with key >= k; SplitContain(k) keeps key <= k and returns key > k; both trees stay valid index trees.", "quantifier": "all trees, all keys", "why_tests_cant": "The split path ranges over all shapes.", "anchors": ["tree/indextree/tree.go: Split, SplitContain"]}
{"id": "C34", "title": "Index tree iterators", "statement": "Index-tree iterators visit all entries in order in both directions, SeekGE/GT/LE/LT position on the nearest entry satisfying the bound, SeekByIndex positions on that rank, and Index reports the rank of the current entry.", "quantifier": "all trees, all keys, all walks", "why_tests_cant": "Wrong positions appear only for particular shapes and absent keys.", "anchors": ["tree/indextree/iterator.go", "tree/indextree/iterator_hide.go: seekEqual, seekThan, move"]}
{"id": "C35", "title": "Ordered map", "statement": "orderedmap behaves as a finite sorted map: Put/Set/InsertIfAbsent/Upsert/Get/Remove/Delete return the documented results for every value, including nil values.", "quantifier": "all operation sequences, keys and values", "why_tests_cant": "nil values are ordinary values of the map.", "anchors": ["map/orderedmap.go/map.go"]}
{"id": "C36", "title": "Tree list is a sorted finite map with a threaded order", "statement": "treelist.Tree behaves as a finite map sorted by key (Put, Set, PutDuplicate, Get, Remove, RemoveHead, RemoveTail, RemoveIndex) and Head(), Tail() and the threaded neighbour links always agree with the sorted sequence.", "quantifier": "all operation sequences, all total orders", "why_tests_cant": "Tree structure and threaded links are two redundant structures.", "anchors": ["tree/treelist/tree.go", "tree/treelist/utils.go: putWith, removeNode, fixPut"]}
{"id": "C37", "title": "Tree list range operations", "statement": "treelist RemoveRange, RemoveRangeByIndex, Trim and TrimByIndex keep or drop exactly the requested range and leave Head, Tail, threaded links and sizes consistent.", "quantifier": "all trees, all bounds", "why_tests_cant": "Cut points range over all shapes; empty results are corner cases.", "anchors": ["tree/treelist/tree.go: RemoveRange, RemoveRangeByIndex, Trim, TrimByIndex", "tree/treelist/utils.go"]}
{"id": "C38", "title": "Tree list set operations", "statement": "Intersection, UnionSets and DifferenceSets return new tree lists holding exactly the intersection, union and difference of the key sets, sorted, and leave both arguments unchanged.", "quantifier": "all pairs of tree lists", "why_tests_cant": "All pairs of sorted sequences.", "anchors": ["tree/treelist/tree.go: Intersection, UnionSets, DifferenceSets", "tree/treelist/utils.go: setOperationStream, buildFromSortedStream"]}
{"id": "C39", "title": "Tree list iterators and range iterators", "statement": "Tree-list iterators visit the sorted sequence in both directions with exact Index(), SeekGE/GT/LE/LT position on the nearest entry satisfying the bound on every tree including the empty one, and IteratorRange visits exactly the entries inside its bounds.", "quantifier": "all trees, all keys and bounds", "why_tests_cant": "Positions relative to all keys and the empty tree.", "anchors": ["tree/treelist/iterator.go", "tree/treelist/iterator_range.go"]}
{"id": "C40", "title": "Tree priority queue is a stable sorted queue", "statement": "The tree priority queue behaves as a sequence sorted by priority in which equal priorities keep insertion order: Put appends after its equals, Get reads the oldest, Remove/Delete drop the oldest entry of a key, PopHead/PopTail remove the first/last entry, Size counts, Values/Traverse list in order.", "quantifier": "all operation sequences, all total orders", "why_tests_cant": "Stability must survive every rotation.", "anchors": ["queue/priority/tree.go", "queue/priority/tree_hide.go: put, getfirst, removeLeft, neighboring, rebalance", "queue/priority/node.go"]}
{"id": "C41", "title": "Tree priority queue positions", "statement": "Index(i) and RemoveIndex(i) address the i-th entry of the sorted sequence; out-of-range calls panic without changing the queue; stored sizes stay exact.", "quantifier": "all queues and indexes", "why_tests_cant": "A panic that has already changed sizes only shows in later operations.", "anchors": ["queue/priority/tree.go: Index, RemoveIndex", "queue/priority/tree_hide.go: index, removeIndex"]}
{"id": "C42", "title": "Tree priority queue Gets", "statement": "Gets(k) returns the values of all entries with key k, oldest first.", "quantifier": "all queues and keys", "why_tests_cant": "The order depends on the tree shape.", "anchors": ["queue/priority/tree.go: Gets", "queue/priority/tree_hide.go: seekRoot, traverse"]}
{"id": "C43", "title": "Tree priority queue iterator covers every queue", "statement": "A priority-queue iterator can walk every queue reachable through the API from first to last without panicking.", "quantifier": "all operation sequences", "why_tests_cant": "The iterator's stack is sized from the element count, so only a degenerate shape overruns it.", "anchors": ["queue/priority/iterator_hide.go: newIterator, down"]}
{"id": "C44", "title": "Bloom filter has no false negatives", "statement": "After Add/AddBytes of an item, Contains/ContainsBytes of it returns true forever, for every filter size >= 1 and whatever else is added; Add returns exactly what Contains would have returned before; the hit counter equals the number of set bits.", "quantifier": "all filter sizes >= 1, all add sequences, all byte strings", "why_tests_cant": "All histories and all hash collisions.", "anchors": ["filter/bloom/bloom.go: New, Add, AddBytes, Contains, ContainsBytes, Reset"]}
{"id": "C45", "title": "Bloom filter encode/decode round-trip", "statement": "Decoding the encoding of a Bloom filter yields a filter that answers every query like the original.", "quantifier": "all filters and all queries", "why_tests_cant": "Round-trip over all filter states.", "anchors": ["filter/bloom/bloom.go: Encode, Decode, NewByDecode"]}
{"id": "C46", "title": "A* search decides reachability and returns a real path", "statement": "On a freshly built or cleared grid with start and end in bounds, Search returns true exactly when the end tile can be reached from the start through in-bounds, non-blocked tiles (start and end themselves count as free), and the path it returns runs from end to start through pairwise neighbouring such tiles, none twice.", "quantifier": "all grids, start/end points, both neighbourhoods, every CountWeight, every CountCost that charges something for each step (for the step onto the end: nothing negative)", "why_tests_cant": "Reachability over all grids.", "anchors": ["graph/astar/astar.go: search, singlePath", "graph/astar/neighbor_interface.go", "graph/astar/count_interface.go", "tree/heap/heap.go"]}
{"id": "C47", "title": "A* path is shortest", "statement": "On a fresh grid with the default four-neighbourhood, cost and weight, the path returned by Search has the minimum possible number of steps.", "quantifier": "all grids and targets", "why_tests_cant": "Optimality over all grids depends on tie-breaking.", "anchors": ["graph/astar/astar.go: search, weightCompare", "graph/astar/count_interface.go: SimpleCost, SimpleWeight"]}
{"id": "C48", "title": "A* multi paths are simple paths", "statement": "Every path returned by SearchMulti visits each tile at most once and GetSteps of it is its number of moves.", "quantifier": "all grids and targets", "why_tests_cant": "Quantifies over all grids and all returned paths.", "anchors": ["graph/astar/astar.go: multiPath, search, GetSteps"]}
{"id": "C49", "title": "Skip list is a sorted finite map", "statement": "Sequentially, skiplist.SkipList behaves as a finite map sorted by key for every outcome of the random level generator: Put/Set/PutDuplicate, Get, Remove, RemoveHead, RemoveTail, Head, Tail, Clear, Size, Traverse, Slices; no level pointer ever skips or duplicates a key and nothing panics.", "quantifier": "all operation sequences, all random level choices, all maximum levels", "why_tests_cant": "Level choices are random; every combination must work.", "anchors": ["tree/skiplist/skiplist.go"]}
{"id": "C50", "title": "Skip list positions and ranges", "statement": "Index, IndexOf, RemoveIndex, RemoveRangeByIndex, Trim and TrimByIndex of the skip list act on exactly the addressed positions/keys.", "quantifier": "all lists, indexes and keys", "why_tests_cant": "All shapes of the level structure.", "anchors": ["tree/skiplist/skiplist.go: Index, IndexOf, RemoveIndex, RemoveRangeByIndex, Trim, TrimByIndex"]}
{"id": "C51", "title": "Skip list set operations", "statement": "Intersection, UnionSets and DifferenceSets of two distinct skip lists return exactly the intersection, union and difference of the key sets and leave the arguments unchanged.", "quantifier": "all pairs of lists, all random level choices", "why_tests_cant": "All pairs and random choices.", "anchors": ["tree/skiplist/skiplist.go: Intersection, UnionSets, DifferenceSets"]}
{"id": "C52", "title": "Skip list iterator", "statement": "Skip-list iterators visit the sorted sequence in both directions, SeekGE/GT/LE/LT position on the nearest entry satisfying the bound, and Index() is the rank of the current entry after every seek and move.", "quantifier": "all lists, keys and walks", "why_tests_cant": "Rank tracking must be right after every combination of seeks and moves.", "anchors": ["tree/skiplist/skiplist.go: Iterator"]}
{"id": "C53", "title": "Concurrent skip list operations are atomic", "statement": "Under any interleaving of goroutines, every skip-list operation takes effect atomically: in particular concurrent RemoveHead calls never panic, and return nil only if the list was empty.", "quantifier": "all schedules of concurrent operations", "why_tests_cant": "Race windows appear only under particular schedules.", "anchors": ["tree/skiplist/skiplist.go: RemoveHead, Remove, lock"]}
{"id": "C54", "title": "Skip list set operations never deadlock", "statement": "Under any schedule, goroutines calling Intersection/UnionSets on skip lists (including a list with itself) all terminate.", "quantifier": "all schedules, all argument aliasings", "why_tests_cant": "Deadlock needs one particular schedule or aliasing.", "anchors": ["tree/skiplist/skiplist.go: Intersection, UnionSets"]}
{"id": "C55", "title": "Array-list memory stays proportional to its contents", "statement": "The memory an array list occupies is bounded by a function of the largest number of elements it ever held: a list that never holds more than n elements never exhausts memory however many operations are performed on it.", "quantifier": "all operation sequences of any length", "why_tests_cant": "The capacity grows only along particular long alternations of pops and pushes; a test sees correct answers until memory runs out, and no finite test establishes a bound for all sequences.", "anchors": ["list/array_list/array_list.go: shrink, growth, PushFront, PopBack"]}
{"id": "C56", "title": "Tree priority queue iterator seeks", "statement": "SeekGE(k)/SeekLE(k) put a priority-queue iterator on the first entry not below k / the last entry not above k in the sorted sequence, SeekGT/SeekLT on the first entry above / the last entry below k, the Exact variants report whether an entry with key k exists, and Next/Prev step from there; with equal keys the entry meant is the one the sorted sequence puts at that end.", "quantifier": "all queues, keys and iterator call sequences, with and without repeated keys", "why_tests_cant": "Which of several equal entries a seek stops at depends on the tree shape; tests use distinct keys.", "anchors": ["queue/priority/iterator.go", "queue/priority/iterator_hide.go: seekEqual, seekThan, move"]}
{"id": "C57", "title": "Clear undoes a search", "statement": "After a search between two tiles of a grid, Clear gives every tile the attribute it had before the search, leaves the target as it was, and the same search then gives the same answer again.", "quantifier": "all grids, targets, both searches, all earlier calls", "why_tests_cant": "All grids, all attributes of start and end tile, all call sequences before; the tests clear one grid.", "anchors": ["graph/astar/astar.go: Clear, search, SetTarget"]}
{"id": "C58", "title": "Grids read from text", "statement": "NewWithTiles(text) builds a grid with as many rows as text has lines with visible letters and as many columns as the longest of them, in which every tile has the attribute of its letter ('.' where there is none or it is one of '*', 's', 'e') and start and end are where the last 's' and 'e' stand; SetStringTiles(text) overwrites exactly the tiles with a letter other than these and moves the target likewise; filling a new grid of the same size with SetStringTiles gives the same grid as NewWithTiles.", "quantifier": "all texts (byte strings), all grids filled", "why_tests_cant": "All texts with all line lengths and white space; the reader's buffer size and the different treatment of blank lines show only for texts no test contains.", "anchors": ["graph/astar/astar.go: NewWithTiles, SetStringTiles"]}
{"id": "C59", "title": "Grids printed as text", "statement": "GetTiles prints the attributes row by row; GetTilesWithTarget, GetPathTiles and GetSinglePathTiles print the same with 'o' on the path and 's' and 'e' on the target, panicking exactly if these are off the grid (or, for paths, missing); after a successful search GetSinglePathTiles shows the path found; NewWithTiles applied to a printed grid of visible letters gives the grid (and the target) back.", "quantifier": "all grids, targets and paths", "why_tests_cant": "All grid sizes, attributes and targets; tests compare a few pictures.", "anchors": ["graph/astar/astar.go: GetTiles, GetTilesWithTarget, GetPathTiles, GetSinglePathTiles, NewWithTiles"]}
{"id": "C60", "title": "Trees with stored sizes stay shallow", "statement": "After n insertions of different keys into an empty indextree.Tree, treelist.Tree or tree priority queue, no way down from the root is longer than a fixed multiple of log n, so that a search compares logarithmically many keys.", "quantifier": "all sequences of insertions", "why_tests_cant": "Tests and benchmarks insert ascending, descending or random keys, for which the trees stay shallow; the orders that defeat the rebalancing are not among them.", "anchors": ["tree/indextree/utils.go: fixPut, getHeightLimit, sizeRRotate, sizeLRotate", "tree/treelist/utils.go: fixPut, rootSizeTable", "queue/priority/tree_hide.go: put, rebalance, sizeRotateType"]}
{"id": "C61", "title": "A comparator only needs the right sign", "statement": "tree/indextree, map/orderedmap.go and tree/treelist take any func(a, b) int. A comparator that answers arbitrary negative and positive numbers (such as a - b) instead of -1 and 1, with the sign following the order, gives the same answers and contents after every sequence of calls as the sorted list of entries would, including RemoveRange and Trim with bounds that are not keys.", "quantifier": "every weak order on keys, every comparator whose sign follows it, every finite sequence of calls", "why_tests_cant": "The package's tests use compare.Any, which answers only -1, 0 and 1. Whether some branch compares two answers with each other, instead of with 0, shows only for comparators of another kind and for keys and bounds that happen to lie on one side of a node.", "anchors": ["tree/indextree/utils.go:202-223", "tree/indextree/tree.go:441-526", "tree/indextree/tree.go:644-714", "tree/treelist/utils.go:106-128", "tree/treelist/tree.go:235-354", "tree/treelist/tree.go:528-611", "compare/compare.go:3"]}
{"id": "C62", "title": "Floating-point keys", "statement": "compare.Any, AnyEx and AnyDesc accept float32 and float64 keys. Used as comparators they give an order of the keys, by value, with the two zeros equivalent, so that the ordered containers behave as sorted maps on such keys, and hash containers find a key that was put in: whatever the keys, a key put in is found again under itself, and different numbers do not get in each other's way.", "quantifier": "all floating-point keys, finite, infinite and NaN; all call sequences", "why_tests_cant": "Tests use integer keys. Every float except NaN behaves, and what NaN does to a tree depends on where in the tree it ends up.", "anchors": ["compare/compare.go:104-142", "tree/indextree/tree.go:62-102", "tree/avl/tree_hide.go:9-38", "map/hashmap/hashmap.go:28-71", "map/linkedhashmap/linked_hashmap.go:134-154"]}
{"id": "C63", "title": "Nodes of an index tree stay well linked", "statement": "Every call of indextree.Tree, Split and the range operations included, leaves the nodes it keeps correctly linked: a node's Parent is the node that has it as a child, the topmost node's Parent is the tree's root, no node is a child twice, climbing by Parent from any node ends at the root, and every Size is the sum of the children's sizes plus one. No call loops for ever or meets a nil pointer because of such links, so working on linked nodes in place gives the same answers as the sorted list of entries.", "quantifier": "every weak order on keys, every rotation threshold, every finite sequence of calls", "why_tests_cant": "A wrong Parent does no harm until a later call climbs over it: put, rotate, cut, merge and split all rewire several nodes at once, and the tests' check function only sees the states their random sequences happen to reach.", "anchors": ["tree/indextree/tree.go:12-29", "tree/indextree/tree.go:62-102", "tree/indextree/tree.go:277-349", "tree/indextree/tree.go:366-640", "tree/indextree/tree.go:644-815", "tree/indextree/tree.go:818-1060", "tree/indextree/utils.go:14-190", "tree/indextree/utils.go:202-330", "tree/indextree/utils.go:339-379"]}
{"id": "C64", "title": "Index trees do not share nodes, not even after Split", "statement": "A program may use several index trees at a time, among them the receiver of a Split and the tree it returned. No node ever belongs to two of them, and no call on one tree changes any field of a node of another: every tree answers as if it were alone, whatever is done to the others in between.", "quantifier": "every weak order on keys, every rotation threshold, every finite interleaving of New, Split and all other calls on any number of trees", "why_tests_cant": "Split relinks the receiver's own nodes instead of copying them. A link left over between the two halves shows only when later calls on one half climb or descend over it, and the tests look at the halves one at a time right after the split.", "anchors": ["tree/indextree/tree.go:31-33", "tree/indextree/tree.go:818-938", "tree/indextree/tree.go:941-1060", "tree/indextree/utils.go:14-190"]}
{"id": "C65", "title": "BenchmarkStats describes the tree", "statement": "BenchmarkStats of tree/avl, tree/indextree and the experiment trees ends without a panic and reports the true height, the true sum of depths and number of nodes (whose quotient is AvgDepth). P50Depth and P95Depth are depths that occur in the tree: of n nodes at most 50 (95) percent of n-1 are less deep, and more than that are at most as deep. Height and count agree with Height() and Size().", "quantifier": "every tree of any shape, every finite sequence of calls leading to it", "why_tests_cant": "The tests print or bound the figures for a few benchmark trees and never compare them with an independent count; off-by-one ranks in the percentiles would not show.", "anchors": ["tree/avl/bench_stats.go:14-54", "tree/indextree/bench_stats.go:31-71", "tree/indextree/experiment/bench_stats.go:14-54", "tree/indextree/experiment/shift_tolerance_tree.go:329-369"]}
{"id": "C66", "title": "experiment.Tree is a sorted map", "statement": "Every finite sequence of Set, Upsert, Put, InsertIfAbsent, Get, Remove, Delete, Clear, Size, Len, Traverse and Values on experiment.Tree answers as a sorted map with one entry per key does, for any comparator that is negative, zero or positive as its first argument is smaller, equal or greater, and Height() is the height.", "quantifier": "every weak order on keys, every comparator for it, every threshold from 1 to 127, every finite sequence of calls", "why_tests_cant": "The package's tests insert and look at figures of the shape; put and get disagree about what the comparator's answers mean, and no test compares what a lookup returns.", "anchors": ["tree/indextree/experiment/tree.go:43-152", "tree/indextree/experiment/tree_hide.go:16-165", "tree/indextree/experiment/node.go:115-240"]}
{"id": "C67", "title": "ShiftToleranceTree is a sorted map that only grows", "statement": "Every finite sequence of Put, Get, Size and Height on a ShiftToleranceTree answers as a sorted map does, Height() being the height of the tree; the Size, Balance and Height fields of every node are right after every call and no call panics.", "quantifier": "every weak order on keys, every comparator for it, every shift, every finite sequence of calls", "why_tests_cant": "The benchmarks insert with a few shifts and compare heights; they call Get but never look at its answer, and no sequence is deep enough to leave the range of int8.", "anchors": ["tree/indextree/experiment/shift_tolerance_tree.go:35-128", "tree/indextree/experiment/shift_tolerance_tree.go:130-186", "tree/indextree/experiment/shift_tolerance_tree.go:188-310"]}
{"id": "C68", "title": "How often the comparator is called", "statement": "In a tree of n entries every call of set/treeset, tree/avls and tree/avl built with height difference 2 that looks at one key calls the comparator at most 2 log2(n+1) + 1 times, at most twice that if it looks the key up and then inserts it (Upsert; in tree/avls also Set and InsertIfAbsent), and not at all otherwise; in tree/heap Put calls it at most log2(n+1) times, Pop at most 2 log2(n-1) times and every other call never. The result of a call depends on the comparator only through its answers to these questions.", "quantifier": "every weak order on keys, every comparator for it (for the heap: any function), every finite sequence of calls before the call counted, every call", "why_tests_cant": "The tests check results, not the number of comparator calls; a walk that goes down both sides, or a sift that looks at a child twice, gives the same results on every input.", "anchors": ["tree/avl/tree_hide.go:9-109", "tree/avls/tree_hide.go:9-114", "set/treeset/tree.go:45-112", "tree/heap/heap.go:64-148"]}
{"id": "C69", "title": "SearchMulti lists exactly the shortest paths", "statement": "After a successful SearchMulti on a fresh or cleared grid, GetMultiPath holds every shortest path from the end to the start over free tiles, each once, and no other path (apart from the end tile in front of each path, C48).", "quantifier": "all grids, targets, both neighbourhoods, default cost", "why_tests_cant": "The number of shortest paths grows exponentially with the grid; the tests look at two grids and do not compare with an independent list of shortest paths.", "anchors": ["graph/astar/astar.go:277-280 GetMultiPath", "graph/astar/astar.go:412-470 SearchMulti, multiPath", "graph/astar/count_interface.go: SimpleCost, SimpleWeight"]}
{"id": "C70", "title": "Tree list nodes in memory", "statement": "The pointer code of tree/treelist (Parent, Children, Direct, updates in place, loops climbing by Parent) always ends, never meets a nil pointer except where it panics on purpose, and answers every call as a sorted map does. After every call each node's Parent is the node whose child it is, sizes are those of the children plus one, and the Direct pointers run from the first node of the tree to the last and back, through every node once, in the order of the keys.", "quantifier": "every weak order on keys, every comparator for it, all values, every finite sequence of calls of Put, Set, PutDuplicate, Get, Remove, RemoveIndex, Head, Tail, RemoveHead, RemoveTail, Index, IndexOf, Size, Traverse, Slices, Clear, RemoveRange, RemoveRangeByIndex, Trim, TrimByIndex", "why_tests_cant": "A pointer left to a node that is gone, or a Direct pointer that skips a node, shows only when a later call goes that way; the tests check Parent and Size on random trees and never the Direct pointers of a whole tree against its nodes.", "anchors": ["tree/treelist/tree.go:46-232", "tree/treelist/tree.go:235-716", "tree/treelist/utils.go:28-103", "tree/treelist/utils.go:130-472", "tree/treelist/utils.go:947-984 check"]}
{"id": "C71", "title": "Tree list iterators while the tree is changed", "statement": "Iterators of tree/treelist stay usable while the tree is changed: each stays at its entry, reads the value and the index the entry has by then, goes on to the entry that comes next or before by then, and copies made by Clone go their own way. Calls that only put entries in disturb no iterator. A walk from the first entry to the last during which the tree is changed yields keys in increasing order, none twice, and every key that is in the tree throughout.", "quantifier": "every weak order on keys, every comparator for it, all values, any number of iterators, every interleaving of calls of the tree (as in C70) with seeks, moves and reads of iterators and Clone", "why_tests_cant": "Whether an iterator survives a removal depends on which node the code takes the replacement from, that is on the sizes of the subtrees then; the tests never change a tree under an iterator.", "anchors": ["tree/treelist/iterator.go:6-158", "tree/treelist/tree.go:46-716", "tree/treelist/utils.go:365-472 removeNode", "tree/treelist/utils.go:528-564 seekNodeWithIndex"]}
{"id": "C72", "title": "Skip list iterators while the list is changed", "statement": "Iterators of tree/skiplist stay usable while the list is changed, and no call panics. Each stays at its entry, reads the value the entry has by then, and Next and Prev go to the entries that come next and before by then. An iterator whose entry is taken out goes on reading it as it was; Next then leads to the entry that was next when it was taken out, or onwards from there if that one was taken out as well. Copies made by Clone go their own way. A walk during which the list is changed meets keys in increasing order, none twice, and every key that is in the list throughout; in particular entries may be removed as they are met.", "quantifier": "every weak order on keys, every comparator for it, all values and coin flips, any number of iterators, every interleaving of all calls of the list with seeks, moves, reads and Index of iterators, Clone and Iterator", "why_tests_cant": "A removed node keeps its forward pointers; whether an iterator left on it finds its way depends on what else is removed or put in later and on the levels of the nodes. The tests use iterators on lists at rest.", "anchors": ["tree/skiplist/skiplist.go:21-25 Iterator", "tree/skiplist/skiplist.go:171-177 Iterator()", "tree/skiplist/skiplist.go:273-447 iterator methods", "tree/skiplist/skiplist.go:61-880"]}
{"id": "C73", "title": "A* with a Neighbor of the user's own", "statement": "With SetNeighbor given an implementation of the user's (knight's moves, portals, streets), Search on a fresh or cleared grid returns, answers true exactly if the end can be reached from the start by its moves over free tiles, and the path it leaves, read from the start to the end, consists of its moves, no tile twice; likewise every path of SearchMulti.", "quantifier": "all grids, targets, weights, costs that charge something for each step, and every Neighbor, whether or not its moves can be taken back", "why_tests_cant": "Neighbor is an interface, and the tests use only the two implementations of the package. The way back is found by asking Neighbor again from the end, so it depends on symmetry, which no test can establish for all neighbourhoods.", "anchors": ["graph/astar/neighbor_interface.go:4-6 Neighbor", "graph/astar/astar.go:200-202 SetNeighbor", "graph/astar/astar.go:417-466 singlePath, multiPath", "graph/astar/astar.go:469-532 search"]}
{"id": "C74", "title": "Memory and copying of the heap, the circular queue and the segmented stack", "statement": "The storage a heap, a circular queue or a segmented stack keeps allocated is at most a constant multiple of the number of elements it holds now, or, once Clear has been called on a heap or a stack, of the most it ever held. All the storage it ever allocates, summed over a history, is at most a constant for each call, so that growing and shrinking cost a constant per call on average, however pushes and pops alternate.", "quantifier": "all operation sequences of any length, all capacities of at least one, and for the heap every comparator, consistent or not", "why_tests_cant": "Tests check answers, not allocations; a growth rule that thrashes at one boundary or leaks a block answers correctly in every test, and a bound for all alternations needs an amortised argument.", "anchors": ["tree/heap/heap.go:26-34 grow, 84-97 slimming", "queue/linkedarray/queue.go:26-57 grow, slimming", "stack/listarray/stack.go:22-57 grow, cacheRemove", "stack/listarray/stack.go:76-81 Clear"]}
{"id": "C75", "title": "Tree lists do not share nodes, results of set operations included", "statement": "A program may use several tree lists at a time, among them the results of Intersection, UnionSets and DifferenceSets. No node ever belongs to two of them, not even one that a list has removed but still points to, and no call on one list, and no set operation, changes any field of a node of another: every list answers as if it were alone, whatever is done to the others in between. Results of set operations are well linked, balanced and threaded lists like any other and can be used and combined further.", "quantifier": "every comparison function, consistent or not, for the separation; every weak order on keys for the answers; every finite interleaving of New, the three set operations (of a list with itself too) and all other calls on any number of lists", "why_tests_cant": "The tests compare the contents of a result once, right after it is made. That a result aliases a slice or a node of an operand shows only when one of them is changed afterwards, at the shared node, and is then looked at through the other.", "anchors": ["tree/treelist/tree.go:46-48 New", "tree/treelist/tree.go:719-743 Intersection, UnionSets, DifferenceSets", "tree/treelist/utils.go:752-945 setOperationStream and the build"]}
{"id": "C76", "title": "A comparison function that is no order does no damage to the search trees", "statement": "When the comparison function is not a consistent order (NaN among float keys, numbers that wrap around, a bug in it), lookups in an index tree, tree list, avl, avls or treeset may miss entries, but the container itself stays sound: every call by key finds some entry that compares equal to the key, or none, and changes, drops or adds at most that one entry; all other entries stay, in their relative order; Size, positions, Values and Traverse agree with the entries; links, the thread of a tree list, subtree sizes and stored heights are right, the balance condition holds, and no call panics that is not documented to. For the trees that take directions the function must give 0, 1 or a negative number.", "quantifier": "every comparison function whatever (for avl, avls and treeset: every one with values up to 1), every finite sequence of calls", "why_tests_cant": "The tests only use consistent comparison functions; there is no end to inconsistent ones, and the damage they could do (a lost subtree, a wrong size, a broken parent link) shows only in certain shapes and sequences of calls.", "anchors": ["tree/indextree/tree.go:41-1065 all operations", "tree/indextree/utils.go:7-405", "tree/avl/tree_hide.go:9-89 put, get, remove", "set/treeset/tree_hide.go:9-89 put, get, remove", "tree/avls/tree_hide.go:9-96 put, get, removeLeft", "tree/treelist/tree.go:67-743 all operations but the set operations", "tree/treelist/utils.go:24-616"]}
{"id": "C77", "title": "The standard methods mean the same in every package", "statement": "In every package that offers them, InsertIfAbsent returns true exactly when the key was absent and changes nothing otherwise, Upsert stores the value and returns true exactly when the key was present, Delete removes the key and returns its value and true exactly when it was present, and Len is the number of keys: any sequence of these calls (with Get and Clear) gets the same answers from a hash map, a linked hash map, an avl tree, a tree set, an avls tree, a priority queue, an index tree and an ordered map, so that one can replace another. The last two: for values that are not nil.", "quantifier": "every key type with equality or order, every comparison function for it, every finite sequence of standard calls", "why_tests_cant": "Every package tests its own methods with a few keys; that eight implementations agree on every sequence of calls compares programs on unboundedly many runs, and the multimap packages agree only because standard calls never create duplicates.", "anchors": ["api_standard.md Preferred Core Methods", "map/hashmap/hashmap.go:37-87", "map/linkedhashmap/linked_hashmap.go:129-262", "tree/avl/tree.go:54-113", "set/treeset/tree.go:56-127", "tree/avls/tree.go:51-112", "queue/priority/tree.go:43-178", "tree/indextree/tree.go:105-364", "map/orderedmap.go/map.go:23-69"]}
{"id": "C78", "title": "Printed forms show the contents", "statement": "String returns \"[\", the elements as fmt prints them, separated by single blanks, and \"]\": for the three stacks from bottom to top, for array lists and linked lists from front to back, for linked hash maps the entries {key:value} from front to back, for tree sets the values in increasing order of their keys. A hash map is printed as map[key:value ...] and a hash set as [key,key,...], every key exactly once, in an order of the runtime's choosing. An index tree is drawn with one line for every entry, from the largest key to the smallest, indented by one cell per level. No call of String panics, on empty containers either. If the elements print as something that is not empty and has no blank, equal printed forms mean equal contents. (A tree set prints values only, so sets with different keys may print alike.)", "quantifier": "every element type and every way of printing one element, every finite sequence of calls before String", "why_tests_cant": "Tests compare a few printed strings; separators and brackets go wrong at the edges (nothing, one element, an element that prints as nothing or ends in a blank), for contents that only certain sequences of calls produce.", "anchors": ["stack/array/stack.go:62-64 String", "stack/list/stack.go:41-43 String", "stack/listarray/stack.go:94-97 String", "list/array_list/array_list.go:264-266 String", "list/linked_list/linked_list.go:253-255 String", "map/linkedhashmap/linked_hashmap.go:37-39, 296-298 String", "map/hashmap/hashmap.go:130-133 String", "set/hashset/hashset.go:72-81 String", "set/treeset/tree.go:168-193 str, String", "tree/indextree/tree.go:36-38 String", "tree/indextree/debug_utils.go:98-146 outputfordebugNoSuffix, debugString"]}
{"id": "C79", "title": "A comparison function that is no order does no damage to skip lists, heaps and priority queues", "statement": "When the comparison function is not a consistent order, searches in a skip list may end at a wrong place, but the list stays sound: each search ends at a place where the entry before compares below the key (or there is none) and the entry after does not; Put, Set, PutDuplicate, Get, Remove and RemoveHead act on the entry after that place, if it compares equal, and touch no other; RemoveTail and RemoveIndex take out exactly the entry meant, or nothing if some entry before it does not compare below it; Trim and TrimByIndex drop entries and change none; Size, Head, Tail, Index, IndexOf, Slice and Traverse agree with the entries; no call panics or runs forever. A heap with such a function gives some element it holds, loses and invents none, and its Size is right. A priority queue with such a function stays sound too: Put adds one entry, calls by key find some entry that compares equal or none and touch no other, calls by position, PopHead, PopTail, Size, Traverse and Values are exact, and no call panics but Index outside the queue.", "quantifier": "every comparison function whatever, every maximal level, all coin flips, every finite sequence of calls (skip list: all calls but RemoveRangeByIndex); priority queue: all calls, RemoveIndex with positions inside the queue", "why_tests_cant": "The tests only use consistent comparison functions. With an inconsistent one the levels of a skip list could disagree about where a node belongs; whether they do depends on the heights and on the function, and there is no end to either.", "anchors": ["tree/skiplist/skiplist.go:61-163 Put, Get, Remove", "tree/skiplist/skiplist.go:449-609 RemoveHead, RemoveTail, PutDuplicate, RemoveIndex", "tree/skiplist/skiplist.go:611-663 RemoveRangeByIndex", "tree/skiplist/skiplist.go:796-876 Trim, TrimByIndex, removeInternal", "tree/heap/heap.go: New, Put, Pop, Top, Clear, Reset, Size", "queue/priority/tree.go:32-210", "queue/priority/tree_hide.go:14-269"]}
{"id": "C80", "title": "What was removed is let go", "statement": "After any sequence of calls, the nodes that can be reached by following pointers from a list queue, a linked list (also one changed through iterators), a linked hash map, a skip list, an index tree or a tree list are exactly one node for every element now in the container, with that element's content, and the container's own sentinels: no pointer leads to a node that was removed, so the garbage collector can have it. For the tree list this fails after a Trim that keeps nothing. The circular queue's array holds its elements and, besides, either nothing or fewer old values than it has elements. The other containers built on arrays do not let go: an array stack that was cleared or popped empty still refers to every value pushed, and segmented stack, heap and array list keep values that were taken out.", "quantifier": "all element types and values, every finite sequence of calls (index tree: TrimByIndex with positions in range; tree list: as for C70), every maximal level and all coin flips, every strict weak order", "why_tests_cant": "A node kept alive by a forgotten pointer changes no answer of the API; it shows only as memory that is never released, and only for the sequences of calls that leave such a pointer.", "anchors": ["queue/list/queue.go:60-110 PopBack, PopFront", "list/linked_list/linked_list.go:59-165 Clear, PopFront, PopBack", "map/linkedhashmap/linked_hashmap.go:211-260 Clear, Remove, remove", "tree/skiplist/skiplist.go:129-163 Remove", "tree/skiplist/skiplist.go:243-256 Clear", "tree/skiplist/skiplist.go:796-876 Trim, TrimByIndex, removeInternal", "tree/indextree/tree.go:277-760 Remove, RemoveIndex, RemoveRange, Trim", "tree/treelist/tree.go:185-717 Remove, RemoveRange, Trim", "queue/linkedarray/queue.go:20-150 grow, slimming, PopBack, PopFront", "stack/array/stack.go:33-49 Pop, Clear", "tree/heap/heap.go:42-125 Clear, slimming, Pop", "list/array_list/array_list.go:179-240 PopFront, PopBack, Remove"]}
{"id": "C81", "title": "The rotation counters count the rotations made", "statement": "In every call on an avl tree, an index tree or a tree list the two rotation counters (reported by BenchmarkStats, in tree lists by SingleRotations and DoubleRotations) grow by numbers s and d such that the tree afterwards results, by exactly s single and d double rotations, from what the call makes of an ordinary unbalanced search tree (the new key as a leaf, the removed key replaced by its neighbour in order or spliced out, the removed range cut out and the smaller remaining part hung below the end of the larger, nothing otherwise). Counting, reading and resetting the counters has no influence on the tree. avl: a removal rotates at most once on each level above the last. With a rotation threshold of at least 2 an insertion rotates at most once and only if the key was new, so as long as nothing is removed there are never more rotations than entries. With the threshold 1 that New uses this fails: a single Put may rotate three times, and 100 ascending Puts make 293 rotations. Index tree and tree list: an insertion rotates at most once and only if the key was new, a removal of a range at most once on each level above the last, and no other call rotates, so without removals of ranges there are never more rotations than insertions; the index tree that a split returns and a tree list that was cleared start at 0. ShiftToleranceTree: as for the index tree.", "quantifier": "all keys, values, strict weak orders, every finite sequence of calls; any threshold and any tree for exactness in avl and the bounds on removals; thresholds 2 to 127 for the bound on insertions in avl; in the index tree and the tree list any nonnegative shift and calls that do not panic for exactness, any comparison function, shift and tree for the bounds", "why_tests_cant": "The counters could be off by one for a rotation that only certain shapes of the tree bring about; no test can compare them with the rotations actually made for every shape, and how many rotations one call may cause is a bound over all trees.", "anchors": ["tree/avl/node.go:107-174 leftRotateWithRight, rightRotateWithLeft, leftRotate, rightRotate", "tree/avl/tree_hide.go:9-148 rebalance, put, remove", "tree/avl/tree.go:7-175 New, Put, Set, Remove, Clear", "tree/avl/tree.go:158-174 ResetBenchmarkStats, BenchmarkStats", "tree/indextree/utils.go:41-106 fixPut, sizeRRotate, sizeLRotate", "tree/indextree/utils.go:226-287 mergeGroups, fixRemoveRange", "tree/indextree/tree.go:62-162 Put, Set, Upsert", "tree/indextree/tree.go:441-641 RemoveRange, RemoveRangeByIndex", "tree/indextree/bench_stats.go:14-29 ResetBenchmarkStats, BenchmarkStats", "tree/treelist/utils.go:64-103, 169-265 putWith, fixPut, fixRemoveRange, sizeRRotate, sizeLRotate", "tree/treelist/tree.go:235-525 RemoveRange, RemoveRangeByIndex, Clear, SingleRotations, DoubleRotations, ResetRotations", "tree/indextree/experiment/shift_tolerance_tree.go:65-244 Put, fixPut, sizeLRotate, sizeRRotate"]}
{"id": "C82", "title": "The experiment trees are the trees they are compared with", "statement": "A ShiftToleranceTree with shift s (NewIndexTreeDefault: 2) and a tree of tree/indextree whose size tolerance is s, given the same sequence of Put, Size, BenchmarkStats and ResetBenchmarkStats calls, give the same answers and are the same tree: node by node the same keys, values and stored sizes in the same places. BenchmarkStats reports the same figures for both, rotation counters, height, average depth and percentiles, and Height() of the ShiftToleranceTree is that height as long as it fits into an int8. So it can get as deep as an index tree: n insertions of different keys can make more than n / 4 levels. experiment.Tree with a comparator that tells less, equal and greater by sign and avl.Tree with the same threshold and the comparator it needs for the opposite order give the same answers and are the same tree with the same counters, as long as nothing is looked up or removed.", "quantifier": "all key and value types, every finite sequence of calls, every strict weak order, every comparator with the right signs, every nonnegative shift (every threshold for experiment.Tree)", "why_tests_cant": "TestIndexTreeDefaultMatchesMainPackage compares the figures of the two implementations for three sequences of keys; that two separately written balancing procedures make the same decisions at every node of every tree is a statement about all sequences of insertions.", "anchors": ["tree/indextree/experiment/shift_tolerance_tree.go:65-310 Put, fixPut, fixPutSize, getHeightLimit, sizeLRotate, sizeRRotate, lrotate, rrotate", "tree/indextree/experiment/shift_tolerance_tree.go:312-369 ResetBenchmarkStats, BenchmarkStats, shapeStats", "tree/indextree/experiment/tree_hide.go:16-54 put", "tree/indextree/experiment/comparison_test.go:131-181 TestIndexTreeDefaultMatchesMainPackage", "tree/indextree/tree.go:62-102 Put", "tree/indextree/utils.go:27-106 fixPut, getHeightLimit, sizeRRotate, sizeLRotate"]}
{"id": "C83", "title": "experiment.Tree's nodes: the Parent and Size fields", "statement": "In memory, experiment.Tree's nodes do what the trees of nodes do that C66 is about: every sequence of calls gives the same answers or panics at the same call, whatever the comparator answers and whatever the threshold, and no call runs on forever, although each insertion walks up the Parent fields until one is nil (fixPutSize). While only insertions, lookups, traversals and Clear are called, the Parent field of every node in the tree is its parent in the tree and its Size field the number of nodes below it, itself included. After Remove or Delete neither is so any longer: a node's Parent may be a removed node, its Size too large, and a removed value still be reachable from the tree. What remains so in every state is that following Parent from a node leads to its parent in the tree, by way of removed nodes only.", "quantifier": "all key and value types, every comparator, every threshold, every finite sequence of calls", "why_tests_cant": "No exported function reads Parent or Size, and no test of the package looks at them; a pointer left over in a rotation shows only when a later insertion walks up from below it, possibly without end. That each of the four rotations, at every place in every tree, leaves all pointers right is a statement about all sequences of calls.", "anchors": ["tree/indextree/experiment/node.go:37-62 updateHeight, updateSize, getSize", "tree/indextree/experiment/node.go:98-246 newNode, leftRotateWithRight, rightRotateWithLeft, leftRotate, rightRotate", "tree/indextree/experiment/tree_hide.go:5-165 getRoot, fixPutSize, put, get, remove, neighboring, rebalance", "tree/indextree/experiment/tree.go:17-152 New, Set, Upsert, Put, Get, Remove, Delete, Clear, Size, Traverse, Values, Height"]}
{"id": "C84", "title": "experiment.Tree loses and invents nothing, whatever the comparison function answers", "statement": "Every sequence of calls on experiment.Tree returns, whatever numbers the comparison function gives, as long as Get, Upsert, Remove and Delete see none above 1 and the int8 heights suffice (with threshold 2 they do for fewer than 2^64 calls). The answers are those of a list of entries: an insertion adds one entry or finds one that compares as equal, a removal takes out one entry that compares as less or none and returns its value, Upsert overwrites one entry or inserts, and no call touches any other entry. Size is the number of entries, Height() the height, the stored heights are right. An iterator goes through exactly these entries, in the order of Traverse, forwards and backwards, and its seeks find keys that are there.", "quantifier": "all key and value types, every comparison function, every threshold from 1 to 127, every finite sequence of calls on the tree and then on an iterator", "why_tests_cant": "The comparison the package needs for Put and the one it needs for Get and Remove contradict each other, so every use of both is a use with a comparison function that is no order for one of them. That no entry gets lost nevertheless cannot be seen from examples.", "anchors": ["tree/indextree/experiment/tree.go:43-156 Set, Upsert, Put, InsertIfAbsent, Get, Remove, Delete, Clear, Size, Len, Traverse, Values, Height, Iterator", "tree/indextree/experiment/tree_hide.go:16-165 put, get, remove, neighboring, rebalance", "tree/indextree/experiment/iterator.go:18-90", "tree/indextree/experiment/iterator_hide.go:5-136 newIterator, down, up, seekEqual, seekThan, move"]}
{"id": "C85", "title": "Linked-list iterators left on an element that has been taken out", "statement": "While elements are removed through iterators, popped and cleared, iterators left on them may go on to be used: Valid answers true, Value what the element held, SetValue and Swap change that and, for Swap, the other iterator's element, and nothing else; the list, its Size, both its chains and every other iterator behave as if these iterators did not exist. Through an iterator whose element an iterator removed, RemoveToNext, RemoveToPrev, InsertBefore, InsertAfter and MoveBefore or MoveAfter, from it or to it, panic, and Next and Prev lead to a place where Value panics. For popped and cleared elements the editing calls do not panic but damage the list (refuted).", "quantifier": "all element types, every interleaving of list operations and calls of any number of iterators of both kinds", "why_tests_cant": "A stale pointer does harm only in particular sequences of removals and later calls; that a removed node never gets back into the chain and is never written to by calls on other iterators is a statement about all of them.", "anchors": ["list/linked_list/iterator.go:10-207 Iterator", "list/linked_list/circular_iterator.go:8-248 CircularIterator", "list/linked_list/linked_list.go:59-65 Clear, 130-163 PopFront, PopBack, 221-228 remove"]}
{"id": "C86", "title": "ShiftToleranceTree's nodes: Parent, Size, Balance and Height", "statement": "In memory, statement by statement, ShiftToleranceTree's Put, Get, Size and Height do what the trees of nodes do that C67 is about: whatever the comparison function answers and whatever the shift, every sequence of calls gives the same answers, and a call fails in the one exactly when it fails in the other (it panics, or its walk up the Parent fields has no end, which does not happen where the trees of C67 give an answer). In every state that calls lead to, again whatever the comparison function answers, the Parent field of every node in the tree is its parent in the tree, its Size field the number of nodes from it down, itself included, its Balance field the number of nodes on its left side less that on its right side, and its Height field the number of nodes on the longest way down from it, as long as that is at most 127.", "quantifier": "all key and value types, every comparison function, every shift, every finite sequence of calls", "why_tests_cant": "No exported function reads Parent or Balance. The package has the sizes added up by 1 on one part of the way up and summed up again on the rest, depending on where a rotation happened; that they agree at every node after every sequence of insertions, with single and double rotations under every parent, the sentinel included, is a statement about all of them.", "anchors": ["tree/indextree/experiment/shift_tolerance_tree.go:20-48 ShiftToleranceNode, NewShiftTolerance", "tree/indextree/experiment/shift_tolerance_tree.go:50-128 Size, Height, Put, Get", "tree/indextree/experiment/shift_tolerance_tree.go:130-214 fixPutSize, fixPut, getHeightLimit, updateHeight, updateBalance", "tree/indextree/experiment/shift_tolerance_tree.go:216-310 sizeLRotate, sizeRRotate, lrotate, rrotate"]}
{"id": "C87", "title": "tree/avl and set/treeset on their nodes: pointers, entries and Height", "statement": "In memory, statement by statement, Set, Upsert, Put (Add), InsertIfAbsent, Get, Contains, Remove, Delete, Clear, Size, Len, Empty, Values, Traverse and Height of tree/avl and set/treeset do what the trees do that C20-C22, C27 and C28 are about: whatever the comparison function answers and whatever the threshold, every sequence of calls gives the same answers and panics at the same call, and no recursion is endless. In particular the node that the internal put hands to Set, Put and Add is still that of the key after all rotations on the way up, so that what they write through it is found again, and Remove gives the entry of a node further down to the one found and takes out the other. In every state that calls lead to, again whatever the comparison function answers, walking down from the root one comes upon no node twice and never upon the sentinel Center, and Traverse hands out what the nodes hold in this order. With a comparison function as compare has them, the nodes hold the entries of the sorted map, one node for each, and size is their number. The Height field of every node is the number of nodes on the longest way down from it: always in set/treeset, and in tree/avl as long as the tree has at most 126 levels.", "quantifier": "all key and value types, every comparison function (a weak order for the last two sentences), every threshold, both packages, every finite sequence of calls", "why_tests_cant": "Nothing exported shows a node. That a pointer taken before up to as many rotations as the tree has levels still is the one to write through, that two children pointers never meet in one node, and that Height is right at every node and not just at the root, are claims about all shapes and all sequences; tests see a handful of them through Get and Values.", "anchors": ["tree/avl/tree_hide.go:9-148", "tree/avl/node.go:35-174", "tree/avl/tree.go:17-152", "set/treeset/tree_hide.go:9-150", "set/treeset/node.go:35-164", "set/treeset/tree.go:19-166"]}
{"id": "C88", "title": "Iterators of tree/avl and set/treeset on a tree that is changed meanwhile", "statement": "Take a tree of tree/avl or set/treeset, call its functions, make iterators, and call functions of the iterator made last (SeekToFirst, SeekToLast, Next, Prev, SeekGE, SeekGT, SeekLE, SeekLT, Valid, Key, Value, Clone), in any order. As long as an iterator is not used any more once a call has put a key in or taken one out, all answers, those of the tree and those of the iterators, are those of a sorted map with a cursor on it, and nothing panics but Key and Value off the map. Calls that only change the value of a key that is there (Set, Upsert), that find the key there already (Put, Add) or not there (Remove, Delete), and calls that only read, do not disturb iterators: they stay where they are, and Value gives the new value. Without that restriction it is false: an iterator made before the tree got higher panics when it has to go further down than the tree was high; when the entry under an iterator is taken out, the iterator can without a call be on another key, one it has passed already or one to come; and Next from there can pass over entries that are still in the tree.", "quantifier": "all key and value types, every comparison function of the kind compare has over a weak order, in tree/avl every threshold from 1 to 127 and at most 126 levels, in set/treeset fewer than 2^64 calls; every finite sequence of calls", "why_tests_cant": "That an iterator lives through a call depends on that call writing no child pointer of any node and leaving the number of levels alone, for every tree, key and position; tests walk a few trees that nobody writes to. Which walks panic or skip depends on shapes.", "anchors": ["tree/avl/iterator.go:4-90", "tree/avl/iterator_hide.go:5-136", "tree/avl/tree.go:43-156", "tree/avl/tree_hide.go:9-148", "set/treeset/iterator.go:4-117", "set/treeset/iterator_hide.go:5-136"]}
