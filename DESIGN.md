# Design

A formal model (Rocq/Coq 8.16.1) of the Go library `474420502/structure`, read as text from `/repo`, and proofs about it.
The code is never built or run here: what ties the model to the code is the citation of file and lines above every definition of the model.

`properties.jsonl` lists the properties, `MANIFEST.json` the theorems for each, `seeded/LOG.jsonl` the wrong programs the theorems were tried on.
There `failed_at` names the lemmas whose proofs broke. `theorems_failed` lists, in lines marked `precise`, the theorems that rest on one of them (found with `Print Assumptions` after admitting
them in the scratch copy); in the older lines, all theorems of the files that no longer built.

## Layout

`rocq/theories/` holds, per package `P`:

* `PModel.v` – executable functions, one per Go function, each citing file and lines, with a note on every simplification. No proofs.
* `PSpec.v` – the independent specification the theorems refer to: sequences, finite maps, sorted lists of entries, multisets, cursors. It does not mention the model.
* `PProofs.v` (and companions) – invariants and refinement lemmas.
* `PProps.v` – the theorems named after the properties, `Print Assumptions` below each, with `Example`s that meet their hypotheses.

Shared: `Base.v`, `Bind.v` (panic monad), `Slice.v`, `Machine.v` (call sequences), `DLL.v`/`DLLSeg.v` (chains in a heap), `GoMap.v` (the built-in map),
`OrderSpec.v` (orders and comparators), `SMapSpec.v`/`SMapFacts.v` (sorted maps), `AvlTree.v` (binary trees with a stored number).

Shape of the main theorems: a package is a machine `step : state -> op -> option (state * answer)`; the specification is another one over lists; the theorem says that
for every finite list of calls the answers agree (`run`, `srun`) and that the states reached (`reach`, `sreach`) satisfy the structural invariant. `None` is a Go panic or a loop without end.
A statement that is false of the code is kept in `properties.jsonl`, refuted by a theorem `…_refuted` with a concrete witness, and what holds is proved as `…_partial`.

## Modelling conventions

* `int`, `int64` and `uint` are unbounded integers or naturals, except where wrapping is part of the behaviour: array list indexes and iterators (uint), sizes of avl/avls/treeset (uint, bounded
  by the number of calls), heights of avl trees (int8), iterator stack indexes (int8), bloom's 64-bit hash. There the wrap is written out. Where 2^63 nodes would be needed to see it, it is not.
* A slice is a list; indexing it outside its length is a panic. Spare capacity that `append` may or may not have is a universally quantified parameter where aliasing could show it.
* Pointer structures with redundant links (linked lists, list queue, linked hash map, skip list, tree list threads) live in an explicit heap. Trees that are changed only by descending
  are inductive trees; see the Parent pointers below.
* A plain comparator answers the sign of an order, a direction ("Ex") comparator -1 for equal, 0 and 1 for the sides. Both conventions are the library's; C01, C02, C61 and C62 say which
  comparators meet which. Theorems hold for every weak order on keys (equivalent keys need not be equal) unless they say otherwise.
* Whatever the runtime chooses is a universally quantified parameter: map iteration order, random levels, capacity growth, schedules of goroutines, the permutation of an unstable sort.
* Values stored as `interface{}` are `option A`, `None` being nil, where the code treats nil specially; otherwise they are any type.

## What is modelled, package by package

| package | modelled | not modelled |
|---|---|---|
| compare | all functions that are not commented out; floats in `FloatModel.v` | wrong dynamic types (type assertions panic) |
| tree/heap | everything, backing array and its growth included | |
| stack/array, stack/list, stack/listarray | everything | |
| queue/linkedarray | everything, the ring buffer slot by slot | sizes beyond 2^63 |
| queue/list | everything, on a heap of elements | |
| list/array_list | everything, uint wrap-around and failing allocation included (C55), both iterators | |
| list/linked_list | everything, on a heap of nodes, both iterators and any number of them at once | what a call that panics has changed by then (InsertBefore and InsertAfter raise Size, MoveBefore and MoveAfter unlink the element first) |
| map/hashmap, set/hashset | everything, with the map's iteration order as a parameter | capacity hints, unhashable keys |
| map/linkedhashmap | everything, on a heap of nodes and a Go map | |
| filter/bloom | everything, FNV-1 hash in 64-bit arithmetic, encoding | `HitRatio`; errors of short reads, which the code ignores |
| tree/avl, set/treeset | all operations and iterators; int8 heights; a second, heap-level model for `a.Difference(a)`; all calls but the iterators and the set operations once more on nodes in memory, for every comparator and threshold (`AvlHeapModel.v`), and the iterators on these nodes, with calls on the tree in between (`AvlHeapIterModel.v`) | what exactly iterators give after a key came or went (only witnesses that they panic, move and skip); walks over a set that is changed in the callback |
| tree/avls | all operations and iterators | as avl |
| tree/indextree | all operations and iterators of tree.go, utils.go, iterator.go; any rotation threshold (`shift`); states after a panic; all calls a second time on nodes in memory, Parent fields included (`IndexHeapModel.v`); the rotation counters (`IndexCountModel.v`) | `debug` output |
| tree/indextree/experiment | Tree (its put; the rest is that of tree/avl), ShiftToleranceTree with Size, Balance and int8 Height, and once more as nodes in memory with Parent (`ShiftHeapModel.v`); BenchmarkStats and the rotation counters (`ShiftCountModel.v`); Tree once more as nodes in memory, with their Size and Parent fields (`ExpHeapModel.v`); Tree's iterators, whose text is that of tree/avl (`ExpIterModel.v`) | iterators of a tree that is changed meanwhile |
| map/orderedmap.go | everything, the cast of nil included | |
| tree/treelist | all operations, threads and ends, set operations, iterators, ranges, states after a panic; all calls but range iterators a second time on nodes in memory, Parent and Direct fields included (`TreelistHeapModel.v`), iterators kept while the tree is changed among them (`TreelistHeapIterModel.v`), and any number of lists with their set operations in one memory (`TreelistPoolModel.v`); the rotation counters (`TreelistCountModel.v`) | in `TreelistModel.v`, what is read through a pointer to a node that has left the tree (the answer is then `TStale`); the rotation counters of the results of set operations |
| queue/priority | all exported operations, iterator | debugging; functions no exported function calls (tree_hide.go 271-533); the size of the dummy node |
| graph/astar | search, multi search, targets, clearing, reading and printing grids (bufio's 4096-byte buffer included) | A user's Neighbor is any function from positions to lists of positions, the same throughout a search. CountCost and CountWeight are any functions of the grid and the two tiles that write nothing |
| tree/skiplist | everything, on a heap of nodes, random levels as a parameter; locks and goroutines in `SkipConc.v`, iterators that stay in use while the list is changed in `SkipChangeModel.v` | memory effects of racy accesses; iterators and callbacks while others write |

Not modelled at all: `example/`, `tree/test_utils`, `utils.go`, `debug_utils` files but for what the index tree's `String` uses, commented-out code. Of `BenchmarkStats` the figures of the shape are modelled (`StatsModel.v`), AvgDepth as a fraction, and the rotation counters of tree/avl (`AvlCountModel.v`), tree/indextree (`IndexCountModel.v`) and the experiment trees (`ShiftCountModel.v`). The tree list has no `BenchmarkStats`, but counters (`TreelistCountModel.v`).

The `String` functions are in `PrintModel.v`, as strings of bytes. What fmt prints for one element is a parameter, any function; how fmt prints slices and maps
of elements is modelled after its source, which is not part of /repo. The drawing of an index tree is that of `IsDebugString` false.

Parent pointers of index trees and tree lists are not represented in `IndexModel.v` and `TreelistModel.v`: every loop that climbs by them starts at a node the same call has
come down to, and is written as what recursion does on its way back. For index trees `IndexHeapModel.v` follows the code assignment by assignment, pointers, Parent fields, loops
that climb and all, and C63 proves that the two give the same answers. Its memory takes any type of values. For tree lists `TreelistHeapModel.v` does the
same for tree.go 46-716, with the Direct fields beside, and C70 proves that it agrees with `TreelistModel.v`; `TreelistHeapIterModel.v` adds iterators that
stay in use while the tree is changed (C71). `TreelistPoolModel.v` has any number of lists in one memory and builds the
results of set operations node by node, on any two of them (C75). Range iterators are modelled on trees only.
For the priority queue there is no such second model; its nodes have no Parent field.

## Trusted base

* Coq's kernel, with `vm_compute` for concrete witnesses.
* `Print Assumptions` answers "Closed under the global context" for every theorem named in `MANIFEST.json`: none rests on an axiom. (The standard library modules loaded by ssreflect's
  `Under_rel` signature are listed by tools that print every constant of the loaded libraries; no theorem uses them.) Nothing is admitted, no module types or functors are defined, no kernel check is switched off.
* The reading of the Go source recorded by the citations, the conventions above and the list of what is not modelled.

## Plan per property

| id | model | proof |
|---|---|---|
| C01, C02 | comparators over `Z` and `list Z` | induction on strings; C02's byte-string half is refuted |
| C03, C04 | backing array as list + size, sift loops | heap order with a hole, permutation of the live prefix |
| C05–C08 | slice, linked cells, blocks with cache | refinement to a list; C08 refuted at capacity 0 |
| C09, C10 | ring buffer | refinement through the modular index map; C10 refuted by stale slots |
| C11, C16, C17 | heap of doubly linked nodes | chain predicate in both directions, refinement to a list |
| C12–C14, C55 | data array, head and tail indexes with wrap | refinement to a list; C14 refuted at the ends, C55 refuted for every limit |
| C15 | Contains with both comparator conventions | proved for Ex, refuted for plain |
| C18, C19 | Go map, Go map + heap | refinement to finite map / association list |
| C20–C23 | tree with stored int8 heights | sorted-map refinement, exact heights, balance invariant; New's threshold refuted |
| C24–C26 | the same with repeated keys | stable multimap refinement |
| C27–C29 | as avl with threshold 2 | refinement, AVL invariant; self-difference refuted |
| C30–C34 | tree with stored sizes | sorted-list refinement, exact sizes; iterator defects refuted |
| C35 | wrapper with optional values | refinement; nil values refuted |
| C36–C39 | tree with node identities and thread | refinement of the tree and of the thread |
| C40–C43, C56 | tree with stored sizes, repeated keys | stable refinement; several refutations |
| C44, C45 | bit array, hash | invariant over additions; round trip refuted |
| C46–C48, C57–C59 | grid, heap as open list, text | search invariant; for any cost that grows and any weight; optimality refuted for the default weight, proved for weight = −cost |
| C49–C52 | heap of nodes with forward arrays | per-level subsequence invariant |
| C53, C54 | interleaving machine | simulation by atomic steps; lock order |
| C60 | index tree, tree list, priority queue | families of insertion orders that make linear depth |
| C61 | the same machines with arbitrary signs | agreement with a normalised comparator; getRangeRoot refuted |
| C62 | floats as signed fractions, infinities, NaN | weak order without NaN; refuted with it |
| C63 | index tree on nodes in memory with Parent, Children, Size | zipper into a tree of addresses; each function simulated by that of `IndexModel.v` |
| C64 | several index trees in one memory (`IndexPoolModel.v`) | frame rules for every statement (what a call writes belongs to its tree or is new); disjointness because climbing by Parent is deterministic |
| C65 | `shapeStats` on any tree, breadth-first queue | loop invariant: depths visited are a permutation of the depths there are; ranks in a sorted list |
| C66 | put with its own reading of the comparator (`ExpModel.v`) | insertion is that of tree/avl for the reversed order; lookups refuted for every order |
| C67 | `ShiftModel.v`, all fields of a node | skeleton of sizes simulated by `IndexModel.put`; heights and balances by induction; lookups refuted |
| C68 | `CostModel.v`: the list of comparator calls of each operation | the result depends on the comparator only through the listed answers; height bound of C22, C25, C28; log2 of heap positions |
| C69 | the same grid | weight = −cost: tiles leave the heap in order of their distance, so costs are distances and the cheapest neighbours are exactly the next tiles of shortest paths; refuted for the default weight |
| C70 | tree list on nodes in memory with Parent, Children, Size, Direct | the zipper of C63 with values tagged by the number of the node; code that does not read values is that of C63; the Direct fields are the thread of C36 |
| C71 | C70's nodes and any number of iterators, each a pointer and a number | the node an entry is in stays the same but for the neighbours of a removed entry; a position in the sorted list simulates an iterator; walks by induction; refuted for removals at or beside an iterator |
| C72 | C49's nodes and any number of iterators, each a pointer and a number | every entry keeps its node; a removed node keeps its entry and its way onwards, which ends at a live node or nowhere; places in the sorted list simulate iterators; walks by induction over the calls; refuted for entries put in beyond a removed one, Prev of a removed one, Index |
| C73 | the same grid, Neighbor any function | the invariant of the loop needs no symmetry; the way back does: proved if every move can be taken back, for any Neighbor only the answer (when there is one) and that the path consists of moves from the end to the start; one-way moves refuted |
| C74 | GrowthModel.v: the argument of every `make` of the three, over the models of C03, C09, C07 | invariants on length and size; a potential of 3 cells a slot and 15 for each element beyond two thirds (heap, queue), 10 for each element of the top block while nothing is cached (stack); that the stack after Clear keeps its bottom block for ever is a refutation of the bound by present contents |
| C75 | several tree lists in one memory, set operations among them (`TreelistPoolModel.v`) | the code does not look at addresses: what it does in a memory of its own it does in a part of a larger one, up to an injective renaming (`TreelistMoveProofs.v`), and it writes and reaches only what the renaming gives; the private runs are C70 and a proof that the node-by-node build gives the balanced tree and thread of C38; so this holds also after panics and for inconsistent comparators |
| C76 | index tree and tree list (nodes in memory), avl, avls, treeset, any comparison function | `WildSpec.v` says what a call may do to the list of entries when it is open which entry it finds; the proofs of the tree operations are repeated without order (`IndexWildProofs.v`, `AvlWildProofs.v`, `TreelistWildProofs.v`), the simulation by nodes (`hstep_wild`, `s_step_wild`) never needed one; for the tree list the thread of Direct pointers is part of the claim (`TreelistWildSpec.v`); Trim by keys and numbers that are no directions are refuted |
| C77 | the methods of api_standard.md in all eight packages that have them | `StdSpec.v` is the contract as a list of bindings in no order; each package's specification, restricted to the standard calls, is related to it (`StdProofs.v`); with the theorems of the packages (C18, C19, C20, C24, C27, C30, C35, C40) the models answer as the contract says; nil values (Delete of tree/indextree), tree/indextree/experiment and the legacy Set are refuted. Seek*Exact is covered by C28, C43 and C56 |
| C78 | what String returns, for every function that prints an element | `PrintSpec.v` says what the text is with `String.concat` of the standard library; the contents are those of the packages' specifications (C05-C07, C12, C16, C18, C19, C27, C30); for the drawing of an index tree a line is an inductive relation (cells for the levels, a mark, the key) |
| C79 | skip list, heap and priority queue, any comparison function and any coin flips | `SkipWildSpec.v` says where a search may end (the entry before is below the key, the one after is not) and what a call does there; the comparison is a function, so a node at which a higher level stopped stops the lower ones too: every descent ends at one place with the right predecessors on all levels (`descend_wild`). For an order the description is shown to be that of C49 and C50 (`C79_exact_for_orders`). The heap is C03 with the order in which all elements are equal. RemoveRangeByIndex is refuted. The priority queue needs no order for its sizes and its entries (`PrioWildProofs.v`); `PrioWildSpec.v` says what is left of its calls |
| C80 | the containers whose model has nodes and pointers: list queue, linked list, linked hash map, skip list, index tree, tree list; the arrays of the others | `HoldSpec.v` says what can be reached (least set closed under the pointers of a node) and that it is one node for each element; the invariants of the packages give it, for the skip list with the addition that Forward cells at or above a node's height are nil. The Parent field of an index tree's or tree list's own root node is left out (no code reads it). What iterators hold is not counted, nor the values in sentinels. The models of avl, avls, treeset and the priority queue are functional trees and that of the list stack is a list: nothing is claimed of them. Array stack, segmented stack, heap, array list, circular queue and the tree list after an empty Trim: refuted; how much the circular queue keeps is bounded (`HoldQueueProofs.v`) |
| C81 | tree/avl, tree/indextree and tree/treelist with their two counters | `AvlCountModel.v` is the code of `AvlModel.v` once more, with the counters; erasing them gives `AvlModel.v` back (`C81_avl_same_tree`). `RotSpec.v` says what a rotation of a plain binary tree is, how many lead from one tree to another, and what the calls do to a tree that is never balanced. Threshold 1 (`New`) of tree/avl is refuted as to the number of rotations of one insertion. `IndexCountModel.v` does the same for the index tree; `CutSpec.v` says what its removals by position, by range and its trims and splits do to a tree that is never balanced; `TreelistCountModel.v` and `TreelistShapeSpec.v` are the same for the tree list |
| C82 | ShiftToleranceTree with its fields, counters and BenchmarkStats next to tree/indextree with its counters; experiment.Tree next to tree/avl | `TwinSpec.v` says when two trees are the same node by node and which calls the packages share; forgetting heights and balances maps every step of one way up to the step of the other (`TwinProofs.v`), which needs that the stored sizes are right, since one adds 1 where the other sums up again |
| C83 | experiment.Tree as nodes in memory: addresses, Children, Parent, Size, Height, and loops over pointers with fuel that is counted from the allocated nodes | `ExpHeapSpec.v` says what a parent, the nodes below and the right Size are, from the pointers alone; the memory is related to the tree of `ExpModel.v` by a tree of addresses, and removed nodes are ranked by when they were removed, which is why going up through Parent comes to an end (`ExpHeapProofs.v` to `ExpHeapTopProofs.v`) |
| C84 | experiment.Tree (`ExpModel.v`) and its iterators (`ExpIterModel.v`) with any comparison function | `ExpWildSpec.v` says what a call may do to a list of entries; put is that of tree/avl with another comparison function, so the lemmas of C76 apply to insertions with one function and to lookups and removals with the other (`ExpWildProofs.v`) |
| C85 | the nodes of C16 and any number of iterators, some on nodes that are out of the list (`LinkedListModel.v`, unchanged) | `LinkedListStaleSpec.v` adds to the cursors of C17 the cells that are out; the nodes of the list point only to one another, so a call on them writes to them and to new nodes only (one lemma for every assignment, composed along every call); remove clears both links, so the calls through a removed node meet nil; refuted for popped and cleared nodes, whose links stay |
| C86 | ShiftToleranceTree as nodes in memory with all fields, loops over pointers with fuel counted from the allocated nodes (`ShiftHeapModel.v`) | `ShiftHeapSpec.v` says what a parent, the nodes below and the right fields are, from the pointers alone; the memory is related to the tree of `ShiftModel.v` by a tree of addresses with the way down to one of its nodes, so that one rotation, and one node of the way up, is one lemma at every place (`ShiftHeapProofs.v`); that the fields are right needs no ordering, only that an insertion adds one node (`ShiftHeapTopProofs.v`). A panic and running out of steps are both None in this model; the trees of C67 have no steps to run out of, so a call that returns there returns here |
| C87 | tree/avl and set/treeset as nodes in memory with Key, Value, Height and Children (`AvlHeapModel.v`), one model for both, threshold and comparator arbitrary; recursion with fuel counted from the allocated nodes; put hands out a pointer, through which the callers write after the rotations | `AvlHeapSpec.v` lists the nodes from a pointer down and counts levels, from the pointers alone; the memory is related to the tree of `AvlModel.v` by a tree of addresses: `AvlTree.rebalance` and `neighboring`, being polymorphic, run on that tree too, and putting the entries in commutes with them. tree/avl's Height is partial for more than 126 levels, where C21 has the refutation |
| C88 | the iterators of tree/avl and set/treeset on the nodes of `AvlHeapModel.v` (`AvlHeapIterModel.v`): the stack holds pointers, children are read from memory when the iterator gets there; calls on the tree, Iterator() and calls on the iterator made last, in any order | `AvlHeapIterSpec.v`: the sorted map and the cursor of `SMapSpec.v` side by side; an answer tells whether a key came or went (`quiet`), and then the cursor is given up | a walk on addresses is a walk of `AvlIterModel.v` over the tree of addresses with the keys' order pulled back; calls that answer quietly write no child pointer, no Height and make no node, so that tree is the same one after them; without the restriction three refutations by running the model |
