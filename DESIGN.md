# DStruct in Rocq: design

## How the code is modelled

* One executable Gallina model per component, written function by function
  (`*Model.v`), each definition citing the file and lines of /repo it models.
  A simplification is described in the comment of the definition that makes it.
* Every operation returns an outcome: `Ok`, `Abort` (a DSTRUCT_ASSERT /
  DSTRUCT_CRASH fires), `UB` (undefined behaviour: null or dangling
  dereference, access outside a block, destructor on raw storage, wrong-size
  deallocation) or `Diverge` (the loop budget ran out; theorems either exclude
  it, show it for every budget, or use the budget as a measure of cost).
* Pointer structures live in explicit heaps: a block heap of cells for Vector
  and Deque, a node heap for lists and trees, the pool's own words for the
  static allocator.  Freed storage is absent from the heap, so any use of a
  dangling pointer is `UB`.  Where nodes of lists and trees are put is up to an
  arbitrary allocator (`Alloc.v`), which may use addresses again; blocks get new
  addresses, so a dangling pointer to one is always detected.
* Element types are an arbitrary Coq type; comparators are arbitrary boolean
  functions, constrained by strict-weak/total-order hypotheses where the
  property needs it.
* Histories: each container has an op type, a `step`, and a world with any
  number of objects; history theorems are inductions over op lists showing the
  concrete run and an independent specification run (plain lists / sets / maps)
  agree.
* Specifications have their own small files (`*Spec.v`) and use only lists,
  finite maps, relations and arithmetic.  A specification step answers `SVal`
  (this result), `SAbort` (the assertion must fire) or `SUnspec` (outside the
  contract; nothing is claimed by the history theorem, and the separate
  `_refuted` theorems say what happens there).
* A property that is false of the code has status `partial`, a note starting
  with REFUTED, a `_refuted` theorem proved for every history / size it fails
  on (not only for one example), and where possible a positive theorem for the
  rest.

## Files

* `Base.v` outcomes and monad; `Hist.v`, `Adapter.v`, `LRun.v` histories and
  stepping lemmas; `VecProg.v` client programs over vectors.
* `XModel.v` model, `XSpec.v` independent specification, other `X*.v` lemmas,
  `PropX.v` only the property theorems (each closed by `exact lemma`, with
  `Print Assumptions` beneath and an `Example` showing that a concrete case
  meets its hypotheses).
* `seeded/LOG.jsonl` the wrong programs tried against the theorems.

## Trusted base

* Coq 8.16.1's kernel (including its `vm_compute`, used for the examples and
  for closed computations).
* `Print Assumptions` says "Closed under the global context" for every theorem
  named in MANIFEST.json: no axiom is used, neither from the standard library
  nor from anywhere else.  std++ loads ssreflect, whose module `ssrunder`
  seals seven constants behind a module type (`Under_rel.Over_rel`,
  `Under_rel_from_rel`, `over_rel`, `over_rel_done`, `Under_rel`, `Under_relE`,
  `under_rel_done`); they are part of Coq's distribution and no theorem here
  depends on them.
* The reading of the C++ text into the `*Model.v` files, function by function,
  as described in their comments.
* C++ facts assumed by the reading: evaluation order left to right where the
  standard leaves it open (each such place is named in a comment), element
  copies/moves/comparisons do not throw and have no side effect on the
  container, and `int`/`size_t` conversions are exact except in the files that
  model machine arithmetic (`SMA*.v`, `Arith*.v`, `Int*.v`, `VecBytes*.v`).

## What is modelled, file by file

| /repo file | modelled | not modelled |
|---|---|---|
| core/common.hpp | construct, destroy (null check, raw cells), in `VectorModel.v` / `DequeModel.v` / `VecFailModel.v` | the comparison typedef boilerplate |
| core/Iterator.hpp | PrimitiveIterator as pointer pairs in `VectorModel.v`, `ArrayModel.v`; as client variables in `VecIterModel.v` | `operator->` |
| dstruct-static.hpp | the aliases that compile: Vector, String, stacks, heaps, DisjointSet over the pool (`VecPoolModel.v`, `Pool*.v`), lists and trees (`SMANodes.v`) | Deque and Queue over the pool (do not compile) |
| core/algorithm.hpp | for_each, find over vector ranges, vector client iterators and deque iterators; over list and AVL tree iterators (`AlgoIterModel.v`); for_each over lists, AVL trees, vectors, deques, maps and binary search trees with callbacks that change them (`ListEachModel.v`, `TreeEachModel.v`, `VecEachModel.v`, `DqEachModel.v`, `KeyEachModel.v`) | for_each over heaps, stacks, queues and arrays with callbacks that change them |
| core/utils.hpp | less, greater, swap, max, abs (`ArithModel.v`) | type traits |
| core/ds/array/Vector.hpp | everything (`VectorModel.v`); failing allocation (`VecFailModel.v`); storage in the static pool (`VecPoolModel.v`); iterators and references kept by clients (`VecIterModel.v`); int arithmetic of indices and loops (`IntModel.v`, for all programs `IntVecModel.v`); truncated byte counts (`VecBytesModel.v`) | |
| core/ds/array/Array.hpp | everything (`ArrayModel.v`) | |
| core/ds/string/BasicString.hpp | everything (`StringModel.v`) as client of Vector; with Vector's int arithmetic (`IntVecModel.v`) | non-ASCII encodings (characters are an arbitrary type with a NUL) |
| core/ds/stack/Stack.hpp, XValueStack.hpp | everything over Vector (`StackModel.v`); Stack over deques and linked lists (`StackOtherModel.v`); XValueStack over all of them, with copies and moves (`XStackModel.v`); pushes of references to elements (`StackRefModel.v`) | |
| core/ds/Heap.hpp | everything incl. sort (`HeapModel.v`); indexing, capacity and references to elements (`HeapRefModel.v`); int arithmetic (`IntModel.v`) | |
| core/ds/set/DisjointSet.hpp | everything (`DSUModel.v`), union_set called by clients (`DSUUnionModel.v`), calls with any int as element number (`DSUSignModel.v`), parameters and results as references (`DSURefModel.v`) | |
| core/ds/linked-list/*.hpp | EmbeddedList, both lists (`ListModel.v`), iterators (`ListIterModel.v`), pushes of references to elements (`ListRefModel.v`), any allocator of nodes (`Alloc.v`), nodes in a static pool (`SMANodes.v`) | |
| core/ds/queue/DoubleEndedQueue.hpp | everything incl. block table, iterators, resize, constructor and destructor calls (`DequeModel.v`, client iterators in `DequeIterModel.v`, moves of them in `DqMoveModel.v`, arguments that refer to elements in `DequeRefModel.v`), failing allocation (`DequeFailModel.v`), the int arithmetic of random access (`IntDeqModel.v`) | int overflow in the loops over the map table; a non-default allocator parameter (does not compile) |
| core/ds/queue/Queue.hpp | over DoubleEndedQueue and DLinkedList (`QueueModel.v`) | |
| core/ds/tree/EmbeddedBinaryTree.hpp, BinaryTree.hpp, AVLTree.hpp | links, rotations, traversal, push/pop/erase/find/clear (`TreeModel.v`, `TreeWorld.v`), iterators (`TreeIterModel.v`) and moving them (`IterMoveModel.v`), the steps of the next functions (`WalkModel.v`), arguments that refer to elements (`TreeRefModel.v`) | BinaryTree::copy (does not compile when used) |
| core/ds/tree/BinarySearchTree.hpp | push/pop/erase/find/move (`TreeModel.v`, `BstWorld.v`), iterators (`BstIterModel.v`) and moving them (`IterMoveModel.v`) | copy (does not compile); the byte offset between node and link |
| core/ds/Map.hpp | push/pop/operator[]/find/iteration (`TreeWorld.v`), references and iterators kept by clients (`MapIterModel.v`) | erase and `operator[] const` (do not compile) |
| memory/StaticMemAllocator.hpp | everything, with the pool as words and int overflow as UB (`SMAModel.v`) | bytes inside user blocks beyond "the user may write anything" |
| port/static-memory/sma-dstruct-port.hpp | allocate, deallocate (`SMAModel.v`) | dump functions |
| port/libc/libc-dstruct-port.hpp, spec/DStructSpec.hpp | allocation size arithmetic (`ArithModel.v`), refusals (`VecFailModel.v`, `DequeFailModel.v`) | malloc itself |
| tests/, examples/ | not modelled | |

Also outside the model: performance other than the operation counts of C04,
C38, C64-C66, C68 and C96, real addresses except in C56, and the value of moved-from
elements.

## Per property

| id | property | modelled and proved how | result |
|---|---|---|---|
| C01 | Vector behaves as a sequence, for every history | Vector over a block heap, many objects; refinement to `gmap id (list A)` by induction over histories, block accounting invariant | proved: `C01_vector_history`. Total correspondence of every history (any element type, any number of vectors) with lists; assertion failures and undefined calls included. int/size_t conversions are exact for sizes below 2^31; allocation never fails. |
| C02 | Vector: no leak, double free or wrong-size deallocation | Vector over a block heap, many objects; refinement to `gmap id (list A)` by induction over histories, block accounting invariant | proved: `C02_vector_storage`, `C01_vector_history`. Invariant over all reachable states; a double free / wrong-count deallocation would be UB, excluded by C01. |
| C03 | Vector operator[]: Python-style indexing and the bounds assertion | operator[] with a `Z` index; case analysis | partial: `C03_index_get_partial`, `C03_index_set_partial`, `C03_index_too_large_partial`, `C03_index_too_negative_refuted`. REFUTED: for every vector and every index i < -size() the assertion passes and the access is out of bounds. In-range reads/writes and i >= size() are proved. |
| C04 | Vector capacity discipline | push/pop/resize with a construction counter; potential argument | proved: `C04_size_within_capacity`, `C04_push_capacity`, `C04_pop_capacity`, `C04_amortised_constant`. At most 3n element constructions for n push_back/pop_back (potential argument). |
| C05 | Vector copy is safe for element types with a destructor | destroy on a raw cell, argument by reference; failure shown for every such vector | partial: `C05_copy_construct_refuted`, `C05_copy_assign_refuted`, `C05_copy_partial`. REFUTED: for element types with a destructor, copying any non-empty vector destroys raw storage. Proved for trivially destructible types. |
| C06 | Vector push_back of one of its own elements | destroy on a raw cell, argument by reference; failure shown for every such vector | partial: `C06_push_own_element_partial`, `C06_push_own_element_refuted`, `C06_resize_own_element_refuted`. REFUTED: for every full vector push_back(v[i]) reads freed storage; exact characterisation proved. |
| C07 | Vector iteration visits exactly the elements in order | PrimitiveIterator loops; induction over the range | proved: `C07_iteration`, `C07_for_each`, `C07_find`.  |
| C08 | Programs using a vector only through its API cannot see its memory | free monad (`wprog`) of programs over any number of vectors; simulation for every program | proved: `C08_client_program`. Programs are a free monad over all operations of any number of vectors. |
| C09 | Array indexing and fill | Array as list of N cells, `Z` index; list lemmas | proved: `C09_array_history`. Every N, element type and history; out-of-range indices are not checked by the code and nothing is claimed for them. |
| C10 | String is a faithful NUL-terminated character sequence | BasicString as a vector client; refinement to character lists | proved: `C10_string_history`. All histories over any number of strings, including every operator overload; excludes the inputs of C12-C14. |
| C11 | String equality and concatenation | BasicString as a vector client; refinement to character lists | proved: `C11_eq_plus`, `C10_string_history`. After every history; the overloads with C strings are in C10_string_history. |
| C12 | String can be built from any C string | BasicString as a vector client; refinement to character lists | partial: `C12_empty_literal_refuted`, `C10_string_history`. REFUTED for the empty C string, after every history: undefined behaviour, or the characters behind the terminator. Non-empty C strings are covered by C10_string_history. |
| C13 | String self-append | BasicString as a vector client; refinement to character lists | partial: `C13_self_append_refuted`, `C13_self_append_partial`. REFUTED for every non-empty string after every history (undefined behaviour). Proved for the empty string. |
| C14 | Moved-from string is empty | BasicString as a vector client; refinement to character lists | partial: `C14_moved_from_refuted`. REFUTED after every history: size() is 2^64-1, empty() is false and push_back is undefined behaviour. |
| C15 | Stack is LIFO | Stack / XValueStack as vector clients; refinement to lists | proved: `C15_stack_lifo`. All histories over any number of stacks (incl. copy/move); storage accounted for. Copies of non-empty stacks of types with a non-trivial destructor are excluded (see C05). |
| C16 | MinStack/MaxStack report the extremum of what is on the stack | Stack / XValueStack as vector clients; refinement to lists | partial: `C16_extremum_partial`, `C16_repeated_value_refuted`, `C16_push_pop_extremum_refuted`. REFUTED: pushing a value equal to the current extremum and popping it loses an element (shown for every value and after every right history). Proved for all histories that never push a value equal to the current extremum. |
| C17 | Heap always yields an extremal element | Heap as a vector client; sift invariants, permutation | proved: `C17_heap_history`. All histories over any number of heaps, for every comparator that is the strict part of a total preorder. |
| C18 | Heap construction from a range | Heap as a vector client; sift invariants, permutation | proved: `C18_range`, `C18_build`, `C18_first_extremal`, `C17_heap_history`. Every range / vector, any length. |
| C19 | Heap::sort sorts | Heap as a vector client; sift invariants, permutation | proved: `C19_sort`. Every vector; result is a sorted permutation. |
| C20 | Heap move leaves a usable empty heap | Heap as a vector client; sift invariants, permutation | proved: `C20_move`, `C17_heap_history`. Moved-to heap holds the elements, moved-from heap is empty and usable. |
| C21 | Disjoint set implements connectivity | DisjointSet as a client of Vector<int>; forest invariant, linked-by-connects relation | proved: `C21_dsu_history`. All histories over any number of sets; connects are of elements not yet connected, the other case is C23. |
| C22 | find returns a canonical representative and never changes the partition | DisjointSet as a client of Vector<int>; forest invariant, linked-by-connects relation | proved: `C22_find_canonical`, `C22_find_pure`. After every history; inserting a find anywhere changes no answer. |
| C23 | Connecting already-connected elements is harmless | DisjointSet as a client of Vector<int>; forest invariant, linked-by-connects relation | partial: `C23_connect_same_refuted`. REFUTED after every history: connecting two elements of one set makes count() one too small and every later find on that set never returns. |
| C24 | Doubly linked list behaves as a sequence, for every history | node heap with circular links; ring representation predicate | proved: `C24_dll_history`. All histories over any number of doubly linked lists; node count exact. Moving from an empty list is C28. |
| C25 | Singly linked list behaves as a sequence, for every history | node heap with circular links; ring representation predicate | proved: `C25_sll_history`. All histories over any number of singly linked lists; excludes the calls of C26-C28. |
| C26 | Copying a singly linked list copies its elements | node heap with circular links; ring representation predicate | partial: `C26_sll_copy_refuted`, `C25_sll_history`. REFUTED after every history for every non-empty source: the copy repeats the first element and its push_back inserts into the source. Copies of empty lists are covered by C25_sll_history. |
| C27 | push/pop on a singly linked list are push_front/pop_front | node heap with circular links; ring representation predicate | partial: `C27_push_refuted`, `C27_pop_refuted`, `C27_pop_new_refuted`, `C27_pop_reuse_refuted`, `C25_sll_history`. REFUTED after every history: push on an empty list and pop of the only element leave the tail pointer wrong (later push_back in front, or undefined behaviour, or a lost element if the allocator hands out the same address again). push on a non-empty list and pop of two or more elements are covered by C25_sll_history. |
| C28 | Moving from an empty linked list | node heap with circular links; ring representation predicate | partial: `C28_move_empty_refuted`. REFUTED for both kinds of list after every history: the next empty(), clear() or destructor of either list asserts. |
| C29 | Intrusive links: add and del are exact inverses on the ring | node heap with circular links; ring representation predicate | proved: `C29_init`, `C29_add`, `C29_del`, `C29_rotate`, `C29_walk`. Rings of any length, both kinds; cells outside the ring and all data unchanged. |
| C30 | Deque behaves as a double-ended sequence, for every history | blocks, block table and iterators; representation invariant in flattened coordinates | proved: `C30_deque_history`. every block size, every history over any number of deques incl. copies, self-moves and destruction |
| C31 | Deque storage: blocks are released exactly once and capacity covers the content | blocks, block table and iterators; representation invariant in flattened coordinates | proved: `C31_capacity`, `C31_all_freed`, `C30_deque_history`. blocks allocated times ARR_SIZE = sum of capacities and live cells = sum of sizes after every history (C30_deque_history); a double release, or releasing a block that still holds an element, would be UB |
| C32 | Deque copy is independent | blocks, block table and iterators; representation invariant in flattened coordinates | proved: `C32_copy_independent`, `C30_deque_history`. for sources that hold an element; copies of a deque emptied by pops are in C30_deque_history and C34_emptied_partial |
| C33 | Deque move yields a usable deque | blocks, block table and iterators; representation invariant in flattened coordinates | partial: `C33_move_refuted`. REFUTED: the moved iterators still point to the source's (now empty) map table, so every use of the target except size() and front() fails an assertion; proved for every history, every non-empty source and both move construction and assignment |
| C34 | Empty deques can be iterated and copied | blocks, block table and iterators; representation invariant in flattened coordinates | partial: `C34_fresh_refuted`, `C34_cleared_refuted`, `C34_emptied_partial`. REFUTED: fresh deques have uninitialised iterators and cleared ones keep iterators into released blocks; it holds for deques emptied by pops |
| C35 | Queue is FIFO | Queue as client of the deque and of the list; lifting of their histories | proved: `C35_queue_deque`, `C35_queue_list`. over DoubleEndedQueue and over DLinkedList; iterating/copying a queue nothing was pushed to (C34) and moves (C33, C28) are excepted |
| C36 | AVL insertion keeps the tree ordered, balanced and well linked | node heap with parent/left/right; trees as inductive data stored in the heap, pointer-level proofs, zippers | proved: `C36_push_all`, `C37_shape`. every strict weak order; C37_shape gives the same invariants after every mixed history over any number of trees |
| C37 | AVL pop of a present key removes exactly that key and rebalances | node heap with parent/left/right; trees as inductive data stored in the heap, pointer-level proofs, zippers | proved: `C37_avl_history`, `C37_shape`. every history over any number of trees, including erase from three elements on; exactly the live nodes are allocated |
| C38 | AVL height is logarithmic | node heap with parent/left/right; trees as inductive data stored in the heap, pointer-level proofs, zippers | proved: `C38_height`. fib(h+2) <= n+1, and 2^h <= (n+1)^2 |
| C39 | Tree find is exact | node heap with parent/left/right; trees as inductive data stored in the heap, pointer-level proofs, zippers | proved: `C39_find`, `C37_avl_history`, `C46_bst_history_partial`. on every well-linked ordered tree and after every specified history over AVLTree and BinarySearchTree objects (the histories after which a BinarySearchTree is no search tree any more are in C46) |
| C40 | In-order and pre-order iteration visit every node exactly once in order | node heap with parent/left/right; trees as inductive data stored in the heap, pointer-level proofs, zippers | proved: `C40_iterate`. BinaryTree iterators on every well-linked tree; AVLTree::begin ignores the requested order, so an AVLTree always iterates in-order |
| C41 | Post-order iteration | node heap with parent/left/right; trees as inductive data stored in the heap, pointer-level proofs, zippers | partial: `C41_postorder_refuted`. REFUTED: on trees with distinct elements post-order iteration is right exactly when no node has a right child; it always yields a sublist of the in-order sequence |
| C42 | traversal(callback) visits every element | node heap with parent/left/right; trees as inductive data stored in the heap, pointer-level proofs, zippers | partial: `C42_traversal_refuted`, `C42_avl_traversal_refuted`. REFUTED: InOrder (the default) and PostOrder start at the leftmost node and miss elements whenever the root has a left child; at most two elements are visited in any AVL tree. PreOrder is proved complete |
| C43 | Empty trees can be iterated | node heap with parent/left/right; trees as inductive data stored in the heap, pointer-level proofs, zippers | partial: `C43_empty_iter_refuted`, `C43_empty_map_refuted`, `C43_bst_empty_iter_refuted`. REFUTED after every history: begin() on an empty tree or map dereferences null |
| C44 | Popping an absent key is a no-op | node heap with parent/left/right; trees as inductive data stored in the heap, pointer-level proofs, zippers | partial: `C44_pop_absent_refuted`, `C44_map_pop_absent_refuted`, `C44_bst_pop_absent_refuted`, `C37_avl_history`, `C49_map_history`, `C46_bst_history_partial`. REFUTED after every history for non-empty BST, AVL trees and maps (undefined behaviour); popping from an empty one is a no-op, in the history theorems |
| C45 | AVL erase(iterator) removes that element and returns its successor | node heap with parent/left/right; trees as inductive data stored in the heap, pointer-level proofs, zippers | partial: `C45_erase_last_refuted`, `C45_erase_two_refuted`, `C37_avl_history`. REFUTED for trees of one element and the root of trees of two (after every history); proved for three and more in C37_avl_history |
| C46 | BST push/pop keep the search-tree property and the count | same, for BinarySearchTree; refinement to unlabelled trees | partial: `C46_dup_push_refuted`, `C46_dup_pop_refuted`, `C46_pop_two_refuted`, `C46_erase_two_refuted`, `C46_inverted`, `C46_bst_history_partial`, `C46_bst_sets_partial`. REFUTED after every history: a repeated push is counted twice, and removing a key with two children is undefined behaviour or leaves the tree out of order. Proved for histories that push absent keys and remove keys with at most one child |
| C47 | Copying an AVL tree or Map is safe | node heap with parent/left/right; trees as inductive data stored in the heap, pointer-level proofs, zippers | partial: `C47_copy_refuted`, `C47_map_copy_refuted`. REFUTED after every history for every non-empty source: nodes are shared and freed twice |
| C48 | Tree clear/destruction frees every node exactly once | node heap with parent/left/right; trees as inductive data stored in the heap, pointer-level proofs, zippers | proved: `C48_clear`. every well-linked tree, other allocations untouched; histories with clear and destruction are in C37_avl_history and C49_map_history |
| C49 | Map is a finite map | Map as AVL tree of pairs; refinement to ascending association lists | proved: `C49_map_history`, `C49_map_sorted`. every history over any number of maps; excludes iterating an empty map (C43), popping an absent key of a non-empty one (C44) and copies (C47). Map::erase and operator[] const do not compile and are not modelled |
| C50 | Allocator hands out disjoint in-bounds blocks | pool words and free list heads; tiling invariant of blocks, byte accounting | proved: `C50_progress`, `C50_alloc_result`, `C50_disjoint`. for 8 <= MAX <= INT_MAX-16, 16 <= MEM <= INT_MAX-8, MEM a multiple of 8, requests n <= INT_MAX-8 (larger n overflow, C58); every history and every content the user writes into live blocks |
| C51 | Allocator conserves memory | pool words and free list heads; tiling invariant of blocks, byte accounting | proved: `C51_conserved`, `C51_all_returned`. for 8 <= MAX <= INT_MAX-16, 16 <= MEM <= INT_MAX-8, MEM a multiple of 8, requests n <= INT_MAX-8 (larger n overflow, C58) |
| C52 | Allocation fails only when no free block is large enough | pool words and free list heads; tiling invariant of blocks, byte accounting | proved: `C52_null_iff`. for 8 <= MAX <= INT_MAX-16, 16 <= MEM <= INT_MAX-8, MEM a multiple of 8, requests n <= INT_MAX-8 (larger n overflow, C58) |
| C53 | max_free_mblock_size is exact | pool words and free list heads; tiling invariant of blocks, byte accounting | proved: `C53_max_exact`. for 8 <= MAX <= INT_MAX-16, 16 <= MEM <= INT_MAX-8, MEM a multiple of 8, requests n <= INT_MAX-8 (larger n overflow, C58) |
| C54 | memory_merge preserves all memory and live data | pool words and free list heads; tiling invariant of blocks, byte accounting | proved: `C54_merge_keeps`. for 8 <= MAX <= INT_MAX-16, 16 <= MEM <= INT_MAX-8, MEM a multiple of 8, requests n <= INT_MAX-8 (larger n overflow, C58) |
| C55 | memory_merge coalesces all adjacent free blocks | pool words and free list heads; tiling invariant of blocks, byte accounting | partial: `C55_recombine_refuted`, `C55_same_class_partial`. REFUTED: small-class blocks are never joined with blocks of the last list, so for every MEM >= 8*(MAX/8)+16 a freed and merged pool still has adjacent free blocks and cannot be allocated whole; proved that blocks of the same class are not adjacent after a merge |
| C56 | Allocator results are 8-byte aligned | pool words and free list heads; tiling invariant of blocks, byte accounting | partial: `C56_misaligned_refuted`, `C56_aligned4_partial`. REFUTED: the pool starts 4 bytes into the object, so every result is 4 modulo 8; it is 4-aligned |
| C57 | allocate(0) is harmless | pool words and free list heads; tiling invariant of blocks, byte accounting | partial: `C57_nonpos_refuted`, `C57_zero_refuted`. REFUTED in every reachable state: n <= 0 indexes the lists from the back; UB or a lost block |
| C58 | Rounding arithmetic | machine integers as `Z` with overflow as UB; arithmetic | partial: `C58_round_partial`, `C58_class_partial`, `C58_round_refuted`. REFUTED at n = INT_MAX-7 only (bytes + 8 overflows although the rounding fits); proved for n + 8 in range |
| C59 | Element counts reach the allocator intact | machine integers as `Z` with overflow as UB; arithmetic | partial: `C59_bytes_partial`, `C59_truncated_refuted`, `C59_short_refuted`. REFUTED for every request of more than INT_MAX bytes: the byte count is truncated to int, so the block is too small or malloc gets a size near 2^64; below, the count is exact |
| C60 | Pointer comparators order null first and are strict | machine integers as `Z` with overflow as UB; arithmetic | proved: `C60_pointer_order`, `C60_tree_fit`, `C60_value_order`. every pointer type, whatever the built-in < says about null |
| C61 | swap, max, abs | machine integers as `Z` with overflow as UB; arithmetic | proved: `C61_swap`, `C61_max_abs_int`, `C61_max`. swap for every type and every moved-from state, aliased references included; abs(INT_MIN) is undefined behaviour |
| C62 | The static-memory port returns a block or aborts | pool words and free list heads; tiling invariant of blocks, byte accounting | proved: `C62_port_allocate`, `C62_port_deallocate`. for 8 <= MAX <= INT_MAX-16, 16 <= MEM <= INT_MAX-8, MEM a multiple of 8, requests n <= INT_MAX-8 (larger n overflow, C58) |
| C63 | Vectors survive refused allocations or crash, never corrupt | the vector functions with an oracle refusing any requests; simulation against sequences, monotonicity | proved: `C63_out_of_memory`, `C63_crash_means_refused`, `C63_never_refused`. every program and every failure pattern; a refused reserve goes unnoticed until the next push, and pop_back can crash because it asks for a smaller block |
| C64 | height computes the height of every linked tree | loop budget as cost; induction on the stored tree | proved: `C64_height`. every linked tree, any stored heights; int is unbounded here, which a tree of more than 2^31 levels would need to notice |
| C65 | Disjoint sets are merged by rank, so find recurses logarithmically deep | call budget as depth; chain invariant over the worst history, path length bound | partial: `C65_deep_refuted`, `C65_bound_partial`. REFUTED: union_set never compares the ranks to choose the parent, so for every n there is a history after which find nests n+1 calls; proved that n calls always suffice and that two do right after a find |
| C66 | AVL find, push and pop descend at most twice log2(n+1) levels | loop budget as cost; induction on the stored tree | proved: `C66_find`, `C66_push`, `C66_pop`. every history; the model's loop budget is the measure of cost |
| C67 | Vectors sharing the static memory pool stay apart and within it | `VecPoolModel.v` puts the vectors on the allocator model; `VecPoolProofs.v`: every step is a step of the vectors over a refusing allocator, with an invariant tying blocks to pool allocations and a lower bound for the largest free block | proved: `C67_pool`, `C67_enough`. every client program; no claim where the program itself is undefined; the elements' bytes are arbitrary writes into the owned storage |
| C68 | Heap push and pop are logarithmic, building is linear, sorting n log n | `CostSpec.v` counts the vector calls of a run; `HeapCost.v`: sifting bounded by how often the index can be halved or doubled, the sum of the levels below all positions is at most n | proved: `C68_push`, `C68_pop`, `C68_range`, `C68_build`, `C68_sort`. explicit constants; calls are counted on the run over memory; the cost of one push_back or resize inside the vector is not counted |
| C69 | The static-memory classes answer as their specifications or crash | the classes are client programs of vectors, so C67 applies; the run over memory decides the run over sequences, which decides the run over the pool (`PoolAdapterProofs.v`) | proved: `C69_string`, `C69_stack`, `C69_xstack`, `C69_heap`, `C69_ufset`. composes C10, C15, C16, C17 and C21 with C67; nothing is claimed where the class's own specification claims nothing (see C12-C14, C16, C23) |
| C70 | List iterators keep their place until their element is removed | `ListIterModel.v`: iterator variables over the memory of `ListModel.v`; `ListIterSpec.v`: every element has a number for life and an iterator is at a number or at an end; `ListIterProofs.v`: the numbers map to node addresses, one to one on the elements that exist | proved: `C70_history`, `C70_unique`, `C70_kept`, `C70_lists`. both kinds of list; excludes copying a non-empty singly linked list (C26), its push/pop at the empty boundary (C27) and moving from an empty list (C28); any allocator that hands out no address in use |
| C71 | AVL tree iterators keep their place until their element is removed | `TreeIterModel.v`: iterator variables over the memory of `TreeWorld.v`; `TreeIterSpec.v`: every element has a number for life; `TreeTag.v`: the tree algorithms commute with pairing each value with its node address; `TreeIterProofs.v`: the numbers map to node addresses, one to one on the elements that exist | proved: `C71_history`, `C71_unique`, `C71_kept`, `C71_trees`. excludes begin() of an empty tree (C43) and erasing from trees of one or two elements (C45); moved-from iterators are not modelled; any allocator that hands out no address in use |
| C72 | Lists work wherever the allocator puts nodes, and with a bounded one | `Alloc.v`: an allocator is a function from the log of what it granted and got back to its next answer; the list invariant ties the nodes to the addresses in use, so any answer not in use will do | proved: `C72_dll`, `C72_sll`, `C72_queue`, `C72_iterators`, `C72_dll_limited`, `C72_sll_limited`, `C72_queue_limited`. an allocator is any function from the log of grants and returns to an answer; the gaps of the singly linked list (C26-C28) stay excluded |
| C73 | A static pool holds exactly as many list nodes as fit | `SMANodes.v`: the allocator of `SMAModel.v` as an allocator of nodes in the sense of `Alloc.v`; invariant: every free block is one node given back or ends at the end of the pool (`SMANodesProofs.v`); writes: the allocator's functions are monotone in the words present, so the words of live nodes can be left out | proved: `C73_dll`, `C73_sll`, `C73_queue`, `C73_iterators`, `C73_policy`, `C73_apart`, `C73_writes`, `C73_shared`. composition of the list model with the allocator model; that the results are misaligned (C56) and the gaps of the singly linked list (C26-C28) stay excluded; in a shared pool no capacity is claimed |
| C74 | Trees and maps work wherever the allocator puts nodes, and with a bounded one | the tree models ask an allocator of `Alloc.v` for their nodes; `TreeAlloc.v`: the nodes in memory are the addresses in use; capacity as for lists (`TreeRoom.v`), the static pool through `SMANodes.v` | proved: `C74_avl`, `C74_map`, `C74_bst`, `C74_iterators`, `C74_avl_limited`, `C74_map_limited`, `C74_bst_limited`, `C74_iterators_limited`, `C74_avl_static`, `C74_bst_static`, `C74_iterators_static`. the calls the tree specifications exclude (C43-C47) stay excluded; results of the static pool are misaligned (C56); Map cannot be given an allocator of its own |
| C75 | Deque storage stays proportional to the content | `DequeGeo.v`: where each call leaves the content within the block table; `DequeDrift.v`: the free room right of the content shrinks with each pair until the table doubles; bound by a potential (capacity against pushes and the position of the content) | partial: `C75_drift_refuted`, `C75_no_bound_refuted`, `C75_bound_partial`. REFUTED: pushing at one end and popping at the other moves the content through the block table, the table doubles whenever the end is hit, and no pop ever shrinks it, so n push/pop pairs on any deque make capacity() at least n/2 with size() unchanged; proved that capacity() never exceeds 8 times the elements ever put in plus 8 blocks |
| C76 | Deque iterators and references stay valid as in std::deque | `DequeIterModel.v`: iterator variables over the memory of `DequeModel.v`; `DequeIterSpec.v`: an iterator is an index, updated by each call; `DequeIterProofs.v`: a movable iterator is at the position of its index, a pinned one at the cell, and growing the table keeps the cells of the content (`DequeGeo.v`) | proved: `C76_history`, `C76_pushes_keep`. begin() and end() of a deque that never had a push are excluded (C34), as are moved deques (C33) and moved-from iterators; an example shows that an iterator moved after pushes can leave the content |
| C77 | Keys pushed into a search tree again change nothing but its size | `BstDupSpec.v`: a textbook search tree and a count of the repeated pushes; `BstDup.v`: the invariant of `BstHist.v` for the nodes, the members' sizes off by the counts | proved: `C77_history`, `C77_sets`, `C77_keys`, `C77_limited`. what the code does with repeated keys, in full; that size() then differs from the number of elements is the defect recorded in C46 |
| C78 | Deques destroy every element they construct | the deque model counts constructor and destructor calls, block construction included (`DequeModel.v`); `DequeLife.v`: a balance between the counts, the blocks allocated and the elements held, kept by every call | partial: `C78_leak_refuted`, `C78_lifetimes_partial`. REFUTED: blocks are constructed as arrays, which constructs ARR_SIZE elements, but freed without the array destructor, and pushes construct over those elements: once a deque has held an element, destroying everything leaves ARR_SIZE constructions per block ever allocated without a destructor call; proved that apart from this every element put in is constructed once and destroyed once |
| C79 | A comparison function that is not an order corrupts no container | `LooseOrder.v`: the tree insertion lemmas of `TreeIns.v` and `BstObj.v` are proved without any law for the comparison (AVL: asymmetry only), the order laws being used only for sortedness; the heap bag refinement needs no law either. The refutation runs the model symbolically for an arbitrary reflexive comparison. | partial: `C79_reflexive_refuted`, `C79_avl_partial`, `C79_bst_partial`, `C79_heap_partial`. REFUTED: an AVLTree whose comparison holds between an element and itself (such as <=) accepts an element twice and has undefined behaviour at the third push, rotating around a missing child (C79_reflexive_refuted, for every such comparison and element). Proved: AVLTree with any asymmetric comparison, transitive or not; BinarySearchTree and Heap with any function at all. |
| C80 | Vector iterators and references stay valid until the storage is replaced | `VecIterModel.v`: client variables holding pointers into the heap of `VectorModel.v`; `VecIterSpec.v`: a variable is a vector and an index, and `follow` says what each call does to it; `VecIterProofs.v`: a variable points into a live block exactly if its position is still there | proved: `C80_history`, `C80_push`, `C80_pop`, `C80_move`. the exact outcome, undefined behaviour included |
| C81 | A stack behaves the same over every container | `StackOtherModel.v`: the calls of Stack passed on to the calls of `DequeModel.v` and `ListModel.v`; `StackOtherSpec.v`: a list per stack, most recent first; `StackOther.v`: the containers' own history theorems, reversed | proved: `C81_deque`, `C81_dlist`, `C81_slist`, `C81_granted`, `C81_same`. leaves out what the containers themselves get wrong: iterating over or copying a deque nothing was pushed to (C34), moved deques (C33), moving an empty list (C28), copying a non-empty singly linked list (C26), and pop()/top() of an empty stack over a deque, which is undefined |
| C82 | Running out of memory crashes a deque but never corrupts it | `DequeFailModel.v`: the calls of `DequeModel.v` with a numbered request before each block and each table; `DequeFail.v`: every call either is the call without refusals, having made as many requests as it makes there, or has met a refusal and crashed | proved: `C82_deque`, `C82_queue`, `C82_stack`, `C82_any`, `C82_calm`, `C82_push`, `C82_table`, `C82_table_copy`. what the deques of C29-C31 leave out (C33, C34) stays out of C82_deque, C82_queue and C82_stack; C82_any holds for these too; a crash is the access to a null pointer, taken to end the program |
| C83 | The algorithms work on list and tree ranges | `AlgoIterModel.v`: the two templates over any iterator type, instantiated with the iterators of C70 and C71; `AlgoIterSpec.v`: a range is a stretch of the numbered elements; `AlgoIter.v`, `AlgoIterTree.v`: induction over the range, the nodes being at different addresses | proved: `C83_lists`, `C83_lists_limited`, `C83_trees`, `C83_trees_limited`, `C83_same_find`. nothing is claimed of a range whose end does not follow its beginning; begin() of an empty tree is left out (C43); callbacks that change the container's structure are not modelled |
| C84 | References and iterators into a map stay good | `MapIterModel.v`: variables holding node addresses, for references and iterators alike; `MapIterSpec.v`: every entry has a number for life; `MapIterProofs.v`: the refinement of C71 with the maps' calls, m[key] being a find, a push and a find, and assignment a change of one node's value | proved: `C84_history`, `C84_limited`, `C84_kept`, `C84_maps`. leaves out what the maps get wrong: copying a non-empty map (C47), popping a key that is not there (C44), iterating an empty map (C43) |
| C85 | union_set can be called directly | `DSUUnionModel.v`: union_set as one more call; `DSUUnionSpec.v`: the two kinds of call that are right, by representatives; `DSUUnionProofs.v`: what overwriting one parent link does to the roots of a forest | partial: `C85_split_refuted`, `C85_cycle_refuted`, `C85_loop_refuted`, `C85_history_partial`, `C85_connect_partial`. REFUTED: with a second argument that does not represent its set, the call tears that set apart (C85_split_refuted, after every history); with one that represents the set of the first argument it makes an endless chain (C85_cycle_refuted), as does union_set(x, x) (C85_loop_refuted). Proved for every history in which the second argument represents a set without the first, or the first represents the second: union_set(x, find(y)) does what connect(x, y) does. Not determined by the specification: a second argument that represents nothing together with a different element of its own set that represents nothing either. |
| C86 | A tree accepts references to its own elements | `TreeRefModel.v`: _insert and _delete with the address of the element instead of its value, read again at every comparison; `TreeRefSpec.v`: the call with a copy; `TreeRefProofs.v`: up to the last comparison nothing has been freed or overwritten | proved: `C86_history`, `C86_limited`, `C86_copy`, `C86_own`. the reference is taken from an iterator; what C71 leaves out stays out |
| C87 | A deque accepts references to its own elements | `DequeRefModel.v`: the pushes with a pointer to the element, read after room has been made; `DequeRefSpec.v`: the call with a copy; `DequeRefProofs.v`: making room keeps every cell of every content (`DequeGeo.v`) | proved: `C87_history`, `C87_copy`, `C87_own`. the reference is taken from an iterator or operator[]; what the deques of C76 leave out stays out |
| C88 | Assigning an object to itself changes nothing | no new model: the assignments of all the models, with the two objects the same; `SelfMove.v` | partial: `C88_heap_refuted`, `C88_vector_partial`, `C88_over_vector_partial`, `C88_dsu_partial`, `C88_string_partial`, `C88_deque_partial`, `C88_list_partial`, `C88_tree_partial`, `C88_map_partial`. REFUTED: Heap's move assignment does not compare addresses: after every history, moving a heap to itself throws away all its elements. Proved for copying heaps and for copying and moving every other container; Array, whose move assignment moves every element to itself, is left out, as are assignments that do not compile (copying a BinarySearchTree) |
| C89 | MinStack and MaxStack work over every container and can be copied | `XStackModel.v` models XValueStack over an arbitrary stack and instantiates it with the stacks over Vector, deques and lists; `XStackSpec.v` keeps one plain list per object and computes the extremum from it; the invariant (`XStackProofs.v`, `Enc`) relates that list to the stack content with saved extrema interleaved | partial: `C89_history_partial`, `C89_extremum`, `C89_iter_refuted`, `C89_repeat_refuted`. REFUTED: iteration shows the saved extrema and the uninitialised value among the elements, after every history; pushing a value equal to the current extremum and popping it loses the element below. Proved for all other histories, over every container. Also left out: copies and moves the containers themselves get wrong (C05, C26, C28, C33, C34) and getXValue() of an empty stack |
| C90 | Numbers that are not elements of a disjoint set are rejected | `DSUSignModel.v` calls the methods of `DSUModel.v` with integers; `DSUSignSpec.v` gives them a meaning by representatives where they have one; the refutations hold after every specified history, and the looping one for every amount of fuel | partial: `C90_history_partial`, `C90_ignored_refuted`, `C90_end_refuted`, `C90_below_refuted`. REFUTED: only numbers from n up abort. A number from -n to -1 means an element counted from the end, as in Vector; if that element represents its set then, after every history, connect(-k, y) returns and has no effect, find(-k) returns -k, connected says it is not in its own set, and connecting the element to its own negative number makes find loop for ever. Below -n is undefined behaviour. Proved: the history theorem for numbers from n up (abort) and for negative numbers of elements that do not represent their set (they act as the element counted from the end) |
| C91 | The references find takes and returns can be kept and passed on | `DSURefModel.v`: find, connected, connect and union_set with references (to a client variable, an element in memory, a temporary); the compiler's order of evaluation is a parameter; `DSURefSpec.v` by representatives; `DSURefFind.v`, `DSURefUnion.v`: a slot a parameter is bound to is on no path that is compressed before the parameter is read for the last time, so the run is the one by value; `DSURefHist.v`: histories, and what becomes of kept references | partial: `C91_history_partial`, `C91_read`, `C91_value`, `C91_literal_refuted`, `C91_variable_refuted`, `C91_stale_refuted`. REFUTED: after every history, const int &r = s.find(n) with a number n that represents its set dangles (reading r is undefined behaviour); with a variable that represents its set r is that variable; and a reference to an element reads as the old representative after its set was put under another one. Proved: all calls, whatever their arguments are bound to and for every order of evaluation, answer as by value; find and union_set leave exactly the memory they leave by value; a kept reference to an element always reads as some element of its set, and as the representative while that stays the same |
| C92 | A heap shows its elements by index and accepts references to them | `HeapRefModel.v`: operator[], capacity and push with a reference, which Vector reads after making room; `HeapRefSpec.v`: the bags of `HeapSpec.v` with sentinel and capacity; `HeapRefProofs.v`, `HeapRefHist.v`: the refinement of C17 with both tracked, and the two outcomes of the call told apart by what size() and capacity() return | partial: `C92_history_partial`, `C92_copy`, `C92_full_refuted`. REFUTED: after every history, h.push(h[i]) is undefined behaviour for every index if size() == capacity(): push_back reads the reference after giving the old storage back. Proved: everything else; if size() and capacity() differ or the element is in another object, the push does exactly what pushing a copy does |
| C93 | Iterators of binary search trees keep their place | `BstIterModel.v`: iterator variables over the trees of `BstWorld.v`, each with the next function it was made with; `BstIterSpec.v`: numbered elements in textbook search trees, an iterator is an order and a number; `BstIterProofs.v`, `BstIterHist.v`, `BstIterRun.v`, `BstIterTop.v`: refinement with a map from numbers to node addresses that pops, erases and moves never change; the refutation follows the node of the right child through _try_to_delete | partial: `C93_history_partial`, `C93_history_or_partial`, `C93_unique`, `C93_kept`, `C93_trees`, `C93_two_children_refuted`. REFUTED: after every history, erasing at an element with two children spoils every iterator at its right child: reading it is undefined behaviour or gives a greater element. Proved: everything else; pops and erases of elements with two children, post-order iterators and begin(InOrder) of an empty tree are left out (C41, C43, C46) |
| C94 | Linked lists accept references to their own elements | `ListRefModel.v`: the pushes with the place of obj instead of its value, in the order allocate, read obj, write the head node, construct; `ListRefSpec.v`: the same call with a copy; `ListRefProofs.v`: the new node's memory belongs to nobody, so the read gives the element's value, also at every turn of the constructor's loop | proved: `C94_history`, `C94_history_or`, `C94_copy`, `C94_own`. calls the list claims leave out (C26-C28) are left out here too |
| C95 | A list lets go of the elements it no longer has | model of C70; `ListHeldSpec.v`: one value per list object besides its elements and how the calls change it; `ListHeldProofs.v`: which computations leave the data of the head nodes alone and which write one, then histories by the refinement of C70. Copies held elsewhere (the caller's, temporaries) are not part of the claim | partial: `C95_history`, `C95_history_or`, `C95_one`, `C95_popped_refuted`, `C95_moved_refuted`. REFUTED: after every history, a value pushed and popped again is still in the head node, where *end() reads it, and after a move both objects hold the value pushed last. Proved: exactly which one value each list object holds besides its elements, after every history; calls the list claims leave out (C26-C28) are left out here too |
| C96 | Iterating over a tree takes time linear in its size | `WalkModel.v`: begin() and ++ of C40/C71 with each loop stopped after a given number of rounds; `WalkProofs.v`: by induction on trees in contexts, the numbers of rounds that are just enough, their sum and their maximum; `WalkWorld.v`: after histories, with the height bound of C38/C66. Time is counted in rounds of these loops, each of which reads at most two links | proved: `C96_inorder`, `C96_preorder`, `C96_same_next`, `C96_same_first`, `C96_avl`, `C96_bst`, `C96_bst_preorder`. rounds are counted as the least limits on the loops under which the walk still finishes; post-order iteration, which does not visit every element (C41), and empty trees, on which begin() is undefined (C43), are left out |
| C97 | for_each over a list goes on with what follows when the callback returns | `ListEachModel.v`: for_each with the local iterator and callbacks as client programs (a call, then a program depending on its answer); `ListEachSpec.v`: the same loop over numbered elements, and a queue; `ListEachProofs.v`: refinement, with elements keeping their addresses as long as they live; `ListEachTop.v`: pushing callbacks, endless loops, and removal of the element the loop is at | proved: `C97_history`, `C97_back`, `C97_endless`, `C97_front`, `C97_gone`. the callback gets a copy of the element; C97_gone: removing the element the loop is at is undefined behaviour; calls the list claims leave out (C26-C28) are left out here too |
| C98 | Tree iterators can be moved | `IterMoveModel.v`: iterators with link, next function and data pointer kept apart, and moves member by member; `IterMoveSpec.v`: the state of C93 and C71 with a set of lost iterators; `BstMoveProofs.v`, `AvlMoveProofs.v`: calls without lost iterators are those of `BstIterModel.v` and `TreeIterModel.v`, moves kept in step; `IterMoveTop.v`: lost iterators make no difference to others, and the refutations | partial: `C98_bst_history`, `C98_avl_history`, `C98_bst_taken`, `C98_avl_taken`, `C98_bst_advance_refuted`, `C98_avl_advance_refuted`, `C98_bst_copy_refuted`, `C98_avl_copy_refuted`, `C98_bst_self_refuted`. REFUTED: a moved-from iterator still reads and compares as before, but moving it on calls a null function; a copy of it is past the end in a binary search tree, so differs from it; moving an iterator to itself loses its place. Proved: moving is as good as copying if the source is not used again, and what every history gives |
| C99 | for_each over an AVL tree copes with callbacks that change it | `TreeEachModel.v`: for_each over an AVL tree with client programs for a callback; `TreeEachSpec.v`: the numbered elements of C71, the loop going on from wherever its element is, and sweeping through a set that grows; `TreeEachProofs.v`: every call leaves the elements at their addresses, and an address is gone with its element; `TreeEachTop.v`: ascending elements, and callbacks that add or pop | proved: `C99_history`, `C99_ascending`, `C99_sweep`, `C99_endless`, `C99_below`, `C99_pop`.  |
| C100 | for_each over a vector copes with callbacks that change it as far as its storage stays | `VecEachModel.v`: for_each over a vector with client programs for a callback, begin, end, the loop's iterator and the callback's parameter being variables like any others; `VecEachSpec.v`: the positions of C80, and the callbacks in question; `VecEachProofs.v`: clients and the loop keep the simulation of C80; `VecEachTop.v`: what appending, popping, assigning to end and moving the vector lead to, by induction over the remaining rounds | proved: `C100_history`, `C100_append`, `C100_double`, `C100_remove`, `C100_stop`, `C100_move`.  |
| C101 | Deque iterators can be moved | `DqMoveModel.v`: deque iterators with mPointer_d kept apart from mCurr_d, and moves member by member; `DqMoveSpec.v`: the state of C76 with a set of lost iterators; `DqMoveProofs.v`: simulation of the run in which moves are copies, in which lost iterators agree in mPointer_d only; `DqMoveTop.v`: lost iterators make no difference to others, and the refutations | partial: `C101_history`, `C101_taken`, `C101_advance_refuted`, `C101_copy_refuted`, `C101_self_refuted`. REFUTED: a moved-from iterator still reads and compares as before, also as the end of a range, but every step with it dereferences a null table; a copy of it differs from it and cannot be read; moving an iterator to itself loses its place. Proved: moving is as good as copying if the source is not used again, and what every history gives |
| C102 | Indices, loops and heaps work at every size | `IntModel.v`: operator[], the counting loop and all of Heap with 32-bit int (overflow is UB), wrapping size_t and the conversions between them; `IntSpec.v`: which calls keep within 2^30 slots; `IntProofs.v`: each heap operation runs as the one over unbounded numbers while sizes fit, by the lengths of `HeapCost.v`, then C17; the overflow is followed through the first sift of the range constructor | partial: `C102_index`, `C102_index_refuted`, `C102_loop`, `C102_heap`, `C102_heap_refuted`. REFUTED: of a vector of 2^31 to 2^32 - 1 elements no element can be indexed and loops over it overflow; a heap of 2^30 or more elements (2^30 + 1 slots) overflows when an element sinks to the last level. Proved with int and size_t arithmetic: indices and loops are right up to INT_MAX elements, and histories in which nothing has more than 2^30 slots are right histories of heaps (C17) |
| C103 | Vectors hold as many elements as memory has room for | `VecBytesModel.v`: every Vector function that allocates, over malloc asked for the truncated byte count of `ArithModel.v`; `VecBytesSpec.v`: how many elements each call asks for; `VecBytesProofs.v`: calls that ask for at most INT_MAX bytes run as in `VectorModel.v`, then C01; induction over pushes with the power-of-two capacities for the point of failure; induction over pushes into a block smaller than the capacity says | partial: `C103_history`, `C103_fill_refuted`, `C103_push_refuted`, `C103_reserve_refuted`. REFUTED: beyond INT_MAX bytes Vector(n, e) stops the program or writes past its block, push_back stops the program at the first doubling past INT_MAX bytes, and resize(n) claims a capacity it does not have, so that later pushes write past the block. Proved: histories in which no call asks for more than INT_MAX bytes are those of lists (C01) |
| C104 | What changing a deque under for_each does | `DqEachModel.v`: for_each as a loop over iterator variables with the callback as an arbitrary program over the calls of `DequeIterModel.v`; `DqEachSpec.v`: the same loop over `DequeIterSpec.v`, and six callbacks; `DqEachProofs.v`: simulation, by induction over the rounds; `DqEachTop.v`: induction over the rounds for each callback, beyond the specification by the table geometry of `DequeGeo.v` | proved: `C104_history`, `C104_copy`, `C104_trail`, `C104_stop`, `C104_drain`, `C104_remove`, `C104_append`.  |
| C105 | What changing maps and binary search trees under for_each does | `KeyEachModel.v`: client programs over the calls of `MapIterModel.v` and `BstIterModel.v`, with for_each written as one; `KeyEachSpec.v`: the same programs over the specifications, and five callbacks; `KeyEachProofs.v`: programs follow from histories, induction over the entries for each callback; `KeyEachTop.v`: removing the entry at hand, beyond the specification, by following the removed node | proved: `C105_maps`, `C105_trees`, `C105_update`, `C105_drop`, `C105_pop`, `C105_fill`, `C105_clone`.  |
| C106 | Pushing an element of a stack by reference | `StackRefModel.v`: push with the reference kept as block and offset, read each time the code reads it; `StackRefProofs.v`: the run equals the run that pushes a copy, or is undefined, from the storage invariant of `VectorWorld.v`, which every call keeps | proved: `C106_stack`, `C106_max_stack`. The property includes the cases in which the code is at fault: full vectors. |
| C107 | How large machine integers let vectors and strings become | `IntVecModel.v`: a transformation of programs over vectors that puts the int arithmetic of each Vector operation before the operation; `IntVecSpec.v`, `IntStrSpec.v`: the calls, texts and strings that are small enough; `IntVecProofs.v`: small calls run unchanged, on the heap and on sequences; `IntVecExact.v`: which calls overflow in which states; `IntVecLimit.v`: what the first int overflow is when elements or characters are added one by one; `IntStrProofs.v`: every string operation makes only small calls if its operands and results are short | proved: `C107_any`, `C107_call`, `C107_index`, `C107_push_limit`, `C107_vector_limit`, `C107_string`, `C107_string_limit`. The property includes the sizes beyond which the code is undefined. Sizes of 2^63 or more and the ints of the allocator are not part of it; for the latter see C59. |
| C108 | Random access into deques for every int | `IntDeqModel.v`: operator+, operator- and operator[] with 32-bit ints, the negation and the counting loop spelled out; `IntDeqSpec.v`: the int a call passes; compared with the unbounded model step by step and through C76 with sequences (`IntDeqProofs.v`) | proved: `C108_history`, `C108_min`, `C108_min_refuted`. The property includes the one int for which the code is undefined. The int loops over the map table, which overflow with more than INT_MAX blocks, are not part of it. |

Nothing in the list is inexpressible in the model.
