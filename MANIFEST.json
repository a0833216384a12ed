{
 "claims": [
  {
   "property": "C01",
   "status": "proved",
   "theorems": [
    "C01_vector_history"
   ],
   "note": "Total correspondence of every history (any element type, any number of vectors) with lists; assertion failures and undefined calls included. int/size_t conversions are exact for sizes below 2^31; allocation never fails."
  },
  {
   "property": "C02",
   "status": "proved",
   "theorems": [
    "C02_vector_storage",
    "C01_vector_history"
   ],
   "note": "Invariant over all reachable states; a double free / wrong-count deallocation would be UB, excluded by C01."
  },
  {
   "property": "C03",
   "status": "partial",
   "theorems": [
    "C03_index_get_partial",
    "C03_index_set_partial",
    "C03_index_too_large_partial",
    "C03_index_too_negative_refuted"
   ],
   "note": "REFUTED: for every vector and every index i < -size() the assertion passes and the access is out of bounds. In-range reads/writes and i >= size() are proved."
  },
  {
   "property": "C04",
   "status": "proved",
   "theorems": [
    "C04_size_within_capacity",
    "C04_push_capacity",
    "C04_pop_capacity",
    "C04_amortised_constant"
   ],
   "note": "At most 3n element constructions for n push_back/pop_back (potential argument)."
  },
  {
   "property": "C05",
   "status": "partial",
   "theorems": [
    "C05_copy_construct_refuted",
    "C05_copy_assign_refuted",
    "C05_copy_partial"
   ],
   "note": "REFUTED: for element types with a destructor, copying any non-empty vector destroys raw storage. Proved for trivially destructible types."
  },
  {
   "property": "C06",
   "status": "partial",
   "theorems": [
    "C06_push_own_element_partial",
    "C06_push_own_element_refuted",
    "C06_resize_own_element_refuted"
   ],
   "note": "REFUTED: for every full vector push_back(v[i]) reads freed storage; exact characterisation proved."
  },
  {
   "property": "C07",
   "status": "proved",
   "theorems": [
    "C07_iteration",
    "C07_for_each",
    "C07_find"
   ],
   "note": ""
  },
  {
   "property": "C08",
   "status": "proved",
   "theorems": [
    "C08_client_program"
   ],
   "note": "Programs are a free monad over all operations of any number of vectors."
  },
  {
   "property": "C15",
   "status": "proved",
   "theorems": [
    "C15_stack_lifo"
   ],
   "note": "All histories over any number of stacks (incl. copy/move); storage accounted for. Copies of non-empty stacks of types with a non-trivial destructor are excluded (see C05)."
  },
  {
   "property": "C16",
   "status": "partial",
   "theorems": [
    "C16_extremum_partial",
    "C16_repeated_value_refuted",
    "C16_push_pop_extremum_refuted"
   ],
   "note": "REFUTED: pushing a value equal to the current extremum and popping it loses an element (shown for every value and after every right history). Proved for all histories that never push a value equal to the current extremum."
  },
  {
   "property": "C17",
   "status": "proved",
   "theorems": [
    "C17_heap_history"
   ],
   "note": "All histories over any number of heaps, for every comparator that is the strict part of a total preorder."
  },
  {
   "property": "C18",
   "status": "proved",
   "theorems": [
    "C18_range",
    "C18_build",
    "C18_first_extremal",
    "C17_heap_history"
   ],
   "note": "Every range / vector, any length."
  },
  {
   "property": "C19",
   "status": "proved",
   "theorems": [
    "C19_sort"
   ],
   "note": "Every vector; result is a sorted permutation."
  },
  {
   "property": "C20",
   "status": "proved",
   "theorems": [
    "C20_move",
    "C17_heap_history"
   ],
   "note": "Moved-to heap holds the elements, moved-from heap is empty and usable."
  },
  {
   "property": "C21",
   "status": "proved",
   "theorems": [
    "C21_dsu_history"
   ],
   "note": "All histories over any number of sets; connects are of elements not yet connected, the other case is C23."
  },
  {
   "property": "C22",
   "status": "proved",
   "theorems": [
    "C22_find_canonical",
    "C22_find_pure"
   ],
   "note": "After every history; inserting a find anywhere changes no answer."
  },
  {
   "property": "C23",
   "status": "partial",
   "theorems": [
    "C23_connect_same_refuted"
   ],
   "note": "REFUTED after every history: connecting two elements of one set makes count() one too small and every later find on that set never returns."
  },
  {
   "property": "C09",
   "status": "proved",
   "theorems": [
    "C09_array_history"
   ],
   "note": "Every N, element type and history; out-of-range indices are not checked by the code and nothing is claimed for them."
  },
  {
   "property": "C10",
   "status": "proved",
   "theorems": [
    "C10_string_history"
   ],
   "note": "All histories over any number of strings, including every operator overload; excludes the inputs of C12-C14."
  },
  {
   "property": "C11",
   "status": "proved",
   "theorems": [
    "C11_eq_plus",
    "C10_string_history"
   ],
   "note": "After every history; the overloads with C strings are in C10_string_history."
  },
  {
   "property": "C12",
   "status": "partial",
   "theorems": [
    "C12_empty_literal_refuted",
    "C10_string_history"
   ],
   "note": "REFUTED for the empty C string, after every history: undefined behaviour, or the characters behind the terminator. Non-empty C strings are covered by C10_string_history."
  },
  {
   "property": "C13",
   "status": "partial",
   "theorems": [
    "C13_self_append_refuted",
    "C13_self_append_partial"
   ],
   "note": "REFUTED for every non-empty string after every history (undefined behaviour). Proved for the empty string."
  },
  {
   "property": "C14",
   "status": "partial",
   "theorems": [
    "C14_moved_from_refuted"
   ],
   "note": "REFUTED after every history: size() is 2^64-1, empty() is false and push_back is undefined behaviour."
  },
  {
   "property": "C24",
   "status": "proved",
   "theorems": [
    "C24_dll_history"
   ],
   "note": "All histories over any number of doubly linked lists; node count exact. Moving from an empty list is C28."
  },
  {
   "property": "C25",
   "status": "proved",
   "theorems": [
    "C25_sll_history"
   ],
   "note": "All histories over any number of singly linked lists; excludes the calls of C26-C28."
  },
  {
   "property": "C26",
   "status": "partial",
   "theorems": [
    "C26_sll_copy_refuted",
    "C25_sll_history"
   ],
   "note": "REFUTED after every history for every non-empty source: the copy repeats the first element and its push_back inserts into the source. Copies of empty lists are covered by C25_sll_history."
  },
  {
   "property": "C27",
   "status": "partial",
   "theorems": [
    "C27_push_refuted",
    "C27_pop_refuted",
    "C27_pop_new_refuted",
    "C27_pop_reuse_refuted",
    "C25_sll_history"
   ],
   "note": "REFUTED after every history: push on an empty list and pop of the only element leave the tail pointer wrong (later push_back in front, or undefined behaviour, or a lost element if the allocator hands out the same address again). push on a non-empty list and pop of two or more elements are covered by C25_sll_history."
  },
  {
   "property": "C28",
   "status": "partial",
   "theorems": [
    "C28_move_empty_refuted"
   ],
   "note": "REFUTED for both kinds of list after every history: the next empty(), clear() or destructor of either list asserts."
  },
  {
   "property": "C29",
   "status": "proved",
   "theorems": [
    "C29_init",
    "C29_add",
    "C29_del",
    "C29_rotate",
    "C29_walk"
   ],
   "note": "Rings of any length, both kinds; cells outside the ring and all data unchanged."
  },
  {
   "property": "C30",
   "status": "proved",
   "theorems": [
    "C30_deque_history"
   ],
   "note": "every block size, every history over any number of deques incl. copies, self-moves and destruction"
  },
  {
   "property": "C31",
   "status": "proved",
   "theorems": [
    "C31_capacity",
    "C31_all_freed",
    "C30_deque_history"
   ],
   "note": "blocks allocated times ARR_SIZE = sum of capacities and live cells = sum of sizes after every history (C30_deque_history); a double release, or releasing a block that still holds an element, would be UB"
  },
  {
   "property": "C32",
   "status": "proved",
   "theorems": [
    "C32_copy_independent",
    "C30_deque_history"
   ],
   "note": "for sources that hold an element; copies of a deque emptied by pops are in C30_deque_history and C34_emptied_partial"
  },
  {
   "property": "C33",
   "status": "partial",
   "theorems": [
    "C33_move_refuted"
   ],
   "note": "REFUTED: the moved iterators still point to the source's (now empty) map table, so every use of the target except size() and front() fails an assertion; proved for every history, every non-empty source and both move construction and assignment"
  },
  {
   "property": "C34",
   "status": "partial",
   "theorems": [
    "C34_fresh_refuted",
    "C34_cleared_refuted",
    "C34_emptied_partial"
   ],
   "note": "REFUTED: fresh deques have uninitialised iterators and cleared ones keep iterators into released blocks; it holds for deques emptied by pops"
  },
  {
   "property": "C35",
   "status": "proved",
   "theorems": [
    "C35_queue_deque",
    "C35_queue_list"
   ],
   "note": "over DoubleEndedQueue and over DLinkedList; iterating/copying a queue nothing was pushed to (C34) and moves (C33, C28) are excepted"
  },
  {
   "property": "C50",
   "status": "proved",
   "theorems": [
    "C50_progress",
    "C50_alloc_result",
    "C50_disjoint"
   ],
   "note": "for 8 <= MAX <= INT_MAX-16, 16 <= MEM <= INT_MAX-8, MEM a multiple of 8, requests n <= INT_MAX-8 (larger n overflow, C58); every history and every content the user writes into live blocks"
  },
  {
   "property": "C51",
   "status": "proved",
   "theorems": [
    "C51_conserved",
    "C51_all_returned"
   ],
   "note": "for 8 <= MAX <= INT_MAX-16, 16 <= MEM <= INT_MAX-8, MEM a multiple of 8, requests n <= INT_MAX-8 (larger n overflow, C58)"
  },
  {
   "property": "C52",
   "status": "proved",
   "theorems": [
    "C52_null_iff"
   ],
   "note": "for 8 <= MAX <= INT_MAX-16, 16 <= MEM <= INT_MAX-8, MEM a multiple of 8, requests n <= INT_MAX-8 (larger n overflow, C58)"
  },
  {
   "property": "C53",
   "status": "proved",
   "theorems": [
    "C53_max_exact"
   ],
   "note": "for 8 <= MAX <= INT_MAX-16, 16 <= MEM <= INT_MAX-8, MEM a multiple of 8, requests n <= INT_MAX-8 (larger n overflow, C58)"
  },
  {
   "property": "C54",
   "status": "proved",
   "theorems": [
    "C54_merge_keeps"
   ],
   "note": "for 8 <= MAX <= INT_MAX-16, 16 <= MEM <= INT_MAX-8, MEM a multiple of 8, requests n <= INT_MAX-8 (larger n overflow, C58)"
  },
  {
   "property": "C55",
   "status": "partial",
   "theorems": [
    "C55_recombine_refuted",
    "C55_same_class_partial"
   ],
   "note": "REFUTED: small-class blocks are never joined with blocks of the last list, so for every MEM >= 8*(MAX/8)+16 a freed and merged pool still has adjacent free blocks and cannot be allocated whole; proved that blocks of the same class are not adjacent after a merge"
  },
  {
   "property": "C56",
   "status": "partial",
   "theorems": [
    "C56_misaligned_refuted",
    "C56_aligned4_partial"
   ],
   "note": "REFUTED: the pool starts 4 bytes into the object, so every result is 4 modulo 8; it is 4-aligned"
  },
  {
   "property": "C57",
   "status": "partial",
   "theorems": [
    "C57_nonpos_refuted",
    "C57_zero_refuted"
   ],
   "note": "REFUTED in every reachable state: n <= 0 indexes the lists from the back; UB or a lost block"
  },
  {
   "property": "C58",
   "status": "partial",
   "theorems": [
    "C58_round_partial",
    "C58_class_partial",
    "C58_round_refuted"
   ],
   "note": "REFUTED at n = INT_MAX-7 only (bytes + 8 overflows although the rounding fits); proved for n + 8 in range"
  },
  {
   "property": "C62",
   "status": "proved",
   "theorems": [
    "C62_port_allocate",
    "C62_port_deallocate"
   ],
   "note": "for 8 <= MAX <= INT_MAX-16, 16 <= MEM <= INT_MAX-8, MEM a multiple of 8, requests n <= INT_MAX-8 (larger n overflow, C58)"
  },
  {
   "property": "C36",
   "status": "proved",
   "theorems": [
    "C36_push_all",
    "C37_shape"
   ],
   "note": "every strict weak order; C37_shape gives the same invariants after every mixed history over any number of trees"
  },
  {
   "property": "C37",
   "status": "proved",
   "theorems": [
    "C37_avl_history",
    "C37_shape"
   ],
   "note": "every history over any number of trees, including erase from three elements on; exactly the live nodes are allocated"
  },
  {
   "property": "C38",
   "status": "proved",
   "theorems": [
    "C38_height"
   ],
   "note": "fib(h+2) <= n+1, and 2^h <= (n+1)^2"
  },
  {
   "property": "C39",
   "status": "proved",
   "theorems": [
    "C39_find",
    "C37_avl_history",
    "C46_bst_history_partial"
   ],
   "note": "on every well-linked ordered tree and after every specified history over AVLTree and BinarySearchTree objects (the histories after which a BinarySearchTree is no search tree any more are in C46)"
  },
  {
   "property": "C40",
   "status": "proved",
   "theorems": [
    "C40_iterate"
   ],
   "note": "BinaryTree iterators on every well-linked tree; AVLTree::begin ignores the requested order, so an AVLTree always iterates in-order"
  },
  {
   "property": "C41",
   "status": "partial",
   "theorems": [
    "C41_postorder_refuted"
   ],
   "note": "REFUTED: on trees with distinct elements post-order iteration is right exactly when no node has a right child; it always yields a sublist of the in-order sequence"
  },
  {
   "property": "C42",
   "status": "partial",
   "theorems": [
    "C42_traversal_refuted",
    "C42_avl_traversal_refuted"
   ],
   "note": "REFUTED: InOrder (the default) and PostOrder start at the leftmost node and miss elements whenever the root has a left child; at most two elements are visited in any AVL tree. PreOrder is proved complete"
  },
  {
   "property": "C43",
   "status": "partial",
   "theorems": [
    "C43_empty_iter_refuted",
    "C43_empty_map_refuted",
    "C43_bst_empty_iter_refuted"
   ],
   "note": "REFUTED after every history: begin() on an empty tree or map dereferences null"
  },
  {
   "property": "C44",
   "status": "partial",
   "theorems": [
    "C44_pop_absent_refuted",
    "C44_map_pop_absent_refuted",
    "C44_bst_pop_absent_refuted",
    "C37_avl_history",
    "C49_map_history",
    "C46_bst_history_partial"
   ],
   "note": "REFUTED after every history for non-empty BST, AVL trees and maps (undefined behaviour); popping from an empty one is a no-op, in the history theorems"
  },
  {
   "property": "C45",
   "status": "partial",
   "theorems": [
    "C45_erase_last_refuted",
    "C45_erase_two_refuted",
    "C37_avl_history"
   ],
   "note": "REFUTED for trees of one element and the root of trees of two (after every history); proved for three and more in C37_avl_history"
  },
  {
   "property": "C47",
   "status": "partial",
   "theorems": [
    "C47_copy_refuted",
    "C47_map_copy_refuted"
   ],
   "note": "REFUTED after every history for every non-empty source: nodes are shared and freed twice"
  },
  {
   "property": "C48",
   "status": "proved",
   "theorems": [
    "C48_clear"
   ],
   "note": "every well-linked tree, other allocations untouched; histories with clear and destruction are in C37_avl_history and C49_map_history"
  },
  {
   "property": "C49",
   "status": "proved",
   "theorems": [
    "C49_map_history",
    "C49_map_sorted"
   ],
   "note": "every history over any number of maps; excludes iterating an empty map (C43), popping an absent key of a non-empty one (C44) and copies (C47). Map::erase and operator[] const do not compile and are not modelled"
  },
  {
   "property": "C46",
   "status": "partial",
   "theorems": [
    "C46_dup_push_refuted",
    "C46_dup_pop_refuted",
    "C46_pop_two_refuted",
    "C46_erase_two_refuted",
    "C46_inverted",
    "C46_bst_history_partial",
    "C46_bst_sets_partial"
   ],
   "note": "REFUTED after every history: a repeated push is counted twice, and removing a key with two children is undefined behaviour or leaves the tree out of order. Proved for histories that push absent keys and remove keys with at most one child"
  },
  {
   "property": "C59",
   "status": "partial",
   "theorems": [
    "C59_bytes_partial",
    "C59_truncated_refuted",
    "C59_short_refuted"
   ],
   "note": "REFUTED for every request of more than INT_MAX bytes: the byte count is truncated to int, so the block is too small or malloc gets a size near 2^64; below, the count is exact"
  },
  {
   "property": "C60",
   "status": "proved",
   "theorems": [
    "C60_pointer_order",
    "C60_tree_fit",
    "C60_value_order"
   ],
   "note": "every pointer type, whatever the built-in < says about null"
  },
  {
   "property": "C61",
   "status": "proved",
   "theorems": [
    "C61_swap",
    "C61_max_abs_int",
    "C61_max"
   ],
   "note": "swap for every type and every moved-from state, aliased references included; abs(INT_MIN) is undefined behaviour"
  },
  {
   "property": "C63",
   "status": "proved",
   "theorems": [
    "C63_out_of_memory",
    "C63_crash_means_refused",
    "C63_never_refused"
   ],
   "note": "every program and every failure pattern; a refused reserve goes unnoticed until the next push, and pop_back can crash because it asks for a smaller block"
  },
  {
   "property": "C64",
   "status": "proved",
   "theorems": [
    "C64_height"
   ],
   "note": "every linked tree, any stored heights; int is unbounded here, which a tree of more than 2^31 levels would need to notice"
  },
  {
   "property": "C65",
   "status": "partial",
   "theorems": [
    "C65_deep_refuted",
    "C65_bound_partial"
   ],
   "note": "REFUTED: union_set never compares the ranks to choose the parent, so for every n there is a history after which find nests n+1 calls; proved that n calls always suffice and that two do right after a find"
  },
  {
   "property": "C66",
   "status": "proved",
   "theorems": [
    "C66_find",
    "C66_push",
    "C66_pop"
   ],
   "note": "every history; the model's loop budget is the measure of cost"
  },
  {
   "property": "C67",
   "status": "proved",
   "theorems": [
    "C67_pool",
    "C67_enough"
   ],
   "note": "every client program; no claim where the program itself is undefined; the elements' bytes are arbitrary writes into the owned storage"
  },
  {
   "property": "C68",
   "status": "proved",
   "theorems": [
    "C68_push",
    "C68_pop",
    "C68_range",
    "C68_build",
    "C68_sort"
   ],
   "note": "explicit constants; calls are counted on the run over memory; the cost of one push_back or resize inside the vector is not counted"
  },
  {
   "property": "C69",
   "status": "proved",
   "theorems": [
    "C69_string",
    "C69_stack",
    "C69_xstack",
    "C69_heap",
    "C69_ufset"
   ],
   "note": "composes C10, C15, C16, C17 and C21 with C67; nothing is claimed where the class's own specification claims nothing (see C12-C14, C16, C23)"
  },
  {
   "property": "C70",
   "status": "proved",
   "theorems": [
    "C70_history",
    "C70_unique",
    "C70_kept",
    "C70_lists"
   ],
   "note": "both kinds of list; excludes copying a non-empty singly linked list (C26), its push/pop at the empty boundary (C27) and moving from an empty list (C28); any allocator that hands out no address in use"
  },
  {
   "property": "C71",
   "status": "proved",
   "theorems": [
    "C71_history",
    "C71_unique",
    "C71_kept",
    "C71_trees"
   ],
   "note": "excludes begin() of an empty tree (C43) and erasing from trees of one or two elements (C45); moved-from iterators are not modelled; any allocator that hands out no address in use"
  },
  {
   "property": "C72",
   "status": "proved",
   "theorems": [
    "C72_dll",
    "C72_sll",
    "C72_queue",
    "C72_iterators",
    "C72_dll_limited",
    "C72_sll_limited",
    "C72_queue_limited"
   ],
   "note": "an allocator is any function from the log of grants and returns to an answer; the gaps of the singly linked list (C26-C28) stay excluded"
  },
  {
   "property": "C73",
   "status": "proved",
   "theorems": [
    "C73_dll",
    "C73_sll",
    "C73_queue",
    "C73_iterators",
    "C73_policy",
    "C73_apart",
    "C73_writes",
    "C73_shared"
   ],
   "note": "composition of the list model with the allocator model; that the results are misaligned (C56) and the gaps of the singly linked list (C26-C28) stay excluded; in a shared pool no capacity is claimed"
  },
  {
   "property": "C74",
   "status": "proved",
   "theorems": [
    "C74_avl",
    "C74_map",
    "C74_bst",
    "C74_iterators",
    "C74_avl_limited",
    "C74_map_limited",
    "C74_bst_limited",
    "C74_iterators_limited",
    "C74_avl_static",
    "C74_bst_static",
    "C74_iterators_static"
   ],
   "note": "the calls the tree specifications exclude (C43-C47) stay excluded; results of the static pool are misaligned (C56); Map cannot be given an allocator of its own"
  },
  {
   "property": "C75",
   "status": "partial",
   "theorems": [
    "C75_drift_refuted",
    "C75_no_bound_refuted",
    "C75_bound_partial"
   ],
   "note": "REFUTED: pushing at one end and popping at the other moves the content through the block table, the table doubles whenever the end is hit, and no pop ever shrinks it, so n push/pop pairs on any deque make capacity() at least n/2 with size() unchanged; proved that capacity() never exceeds 8 times the elements ever put in plus 8 blocks"
  },
  {
   "property": "C76",
   "status": "proved",
   "theorems": [
    "C76_history",
    "C76_pushes_keep"
   ],
   "note": "begin() and end() of a deque that never had a push are excluded (C34), as are moved deques (C33) and moved-from iterators; an example shows that an iterator moved after pushes can leave the content"
  },
  {
   "property": "C77",
   "status": "proved",
   "theorems": [
    "C77_history",
    "C77_sets",
    "C77_keys",
    "C77_limited"
   ],
   "note": "what the code does with repeated keys, in full; that size() then differs from the number of elements is the defect recorded in C46"
  },
  {
   "property": "C78",
   "status": "partial",
   "theorems": [
    "C78_leak_refuted",
    "C78_lifetimes_partial"
   ],
   "note": "REFUTED: blocks are constructed as arrays, which constructs ARR_SIZE elements, but freed without the array destructor, and pushes construct over those elements: once a deque has held an element, destroying everything leaves ARR_SIZE constructions per block ever allocated without a destructor call; proved that apart from this every element put in is constructed once and destroyed once"
  },
  {
   "property": "C79",
   "status": "partial",
   "theorems": [
    "C79_reflexive_refuted",
    "C79_avl_partial",
    "C79_bst_partial",
    "C79_heap_partial"
   ],
   "note": "REFUTED: an AVLTree whose comparison holds between an element and itself (such as <=) accepts an element twice and has undefined behaviour at the third push, rotating around a missing child (C79_reflexive_refuted, for every such comparison and element). Proved: AVLTree with any asymmetric comparison, transitive or not; BinarySearchTree and Heap with any function at all."
  },
  {
   "property": "C80",
   "status": "proved",
   "theorems": [
    "C80_history",
    "C80_push",
    "C80_pop",
    "C80_move"
   ],
   "note": "the exact outcome, undefined behaviour included"
  },
  {
   "property": "C81",
   "status": "proved",
   "theorems": [
    "C81_deque",
    "C81_dlist",
    "C81_slist",
    "C81_granted",
    "C81_same"
   ],
   "note": "leaves out what the containers themselves get wrong: iterating over or copying a deque nothing was pushed to (C34), moved deques (C33), moving an empty list (C28), copying a non-empty singly linked list (C26), and pop()/top() of an empty stack over a deque, which is undefined"
  },
  {
   "property": "C82",
   "status": "proved",
   "theorems": [
    "C82_deque",
    "C82_queue",
    "C82_stack",
    "C82_any",
    "C82_calm",
    "C82_push",
    "C82_table",
    "C82_table_copy"
   ],
   "note": "what the deques of C29-C31 leave out (C33, C34) stays out of C82_deque, C82_queue and C82_stack; C82_any holds for these too; a crash is the access to a null pointer, taken to end the program"
  },
  {
   "property": "C83",
   "status": "proved",
   "theorems": [
    "C83_lists",
    "C83_lists_limited",
    "C83_trees",
    "C83_trees_limited",
    "C83_same_find"
   ],
   "note": "nothing is claimed of a range whose end does not follow its beginning; begin() of an empty tree is left out (C43); callbacks that change the container's structure are not modelled"
  },
  {
   "property": "C84",
   "status": "proved",
   "theorems": [
    "C84_history",
    "C84_limited",
    "C84_kept",
    "C84_maps"
   ],
   "note": "leaves out what the maps get wrong: copying a non-empty map (C47), popping a key that is not there (C44), iterating an empty map (C43)"
  },
  {
   "property": "C85",
   "status": "partial",
   "theorems": [
    "C85_split_refuted",
    "C85_cycle_refuted",
    "C85_loop_refuted",
    "C85_history_partial",
    "C85_connect_partial"
   ],
   "note": "REFUTED: with a second argument that does not represent its set, the call tears that set apart (C85_split_refuted, after every history); with one that represents the set of the first argument it makes an endless chain (C85_cycle_refuted), as does union_set(x, x) (C85_loop_refuted). Proved for every history in which the second argument represents a set without the first, or the first represents the second: union_set(x, find(y)) does what connect(x, y) does. Not determined by the specification: a second argument that represents nothing together with a different element of its own set that represents nothing either."
  },
  {
   "property": "C86",
   "status": "proved",
   "theorems": [
    "C86_history",
    "C86_limited",
    "C86_copy",
    "C86_own"
   ],
   "note": "the reference is taken from an iterator; what C71 leaves out stays out"
  },
  {
   "property": "C87",
   "status": "proved",
   "theorems": [
    "C87_history",
    "C87_copy",
    "C87_own"
   ],
   "note": "the reference is taken from an iterator or operator[]; what the deques of C76 leave out stays out"
  },
  {
   "property": "C88",
   "status": "partial",
   "theorems": [
    "C88_heap_refuted",
    "C88_vector_partial",
    "C88_over_vector_partial",
    "C88_dsu_partial",
    "C88_string_partial",
    "C88_deque_partial",
    "C88_list_partial",
    "C88_tree_partial",
    "C88_map_partial"
   ],
   "note": "REFUTED: Heap's move assignment does not compare addresses: after every history, moving a heap to itself throws away all its elements. Proved for copying heaps and for copying and moving every other container; Array, whose move assignment moves every element to itself, is left out, as are assignments that do not compile (copying a BinarySearchTree)"
  },
  {
   "property": "C89",
   "status": "partial",
   "theorems": [
    "C89_history_partial",
    "C89_extremum",
    "C89_iter_refuted",
    "C89_repeat_refuted"
   ],
   "note": "REFUTED: iteration shows the saved extrema and the uninitialised value among the elements, after every history; pushing a value equal to the current extremum and popping it loses the element below. Proved for all other histories, over every container. Also left out: copies and moves the containers themselves get wrong (C05, C26, C28, C33, C34) and getXValue() of an empty stack"
  },
  {
   "property": "C90",
   "status": "partial",
   "theorems": [
    "C90_history_partial",
    "C90_ignored_refuted",
    "C90_end_refuted",
    "C90_below_refuted"
   ],
   "note": "REFUTED: only numbers from n up abort. A number from -n to -1 means an element counted from the end, as in Vector; if that element represents its set then, after every history, connect(-k, y) returns and has no effect, find(-k) returns -k, connected says it is not in its own set, and connecting the element to its own negative number makes find loop for ever. Below -n is undefined behaviour. Proved: the history theorem for numbers from n up (abort) and for negative numbers of elements that do not represent their set (they act as the element counted from the end)"
  },
  {
   "property": "C91",
   "status": "partial",
   "theorems": [
    "C91_history_partial",
    "C91_read",
    "C91_value",
    "C91_literal_refuted",
    "C91_variable_refuted",
    "C91_stale_refuted"
   ],
   "note": "REFUTED: after every history, const int &r = s.find(n) with a number n that represents its set dangles (reading r is undefined behaviour); with a variable that represents its set r is that variable; and a reference to an element reads as the old representative after its set was put under another one. Proved: all calls, whatever their arguments are bound to and for every order of evaluation, answer as by value; find and union_set leave exactly the memory they leave by value; a kept reference to an element always reads as some element of its set, and as the representative while that stays the same"
  },
  {
   "property": "C92",
   "status": "partial",
   "theorems": [
    "C92_history_partial",
    "C92_copy",
    "C92_full_refuted"
   ],
   "note": "REFUTED: after every history, h.push(h[i]) is undefined behaviour for every index if size() == capacity(): push_back reads the reference after giving the old storage back. Proved: everything else; if size() and capacity() differ or the element is in another object, the push does exactly what pushing a copy does"
  },
  {
   "property": "C93",
   "status": "partial",
   "theorems": [
    "C93_history_partial",
    "C93_history_or_partial",
    "C93_unique",
    "C93_kept",
    "C93_trees",
    "C93_two_children_refuted"
   ],
   "note": "REFUTED: after every history, erasing at an element with two children spoils every iterator at its right child: reading it is undefined behaviour or gives a greater element. Proved: everything else; pops and erases of elements with two children, post-order iterators and begin(InOrder) of an empty tree are left out (C41, C43, C46)"
  },
  {
   "property": "C94",
   "status": "proved",
   "theorems": [
    "C94_history",
    "C94_history_or",
    "C94_copy",
    "C94_own"
   ],
   "note": "calls the list claims leave out (C26-C28) are left out here too"
  },
  {
   "property": "C95",
   "status": "partial",
   "theorems": [
    "C95_history",
    "C95_history_or",
    "C95_one",
    "C95_popped_refuted",
    "C95_moved_refuted"
   ],
   "note": "REFUTED: after every history, a value pushed and popped again is still in the head node, where *end() reads it, and after a move both objects hold the value pushed last. Proved: exactly which one value each list object holds besides its elements, after every history; calls the list claims leave out (C26-C28) are left out here too"
  },
  {
   "property": "C96",
   "status": "proved",
   "theorems": [
    "C96_inorder",
    "C96_preorder",
    "C96_same_next",
    "C96_same_first",
    "C96_avl",
    "C96_bst",
    "C96_bst_preorder"
   ],
   "note": "rounds are counted as the least limits on the loops under which the walk still finishes; post-order iteration, which does not visit every element (C41), and empty trees, on which begin() is undefined (C43), are left out"
  },
  {
   "property": "C97",
   "status": "proved",
   "theorems": [
    "C97_history",
    "C97_back",
    "C97_endless",
    "C97_front",
    "C97_gone"
   ],
   "note": "the callback gets a copy of the element; C97_gone: removing the element the loop is at is undefined behaviour; calls the list claims leave out (C26-C28) are left out here too"
  },
  {
   "property": "C98",
   "status": "partial",
   "theorems": [
    "C98_bst_history",
    "C98_avl_history",
    "C98_bst_taken",
    "C98_avl_taken",
    "C98_bst_advance_refuted",
    "C98_avl_advance_refuted",
    "C98_bst_copy_refuted",
    "C98_avl_copy_refuted",
    "C98_bst_self_refuted"
   ],
   "note": "REFUTED: a moved-from iterator still reads and compares as before, but moving it on calls a null function; a copy of it is past the end in a binary search tree, so differs from it; moving an iterator to itself loses its place. Proved: moving is as good as copying if the source is not used again, and what every history gives"
  },
  {
   "property": "C99",
   "status": "proved",
   "theorems": [
    "C99_history",
    "C99_ascending",
    "C99_sweep",
    "C99_endless",
    "C99_below",
    "C99_pop"
   ],
   "note": ""
  },
  {
   "property": "C100",
   "status": "proved",
   "theorems": [
    "C100_history",
    "C100_append",
    "C100_double",
    "C100_remove",
    "C100_stop",
    "C100_move"
   ],
   "note": ""
  },
  {
   "property": "C101",
   "status": "partial",
   "theorems": [
    "C101_history",
    "C101_taken",
    "C101_advance_refuted",
    "C101_copy_refuted",
    "C101_self_refuted"
   ],
   "note": "REFUTED: a moved-from iterator still reads and compares as before, also as the end of a range, but every step with it dereferences a null table; a copy of it differs from it and cannot be read; moving an iterator to itself loses its place. Proved: moving is as good as copying if the source is not used again, and what every history gives"
  },
  {
   "property": "C102",
   "status": "partial",
   "theorems": [
    "C102_index",
    "C102_index_refuted",
    "C102_loop",
    "C102_heap",
    "C102_heap_refuted"
   ],
   "note": "REFUTED: of a vector of 2^31 to 2^32 - 1 elements no element can be indexed and loops over it overflow; a heap of 2^30 or more elements (2^30 + 1 slots) overflows when an element sinks to the last level. Proved with int and size_t arithmetic: indices and loops are right up to INT_MAX elements, and histories in which nothing has more than 2^30 slots are right histories of heaps (C17)"
  },
  {
   "property": "C103",
   "status": "partial",
   "theorems": [
    "C103_history",
    "C103_fill_refuted",
    "C103_push_refuted",
    "C103_reserve_refuted"
   ],
   "note": "REFUTED: beyond INT_MAX bytes Vector(n, e) stops the program or writes past its block, push_back stops the program at the first doubling past INT_MAX bytes, and resize(n) claims a capacity it does not have, so that later pushes write past the block. Proved: histories in which no call asks for more than INT_MAX bytes are those of lists (C01)"
  },
  {
   "property": "C104",
   "status": "proved",
   "theorems": [
    "C104_history",
    "C104_copy",
    "C104_trail",
    "C104_stop",
    "C104_drain",
    "C104_remove",
    "C104_append"
   ],
   "note": ""
  },
  {
   "property": "C105",
   "status": "proved",
   "theorems": [
    "C105_maps",
    "C105_trees",
    "C105_update",
    "C105_drop",
    "C105_pop",
    "C105_fill",
    "C105_clone"
   ],
   "note": ""
  },
  {
   "property": "C106",
   "status": "proved",
   "theorems": [
    "C106_stack",
    "C106_max_stack"
   ],
   "note": "The property includes the cases in which the code is at fault: full vectors."
  },
  {
   "property": "C107",
   "status": "proved",
   "theorems": [
    "C107_any",
    "C107_call",
    "C107_index",
    "C107_push_limit",
    "C107_vector_limit",
    "C107_string",
    "C107_string_limit"
   ],
   "note": "The property includes the sizes beyond which the code is undefined. Sizes of 2^63 or more and the ints of the allocator are not part of it; for the latter see C59."
  },
  {
   "property": "C108",
   "status": "proved",
   "theorems": [
    "C108_history",
    "C108_min",
    "C108_min_refuted"
   ],
   "note": "The property includes the one int for which the code is undefined. The int loops over the map table, which overflow with more than INT_MAX blocks, are not part of it."
  }
 ]
}