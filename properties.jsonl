{"id": "C01", "title": "Vector behaves as a sequence, for every history", "statement": "For any number of Vector objects and any interleaving of construction, Vector(n,x), push_back, pop_back, writes through operator[], resize(n), resize(n,x), clear, copy, move and destruction, every vector's size(), operator[] and iteration order are exactly those of an ordinary immutable sequence value; operating on one vector (including a copy or a moved-to vector) never changes the contents of any other.", "quantifier": "every finite history of operations over any set of vectors of a trivially destructible element type, each operation within its documented precondition", "why_tests_cant": "Histories of reallocating operations are unbounded, and aliasing between two vectors only shows for particular interleavings of copies, moves, growth and shrinkage.", "anchors": ["core/ds/array/Vector.hpp: Vector::push_back, pop_back, resize, clear, DSTRUCT_COPY_SEMANTICS, DSTRUCT_MOVE_SEMANTICS, operator[]"]}
{"id": "C02", "title": "Vector: no leak, double free or wrong-size deallocation", "statement": "Over every history, each block the vectors obtain from the allocator is returned exactly once, with exactly the element count it was allocated with, and every element constructed is destroyed exactly once before its storage is returned; when all vectors are destroyed no storage is outstanding.", "quantifier": "every finite history of operations over any set of vectors (copy operations restricted to trivially destructible elements)", "why_tests_cant": "Leaks, double frees and size mismatches do not change any observable value; they must be excluded for all histories.", "anchors": ["core/ds/array/Vector.hpp: Vector::resize, clear, ~Vector", "spec/DStructSpec.hpp: AllocSpec::deallocate", "core/common.hpp: construct, destroy"]}
{"id": "C03", "title": "Vector operator[]: Python-style indexing and the bounds assertion", "statement": "For -size <= i < size, v[i] is the element at position i (or size+i when i is negative). For i >= size the assertion fires. The user relies on the assertion rejecting every other index as well, i.e. also i < -size.", "quantifier": "every vector and every int index", "why_tests_cant": "All index values at all sizes must be covered; the unchecked case silently reads memory before the buffer.", "anchors": ["core/ds/array/Vector.hpp: Vector::operator[]"]}
{"id": "C04", "title": "Vector capacity discipline", "statement": "In every reachable state size() <= capacity(); push_back never changes capacity when size() < capacity(), pop_back never drops an element other than the last even when it shrinks the buffer, and any sequence of n push_back/pop_back calls starting from an empty vector copies at most a constant times n elements (amortised constant cost).", "quantifier": "every reachable vector and every sequence of push_back/pop_back", "why_tests_cant": "Amortised bounds and shrink-boundary safety are statements over all sequences, including thrashing at the grow/shrink thresholds.", "anchors": ["core/ds/array/Vector.hpp: Vector::push_back, pop_back, resize"]}
{"id": "C05", "title": "Vector copy is safe for element types with a destructor", "statement": "Copy-constructing or copy-assigning a vector of any copyable element type yields an equal independent vector and runs no destructor on storage that holds no object.", "quantifier": "every source vector and every element type, including ones whose destructor does something", "why_tests_cant": "Running a destructor on raw storage is undefined behaviour that may appear to work in a test.", "anchors": ["core/ds/array/Vector.hpp: DSTRUCT_COPY_SEMANTICS(Vector)", "core/common.hpp: destroy"]}
{"id": "C06", "title": "Vector push_back of one of its own elements", "statement": "v.push_back(v[i]) appends a copy of the element v[i] had before the call, whatever the current capacity (as std::vector guarantees).", "quantifier": "every non-empty vector, every element index, every capacity", "why_tests_cant": "Only fails when the call reallocates; whether the freed memory still holds the value depends on the allocator.", "anchors": ["core/ds/array/Vector.hpp: Vector::push_back(ConstReferenceType), resize"]}
{"id": "C07", "title": "Vector iteration visits exactly the elements in order", "statement": "Iterating from begin() to end() (range-for, algorithm::for_each) visits every element exactly once in index order, algorithm::find returns the first position holding an equal element or end(), and for_each with a mutating callback replaces each element by the callback's result.", "quantifier": "every vector content and every callback", "why_tests_cant": "Needs to hold for all lengths including empty and capacity > size.", "anchors": ["core/ds/array/Vector.hpp: begin, end", "core/Iterator.hpp: PrimitiveIterator", "core/algorithm.hpp: for_each, find"]}
{"id": "C08", "title": "Programs using a vector only through its API cannot see its memory", "statement": "Any program that uses a vector only through its public operations gets, step for step, the same results (including assertion failures) as if the vector were a mathematical sequence with a capacity number.", "quantifier": "every program over the vector operations and every starting vector", "why_tests_cant": "Quantifies over all client programs.", "anchors": ["core/ds/array/Vector.hpp: class Vector"]}
{"id": "C09", "title": "Array indexing and fill", "statement": "Array<T,N>(x) holds N copies of x; a[i] for 0<=i<N and a[-k] for 1<=k<=N designate the same N distinct elements (a[-k] is a[N-k]); writing one leaves all others unchanged; copying or assigning an array copies all N elements.", "quantifier": "every N, every index, every content", "why_tests_cant": "All N and all indices.", "anchors": ["core/ds/array/Array.hpp: Array::operator[], Array(const&), operator="]}
{"id": "C10", "title": "String is a faithful NUL-terminated character sequence", "statement": "For every history of construction from a non-empty literal, default construction, push_back, clear, +=, + and assignment, size() is the number of characters, operator[] and iteration return them in order, and c_str() points to exactly those characters followed by a NUL.", "quantifier": "every history of string operations on non-empty literals and distinct strings", "why_tests_cant": "The hidden terminator must be preserved by every operation in every order.", "anchors": ["core/ds/string/BasicString.hpp: BasicString, push_back, operator+=, clear, c_str, size"]}
{"id": "C11", "title": "String equality and concatenation", "statement": "s1 == s2 holds exactly when both have the same characters; != is its negation; (s1 + s2) has the characters of s1 followed by those of s2 and leaves s1 and s2 unchanged.", "quantifier": "every pair of strings", "why_tests_cant": "All contents and lengths.", "anchors": ["core/ds/string/BasicString.hpp: operator==, operator!=, operator+"]}
{"id": "C12", "title": "String can be built from any C string", "statement": "BasicString(str), operator=(const char*), += and == with a C string are well defined for every NUL-terminated C string, including the empty one.", "quantifier": "every NUL-terminated byte sequence", "why_tests_cant": "The empty literal makes the constructor read past the terminator; in a test the next byte in memory may look harmless.", "anchors": ["core/ds/string/BasicString.hpp: BasicString(const char *)"]}
{"id": "C13", "title": "String self-append", "statement": "s += s doubles the string.", "quantifier": "every string", "why_tests_cant": "For non-empty strings the loop bound grows with the loop; a test would hang rather than fail.", "anchors": ["core/ds/string/BasicString.hpp: operator+=(const BasicString &)"]}
{"id": "C14", "title": "Moved-from string is empty", "statement": "After moving out of a string, the source reports empty() and can be used again (push_back, size).", "quantifier": "every string", "why_tests_cant": "Needs a statement about the residual state for every content.", "anchors": ["core/ds/string/BasicString.hpp: DSTRUCT_MOVE_SEMANTICS(BasicString), size, empty, push_back"]}
{"id": "C15", "title": "Stack is LIFO", "statement": "For every history of push, pop, top, clear on a Stack, top() is the most recently pushed element not yet popped, size() is their number; pop/top on an empty stack trips an assertion and changes nothing.", "quantifier": "every history of stack operations", "why_tests_cant": "All interleavings of pushes and pops.", "anchors": ["core/ds/stack/Stack.hpp: Stack"]}
{"id": "C16", "title": "MinStack/MaxStack report the extremum of what is on the stack", "statement": "For every history of push and pop, top() is the most recent element and getXValue() is the least (for less) or greatest (for greater) element currently on the stack.", "quantifier": "every history of push/pop over every element values, including repeated values", "why_tests_cant": "Failure needs a repeat of the current extremum; every value pattern must be covered.", "anchors": ["core/ds/stack/XValueStack.hpp: XValueStack::push, pop, getXValue, top"]}
{"id": "C17", "title": "Heap always yields an extremal element", "statement": "For every history of push and pop on a Heap with a strict weak ordering comparator, the contents are exactly the multiset of pushed elements minus the popped ones, and top() is an element that no other element precedes; pop removes exactly one such element.", "quantifier": "every history of push/pop, every comparator that is a strict weak order", "why_tests_cant": "Sift-up/down correctness over all shapes, sizes and duplicate patterns.", "anchors": ["core/ds/Heap.hpp: Heap::push, pop, top, _adjust_up, _adjust_down"]}
{"id": "C18", "title": "Heap construction from a range", "statement": "Heap(begin,end) and Heap::build produce a heap holding exactly the elements of the range, and build leaves the range a permutation of its old content in heap order.", "quantifier": "every range of elements and comparator", "why_tests_cant": "Bottom-up heapify over all lengths.", "anchors": ["core/ds/Heap.hpp: Heap(begin,end), build"]}
{"id": "C19", "title": "Heap::sort sorts", "statement": "Heap::sort(begin,end) leaves the range a permutation of the original, ordered so that no element precedes an earlier one under the comparator.", "quantifier": "every range and every strict weak order", "why_tests_cant": "All inputs.", "anchors": ["core/ds/Heap.hpp: Heap::sort"]}
{"id": "C20", "title": "Heap move leaves a usable empty heap", "statement": "Moving from a heap transfers all elements and leaves the source an empty heap that accepts further pushes.", "quantifier": "every heap", "why_tests_cant": "All contents.", "anchors": ["core/ds/Heap.hpp: Heap(Heap&&), operator=(Heap&&)"]}
{"id": "C21", "title": "Disjoint set implements connectivity", "statement": "Starting from n singletons, after any sequence of connect(a,b) between elements that are not yet connected, interleaved with any finds and connected queries, connected(x,y) is true exactly when x and y are linked by the reflexive-symmetric-transitive closure of the connects, and count() is n minus the number of connects.", "quantifier": "every n>0, every sequence of connects between currently unconnected elements and of queries", "why_tests_cant": "Path compression and rank updates mutate the forest on every query; all interleavings matter.", "anchors": ["core/ds/set/DisjointSet.hpp: DisjointSet::find, connected, connect, union_set, count"]}
{"id": "C22", "title": "find returns a canonical representative and never changes the partition", "statement": "find(x) returns the same representative for all members of a set and a member of that set; calling find or connected never changes any answer of find, connected or count.", "quantifier": "every reachable forest, every element", "why_tests_cant": "Path compression must be observationally pure in every forest shape.", "anchors": ["core/ds/set/DisjointSet.hpp: DisjointSet::find"]}
{"id": "C23", "title": "Connecting already-connected elements is harmless", "statement": "connect(a,b) for a and b already connected (in particular connect(a,a)) leaves the structure unchanged and later finds terminate.", "quantifier": "every reachable structure and every connected pair", "why_tests_cant": "The failure is an infinite recursion on the next find; no finite test characterises it.", "anchors": ["core/ds/set/DisjointSet.hpp: union_set, connect"]}
{"id": "C24", "title": "Doubly linked list behaves as a sequence, for every history", "statement": "For any number of DoublyLinkedList objects and any interleaving of push_front, push_back, pop_front, pop_back, clear, copy, move from a non-empty list, and destruction, each list's forward iteration, backward iteration, front, back and size agree with an ordinary sequence, no list affects another, and no node is leaked or freed twice.", "quantifier": "every finite history over any set of lists", "why_tests_cant": "Pointer surgery must be right for every list shape and interleaving; leaks are invisible to value tests.", "anchors": ["core/ds/linked-list/DoublyLinkedList.hpp: DoublyLinkedList", "core/ds/linked-list/LinkedList.hpp: LinkedList_", "core/ds/linked-list/EmbeddedList.hpp: DoublyLink_::add, del"]}
{"id": "C25", "title": "Singly linked list behaves as a sequence, for every history", "statement": "For any number of SinglyLinkedList objects and any interleaving of push_front, push_back, pop_front, _pop_back, clear, move from a non-empty list, and destruction, each list's iteration, front, back and size agree with an ordinary sequence, no list affects another, and no node is leaked or freed twice.", "quantifier": "every finite history over any set of lists", "why_tests_cant": "The cached tail pointer must be right after every interleaving.", "anchors": ["core/ds/linked-list/SinglyLinkedList.hpp: SinglyLinkedList", "core/ds/linked-list/EmbeddedList.hpp: SinglyLink_::add, del"]}
{"id": "C26", "title": "Copying a singly linked list copies its elements", "statement": "After list2 = list1, list2 holds the same elements as list1, and later operations on either do not affect the other.", "quantifier": "every source list", "why_tests_cant": "Only lists whose elements are not all equal reveal a wrong copy; aliasing of the tail only shows in later operations.", "anchors": ["core/ds/linked-list/SinglyLinkedList.hpp: DSTRUCT_COPY_SEMANTICS(SinglyLinkedList)"]}
{"id": "C27", "title": "push/pop on a singly linked list are push_front/pop_front", "statement": "On a SinglyLinkedList, push(x) and pop() have the same effect as push_front(x) and pop_front() on every later operation, including back() and push_back.", "quantifier": "every list and every continuation", "why_tests_cant": "push/pop are inherited and bypass the tail update; the damage shows only in particular later calls.", "anchors": ["core/ds/linked-list/LinkedList.hpp: LinkedList_::push, pop", "core/ds/linked-list/SinglyLinkedList.hpp: push_front, pop_front"]}
{"id": "C28", "title": "Moving from an empty linked list", "statement": "Move construction and move assignment from an empty singly or doubly linked list give an empty list, leave the source empty, and both can be used and destroyed.", "quantifier": "every empty source list and every target", "why_tests_cant": "The corrupted links trip an assertion only later (e.g. in the destructor).", "anchors": ["core/ds/linked-list/SinglyLinkedList.hpp: DSTRUCT_MOVE_SEMANTICS", "core/ds/linked-list/DoublyLinkedList.hpp: DSTRUCT_MOVE_SEMANTICS", "core/ds/linked-list/LinkedList.hpp: empty"]}
{"id": "C29", "title": "Intrusive links: add and del are exact inverses on the ring", "statement": "On any circular intrusive list (singly or doubly linked), add(prev, n) inserts n right after prev and changes no other order, and del(prev, n) of the node after prev removes exactly n; iterating the ring visits every member once.", "quantifier": "every ring, every position", "why_tests_cant": "All ring sizes including the one-element ring.", "anchors": ["core/ds/linked-list/EmbeddedList.hpp: SinglyLink_, DoublyLink_, EmbeddedListNode_"]}
{"id": "C30", "title": "Deque behaves as a double-ended sequence, for every history", "statement": "For every block size and every history of push_back, push_front, pop_back, pop_front, clear on a deque, size, front, back, operator[] (positive and negative indices) and iteration agree with an ordinary sequence, and no access leaves the allocated blocks.", "quantifier": "every ARR_SIZE > 0, every history (pops only when non-empty)", "why_tests_cant": "Block boundaries, re-centring and growth happen at history-dependent moments.", "anchors": ["core/ds/queue/DoubleEndedQueue.hpp: push_back, push_front, pop_back, pop_front, _resize, _only_init, operator[], DoubleEndedQueueIterator_"]}
{"id": "C31", "title": "Deque storage: blocks are released exactly once and capacity covers the content", "statement": "In every reachable state capacity() is ARR_SIZE times the number of allocated blocks and at least size(); growth doubles it, pops never change it, and clear/destruction return every block exactly once; the elements living in the blocks are exactly as many as the deques hold, and no block is returned with an element in it that was not destroyed.", "quantifier": "every ARR_SIZE and history", "why_tests_cant": "Block bookkeeping during growth is invisible to value tests.", "anchors": ["core/ds/queue/DoubleEndedQueue.hpp: _resize, _only_clear, _only_init"]}
{"id": "C32", "title": "Deque copy is independent", "statement": "Copying a deque that has held an element yields an equal deque with its own storage; later operations on either do not affect the other.", "quantifier": "every deque, every continuation", "why_tests_cant": "Aliasing shows only in later interleavings.", "anchors": ["core/ds/queue/DoubleEndedQueue.hpp: DSTRUCT_COPY_SEMANTICS(DoubleEndedQueue)"]}
{"id": "C33", "title": "Deque move yields a usable deque", "statement": "After moving a deque (or a Queue), the target holds the elements and can be iterated, pushed, popped and destroyed.", "quantifier": "every non-empty source", "why_tests_cant": "The moved iterators still refer to the source's block table; the failure is in the next boundary check.", "anchors": ["core/ds/queue/DoubleEndedQueue.hpp: DSTRUCT_MOVE_SEMANTICS(DoubleEndedQueue), DoubleEndedQueueIterator_::operator=(Self&&), operator++"]}
{"id": "C34", "title": "Empty deques can be iterated and copied", "statement": "Iterating or copying a deque that is empty - freshly constructed or just cleared - visits nothing.", "quantifier": "every cleared or fresh deque", "why_tests_cant": "Stale or uninitialised iterators compare by whatever bits they hold.", "anchors": ["core/ds/queue/DoubleEndedQueue.hpp: clear, _only_clear, begin, end, DoubleEndedQueueIterator_()"]}
{"id": "C35", "title": "Queue is FIFO", "statement": "For every history of push and pop on a Queue, front() is the oldest element not yet popped, back() the newest, and iteration goes oldest to newest.", "quantifier": "every history", "why_tests_cant": "All interleavings.", "anchors": ["core/ds/queue/Queue.hpp: Queue"]}
{"id": "C36", "title": "AVL insertion keeps the tree ordered, balanced and well linked", "statement": "After any sequence of pushes of distinct keys into an AVLTree, the tree is a binary search tree of exactly those keys, every node's children differ in height by at most one, stored heights and parent pointers are right, size() is the number of keys, and height() is the true height.", "quantifier": "every sequence of pushes, every strict total order", "why_tests_cant": "All insertion orders and rotation cases.", "anchors": ["core/ds/tree/AVLTree.hpp: push, _insert, _left_rotate, _right_rotate, _update_height", "core/ds/tree/EmbeddedBinaryTree.hpp: left_rotate, right_rotate"]}
{"id": "C37", "title": "AVL pop of a present key removes exactly that key and rebalances", "statement": "After any history of pushes of absent keys and pops of present keys, the AVLTree holds exactly the expected key set with all the invariants (order, balance, heights, parents, size); no freed node is reachable and exactly one node is freed per pop.", "quantifier": "every such history and every strict total order", "why_tests_cant": "Deletion with successor swap and cascaded rotations over all shapes.", "anchors": ["core/ds/tree/AVLTree.hpp: pop, _delete, _swap_node, _check_and_balance, _real_delete"]}
{"id": "C38", "title": "AVL height is logarithmic", "statement": "In every reachable AVLTree of n keys, height() <= 1.4405 * log2(n+2), stated as: a tree of height h holds at least fib(h+2)-1 keys.", "quantifier": "every reachable tree", "why_tests_cant": "A bound over all histories.", "anchors": ["core/ds/tree/AVLTree.hpp: height"]}
{"id": "C39", "title": "Tree find is exact", "statement": "find(k) on a BST or AVL tree returns an iterator to the stored element equivalent to k when there is one and end() otherwise.", "quantifier": "every reachable tree and key", "why_tests_cant": "All keys, present or absent, in all shapes.", "anchors": ["core/ds/tree/BinarySearchTreeBase.hpp: _find", "core/ds/tree/AVLTree.hpp: find", "core/ds/tree/BinarySearchTree.hpp: find"]}
{"id": "C40", "title": "In-order and pre-order iteration visit every node exactly once in order", "statement": "Iterating a non-empty tree from begin(InOrder) to end() visits all elements once in ascending order; from begin(PreOrder) visits them in pre-order.", "quantifier": "every well-linked tree", "why_tests_cant": "Successor walking through parent pointers over all shapes.", "anchors": ["core/ds/tree/EmbeddedBinaryTree.hpp: next_inorder, next_preorder", "core/ds/tree/BinaryTree.hpp: begin, first_node, BinaryTreeIterator_"]}
{"id": "C41", "title": "Post-order iteration", "statement": "Iterating from begin(PostOrder) visits the elements in post-order.", "quantifier": "every tree", "why_tests_cant": "Degenerate shapes agree with post-order by accident; all shapes must be covered.", "anchors": ["core/ds/tree/EmbeddedBinaryTree.hpp: next_postorder", "core/ds/tree/BinaryTree.hpp: first_node"]}
{"id": "C42", "title": "traversal(callback) visits every element", "statement": "BinaryTree::traversal calls the callback exactly once per element in the requested order (the default is in-order).", "quantifier": "every tree and traversal type", "why_tests_cant": "Only shapes whose leftmost node is the root behave.", "anchors": ["core/ds/tree/BinaryTree.hpp: traversal, first_node"]}
{"id": "C43", "title": "Empty trees can be iterated", "statement": "begin() on an empty tree or map equals end(), so a range-for over it visits nothing.", "quantifier": "every empty tree (fresh, cleared, or emptied)", "why_tests_cant": "Null dereference in begin(); must be settled for every way of becoming empty.", "anchors": ["core/ds/tree/BinaryTree.hpp: begin, first_node", "core/ds/Map.hpp: begin"]}
{"id": "C44", "title": "Popping an absent key is a no-op", "statement": "pop(k) for a key that is not stored leaves a BST, AVL tree or Map unchanged.", "quantifier": "every tree and absent key", "why_tests_cant": "All shapes and keys.", "anchors": ["core/ds/tree/AVLTree.hpp: _delete", "core/ds/tree/BinarySearchTree.hpp: _delete", "core/ds/Map.hpp: pop"]}
{"id": "C45", "title": "AVL erase(iterator) removes that element and returns its successor", "statement": "erase(it) removes exactly the element it refers to, keeps all tree invariants and returns an iterator to the next larger element (end() if none), whichever node it is.", "quantifier": "every reachable tree and element", "why_tests_cant": "The root-with-at-most-one-child case leaves a dangling root; cascaded rebalancing upward covers all shapes.", "anchors": ["core/ds/tree/AVLTree.hpp: erase, _delete_by_target, _rebalance_after_delete, _swap_node"]}
{"id": "C46", "title": "BST push/pop keep the search-tree property and the count", "statement": "After any history of push and pop on a BinarySearchTree, in-order iteration is the sorted set of present keys and size() is their number.", "quantifier": "every history, including repeated pushes and pops of inner nodes", "why_tests_cant": "Deletion of a node with two children and duplicate pushes in all shapes.", "anchors": ["core/ds/tree/BinarySearchTree.hpp: push, pop, _insert, _try_to_delete"]}
{"id": "C47", "title": "Copying an AVL tree or Map is safe", "statement": "A copied AVLTree or Map is an independent container; both can be destroyed.", "quantifier": "every non-empty tree", "why_tests_cant": "The implicit copy shares nodes; the double free appears only at destruction.", "anchors": ["core/ds/tree/AVLTree.hpp: class AVLTree (implicit copy)", "core/ds/tree/BinaryTree.hpp: ~BinaryTree", "core/ds/Map.hpp: Map(const Map &)"]}
{"id": "C48", "title": "Tree clear/destruction frees every node exactly once", "statement": "clear() or destroying a tree destroys and deallocates each node exactly once, never touches a freed node, and leaves it empty.", "quantifier": "every well-linked tree", "why_tests_cant": "Use-after-free during post-order traversal is invisible to value tests.", "anchors": ["core/ds/tree/BinaryTree.hpp: clear, ~BinaryTree", "core/ds/tree/EmbeddedBinaryTree.hpp: postorder_traversal"]}
{"id": "C49", "title": "Map is a finite map", "statement": "For every history of m[k]=v, reads m[k], push of an absent key, pop of a present key, find and clear, the Map returns what a mathematical finite map would (m[k] on an absent key inserts the default value), size() is the number of keys, and iteration over a non-empty map yields the keys in ascending order with their values.", "quantifier": "every history and every strict total key order", "why_tests_cant": "All histories.", "anchors": ["core/ds/Map.hpp: Map::operator[], push, pop, find, size"]}
{"id": "C50", "title": "Allocator hands out disjoint in-bounds blocks", "statement": "For every history of allocate (positive sizes), deallocate of live blocks with their requested size, and memory_merge, every non-null result lies inside the pool, has room for the rounded-up request and does not overlap any block still allocated.", "quantifier": "every pool size (multiple of 8), every MAX_BLOCK_SIZE >= 8, every history, and every content the user writes into the blocks", "why_tests_cant": "Overlap depends on fragmentation history.", "anchors": ["memory/StaticMemAllocator.hpp: allocate_d, deallocate_d, quick_mem_allocate_d, mem_pool_allocate_d, insert_mem_block_to_list_d, memory_merge_d"]}
{"id": "C51", "title": "Allocator conserves memory", "statement": "In every reachable state free_mem_size() equals the pool size minus the rounded sizes of live blocks and equals the total of all free-list blocks (the check dump() performs); deallocating everything restores it to the pool size.", "quantifier": "every history", "why_tests_cant": "Accounting must hold over all histories.", "anchors": ["memory/StaticMemAllocator.hpp: free_mem_size, dump, mFreeMemSize_d"]}
{"id": "C52", "title": "Allocation fails only when no free block is large enough", "statement": "allocate(n) returns nullptr exactly when no single block on any free list has size at least n rounded up; a failed allocation changes nothing.", "quantifier": "every reachable state and every n > 0", "why_tests_cant": "First-fit and size-class search over all free-list configurations.", "anchors": ["memory/StaticMemAllocator.hpp: allocate_d, quick_mem_allocate_d, mem_pool_allocate_d"]}
{"id": "C53", "title": "max_free_mblock_size is exact", "statement": "max_free_mblock_size() is the size of the largest block on the free lists (0 if none), hence the largest request that would succeed now.", "quantifier": "every reachable state", "why_tests_cant": "All configurations.", "anchors": ["memory/StaticMemAllocator.hpp: max_free_mblock_size"]}
{"id": "C54", "title": "memory_merge preserves all memory and live data", "statement": "memory_merge never changes free_mem_size, never touches a live block, keeps the set of free bytes the same, terminates, and never reduces max_free_mblock_size.", "quantifier": "every reachable state", "why_tests_cant": "List surgery across size classes in all configurations.", "anchors": ["memory/StaticMemAllocator.hpp: quick_mem_memory_merge_d, mem_pool_memory_merge_d"]}
{"id": "C55", "title": "memory_merge coalesces all adjacent free blocks", "statement": "After memory_merge no two free blocks are adjacent; in particular when everything has been freed, the whole pool can be allocated in one piece again.", "quantifier": "every reachable state", "why_tests_cant": "Depends on the order and sizes of earlier frees.", "anchors": ["memory/StaticMemAllocator.hpp: quick_mem_memory_merge_d, mem_pool_memory_merge_d"]}
{"id": "C56", "title": "Allocator results are 8-byte aligned", "statement": "Every pointer returned by allocate is aligned to SMA_MEM_ALIGN (8).", "quantifier": "every history", "why_tests_cant": "Misaligned access is tolerated by the usual test machines.", "anchors": ["memory/StaticMemAllocator.hpp: SMA_MEM_ALIGN, mMemoryPool_d layout"]}
{"id": "C57", "title": "allocate(0) is harmless", "statement": "allocate of zero (or a negative number of) bytes does not take memory away from later requests.", "quantifier": "every reachable state and every n <= 0", "why_tests_cant": "The loss only shows in later allocations.", "anchors": ["memory/StaticMemAllocator.hpp: allocate_d, quick_mem_allocate_d, SIZE_TO_INDEX_", "core/ds/array/Array.hpp: operator[]"]}
{"id": "C58", "title": "Rounding arithmetic", "statement": "MEM_ALIGN_ROUND_UP(n) is the least multiple of 8 that is >= n for every n whose rounding fits an int, and size classes map back: a block taken from the class of n is at least n.", "quantifier": "every int n with n+7 in range", "why_tests_cant": "Bit masks over all values.", "anchors": ["memory/StaticMemAllocator.hpp: MEM_ALIGN_ROUND_UP, SIZE_TO_INDEX_, INDEX_TO_SIZE_"]}
{"id": "C59", "title": "Element counts reach the allocator intact", "statement": "The byte count passed to the allocator for n elements of size s is n*s, so the block always has room for n elements.", "quantifier": "every n and s", "why_tests_cant": "Int truncation appears only beyond 2 GiB requests.", "anchors": ["spec/DStructSpec.hpp: AllocSpec::allocate", "port/libc/libc-dstruct-port.hpp: allocate"]}
{"id": "C60", "title": "Pointer comparators order null first and are strict", "statement": "less<T*> and greater<T*> are strict total orders on pointers with nullptr as the least element, and one is the converse of the other; less/greater on values are the converse of each other.", "quantifier": "every triple of pointers", "why_tests_cant": "Order laws over all triples.", "anchors": ["core/utils.hpp: less, greater"]}
{"id": "C61", "title": "swap, max, abs", "statement": "swap exchanges two values, max returns the larger, abs the absolute value for every int other than the most negative.", "quantifier": "all int arguments", "why_tests_cant": "Boundary at the most negative int.", "anchors": ["core/utils.hpp: swap, max, abs"]}
{"id": "C62", "title": "The static-memory port returns a block or aborts", "statement": "port::allocate(n) over the static allocator never returns nullptr: it returns a fresh block disjoint from the live ones, merging if needed, or aborts, and it aborts only when even after memory_merge no free block is large enough; port::deallocate of a live block never aborts.", "quantifier": "every reachable allocator state and every n > 0 whose rounding fits an int", "why_tests_cant": "Depends on every fragmentation pattern the history can produce.", "anchors": ["port/static-memory/sma-dstruct-port.hpp: allocate, deallocate", "memory/StaticMemAllocator.hpp: allocate_d, memory_merge_d"]}
{"id": "C63", "title": "Vectors survive refused allocations or crash, never corrupt", "statement": "When the allocator may refuse any of its requests, every client program over vectors (and over the strings, stacks, heaps and disjoint sets built on them) either crashes or gives exactly the results, contents and capacities it gives with unlimited memory; it only crashes for lack of memory if one of the requests it makes was refused.", "quantifier": "every client program, every pattern of refused requests", "why_tests_cant": "Needs fault injection at every allocation of every program; here the pattern is universally quantified.", "anchors": ["core/ds/array/Vector.hpp: resize, push_back, pop_back, copy", "core/common.hpp: construct, destroy", "port/libc/libc-dstruct-port.hpp: allocate"]}
{"id": "C64", "title": "height computes the height of every linked tree", "statement": "The free function height(link) returns the number of levels of the tree below link, for any shape, any keys and any stored heights, without changing the tree, and needs one nested call per level plus one.", "quantifier": "every well-linked tree", "why_tests_cant": "All shapes and sizes; tests only see balanced ones.", "anchors": ["core/ds/tree/EmbeddedBinaryTree.hpp: height"]}
{"id": "C65", "title": "Disjoint sets are merged by rank, so find recurses logarithmically deep", "statement": "After any history over n elements, find(x) needs at most log2(n)+1 nested calls; an element just looked up needs at most two.", "quantifier": "every history of operations and every element", "why_tests_cant": "The worst case is a particular order of connects; the depth is not observable except as a stack overflow.", "anchors": ["core/ds/set/DisjointSet.hpp: find, union_set"]}
{"id": "C66", "title": "AVL find, push and pop descend at most twice log2(n+1) levels", "statement": "In an AVL tree of n keys, find looks at no more than 2*log2(n+1)+1 links, and push and pop nest no more than that many calls.", "quantifier": "every specified history and every key", "why_tests_cant": "The bound depends on every reachable tree shape.", "anchors": ["core/ds/tree/BinaryTree.hpp: find", "core/ds/tree/AVLTree.hpp: push, _insert, pop, _delete"]}
{"id": "C67", "title": "Vectors sharing the static memory pool stay apart and within it", "statement": "Vectors whose allocator is the static memory pool behave as vectors over the system heap, or the program crashes; their storage lies inside the pool, storages of different vectors do not overlap, whatever the program stores in its elements, and what they do not hold is free again. A program that asks for no more than the pool in all its life does not crash for want of memory.", "quantifier": "every client program over any number of vectors whose requests fit an int, every pool size and block limit, every element size, with and without the port", "why_tests_cant": "Needs every interleaving of growth, shrinking, copying and destruction over a shared pool, and every fragmentation it leads to.", "anchors": ["dstruct-static.hpp: smemory::Vector", "core/ds/array/Vector.hpp", "memory/StaticMemAllocator.hpp", "port/static-memory/sma-dstruct-port.hpp"]}
{"id": "C68", "title": "Heap push and pop are logarithmic, building is linear, sorting n log n", "statement": "Counted in calls on the underlying vector: push onto and pop from a heap of n elements make at most c*(log2(n+1)+1) calls; Heap(begin,end) and build make at most c*(n+1); sort makes at most c*(n+1)*(log2(n)+1). No comparator, however inconsistent, makes them exceed this or run on.", "quantifier": "every comparator, every state of the vectors and every range", "why_tests_cant": "Worst-case inputs of every size and inconsistent comparators cannot be enumerated.", "anchors": ["core/ds/Heap.hpp: push, pop, Heap(begin,end), build, sort, _adjust_up, _adjust_down"]}
{"id": "C69", "title": "The static-memory classes answer as their specifications or crash", "statement": "smemory::String, Stack, MinStack/MaxStack, MinHeap/MaxHeap and UFSet share the static pool: every history of calls gives the answers of the class's specification or crashes for want of memory; if all the storage the history ever asks for fits into the pool together it does not crash; the storage of all objects lies in the pool and does not overlap.", "quantifier": "every pool size and element size, every history over any number of objects, any bytes written into owned storage (MinStack/MaxStack: histories not pushing the current extremum)", "why_tests_cant": "Needs every history times every pool size; the tests use smemory classes only in one example.", "anchors": ["dstruct-static.hpp: smemory", "memory/StaticMemAllocator.hpp", "core/ds/string/BasicString.hpp", "core/ds/stack/Stack.hpp", "core/ds/stack/XValueStack.hpp", "core/ds/Heap.hpp", "core/ds/set/DisjointSet.hpp"]}
{"id": "C70", "title": "List iterators keep their place until their element is removed", "statement": "An iterator of a linked list stays at its element, whatever is pushed or popped around it, and follows it when the list is moved, until a call removes that very element or destroys the list: reading gives the element's current value, writing changes that element only, ++ and -- lead to the neighbours as they then are, with end() between last and first, and two iterators are equal iff they are at the same place.", "quantifier": "every history of list calls and iterator operations over any number of doubly or singly linked lists and iterators (without the calls of C26-C28)", "why_tests_cant": "Needs every interleaving of container changes with live iterators; a stale pointer often still reads the old value.", "anchors": ["core/ds/linked-list/DoublyLinkedList.hpp: DoublyLinkListIterator_", "core/ds/linked-list/SinglyLinkedList.hpp: SinglyLinkListIterator_", "core/ds/linked-list/LinkedList.hpp: begin, end", "spec/DStructSpec.hpp: DStructIteratorTypeSpec"]}
{"id": "C71", "title": "AVL tree iterators keep their place until their element is removed", "statement": "An iterator of an AVL tree stays at its element through every push, pop and erase of other elements, however the tree rotates, until that very element is removed or the tree is cleared or destroyed: reading gives the element, ++ leads to the next larger element as the tree then is and past the largest to end(), erase(it) removes exactly that element and returns its successor, find gives an iterator to the equivalent element or end(), and two iterators are equal iff they are at the same place.", "quantifier": "every strict weak order, every history of tree calls and iterator operations over any number of trees and iterators (without begin() of an empty tree, C43, and erasing from a tree of one or two elements, C45)", "why_tests_cant": "Needs every interleaving of rotations and two-child deletions with live iterators; a deletion that copied the successor's value would pass tests that only look at the contents.", "anchors": ["core/ds/tree/AVLTree.hpp: find, erase, begin, end, BTIterator_", "core/ds/tree/BinaryTree.hpp: BinaryTreeIterator_", "core/ds/tree/EmbeddedBinaryTree.hpp: next_inorder, replace", "spec/DStructSpec.hpp: DStructIteratorTypeSpec"]}
{"id": "C72", "title": "Lists work wherever the allocator puts nodes, and with a bounded one", "statement": "For any allocator that hands out no address in use - reusing freed addresses in any order, refusing requests at will - every history over linked lists, their iterators and queues over them either answers as specified with one node per element, or crashes, and then the allocator refused with fewer nodes in use than there are elements; with room for exactly n nodes a history runs to the end if there are never more than n elements, and crashes if there are.", "quantifier": "every allocator, every history, every capacity", "why_tests_cant": "Tests run on one allocator, whose reuse pattern hides or causes aliasing of stale pointers; exhaustion at each possible call is not exercised.", "anchors": ["core/ds/linked-list/LinkedList.hpp: push_front, pop_front, clear", "core/ds/linked-list/DoublyLinkedList.hpp: push_back, pop_back, operator=", "core/ds/linked-list/SinglyLinkedList.hpp: push_back, pop_back", "spec/DStructSpec.hpp: AllocSpec", "dstruct-static.hpp: smemory::SLinkedList, DLinkedList"]}
{"id": "C73", "title": "A static pool holds exactly as many list nodes as fit", "statement": "Lists, list iterators and queues over lists whose nodes come from StaticMemAllocator<MEM, MAX>, with nodes of n bytes (n > 0) and no other user of the pool, answer as the sequence specification while the number of elements of all lists, times n rounded up to a multiple of 8, never exceeds MEM, and crash when it does, whatever was pushed, popped, moved or destroyed before: one node size does not fragment the pool. What is written into the nodes does not change the allocator's answers. If the pool is shared, the nodes handed out are still never in use.", "quantifier": "all template parameters the allocator allows, node sizes, element types, histories over any number of lists; for the shared pool all interleavings with other users' requests, returns, merges and writes", "why_tests_cant": "Fragmentation depends on the whole history of allocations; a test exercises one order and one pool size.", "anchors": ["dstruct-static.hpp: smemory::SLinkedList, DLinkedList", "memory/StaticMemAllocator.hpp: allocate, deallocate", "core/ds/linked-list/DoublyLinkedList.hpp: push_back, pop_back", "core/ds/linked-list/SinglyLinkedList.hpp: push_back, pop_back", "spec/DStructSpec.hpp: AllocSpec"]}
{"id": "C74", "title": "Trees and maps work wherever the allocator puts nodes, and with a bounded one", "statement": "For any allocator that hands out no address in use - reusing freed addresses in any order, refusing requests at will - every history over AVL trees (with iterators), binary search trees and maps either answers as specified with one node per element, or crashes, and then the allocator refused with fewer nodes in use than there are elements; with room for exactly n nodes a history runs to the end if there are never more than n elements, and crashes if there are. Trees over StaticMemAllocator<MEM, MAX> with nodes of n bytes and no other user of the pool (smemory::BSTree) hold exactly the elements whose nodes, each rounded up to a multiple of 8, fit into MEM bytes together, however they were pushed and removed before.", "quantifier": "every allocator, every strict weak order, every history over any number of trees, every capacity and every pool size", "why_tests_cant": "Tests run on one allocator, whose reuse pattern hides or causes aliasing of stale pointers; exhaustion at each possible call and each fragmentation is not exercised.", "anchors": ["core/ds/tree/AVLTree.hpp: push, pop, erase", "core/ds/tree/BinarySearchTree.hpp: push, pop, erase, operator=", "core/ds/tree/BinaryTree.hpp: clear", "core/ds/Map.hpp", "spec/DStructSpec.hpp: AllocSpec", "dstruct-static.hpp: smemory::BSTree", "memory/StaticMemAllocator.hpp: allocate, deallocate"]}
{"id": "C75", "title": "Deque storage stays proportional to the content", "statement": "capacity() of a deque is bounded by a function of how many elements it holds: a deque or Queue of bounded length uses bounded storage, however long it is used.", "quantifier": "every block size, every history", "why_tests_cant": "The storage of a queue in steady state creeps up by doubling; a test would have to run long enough and watch capacity() to see it, and could not tell that it never stops.", "anchors": ["core/ds/queue/DoubleEndedQueue.hpp: _resize, push_back, pop_front, capacity"]}
{"id": "C76", "title": "Deque iterators and references stay valid as in std::deque", "statement": "begin(), end(), copies, ++, --, + n, - n, *, == and != on deque iterators and references obtained from operator[] behave as positions in the sequence. A push at either end leaves every iterator and reference to an element reading that element (only moving it is no longer allowed); a pop invalidates only what points to the removed element (pop_back also the end); calls on one deque never affect iterators of another. algorithm::find returns the first equal element between two iterators, or the second iterator, and for_each visits exactly the elements between.", "quantifier": "every block size, every number of deques and iterators, every history in which only valid iterators are used", "why_tests_cant": "Whether a stale pointer still reads the right cell depends on when the block table was reallocated; tests that pass may read freed memory.", "anchors": ["core/ds/queue/DoubleEndedQueue.hpp: DoubleEndedQueueIterator_, begin, end, operator[], _resize, push_back, push_front, pop_back, pop_front", "core/algorithm.hpp: for_each, find"]}
{"id": "C77", "title": "Keys pushed into a search tree again change nothing but its size", "statement": "BinarySearchTree takes any keys in any order, repeated as often as one likes: of equivalent keys the first pushed is kept, in-order iteration is sorted without repetitions, find gives the kept key, pushing a key that is there allocates nothing, and size() counts every push, repeated or not, minus the removals since the tree was last cleared. The constructor from a range therefore sorts and removes duplicates, and size() is the length of the range.", "quantifier": "every strict weak order, every allocator (also one that refuses requests), every history over any number of trees that removes only keys with at most one child (see C46), every range", "why_tests_cant": "Which pushes meet a key that is there, how the count and the nodes drift apart, and what later calls make of it depends on the whole history.", "anchors": ["core/ds/tree/BinarySearchTree.hpp: push, _insert, pop, erase, find, begin, operator=, BinarySearchTree(begin, end)", "core/ds/tree/BinaryTree.hpp: size, empty, clear"]}
{"id": "C78", "title": "Deques destroy every element they construct", "statement": "Over the life of all deques, every object of the element type a deque constructs - in the blocks it allocates, as temporaries, and for pushes and copies - is destroyed: when all deques are gone, constructor and destructor calls balance. In between, each element put in is constructed once and destroyed exactly once, when it is removed or its deque is cleared, assigned to or destroyed.", "quantifier": "every block size, every history over any number of deques", "why_tests_cant": "Leaked objects of trivial types are invisible; a test would need an element type that counts, and a history for every path that allocates a block.", "anchors": ["core/ds/queue/DoubleEndedQueue.hpp: _resize, clear, push_back, push_front, pop_back, pop_front", "core/ds/array/Array.hpp: Array, ~Array, operator="]}
{"id": "C79", "title": "A comparison function that is not an order corrupts no container", "statement": "Passing a comparison function that is not a strict weak order (for example <=, or one that is not transitive) to AVLTree, BinarySearchTree or Heap may make the order of elements meaningless, but no element is lost or invented, links and storage stay sound, and no call has undefined behaviour.", "quantifier": "every comparison function, element type and sequence of pushes (trees) or calls (heap)", "why_tests_cant": "Tests use std-like comparators; the functions that are not orders are infinitely many and which of them break a rotation depends on the sequence of pushes.", "anchors": ["core/ds/tree/AVLTree.hpp:213-248", "core/ds/tree/BinarySearchTree.hpp", "core/ds/Heap.hpp"]}
{"id": "C80", "title": "Vector iterators and references stay valid until the storage is replaced", "statement": "An iterator from begin() or end(), or a reference from operator[], kept by the client designates the same position of its vector - and reads and writes its element - until that vector's storage is replaced; moving the vector takes iterators and references along to the new owner. The storage is replaced exactly by push_back on a full vector, by pop_back that leaves less than a third of the capacity in use (so, unlike in std::vector, pop_back can invalidate references to elements that stay), by resize, clear, assignment and destruction. Iterator arithmetic, comparison, distance, find and for_each agree with indices. push_back of an element of the vector itself is safe when there is room.", "quantifier": "every history of vector calls and iterator operations over any number of vectors and client variables, every element type", "why_tests_cant": "Whether a stale reference still reads the right value depends on where the allocator puts the next block; which calls reallocate depends on the whole history.", "anchors": ["core/ds/array/Vector.hpp: begin, end, operator[], push_back, pop_back, resize, clear, operator=", "core/Iterator.hpp: PrimitiveIterator", "core/algorithm.hpp: for_each, find"]}
{"id": "C81", "title": "A stack behaves the same over every container", "statement": "Stack over DoubleEndedQueue, DLinkedList or SLinkedList instead of Vector is last in, first out: top() is the most recent element that was not popped, size() and empty() count them, iteration goes from the oldest to the newest, copies and moves carry the content along, clear() empties the stack. pop() and top() of an empty stack over a list assert. The answers are those of Stack over Vector, and no storage is lost.", "quantifier": "every history over any number of stacks, every element type, every block size (deque), every allocator, also one that refuses requests (lists)", "why_tests_cant": "The examples run one loop of pushes and pops over one alternative container; copies, moves, clearing and reuse interact with each container's own special cases.", "anchors": ["core/ds/stack/Stack.hpp: push, pop, top, size, empty, clear, begin, end", "core/ds/queue/DoubleEndedQueue.hpp", "core/ds/linked-list/DoublyLinkedList.hpp", "core/ds/linked-list/SinglyLinkedList.hpp", "examples/stack/stack.cpp"]}
{"id": "C82", "title": "Running out of memory crashes a deque but never corrupts it", "statement": "When the allocator refuses a request of a deque, or of a Queue or Stack over deques, the program crashes at a null pointer; it never goes on with a half-made block table or block. A history in which no request is refused answers as sequences do, with all storage accounted for. Only pushes and copies request memory, and a push only when it changes capacity(): after any history, taking elements out, clearing, moving and destroying work even when every request is refused.", "quantifier": "every block size, every history over any number of deques, queues or stacks, every set of refused requests", "why_tests_cant": "Which request is refused is outside the tests' control, and a push makes up to five kinds of requests at different stages of rebuilding the block table.", "anchors": ["core/ds/queue/DoubleEndedQueue.hpp: _resize, push_back, push_front, pop_back, pop_front, operator=", "core/ds/array/Vector.hpp: resize, operator=", "spec/DStructSpec.hpp: AllocSpec", "core/ds/queue/Queue.hpp", "core/ds/stack/Stack.hpp"]}
{"id": "C83", "title": "The algorithms work on list and tree ranges", "statement": "for_each over a range of a linked list or an AVLTree calls the callback exactly once for each element of the range, in order, and what the callback assigns to a list element is what the list then holds; find returns the first element of the range equal to the one sought, or the end of the range. Neither changes anything else, and iterators and ranges keep working afterwards. Over a whole tree, find agrees with the tree's own find whenever == agrees with the order.", "quantifier": "every history of container calls, iterator operations and algorithm calls over any number of lists or trees, every range, every element type and comparison, every callback that replaces elements, every allocator", "why_tests_cant": "The loops stop by comparing iterators of linked nodes, so termination depends on the whole history that built the links; the examples walk single fixed containers.", "anchors": ["core/algorithm.hpp: for_each, find", "core/ds/linked-list/DoublyLinkedList.hpp: iterators", "core/ds/linked-list/SinglyLinkedList.hpp: iterators", "core/ds/tree/AVLTree.hpp: iterators", "spec/DStructSpec.hpp: DStructIteratorTypeSpec"]}
{"id": "C84", "title": "References and iterators into a map stay good", "statement": "The reference m[key] gives stays good, and an iterator at an entry stays at it, until that entry is popped or its map is cleared or destroyed: pushes, m[other] and popping other keys, which rotate the tree and move nodes about, leave both alone. What is assigned through the reference is what m[key], find and iteration then show, and what m[key] = v assigns is what the reference shows. Two references to the same key are the same; m[key] makes an entry with a default value exactly when there is none.", "quantifier": "every history of calls over any number of maps with references and iterators kept in variables, every key and value type, every strict weak order of keys, every allocator", "why_tests_cant": "Whether a node survives depends on the shape of the tree when another key is popped; tests take a reference and use it at once.", "anchors": ["core/ds/Map.hpp: operator[], find, begin, end, push, pop, clear", "core/ds/tree/AVLTree.hpp: _delete, _swap_node, iterators"]}
{"id": "C85", "title": "union_set can be called directly", "statement": "The public union_set(a, b) merges the set of a with the set of b whatever two elements it is given: afterwards everything in the two sets is connected, the other sets are as they were, and count() is one less if the sets were different and the same otherwise.", "quantifier": "every history of DisjointSet calls that also calls union_set, any number of disjoint sets, all element numbers", "why_tests_cant": "What a direct call does to the other members depends on the parent links left by all earlier unions and path compressions; the examples only call connect.", "anchors": ["core/ds/set/DisjointSet.hpp: union_set, connect, find, count, connected"]}
{"id": "C86", "title": "A tree accepts references to its own elements", "statement": "AVLTree's push and pop take a reference and compare with it while they rebuild the tree. Passing a reference to an element of a tree - the same tree or another, such as t.pop(*it) - does exactly what passing a copy of the element does, down to the memory left behind: popping the element the reference refers to removes just that element, pushing it into its own tree fails the duplicate check, and pushing or popping it in another tree changes only that tree. Iterators at other elements stay good.", "quantifier": "every history of calls on any number of trees with iterators, every strict weak order, every allocator, every element the reference may refer to", "why_tests_cant": "Whether the referenced node is moved, relinked or freed before its last use depends on where it is in the tree: a leaf, a node with two children, or the one that takes another's place.", "anchors": ["core/ds/tree/AVLTree.hpp: push, pop, _insert, _delete, _swap_node", "spec/DStructSpec.hpp: DStructIteratorTypeSpec operator*"]}
{"id": "C87", "title": "A deque accepts references to its own elements", "statement": "push_back, push_front and push take a reference and construct the new element from it after making room. d.push_back(d[n]) appends a copy of that element and d.push_front(d[n]) prepends one, also when the push grows the block table or adds the first block, and the reference stays good; a reference to an element of another deque works the same way. The call does exactly what passing a copy does.", "quantifier": "every history of calls on any number of deques with iterators and references, every block size, every element type, every element the reference may refer to", "why_tests_cant": "The argument is only in danger when the push reallocates, which depends on block size, table size and where the content sits in the table.", "anchors": ["core/ds/queue/DoubleEndedQueue.hpp: push, push_back, push_front, _resize", "core/ds/queue/Queue.hpp: push"]}
{"id": "C88", "title": "Assigning an object to itself changes nothing", "statement": "x = x and x = move(x) leave x exactly as it was, for every container and adapter of the library, in every state.", "quantifier": "every container, every state (heaps: every history), all contents", "why_tests_cant": "No test or example assigns an object to itself; a missing check only shows for the one class that forgot it.", "anchors": ["core/common.hpp: DSTRUCT_COPY_SEMANTICS, DSTRUCT_MOVE_SEMANTICS", "core/ds/Heap.hpp: operator=(Heap &&)", "core/ds/array/Vector.hpp", "core/ds/string/BasicString.hpp", "core/ds/queue/DoubleEndedQueue.hpp", "core/ds/linked-list/*.hpp", "core/ds/tree/*.hpp", "core/ds/Map.hpp", "core/ds/set/DisjointSet.hpp"]}
{"id": "C89", "title": "MinStack and MaxStack work over every container and can be copied", "statement": "A stack with extremum built on Vector, on a deque or on a linked list gives the same answers: last in first out, getXValue() is the oldest of the elements that no other precedes, copies and moves take the extremum along and copies are independent of their source, pop and top of an empty stack assert (except over a deque), iterating shows the elements, and destroying the stacks leaves no memory behind.", "quantifier": "every history of constructions, copies, moves and calls on any number of stacks, every container, block size and allocator, every element type with a reflexive ==, every comparison, every value of the uninitialised member", "why_tests_cant": "The current extremum is kept outside the container and the earlier ones are interleaved with the elements, so whether pop takes one entry or two depends on the whole history of pushes; tests push a few distinct numbers to one stack over Vector.", "anchors": ["core/ds/stack/XValueStack.hpp: all members", "core/ds/stack/Stack.hpp", "core/ds/array/Vector.hpp", "core/ds/queue/DoubleEndedQueue.hpp", "core/ds/linked-list/*.hpp"]}
{"id": "C90", "title": "Numbers that are not elements of a disjoint set are rejected", "statement": "With n elements, find, connected and connect called with a number outside 0..n-1 abort and never act on some other number; with numbers inside they do what C21 says.", "quantifier": "every history of disjoint sets whose element numbers are arbitrary integers", "why_tests_cant": "tests use element numbers that exist; what -2 means depends on whether that element currently represents its set", "anchors": ["core/ds/set/DisjointSet.hpp:48-82", "core/ds/array/Vector.hpp:122-131"]}
{"id": "C91", "title": "The references find takes and returns can be kept and passed on", "statement": "find takes and returns references to int. Whatever they are bound to (numbers, variables, references kept from earlier calls, elements of the very set), all calls do what the calls with the same numbers would do, in whatever order the compiler evaluates operands; and a reference kept from find(n) can be read later and reads as the representative of n, until the set is assigned to or destroyed.", "quantifier": "every history of calls on any number of disjoint sets with numbers, variables and kept references as arguments, every order of evaluation C++11 allows", "why_tests_cant": "path compression overwrites the very slots the references are bound to; tests only use the value find returns at once, and what the reference is bound to depends on whether its argument happens to represent its set", "anchors": ["core/ds/set/DisjointSet.hpp:48-82", "xmake.lua:3"]}
{"id": "C92", "title": "A heap shows its elements by index and accepts references to them", "statement": "h[0] is the sentinel given to the constructor (or that of the heap it was copied or moved from), h[1] to h[size()] are the elements in the order of iteration with the top first, negative indices count from the end, and an index above size() fails an assertion. capacity() is at least size() and does not change while it is larger. h.push(h[i]) or h.push(v[i]), with a reference to an element of the same heap, another heap or a vector, adds a copy of the element that was there before the call.", "quantifier": "every history of calls on any number of heaps and vectors with indexing, capacity() and pushed references; every element type and comparator that decides an order", "why_tests_cant": "push(h[i]) fails only if the call reallocates, and then usually reads the right value from memory already given back.", "anchors": ["core/ds/Heap.hpp: Heap::operator[], capacity, push", "core/ds/array/Vector.hpp: Vector::push_back"]}
{"id": "C93", "title": "Iterators of binary search trees keep their place", "statement": "An iterator from begin(order), find or erase is at one element. It stays at that element, with its value, while other elements are pushed, popped or erased, and goes with the element when its tree is moved, until the element itself is removed. ++ takes it to the next element in its order (pre-order or in-order) as the tree is at that time, the end stays the end, *it is the element's value, and == compares places. erase(it) removes the element and returns an iterator at the next one in the order of it.", "quantifier": "every history of calls on any number of binary search trees and iterators, in both orders, every strict weak order and every sound allocator", "why_tests_cant": "Whether a held iterator survives depends on which nodes a removal frees or overwrites, which depends on the shape of the tree.", "anchors": ["core/ds/tree/BinarySearchTree.hpp: begin, end, find, erase", "core/ds/tree/BinaryTree.hpp: BinaryTreeIterator", "core/spec/DStructSpec.hpp: IteratorSpec"]}
{"id": "C94", "title": "Linked lists accept references to their own elements", "statement": "push_front(*it), push_back(*it), push(*it) and the constructor List(n, *it) do what they do with a copy of *it made before the call, whichever list the element is in, also the list pushed to: the new elements equal *it, everything else stays as it is, and iterators keep their places.", "quantifier": "every history of calls and iterator operations on any number of doubly or singly linked lists, every element and every sound allocator", "why_tests_cant": "Whether a reference survives the call depends on when the call reads it and what it has overwritten by then.", "anchors": ["core/ds/linked-list/LinkedList.hpp: push, push_front", "core/ds/linked-list/DoublyLinkedList.hpp: push_back, DoublyLinkedList(size_t, const T &)", "core/ds/linked-list/SinglyLinkedList.hpp: push_back, push_front, SinglyLinkedList(size_t, const T &)"]}
{"id": "C95", "title": "A list lets go of the elements it no longer has", "statement": "Once an element has been popped, cleared or moved away from a list object, that object holds no copy of its value: what the object holds is its elements.", "quantifier": "every history of calls and iterator operations on any number of doubly or singly linked lists and every sound allocator", "why_tests_cant": "A copy kept in the sentinel is not among the elements, so tests of the contents never see it.", "anchors": ["core/ds/linked-list/LinkedList.hpp: push_front, pop_front, operator=, end", "core/ds/linked-list/DoublyLinkedList.hpp: push_back, pop_back", "core/ds/linked-list/SinglyLinkedList.hpp: push_back, _pop_back"]}
{"id": "C96", "title": "Iterating over a tree takes time linear in its size", "statement": "Walking a non-empty tree from begin() to end() in order runs the loops inside begin() and ++ for exactly 2n rounds altogether, where n is the number of elements, and exactly n in pre-order; no single ++ runs more rounds than the tree has levels, which for AVL trees (and maps) of n keys is at most 2*log2(n+1).", "quantifier": "every stored tree; every history of AVL tree or binary search tree calls, every strict weak order and every allocator that grants requests", "why_tests_cant": "Tests check what iteration yields, not how far each step walks; a quadratic walk passes them all.", "anchors": ["core/ds/tree/EmbeddedBinaryTree.hpp: next_preorder, next_inorder", "core/ds/tree/BinaryTree.hpp: first_node, begin, operator++", "core/ds/tree/AVLTree.hpp: begin", "core/ds/tree/BinarySearchTree.hpp: begin"]}
{"id": "C97", "title": "for_each over a list goes on with what follows when the callback returns", "statement": "algorithm::for_each(l.begin(), l.end(), cb) over a linked list may be given a callback that itself calls the lists and uses iterators: after each call of cb the loop goes on with whatever then follows the element it is at. Elements pushed at the back are visited too, so the list is worked off like a queue and a callback that always pushes at the back never ends; elements pushed at the front are not visited, and the original ones are each visited once. Only the element the loop is at must not be removed.", "quantifier": "every history of calls and iterator operations on any number of doubly or singly linked lists before the loop and after it, every callback with a state of its own that makes any calls and decides by their answers, and every sound allocator that grants requests", "why_tests_cant": "What a loop visits depends on what its callback does to the links around the current element, in every round.", "anchors": ["core/algorithm.hpp: for_each", "core/ds/linked-list/DoublyLinkedList.hpp: iterators", "core/ds/linked-list/SinglyLinkedList.hpp: iterators", "core/ds/linked-list/LinkedList.hpp: begin, end"]}
{"id": "C98", "title": "Tree iterators can be moved", "statement": "k = move(j) makes tree iterator k stand where j stood, so a program that moves instead of copying gets the same answers as long as it does not use j again. j itself stays an iterator like any other: it can be moved on, or at least copied, and its copies equal it; moving an iterator to itself changes nothing.", "quantifier": "every history of calls, iterator operations and moves of iterators on any number of binary search trees or AVL trees, every comparison function that is a strict weak order, and every sound allocator that grants requests", "why_tests_cant": "Moved-from iterators only show when they are used again, after whatever else happened to the trees.", "anchors": ["core/ds/tree/BinaryTree.hpp: BinaryTreeIterator_", "core/ds/tree/AVLTree.hpp: AVLTreeIterator_", "spec/DStructSpec.hpp: DStructIteratorTypeSpec"]}
{"id": "C99", "title": "for_each over an AVL tree copes with callbacks that change it", "statement": "The callback of for_each, or the body of a range-for, over an AVL tree may call anything on any tree and use any iterator, as long as it does not remove the element it was given. The loop then goes on with the next larger element in the tree at the time the callback returns: the elements it is given are strictly ascending whatever it does, elements pushed ahead of the loop are seen, elements pushed behind it are not, and popped elements are not seen. A callback that adds something above every element never ends. Removing the element itself, or looping over an empty tree, is undefined.", "quantifier": "every history of calls before and after, every callback that computes its next call from the answers to the ones before, every comparison function that is a strict weak order, and every sound allocator that grants requests", "why_tests_cant": "What is seen depends on rotations and removals that happen between two steps of the loop, anywhere in the tree.", "anchors": ["core/algorithm.hpp: for_each", "core/ds/tree/AVLTree.hpp: AVLTreeIterator_", "core/ds/tree/EmbeddedBinaryTree.hpp: next_inorder"]}
{"id": "C100", "title": "for_each over a vector copes with callbacks that change it as far as its storage stays", "statement": "The callback of for_each over a vector may call anything on any vector and use any iterator or reference; what the loop does is determined by where its iterator, which is a pointer, points. Appending to the vector in the callback is fine exactly if everything appended fits into its capacity, and the loop sees only the elements that were there at the start; pushing back the element itself through the reference needs twice the size. Otherwise, and when the callback pops an element in every round, behaviour is undefined, popping the only element of a small vector excepted. end is taken by reference, so a callback that assigns to the iterator passed as end changes where the loop stops; moving the vector's contents into another vector does not disturb the loop.", "quantifier": "every history of calls before and after, every callback that computes its next call from the answers to the ones before, every number of rounds, element types that are trivially copyable and others", "why_tests_cant": "Whether an append in a callback is harmless depends on size and capacity at that moment, and on how many more follow in later rounds.", "anchors": ["core/algorithm.hpp: for_each", "core/ds/array/Vector.hpp: push_back, pop_back, begin, end", "core/Iterator.hpp: PrimitiveIterator"]}
{"id": "C101", "title": "Deque iterators can be moved", "statement": "k = move(j) makes deque iterator k stand where j stood, so a program that moves instead of copying gets the same answers as long as it does not use j again. j itself stays an iterator like any other: it can be advanced, or at least copied, and its copies equal it; moving an iterator to itself changes nothing.", "quantifier": "every history of calls, iterator operations and moves of iterators on any number of deques, every block size and every comparison used by find", "why_tests_cant": "Moved-from iterators only show when they are used again, after whatever else happened to the deques.", "anchors": ["core/ds/queue/DoubleEndedQueue.hpp: DoubleEndedQueueIterator_", "spec/DStructSpec.hpp: DStructIteratorTypeSpec"]}
{"id": "C102", "title": "Indices, loops and heaps work at every size", "statement": "v[i] designates the right element, counting loops over a vector end after its last element, and heaps keep their order, whatever the number of elements, although positions are computed in int.", "quantifier": "every size below 2^32, every int index, every history of heap and vector calls and every comparator that decides an order", "why_tests_cant": "The sizes at which int arithmetic gives out need a gigabyte of elements.", "anchors": ["core/ds/array/Vector.hpp: operator[], resize, clear, copy", "core/ds/Heap.hpp: _adjust_up, _adjust_down, Heap(begin, end), push, pop, sort, build"]}
{"id": "C103", "title": "Vectors hold as many elements as memory has room for", "statement": "A vector over the libc allocator grows, is filled and reserves room for any number of elements that memory has room for, and behaves as a list of them.", "quantifier": "every history of calls on any number of vectors, every element size and every number of elements", "why_tests_cant": "The sizes at which the allocator's int byte counts give out need two gigabytes of elements.", "anchors": ["core/ds/array/Vector.hpp: Vector(n, e), resize, push_back, pop_back, operator=", "spec/DStructSpec.hpp: AllocSpec::allocate", "port/libc/libc-dstruct-port.hpp: Alloc::allocate"]}
{"id": "C104", "title": "What changing a deque under for_each does", "statement": "for_each over a deque, with a callback that itself calls deques, moves iterators and assigns through references, goes on as long as its iterator is still good by the rules of std::deque, and then does what a loop over positions would: copying elements elsewhere, removing elements already visited and moving the end the loop was given all do what they say. Removing the element at hand at the front in every round empties the deque and visits every element; removing the last element in every round is undefined for two elements or more; appending in every round visits just the old elements if the deque has room for the new ones.", "quantifier": "every block size, every history of calls before and after, every callback that decides by the answers what to do next, every number of rounds", "why_tests_cant": "A callback is an arbitrary program over all deques and iterators; tests try a few callbacks on short deques.", "anchors": ["core/algorithm.hpp: for_each", "core/ds/queue/DoubleEndedQueue.hpp: iterator, push_back, pop_front, pop_back"]}
{"id": "C105", "title": "What changing maps and binary search trees under for_each does", "statement": "A client program over maps, or over binary search trees, that decides by the answers what to call next - with for_each loops, nested as deep as one likes, whose callbacks change the very container - does call by call what the containers promise. So giving each entry of a map a new value through the iterator visits every entry once and leaves the map with the new values; removing the entry before the one at hand visits every entry and leaves the last; assigning into another map makes these assignments in key order; removing the entry at hand is undefined in the first round; and pushing the elements of a tree onto an empty tree in pre-order reproduces it, in order makes a chain.", "quantifier": "every strict weak order, every program over the calls, every history before the loop, every map and tree, every number of rounds", "why_tests_cant": "A callback is an arbitrary program over all containers and iterators; tests try a few callbacks on small containers.", "anchors": ["core/algorithm.hpp: for_each", "core/ds/Map.hpp: operator[], pop, begin, end", "core/ds/tree/BinarySearchTree.hpp: push, begin, end"]}
{"id": "C106", "title": "Pushing an element of a stack by reference", "statement": "push of a stack over a vector, called with a reference to an element of a stack as in s.push(*it), does what pushing a copy of the element does - now and in everything called later - except that it is undefined behaviour when the element belongs to the same stack and the stack's vector has no room for what push puts there. A Stack puts one element there; an XValueStack puts one, or two if the element is a new extreme value, which can happen because its iterators also lead to the uninitialised value saved first.", "quantifier": "every history of calls before and after, every number of stacks, every element type, comparison and equality", "why_tests_cant": "Whether the reference dangles depends on the capacity the history has left; a freed element usually still reads as the old value, so tests pass.", "anchors": ["core/ds/stack/Stack.hpp: push, begin, end", "core/ds/stack/XValueStack.hpp: push, begin, end", "core/ds/array/Vector.hpp: push_back"]}
{"id": "C107", "title": "How large machine integers let vectors and strings become", "statement": "The int counters, indices and conversions of Vector never change what a program does while no vector has more than INT_MAX elements, none is asked for, and every index is an int; this holds for any program over vectors, so for everything the library builds on Vector. Histories of strings behave like character sequences while all strings, and the C strings passed in, have fewer than INT_MAX characters. Apart from the allocator, whose own ints are a matter of C59, these limits are exact: a call is undefined behaviour if it walks over more than INT_MAX elements, and a vector of more (but fewer than 2^32) elements has none that can be read or written by index; pushing n elements to a new vector is defined if and only if n is at most 2^31; pushing n elements and destroying the vector is defined if n is at most INT_MAX and undefined behaviour otherwise, and so is making a string of a C string of n characters and destroying it, for n below INT_MAX.", "quantifier": "every program over any number of vectors, every element type, every state; every history of string calls; every number of elements and characters", "why_tests_cant": "Overflow needs objects of more than two billion elements, which no test allocates.", "anchors": ["core/ds/array/Vector.hpp: all operations", "core/ds/string/BasicString.hpp: all operations"]}
{"id": "C108", "title": "Random access into deques for every int", "statement": "Indexing a deque and moving its iterators by an int mean the same as with unbounded integers for every int except INT_MIN: every history of calls with such ints, on any number of deques and iterators, answers as the rules of std::deque demand. INT_MIN is undefined behaviour after every history, for it + n, it - n and d[n], because the code negates it; in a deque of 2^31 or more elements d[INT_MIN] would have been one of them.", "quantifier": "every block size, element type and equality, every history of deque and iterator calls, every int", "why_tests_cant": "The only int that fails is one that a sequence of tests does not try, and only in deques of two billion elements could it have a meaning.", "anchors": ["core/ds/queue/DoubleEndedQueue.hpp: DoubleEndedQueueIterator_::operator+(int), operator-(int), DoubleEndedQueue::operator[]"]}
