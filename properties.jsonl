{"id": "C01", "title": "Lookups agree with an abstract map", "statement": "After any sequence of map calls, get(q), get_entry(q) and contains_key(q) return exactly what a plain association-list map fed the same calls would: the stored key and the most recently written value of the unique entry equal to q, or None/false when there is none.", "quantifier": "every key type with a lawful order, every call history (insert, remove, get_mut writes, clear, reserve, shrink, extend, mutable iteration, failed calls), every queried key", "why_tests_cant": "the set of histories and tree shapes is infinite; the random tests compare against HashMap on a few thousand samples of small integer keys", "anchors": ["src/map.rs: BSTMap::get, get_entry, contains_key, insert, remove_entry", "src/map/node.rs: Node::left, Node::right"]}
{"id": "C02", "title": "insert returns the old value and changes only its own key", "statement": "insert(k, v) returns Some(previous value) exactly when a key equal to k was present and None otherwise; afterwards the entry equal to k holds v, the originally stored key object is kept (not replaced by the new equal one), and every other entry is unchanged.", "quantifier": "every reachable map, every key and value", "why_tests_cant": "needs every tree shape and every position of the key; key-object retention is invisible with integer keys", "anchors": ["src/map.rs: BSTMap::insert", "src/map/node.rs: NodeMut::push_left, push_right, replace_value"]}
{"id": "C03", "title": "remove and remove_entry remove exactly one entry", "statement": "remove_entry(q) returns the stored (key, value) pair equal to q and remove(q) its value; afterwards no entry equals q and every other entry is unchanged. If none equals q the result is None and the map is unchanged.", "quantifier": "every reachable map including all zero/one/two-children and deep in-order-successor cases, every queried key", "why_tests_cant": "the relinking cases depend on tree shape; unit tests cover a handful of shapes", "anchors": ["src/map.rs: BSTMap::remove, BSTMap::remove_entry"]}
{"id": "C04", "title": "len counts the entries", "statement": "len() equals the number of entries a traversal yields (and the number of distinct keys live in the abstract map), and is_empty() is true exactly when len() is 0; the computation never underflows.", "quantifier": "every history", "why_tests_cant": "len is computed as a difference of two counters maintained by different code paths, so it must be shown for all interleavings of pushes and removals", "anchors": ["src/map.rs: BSTMap::len, is_empty", "src/slab.rs: UnsafeSlab::len"]}
{"id": "C05", "title": "clear empties the map and keeps the capacity", "statement": "After clear() the map has no entries, every lookup returns None, traversals are empty, capacity() is unchanged, and the map then behaves like a new one for every further history.", "quantifier": "every reachable map and every continuation", "why_tests_cant": "the reset must be right for every free-list state and every later call sequence", "anchors": ["src/map.rs: BSTMap::clear", "src/slab.rs: UnsafeSlab::clear, reset_internal_state", "src/arena.rs: StableArena::clear"]}
{"id": "C06", "title": "In-order iteration is sorted and complete", "statement": "iter_inorder() yields exactly the entries of the map, each once, in strictly increasing key order.", "quantifier": "every history, every lawful order", "why_tests_cant": "sortedness must hold for every shape reachable by insertions and removals", "anchors": ["src/map/inorder.rs: IterInorder::new, IterInorder::next", "src/map.rs: BSTMap::iter_inorder"]}
{"id": "C07", "title": "Pre-order iterator matches the recursive traversal", "statement": "The sequence produced by iter_preorder() is the recursive pre-order traversal of the tree that root(), left() and right() expose.", "quantifier": "every reachable map, even under unlawful comparators", "why_tests_cant": "explicit-stack traversal against recursive definition over all tree shapes", "anchors": ["src/map/preorder.rs: IterPreorder", "src/map.rs: BSTMap::iter_preorder, root"]}
{"id": "C08", "title": "In-order iterator matches the recursive traversal", "statement": "The sequence produced by iter_inorder() is the recursive in-order traversal of the tree that root(), left() and right() expose.", "quantifier": "every reachable map, even under unlawful comparators", "why_tests_cant": "explicit-stack traversal against recursive definition over all tree shapes", "anchors": ["src/map/inorder.rs: IterInorder", "src/map.rs: BSTMap::iter_inorder, root"]}
{"id": "C09", "title": "Post-order iterator matches the recursive traversal", "statement": "The sequence produced by iter_postorder() is the recursive post-order traversal of the tree that root(), left() and right() expose.", "quantifier": "every reachable map, even under unlawful comparators", "why_tests_cant": "the one-stack post-order algorithm relies on comparing the stack top with the right child; correctness needs all shapes", "anchors": ["src/map/postorder.rs: IterPostorder", "src/map.rs: BSTMap::iter_postorder, root"]}
{"id": "C10", "title": "Every traversal yields each entry exactly once", "statement": "The three traversals are permutations of one another, yield exactly len() items, and no stored entry is yielded twice or skipped.", "quantifier": "every reachable map, even under unlawful comparators", "why_tests_cant": "quantifies over all shapes and histories", "anchors": ["src/map/preorder.rs", "src/map/inorder.rs", "src/map/postorder.rs", "src/map.rs: BSTMap::len"]}
{"id": "C11", "title": "Iterators are lazy, terminating and fused", "statement": "The n-th call of next() returns the n-th element of the traversal, every call terminates, and once None is returned every later call returns None.", "quantifier": "every reachable map, each of the three orders, every number of calls", "why_tests_cant": "FusedIterator is a promise about unboundedly many later calls", "anchors": ["src/map/preorder.rs: next", "src/map/inorder.rs: next", "src/map/postorder.rs: next"]}
{"id": "C12", "title": "Mutable iterators visit the same sequence and write through", "statement": "iter_mut_preorder/inorder/postorder yield the same keys in the same order as the shared iterators, each with the value the entry had before iteration, whatever is written through the references already yielded; when iteration stops (at any point) each entry holds the last value written through its reference, or its old value, and keys, order, shape, len and capacity are unchanged.", "quantifier": "every reachable map, every interleaving of next() with writes through any earlier yielded reference", "why_tests_cant": "interleavings of writes and next calls are unbounded", "anchors": ["src/map/preorder.rs: IterMutPreorder", "src/map/inorder.rs: IterMutInorder", "src/map/postorder.rs: IterMutPostorder"]}
{"id": "C13", "title": "Mutable iterators never alias", "statement": "A mutable iterator never yields two references to the same entry and never reads or reborrows a node after having yielded a mutable reference into it.", "quantifier": "every reachable map, every prefix of the iteration", "why_tests_cant": "aliasing violations are silent in tests; miri samples only some runs", "anchors": ["src/map/preorder.rs: IterMutPreorder::next", "src/map/inorder.rs: IterMutInorder::next", "src/map/postorder.rs: IterMutPostorder::next"]}
{"id": "C14", "title": "The BST property holds at every node", "statement": "For every node reachable through root()/left()/right(), all keys in its left subtree are smaller and all keys in its right subtree are greater than its key.", "quantifier": "every history, every lawful order", "why_tests_cant": "documented structural invariant over all reachable trees", "anchors": ["src/map.rs: BSTMap (doc comment), root", "src/map/node.rs: Node"]}
{"id": "C15", "title": "get_mut and get_entry_mut expose exactly one value", "statement": "get_mut(q)/get_entry_mut(q) return a reference to the value that get(q) would return (None in the same cases); writing through it changes that entry's value and nothing else: no key, other value, order, shape, len or capacity.", "quantifier": "every reachable map, every query, every written value", "why_tests_cant": "frame conditions quantify over all other keys", "anchors": ["src/map.rs: BSTMap::get_mut, get_entry_mut", "src/map/node.rs: NodeMut::into_value_mut, into_entry_mut"]}
{"id": "C16", "title": "Map equality is equality of contents", "statement": "map1 == map2 is true exactly when both hold the same entries, independently of insertion order, removals, capacity and tree shape; it is reflexive, symmetric and transitive when the element equalities are.", "quantifier": "every pair of reachable maps", "why_tests_cant": "pairs of histories; zip-based comparison could stop early or misalign", "anchors": ["src/map.rs: impl PartialEq for BSTMap"]}
{"id": "C17", "title": "clone is equal, same-shaped and independent", "statement": "clone() returns a map with the same entries and the same traversals in all three orders, equal to the original, with capacity at least len(); the original is unchanged and no later call on either affects the other.", "quantifier": "every reachable map and every pair of continuations", "why_tests_cant": "re-insertion in pre-order must rebuild every shape", "anchors": ["src/map.rs: impl Clone for BSTMap"]}
{"id": "C18", "title": "No undefined behaviour, even with a broken Ord", "statement": "No call dereferences a dangling, freed, uninitialised or removed slot, reads the wrong variant of a slot, indexes a chunk out of bounds, or frees memory twice or with the wrong size; this holds even if comparisons are inconsistent, change over time or panic.", "quantifier": "every history of map calls, every comparator behaviour (one independent answer per comparison), every allocator behaviour", "why_tests_cant": "unsafe code must be sound for all safe callers, including adversarial trait implementations", "anchors": ["src/map.rs", "src/map/node.rs", "src/map/preorder.rs", "src/map/inorder.rs", "src/map/postorder.rs", "src/slab.rs", "src/arena.rs"]}
{"id": "C19", "title": "Every call terminates", "statement": "Every map call returns (or panics) after at most len() + 1 node visits per descent, whatever the comparator answers; no call loops forever on any reachable map.", "quantifier": "every history, every comparator behaviour", "why_tests_cant": "termination of pointer-chasing loops needs acyclicity of all reachable trees", "anchors": ["src/map.rs: get, get_mut, insert, remove_entry loops", "src/map/inorder.rs", "src/map/postorder.rs", "src/slab.rs: clear"]}
{"id": "C20", "title": "Entries never move", "statement": "While an entry stays in the map its address does not change: no insert, removal of another key, reserve, shrink_to_fit or mutable access moves a live entry.", "quantifier": "every history between two lookups of the same entry", "why_tests_cant": "address stability over unbounded histories, including removal of a node with two children", "anchors": ["src/arena.rs: StableArena::alloc, push_chunk", "src/slab.rs: push, remove", "src/map.rs: remove_entry"]}
{"id": "C21", "title": "with_capacity reserves enough and new allocates nothing", "statement": "with_capacity(n), when it returns, gives an empty map with capacity() >= n; new() and with_capacity(0) make no allocation and have capacity 0.", "quantifier": "every usize n, every allocator behaviour", "why_tests_cant": "n ranges over 2^64 values; the chunk-doubling loop must terminate for all", "anchors": ["src/map.rs: BSTMap::new, with_capacity", "src/arena.rs: StableArena::with_capacity, push_chunk"]}
{"id": "C22", "title": "reserve guarantees the requested room", "statement": "When reserve(n) returns without arithmetic overflow, capacity() >= len() + n, capacity never decreases and the contents are unchanged.", "quantifier": "every reachable map, every n with len()+n representable", "why_tests_cant": "all map states and all n", "anchors": ["src/map.rs: BSTMap::reserve", "src/arena.rs: StableArena::reserve"]}
{"id": "C23", "title": "shrink_to_fit only drops unused chunks", "statement": "shrink_to_fit() keeps all contents and addresses, never increases the capacity, never drops it below len(), is idempotent, and leaves the smallest chunk-aligned capacity that covers the slots in use.", "quantifier": "every reachable map", "why_tests_cant": "all combinations of slots in use and chunks allocated", "anchors": ["src/map.rs: BSTMap::shrink_to_fit", "src/arena.rs: StableArena::shrink_to_fit"]}
{"id": "C24", "title": "capacity is an honest promise", "statement": "From any reachable map, inserts succeed without any allocation as long as len() < capacity(); remove and clear never change the capacity.", "quantifier": "every reachable map, every sequence of insertions up to the capacity", "why_tests_cant": "the promise is about every future insertion sequence and every free-list state", "anchors": ["src/map.rs: BSTMap::capacity", "src/slab.rs: push, remove, clear", "src/arena.rs: alloc"]}
{"id": "C25", "title": "Removed space is reused", "statement": "The number of slots ever used since the last clear equals the maximum number of simultaneously live entries, so insert/remove cycles never grow memory beyond that high-water mark.", "quantifier": "every history", "why_tests_cant": "a leak in the free list shows only over unbounded churn", "anchors": ["src/slab.rs: UnsafeSlab::push, remove"]}
{"id": "C26", "title": "Keys and values are conserved", "statement": "Every key and value passed to the map is, at any time, in exactly one place: still stored, handed back to the caller, or dropped once. Nothing is dropped twice, leaked or duplicated by any call, including calls that panic in a comparator or in allocation.", "quantifier": "every history with destructors that do not panic", "why_tests_cant": "ownership accounting over unbounded histories; tests check two Arc values", "anchors": ["src/slab.rs: clear, remove, Drop", "src/map.rs: insert, remove, remove_entry, clear"]}
{"id": "C27", "title": "Dropping the map releases everything once", "statement": "Dropping a map runs the destructor of every stored key and value exactly once and frees every allocated chunk exactly once with its original size.", "quantifier": "every reachable map", "why_tests_cant": "all free-list and chunk configurations", "anchors": ["src/slab.rs: impl Drop for UnsafeSlab, clear", "src/arena.rs: impl Drop for StableArena"]}
{"id": "C28", "title": "A panicking comparison changes nothing", "statement": "If Ord::cmp panics at any comparison of any call (insert, remove, remove_entry, get, ...), the map afterwards has exactly the same entries, shape, len and capacity, and stays fully usable.", "quantifier": "every reachable map, every call, every comparison index at which the panic happens", "why_tests_cant": "crash points: one per comparison per tree shape", "anchors": ["src/map.rs: insert, remove_entry, get, get_mut"]}
{"id": "C29", "title": "A panicking destructor in clear does not cause a double drop", "statement": "If a value's destructor panics during clear(), no value is ever dropped twice afterwards (e.g. when the map itself is dropped while unwinding).", "quantifier": "every reachable map, every destructor that panics", "why_tests_cant": "needs a crash point inside the drop loop; no test has a panicking destructor", "anchors": ["src/slab.rs: UnsafeSlab::clear, impl Drop for UnsafeSlab"]}
{"id": "C30", "title": "A refused allocation changes nothing", "statement": "If allocation fails with a panic during insert, reserve or extend, the entries already stored are unchanged, every pointer stays valid and the map stays fully usable.", "quantifier": "every reachable map, every allocator behaviour", "why_tests_cant": "tests cannot make the allocator fail at each point", "anchors": ["src/arena.rs: push_chunk, alloc, reserve", "src/slab.rs: push", "src/map.rs: insert, extend"]}
{"id": "C31", "title": "extend, collect and the macros are repeated inserts", "statement": "extend(iter) has the same effect on the contents as inserting the items one by one in order (the last value for a key wins, the first key object is kept); collect, bstmap! and bstset! build the map this yields from empty, whatever size_hint claims; if the iterator panics midway the items before it are inserted.", "quantifier": "every reachable map, every finite item sequence, every size_hint", "why_tests_cant": "all sequences, duplicates and hints, including lying ones", "anchors": ["src/map.rs: impl Extend, impl FromIterator", "src/lib.rs: bstmap!, bstset!", "src/set.rs: impl Extend, impl FromIterator"]}
{"id": "C32", "title": "Collecting n items needs room for n items only", "statement": "Collecting or extending from an iterator that yields few items succeeds without demanding memory proportional to the upper bound in its size_hint.", "quantifier": "every iterator with a correct size_hint, every allocator with a finite limit", "why_tests_cant": "depends on the hint, not on the items; tests only collect exact-size iterators", "anchors": ["src/map.rs: impl Extend, impl FromIterator"]}
{"id": "C33", "title": "reserve panics on overflow", "statement": "reserve(n) panics if len() + n overflows usize (as its documentation promises) in every build profile.", "quantifier": "every reachable map, every n, both build profiles", "why_tests_cant": "release-profile wrap-around is not exercised by the debug-profile tests", "anchors": ["src/map.rs: BSTMap::reserve (doc)", "src/arena.rs: StableArena::reserve"]}
{"id": "C34", "title": "BSTSet is a set", "statement": "After any history, contains/get/insert/remove/take/len/is_empty/clear agree with a plain list-based set; insert returns true exactly when the value was absent and never replaces an equal stored value.", "quantifier": "every lawful element order, every history", "why_tests_cant": "infinite histories; non-replacement invisible with integer elements", "anchors": ["src/set.rs: BSTSet"]}
{"id": "C35", "title": "BSTSet traversals", "statement": "The set's in-order iterator yields the elements strictly increasing, each once; pre- and post-order iterators match the recursive traversals exposed by root(), left(), right(); all are fused; set equality and clone mean equality of elements.", "quantifier": "every history", "why_tests_cant": "all tree shapes", "anchors": ["src/set/inorder.rs", "src/set/preorder.rs", "src/set/postorder.rs", "src/set/node.rs", "src/set.rs: PartialEq, Clone"]}
{"id": "C36", "title": "Lookup cost", "statement": "A lookup, insert or removal performs at most as many key comparisons as the longest root-to-node path has nodes, hence at most len(); the documented O(log n) bound for get/contains_key/get_entry is not guaranteed (it fails for sorted insertion).", "quantifier": "every reachable map and query; for the negative part every constant factor", "why_tests_cant": "asymptotic claims quantify over all sizes", "anchors": ["src/map.rs: contains_key, get, get_mut, get_entry (doc: O(log n))"]}
{"id": "C37", "title": "Borrowed-form lookups", "statement": "Looking up, removing or mutating by a borrowed form q of the key behaves exactly as with an owned key that borrows to an equal value, provided the orders agree.", "quantifier": "every key type K, borrowed type Q and borrow function with matching orders; every history", "why_tests_cant": "generic over all Borrow implementations", "anchors": ["src/map.rs: get, get_mut, get_entry, get_entry_mut, contains_key, remove, remove_entry", "src/set.rs: contains, get, remove, take"]}
{"id": "C38", "title": "SimpleBSTMap agrees with an abstract map", "statement": "After any history, SimpleBSTMap's get, get_mut, get_entry, contains_key, insert, remove, remove_entry, len, is_empty, clear, extend and in-order iteration agree with the plain association-list map; its remove never unwraps a missing node, never trips a debug assertion and never follows a dangling raw pointer.", "quantifier": "every lawful order, every history", "why_tests_cant": "raw-pointer surgery over all tree shapes", "anchors": ["simple_bst/src/map.rs: SimpleBSTMap", "simple_bst/src/map/node.rs: Node"]}
{"id": "C39", "title": "BSTMap and SimpleBSTMap are observationally equal", "statement": "For every history of calls that both have, BSTMap and SimpleBSTMap return the same results, including all three traversals and the shape seen through root()/left()/right(), so one is a valid test oracle for the other. Exceptions: iter_mut_* (C40), the printed name and len of Debug, and clone when the comparisons follow no order.", "quantifier": "every history, every comparator (lawful or not)", "why_tests_cant": "differential testing samples histories; equality over all needs proof", "anchors": ["src/map.rs: BSTMap", "simple_bst/src/map.rs: SimpleBSTMap"]}
{"id": "C40", "title": "SimpleBSTMap mutable iterators work", "statement": "iter_mut_preorder/inorder/postorder of SimpleBSTMap yield the entries as their documentation says.", "quantifier": "every map", "why_tests_cant": "no test calls them; the claim concerns every map", "anchors": ["simple_bst/src/map.rs: iter_mut_preorder, iter_mut_inorder, iter_mut_postorder"]}
{"id": "C41", "title": "Index-to-chunk mapping is a bijection", "statement": "For every index below 2^64 - 8, the chunk position computed from it has an item index smaller than that chunk's length, distinct indexes get distinct positions, every position of every chunk is hit, and no intermediate computation overflows.", "quantifier": "every 64-bit index, every chunk", "why_tests_cant": "2^64 indexes; the test checks five chunks", "anchors": ["src/arena.rs: ExponentialAlloc::chunk_len, position_for"]}
{"id": "C42", "title": "Arena allocations are distinct, stable and readable", "statement": "Every address returned by alloc is different from all addresses returned since the last clear, and reading it returns the last value stored there, regardless of later alloc, reserve and shrink_to_fit calls.", "quantifier": "every history of arena calls", "why_tests_cant": "unbounded histories and chunk boundaries", "anchors": ["src/arena.rs: StableArena::alloc, get_unchecked, get_unchecked_mut, reserve, shrink_to_fit"]}
{"id": "C43", "title": "Arena iteration is double-ended and exact", "statement": "Any interleaving of next() and next_back() on the arena iterators yields the allocated values from the two ends in allocation order, each exactly once, with the address alloc returned, size_hint exact, then None forever.", "quantifier": "every arena, every interleaving of next and next_back", "why_tests_cant": "all interleavings", "anchors": ["src/arena.rs: Iter, IterMut, ArenaIterator, ArenaDoubleEndedIterator, Pointers"]}
{"id": "C44", "title": "Debug and release builds agree", "statement": "No internal assertion (debug_assert, assert) fails and no internal arithmetic overflows on any history, so builds with and without overflow checks return the same results, except for reserve/extend requests whose size overflows usize.", "quantifier": "every history, both build profiles", "why_tests_cant": "absence of overflow over all histories", "anchors": ["src/arena.rs: alloc, clear, push_chunk", "src/slab.rs: len, push", "src/map.rs: is_empty"]}
{"id": "C45", "title": "Send and Sync follow the contents", "statement": "BSTMap<K,V> and BSTSet<T> are Send/Sync exactly when their contents are; Node and the shared iterators are Send/Sync exactly when K and V are Sync; NodeMut is Send (Sync) exactly when K and V are Send (Sync); the exclusive iterators are never Send nor Sync. The same holds for the types of simple_bst.", "quantifier": "every pair of type parameters", "why_tests_cant": "compile-time tests check four concrete instantiations", "anchors": ["src/arena.rs: unsafe impl Send/Sync for Ptr, StableArena", "src/map/node.rs: unsafe impl Send/Sync for NodeMut", "tests/send_sync.rs"]}
{"id": "C46", "title": "reserve does nothing when there is room", "statement": "The slab's reserve(n) does nothing when capacity() >= len() + n already holds (as its documentation promises).", "quantifier": "every reachable slab or map, every n", "why_tests_cant": "depends on the free list, which no capacity test combines with reserve", "anchors": ["src/slab.rs: UnsafeSlab::reserve (doc)", "src/arena.rs: StableArena::reserve"]}
{"id": "C47", "title": "Node equality", "statement": "Two Node (or NodeMut) handles compare equal exactly when their keys and values compare equal (for reflexive element equality), so handles of one map are equal only if they are the same node, and equality is an equivalence relation.", "quantifier": "all pairs of nodes of all reachable maps", "why_tests_cant": "the pointer shortcut must never disagree with the fallback", "anchors": ["src/map/node.rs: impl PartialEq for Node, NodeMut", "src/set/node.rs: Node"]}
{"id": "C48", "title": "Debug output shows exactly the tree", "statement": "Formatting a map, set or node with {:?} terminates and prints exactly the keys, values and nesting of the tree exposed by root()/left()/right(), and nothing about slots, addresses or capacity.", "quantifier": "every reachable map", "why_tests_cant": "quantifies over all shapes; two histories with equal trees must print equally", "anchors": ["src/map.rs: impl Debug for BSTMap", "src/map/node.rs: impl Debug for Node", "src/set.rs: impl Debug for BSTSet", "src/set/node.rs: impl Debug for Node"]}
{"id": "C49", "title": "Traversal space is bounded by the height", "statement": "The stacks used by the pre-order and in-order iterators never hold more than height + 1 nodes and the post-order stack never more than 2 * height, and each complete traversal reads each node a constant number of times.", "quantifier": "every reachable map, every point of the iteration", "why_tests_cant": "resource bounds over all shapes", "anchors": ["src/map/preorder.rs", "src/map/inorder.rs", "src/map/postorder.rs", "src/map.rs: clone (comment)"]}
{"id": "C50", "title": "root_mut navigation reaches exactly the tree and writes only values", "statement": "Walking from root_mut() with left/right/into_left/into_right reaches the same nodes as root(), has_left/has_right say whether the step succeeds, and writing through value_mut changes only the visited node's value.", "quantifier": "every reachable map, every walk", "why_tests_cant": "all walks on all shapes", "anchors": ["src/map.rs: BSTMap::root_mut", "src/map/node.rs: NodeMut::left, right, into_left, into_right, value_mut, has_left, has_right"]}
{"id": "C51", "title": "A broken Ord cannot corrupt the bookkeeping", "statement": "Whatever comparators answer, after any history the traversals still yield exactly len() entries, and these are exactly the entries inserted and not yet removed, replaced or cleared.", "quantifier": "every history, every comparator behaviour", "why_tests_cant": "adversarial comparators cannot be enumerated by tests", "anchors": ["src/map.rs", "src/slab.rs"]}
{"id": "C52", "title": "SimpleBSTSet is a set", "statement": "SimpleBSTSet agrees with a plain list-based set and with BSTSet on every history of the calls both have. Exceptions: the printed name, aborts for want of memory, and clones under a comparator that follows no order (there BSTSet re-inserts and may lose values). Its calls never fail otherwise, and it owns each node once.", "quantifier": "every lawful element order and every history; for the comparison with BSTSet without clones and for safety, every comparator", "why_tests_cant": "infinite histories", "anchors": ["simple_bst/src/set.rs: SimpleBSTSet"]}
{"id": "C53", "title": "Slab contract", "statement": "UnsafeSlab behaves as a partial map from addresses to values: push returns an address not currently live and stores the value there, remove returns the value and frees the address, no call disturbs any other live address, len is the number of live addresses.", "quantifier": "every history of slab calls that respects its safety contract", "why_tests_cant": "free-list states are unbounded", "anchors": ["src/slab.rs: UnsafeSlab"]}
{"id": "C54", "title": "Arena equality and clear", "statement": "Two arenas compare equal exactly when they hold equal values in the same order; clearing an arena runs the destructor of each stored value exactly once in allocation order and keeps the capacity, provided no destructor panics (if one does, dropping the arena afterwards touches destroyed values).", "quantifier": "every pair of arenas, every history", "why_tests_cant": "all lengths and chunk layouts", "anchors": ["src/arena.rs: impl PartialEq for StableArena, clear"]}
{"id": "C55", "title": "Geometric growth", "statement": "An insertion requests memory only when every slot holds a live entry (len() == capacity()) and the key is new, and then the capacity goes from c to exactly 2c + 8; otherwise it does not change.", "quantifier": "every reachable map, every insertion, every comparator and allocator behaviour", "why_tests_cant": "all capacities and free-list states", "anchors": ["src/arena.rs: alloc, push_chunk", "src/slab.rs: push"]}
{"id": "C56", "title": "Exact behaviour under any comparator", "statement": "For comparators that contradict themselves, change their mind or panic, every call of every history still returns what the textbook binary search tree returns when given the same answers, and leaves the same tree; a panic in a comparison leaves the tree unchanged (extend keeps the items inserted before it).", "quantifier": "every reachable map, every history, every sequence of comparison answers and panics", "why_tests_cant": "all inconsistent answer sequences and all tree shapes", "anchors": ["src/map.rs: get, insert, remove_entry, Extend"]}
{"id": "C57", "title": "SimpleBSTMap owns each node once", "statement": "After any history the nodes in memory are exactly the entries of the map (none leaked by a removal or a panicking comparison), no node is freed twice, and dropping the map frees every node.", "quantifier": "every history, every comparator", "why_tests_cant": "leaks and double frees over all tree shapes", "anchors": ["simple_bst/src/map.rs: remove_entry, insert, clear", "simple_bst/src/map/node.rs: take_left, take_right, set_left, set_right"]}
{"id": "C58", "title": "Arena by value and as text", "statement": "The Debug form of an arena lists its values in allocation order; consuming an arena with into_iter always panics (it is not implemented) after every stored value has been destroyed exactly once and all its memory freed.", "quantifier": "every history of arena calls, destructors that do not panic", "why_tests_cant": "no test calls into_iter; all lengths and chunk layouts", "anchors": ["src/arena.rs: impl Debug for StableArena, impl IntoIterator for StableArena"]}
{"id": "C59", "title": "Memory failures have a cause", "statement": "A call of a map, set, arena or slab ends with an abort, a capacity overflow or a failed chunk assertion only because the allocator (or the address space) refused a request for a chunk that is needed for the number of elements the call may have to store. In particular insert is refused memory only when every slot is occupied and the next chunk (capacity + 8 slots) is refused; with that chunk refused and every slot occupied it cannot add an entry; and with an allocator that grants the needed chunks no call fails for want of memory.", "quantifier": "every reachable container, every call and creation, every behaviour of the allocator", "why_tests_cant": "tests never run out of memory; all allocator behaviours and all chunk layouts", "anchors": ["src/arena.rs: alloc, reserve, grow, with_capacity", "src/slab.rs: push", "src/map.rs: insert, reserve, Extend, FromIterator", "src/set.rs: insert"]}
{"id": "C60", "title": "SimpleBSTMap aborts only when a box is refused", "statement": "A call of SimpleBSTMap or SimpleBSTSet ends the process only if the allocator refuses one of the boxes the call may ask for (one for insert, four for remove, one per item for extend and from_iter, one per node for clone) or the address space is full; inserting a new key into a map that is not empty asks for exactly the next box.", "quantifier": "every reachable map or set, every call and creation, every behaviour of the allocator", "why_tests_cant": "tests never run out of memory; all tree shapes", "anchors": ["simple_bst/src/map.rs: insert, remove_entry, Extend, FromIterator, derive(Clone)", "simple_bst/src/map/node.rs: set_left, set_right, replace_left, replace_right"]}
{"id": "C61", "title": "Memory is asked for before the first item", "statement": "extend reserves room for as many entries as the iterator's size_hint announces (upper bound, or lower bound if there is none) before pulling the first item, and from_iter and clone create the new container with that room. If this request fails the whole call fails in the same way with nothing pulled or cloned. If the iterator yields no more than announced, no further memory is asked for and no insertion fails for want of memory; the room stays even if the iterator, a comparison or a clone panics midway (for extend).", "quantifier": "every reachable map or set, every iterator and size hint, every allocator", "why_tests_cant": "needs all hints, allocator behaviours and panics midway; tests never observe allocation", "anchors": ["src/map.rs: Extend::extend, FromIterator::from_iter, Clone::clone", "src/set.rs: Extend::extend"]}
{"id": "C62", "title": "Plain data is not visited", "statement": "If keys and values need no drop, clear and dropping the map visit no entry to destroy it: they cannot fail, clear leaves an empty map, and the drop frees every chunk.", "quantifier": "every reachable map whose entry type needs no drop, every comparator behaviour", "why_tests_cant": "tests do not observe which entries a clear visits; all maps and histories", "anchors": ["src/slab.rs: clear (needs_drop shortcut), Drop", "src/arena.rs: clear"]}
{"id": "C63", "title": "A panicking destructor stops the drop, nothing is destroyed twice", "statement": "When a map is dropped (or cleared) and the destructor of an entry panics, the panic reaches the caller; the entries destroyed before it and the entry itself were destroyed once each, the others are leaked and not destroyed, and the drop still frees every chunk of memory.", "quantifier": "every reachable map with destructors, every choice of entries whose destructor panics", "why_tests_cant": "tests have no panicking destructor; every subset of entries and every memory layout", "anchors": ["src/slab.rs: clear, Drop", "src/arena.rs: Drop"]}
{"id": "C64", "title": "Equality of nodes", "statement": "Nodes of BSTSet compare equal exactly when their values do. Nodes of SimpleBSTMap and SimpleBSTSet compare equal exactly when the whole subtrees below them have the same shape and equal entries, and the comparison always ends. In one map with a lawful order a node equals only itself. Nodes equal for SimpleBSTMap are equal for BSTMap after the same calls, but not the other way round.", "quantifier": "every reachable map and set, every pair of nodes reached with root/left/right, every pair of element equalities", "why_tests_cant": "tests compare a handful of nodes; the claim covers all trees and element equalities", "anchors": ["src/set/node.rs: derived PartialEq", "simple_bst/src/map/node.rs: derived PartialEq", "simple_bst/src/set/node.rs: derived PartialEq"]}
{"id": "C65", "title": "Overwriting nodes of a SimpleBSTMap loses only the length", "statement": "A program that overwrites nodes through root_mut/left_mut/right_mut (*node = other.clone()) replaces the subtree there. The map stays a tree that owns its nodes, every call still ends without undefined behaviour and acts on the tree as it should, and drop frees everything; but len is not updated, so that len and is_empty may be wrong and the arithmetic and assertions on the length may panic (and do, for some program).", "quantifier": "every program of calls and assignments, every comparator and clone behaviour, every allocator, debug and release builds", "why_tests_cant": "no test assigns whole nodes; all programs, all trees and all panicking clones", "anchors": ["simple_bst/src/map.rs: root_mut, len, is_empty, insert, remove_entry", "simple_bst/src/map/node.rs: left_mut, right_mut, Clone"]}
{"id": "C66", "title": "BSTSet is memory safe and its calls end", "statement": "Whatever the comparator does, no call on a BSTSet and no drop has undefined behaviour and every call ends. A call that panics (except reserve and extend) leaves the set exactly as it was; a panicking reserve keeps the tree; a panicking extend keeps all values and may have added some of the iterator's.", "quantifier": "every history of set calls, every comparator/clone/iterator behaviour including panics, every allocator, both build profiles", "why_tests_cant": "all comparators and interleavings of panics", "anchors": ["src/set.rs: all methods", "src/map.rs", "src/slab.rs", "src/arena.rs"]}
{"id": "C67", "title": "BSTSet owns its values", "statement": "Every value given to a BSTSet is stored in it, was dropped exactly once, or was handed back by take; over the whole life of the set each is dropped once or handed back and all memory is freed. Clones that a failing clone produced are dropped. A panicking destructor stops the drop without destroying anything twice (but after a panic in clear the next clear or drop destroys values again, as in C29).", "quantifier": "every history of set calls, every comparator, every set of values whose destructor panics", "why_tests_cant": "tests have no drop counters for sets and no panicking destructors", "anchors": ["src/set.rs: insert, remove, take, clear, extend, Clone, FromIterator", "src/map.rs", "src/slab.rs: clear, Drop"]}
{"id": "C68", "title": "Capacity of BSTSet", "statement": "with_capacity(n) and reserve(n) make the least chunk-aligned room that covers the request; insertions below the capacity neither allocate nor fail; removals and clear keep the capacity; freed slots are used first, so the slots in use are the largest number of values since the last clear; shrink_to_fit keeps the values and the least room for the slots; an insertion grows a full set to 2c+8.", "quantifier": "every reachable set, all n, every comparator and allocator", "why_tests_cant": "all capacities, histories and allocators", "anchors": ["src/set.rs: with_capacity, capacity, reserve, shrink_to_fit, insert, remove, take, clear"]}
{"id": "C69", "title": "BSTSet with any comparator is the textbook tree", "statement": "For every history of calls on a BSTSet, and whatever each comparison answers (or if it panics), the results and the tree are those of the textbook unbalanced search tree that gets the same answers; memory refusals change nothing except that extend stops.", "quantifier": "every history of set calls, every sequence of comparison answers", "why_tests_cant": "comparators that contradict themselves are not tested", "anchors": ["src/set.rs: all methods", "src/map.rs: insert, remove_entry, get_entry, contains_key, extend, Clone"]}
{"id": "C70", "title": "Panics and build profiles of BSTSet", "statement": "A BSTSet panics only when the caller's own code does, when memory is refused, or (debug builds) when the length plus the requested room overflows; otherwise debug and release builds give the same results and the same memory. With requests up to 2^63 the builds always agree.", "quantifier": "every reachable set, every call and history, every allocator", "why_tests_cant": "two builds over all histories", "anchors": ["src/set.rs: all methods", "src/map.rs: debug_assert! and arithmetic"]}
{"id": "C71", "title": "Capacity and memory of StableArena", "statement": "with_capacity(n) makes the least chunk-aligned room for n. alloc asks for memory only when the arena is full, with exactly one request, and the capacity goes from c to 2c+8; otherwise it succeeds without a request. reserve(n) does nothing if there is room and otherwise makes the least room for len+n. shrink_to_fit keeps the least room for the stored values. No other call changes the capacity or asks for memory. The memory held is always exactly the capacity, also for every BSTMap.", "quantifier": "every history of arena calls that respects the unsafe contract, all n, every allocator, both builds", "why_tests_cant": "all histories and sizes; the allocator is not observed by the tests", "anchors": ["src/arena.rs: with_capacity, alloc, reserve, shrink_to_fit, clear, capacity, push_chunk"]}
{"id": "C72", "title": "Slot reuse and capacity of UnsafeSlab", "statement": "push returns the address freed last; only when no address is free it takes a new slot, and only a full slab asks for memory (one request, capacity c becomes 2c+8). The number of slots ever taken is the largest number of values held at one time since the last clear. reserve(n) makes room for that number plus n, shrink_to_fit keeps the least room for that number, and no other call changes the capacity; the memory held is the capacity.", "quantifier": "every history of slab calls that respects the unsafe contract, every allocator, both builds", "why_tests_cant": "the order of reuse and the high-water mark depend on the whole history", "anchors": ["src/slab.rs: push, remove, reserve, shrink_to_fit, with_capacity, clear", "src/arena.rs"]}
{"id": "C73", "title": "Destructors that panic outside clear", "statement": "If the destructor of a key or value panics in insert, remove, an assignment through a mutable reference, extend, collect or clone, the map is left exactly as an ordinary history leaves it: the call has done all of its work (insert, remove, assignments), the work of its first items (extend, mutable iterators), or all or nothing (clone). There is no undefined behaviour, the map stays sorted, nothing is destroyed twice, a call stops at the first such panic, and nothing is lost except that some compilers leak the value the call was about to return, at most one value per panic. A second panic aborts. When map = map.clone() has a clone, the clone is in place even if a destructor of the old map panics; a collect in which a destructor panics drops the map it has built.", "quantifier": "every history, every comparator, every choice of panicking destructors in every call, both compiler behaviours", "why_tests_cant": "every subset of destructors may panic in every call of every history; the tests have no panicking destructor", "anchors": ["src/map.rs: insert, remove, extend, from_iter, clone, get_mut, get_entry_mut", "src/map/iter_*.rs: mutable iterators", "src/slab.rs: drop"]}
{"id": "C74", "title": "SimpleBSTMap: nothing is lost and nothing is destroyed twice", "statement": "In every call of every history of SimpleBSTMap, the keys and values that the map holds afterwards, those destroyed so far and those handed back to the caller are together exactly those that were there before and those that the call took (or made by cloning): nothing is lost, nothing is destroyed or handed out twice. This holds whichever destructors panic, except that some compilers leak the value the call was about to return, at most one value per panic. When the map is dropped at the end, everything was destroyed once or handed back and no box remains. A from_iter that panics destroys all items it pulled and frees its boxes.", "quantifier": "every history, every comparator, every choice of panicking destructors, comparisons, iterators and clones", "why_tests_cant": "every interleaving of calls and panics; the tests never look at destructors of SimpleBSTMap", "anchors": ["simple_bst/src/map.rs: insert, remove, remove_entry, clear, extend, from_iter", "simple_bst/src/map/node.rs: struct Node, derive(Clone)"]}
{"id": "C75", "title": "SimpleBSTMap: destructors that panic", "statement": "If destructors of keys or values panic in any call of SimpleBSTMap, clear included, the map is left exactly as an ordinary history leaves it: no undefined behaviour, the map stays sorted, and clear (unlike that of BSTMap, C29) and drop still destroy every entry, in pre-order, and free every box. One panic reaches the caller, two abort the process. A clone that panics destroys exactly the clones made so far, frees its boxes and leaves the map alone. If no destructor panics, the behaviour is that of C38.", "quantifier": "every history, every comparator, every choice of panicking destructors in every call, both compiler behaviours", "why_tests_cant": "every subset of destructors may panic in every call; the tests have no panicking destructor", "anchors": ["simple_bst/src/map.rs: clear, insert, remove, get_mut, extend, from_iter, clone", "simple_bst/src/map/node.rs: derive(Clone), value_mut"]}
{"id": "C76", "title": "SimpleBSTSet with any comparator", "statement": "Whatever the comparator answers, even if inconsistent or panicking, a SimpleBSTSet behaves like a plain tree of values without memory: every call returns what that tree dictates and leaves the tree that it dictates, or aborts for want of memory in a call that allocates. All traversals and the node walk show this tree. A clone has exactly the same shape.", "quantifier": "every history, every sequence of comparator answers", "why_tests_cant": "the tests only use lawful comparators", "anchors": ["simple_bst/src/set.rs: insert, remove, take, get, contains, extend, from_iter, iter_*, root, clone"]}
{"id": "C77", "title": "SimpleBSTSet: no value is lost and none is destroyed twice", "statement": "In every call of every history of SimpleBSTSet, the values that the set holds afterwards, those destroyed so far and those handed back to the caller are together exactly those that were there before and those that the call took (or made by cloning). This holds whichever destructors panic. When the set is dropped at the end, every value was destroyed once or handed back and no box remains. A from_iter that panics destroys all items it pulled and frees its boxes.", "quantifier": "every history, every comparator, every choice of panicking destructors, comparisons, iterators and clones", "why_tests_cant": "every interleaving of calls and panics; the tests never look at destructors", "anchors": ["simple_bst/src/set.rs: insert, remove, take, clear, extend, from_iter, clone"]}
{"id": "C78", "title": "SimpleBSTSet: destructors that panic", "statement": "If destructors of values panic in any call of SimpleBSTSet, clear included, the set is left exactly as an ordinary history leaves it: no undefined behaviour, it stays sorted, and clear and drop still destroy every value, in pre-order, and free every box. One panic reaches the caller, two abort the process. insert of an equal value and remove have done their work when the value they destroy panics. If no destructor panics, the behaviour is that of C52.", "quantifier": "every history, every comparator, every choice of panicking destructors in every call", "why_tests_cant": "every subset of destructors may panic in every call; the tests have no panicking destructor", "anchors": ["simple_bst/src/set.rs: clear, insert, remove, extend, from_iter, clone"]}
{"id": "C79", "title": "BSTSet: destructors that panic", "statement": "If destructors of values panic in calls of BSTSet other than clear (for that see C29, C67), the set is left as some ordinary history leaves it: no undefined behaviour, it stays sorted, no value is destroyed twice and none is lost. A call ends with the first panic of a destructor. insert of an equal value and remove have done their work when the value they destroy panics; if insert is already panicking, the process aborts. If no destructor panics, the behaviour is that of C34. set = set.clone() leaves the clone in place even if a destructor of the old set panics; a collect in which a destructor panics drops the set it has built.", "quantifier": "every history, every comparator, every choice of panicking destructors outside clear", "why_tests_cant": "every subset of destructors may panic in every call; the tests have no panicking destructor", "anchors": ["src/set.rs: insert, remove, extend, from_iter, clone"]}
{"id": "C80", "title": "Comparisons and iterator space of SimpleBSTMap, BSTSet and SimpleBSTSet", "statement": "Every search, insertion and removal of SimpleBSTMap, BSTSet and SimpleBSTSet compares at most as many times as the tree is high, and the height is at most the number of entries. After insertion in increasing order the tree is a list to the right, and a search for the last key compares with every key. Between two calls of next an iterator holds at most height (post-order: 2 * height) addresses.", "quantifier": "every reachable collection, every comparator (lawful or not, panicking or not), every number of calls of next", "why_tests_cant": "tests compare results; a search that asks more often gives the same results", "anchors": ["simple_bst/src/map.rs: get, insert, remove_entry", "simple_bst/src/map/{pre,in,post}order.rs: next", "src/set.rs", "simple_bst/src/set.rs"]}
{"id": "C81", "title": "Recursion depth", "statement": "The destructor of SimpleBSTMap and SimpleBSTSet, their clear, clone and Debug, == of SimpleBSTMap nodes and Debug of BSTMap and BSTSet recurse once per level of the tree. A stack with room for as many calls as the tree is high (in particular for as many as the program inserts entries) is enough; on a smaller one the process aborts. Insertion in increasing order makes the height the number of entries, so no stack is large enough for all programs. Nothing else of BSTMap and BSTSet depends on the stack.", "quantifier": "every reachable collection, every stack size", "why_tests_cant": "tests use trees of a few dozen entries, which fit on any stack", "anchors": ["simple_bst/src/map/node.rs: struct Node (derived Clone, PartialEq, Debug, destructor)", "simple_bst/src/map.rs: clear", "src/map/node.rs: Debug", "src/set/node.rs: Debug", "simple_bst/src/set/node.rs: Debug"]}
{"id": "C82", "title": "What == asks of the elements", "statement": "== of maps and sets (all four) compares the lengths first and asks nothing if they differ. Otherwise it calls the PartialEq of the elements entry by entry in increasing order, key before value, and stops at the first answer false and at the first panic. StableArena does the same in the order of its items. == of BSTMap and BSTSet nodes asks nothing for the same node; nodes of SimpleBSTMap and SimpleBSTSet are compared in pre-order up to the first difference. If the PartialEq of the elements answers or panics, so does ==.", "quantifier": "every pair of reachable collections, every PartialEq (stateful, inconsistent or panicking)", "why_tests_cant": "the tests compare numbers, whose PartialEq cannot panic and leaves no trace of the calls", "anchors": ["src/map.rs: PartialEq for BSTMap", "src/map/node.rs: PartialEq for Node, NodeMut", "src/set.rs: PartialEq", "src/arena.rs: PartialEq for StableArena", "simple_bst/src/map.rs: PartialEq", "simple_bst/src/map/node.rs: derived PartialEq", "simple_bst/src/set.rs: PartialEq"]}
{"id": "C83", "title": "Debug and release builds of the private containers", "statement": "Used within their contracts, StableArena and UnsafeSlab give the same answers and end in the same state whether or not overflow checks and debug assertions are compiled in, provided that no reserve asks for a size that overflows. This covers the constructors, every call, whole histories, destruction, the consuming iterator, Debug and ==. With an oversized reserve the builds differ: the debug build panics, the release build returns.", "quantifier": "every history of permitted calls of the arena and of the slab, every element type, every allocator", "why_tests_cant": "a test run is compiled in one profile; the assertions have to be shown never to fire on any history", "anchors": ["src/arena.rs: alloc, reserve, shrink_to_fit, clear, Iter, IterMut, Drop, PartialEq, Debug", "src/arena.rs: debug_assert! at lines 246, 252, 257, 326, 426", "src/slab.rs: push, remove, reserve, shrink_to_fit, len, is_empty, Drop"]}
{"id": "C84", "title": "What {:?} writes", "statement": "Debug of BSTMap, BSTSet, SimpleBSTMap, SimpleBSTSet, StableArena and of their nodes writes exactly the text of the tree (or list) they hold: Name { root: .. } with Some(Node { key: .., value: .., left: .., right: .. }) and None inside, len after root for SimpleBSTMap, [a, b] for the arena. The pieces are written in that order. At the first piece that the formatter refuses, or whose Debug fails or panics, nothing more is written and the error or panic is the result; Ok is returned only if everything was written.", "quantifier": "every reachable collection and node, every formatter and every Debug of the elements (stateful, failing or panicking)", "why_tests_cant": "no test looks at the printed text; the failing formatter and the panicking Debug can strike at any of the pieces", "anchors": ["src/map.rs: Debug for BSTMap", "src/map/node.rs: Debug for Node, NodeMut", "src/set.rs: Debug for BSTSet", "src/set/node.rs: Debug for Node", "src/arena.rs: Debug for StableArena", "simple_bst/src/map.rs: derive(Debug)", "simple_bst/src/map/node.rs: derive(Debug)", "simple_bst/src/set.rs: Debug", "simple_bst/src/set/node.rs: Debug for Node"]}
{"id": "C85", "title": "Variance of the data types", "statement": "BSTMap, BSTSet, StableArena, UnsafeSlab, SimpleBSTMap and SimpleBSTSet are covariant in their contents, and nothing more: one instance is a subtype of another exactly when the contents are. Node, the shared iterators and the set views are covariant in the lifetime of the borrow and in the contents. NodeMut, the mutable iterators and the arena's IterMut are covariant in the lifetime only and invariant in the contents.", "quantifier": "all type parameters (arbitrary types), all lifetimes, every preorder of lifetimes and unknown types", "why_tests_cant": "a test is compiled for a few types; a wrong variance (e.g. a PhantomData or a raw pointer changed) compiles and makes safe code write a short-lived reference into a long-lived map", "anchors": ["src/arena.rs: StableArena, Ptr, Iter, IterMut", "src/slab.rs: Entry, UnsafeSlab", "src/map.rs: InnerNode, BSTMap", "src/map/node.rs: Node, NodeMut", "src/map/preorder.rs, inorder.rs, postorder.rs: iterator structs", "src/set.rs: BSTSet", "simple_bst/src/map.rs, map/node.rs, set.rs"]}
{"id": "C86", "title": "Drop check", "statement": "Everything that the contents of a BSTMap, BSTSet, StableArena or UnsafeSlab mention must still be alive when it is dropped (their destructors are not may_dangle); SimpleBSTMap and SimpleBSTSet need exactly what dropping the contents needs. Hence whatever the contents use in their destructors is alive in both. Views need nothing.", "quantifier": "all type parameters and all lifetimes", "why_tests_cant": "acceptance by the drop checker is decided at compile time for all instances; a missing PhantomData would let destructors run on dead references", "anchors": ["src/arena.rs: StableArena::_marker, Drop", "src/slab.rs: Entry, UnsafeSlab::_marker, Drop", "simple_bst/src/map.rs, map/node.rs, set.rs"]}
{"id": "C87", "title": "Unwind safety", "statement": "BSTMap and BSTSet are UnwindSafe exactly when their contents are both UnwindSafe and RefUnwindSafe, SimpleBSTMap and SimpleBSTSet exactly when their contents are UnwindSafe. RefUnwindSafe is that of the contents. Shared views have both traits exactly when the contents are RefUnwindSafe. NodeMut and the mutable iterators are never UnwindSafe.", "quantifier": "all type parameters and both traits", "why_tests_cant": "trait membership is decided at compile time for all instances", "anchors": ["src/arena.rs: StableArena", "src/slab.rs: UnsafeSlab", "src/map.rs, src/map/node.rs, src/map/*order.rs, src/set.rs", "simple_bst/src/map.rs, map/node.rs, set.rs"]}
{"id": "C88", "title": "References obey Stacked Borrows", "statement": "Every reference that BSTMap's methods make to the slab, to a node or to a part of a node is valid under Stacked Borrows when it is used. This covers insert, remove_entry, get_mut, get_entry_mut, walks with NodeMut, the mutable iterators with all their yielded references in use in any order, and programs that hold any number of nodes, shared iterators and shared references. With the references tracked, any sequence of calls gives the same answers and the same map as without.", "quantifier": "all reachable maps, all sequences of calls, all comparisons (lawful or not, panicking or not), all allocators, all orders of using the references", "why_tests_cant": "a wrong aliasing pattern normally has no visible effect in a test run; Miri checks only the runs it sees", "anchors": ["src/map.rs: insert, remove_entry, get, get_mut, get_entry, get_entry_mut, contains_key, root, root_mut", "src/map/node.rs: Node, NodeMut, InnerNode", "src/map/preorder.rs, inorder.rs, postorder.rs", "src/slab.rs: get_unchecked, get_unchecked_mut, push, remove"]}
{"id": "C89", "title": "Clearing and giving memory back obey Stacked Borrows (untagged raw pointers)", "statement": "With the rules of the POPL 2020 paper, in which raw pointers carry no tag, clear, reserve, shrink_to_fit and the destructor of BSTMap use no invalid reference, also after panics of element destructors. Mixed with the other methods in any sequence they give the same answers and the same map as without references.", "quantifier": "all reachable maps, all sequences of calls followed by the destructor, all panicking destructors, all comparisons and allocators", "why_tests_cant": "a wrong aliasing pattern normally has no visible effect in a test run", "anchors": ["src/slab.rs: clear, reserve, shrink_to_fit, drop", "src/arena.rs: reset, shrink_to_fit, Drop, IterPtrMut::next_ptr"]}
{"id": "C90", "title": "Giving memory back obeys Stacked Borrows (tagged raw pointers)", "statement": "With tagged raw pointers (the rules Miri checks), shrink_to_fit and the destructor of BSTMap use no invalid reference. This is false: Vec::from_raw_parts(chunk.as_mut(), ..) covers only the first element of a chunk of at least two. shrink_to_fit breaks the rules exactly when it gives a chunk back, and the destructor exactly when the map has allocated.", "quantifier": "all reachable maps, comparisons, allocators", "why_tests_cant": "the misuse has no visible effect in an ordinary build", "anchors": ["src/arena.rs: 363, 451"]}
{"id": "C91", "title": "Raw pointers of SimpleBSTMap::remove_entry obey Stacked Borrows", "statement": "remove_entry (and remove) of SimpleBSTMap, the only unsafe code of simple_bst, walks down with raw pointers to nodes. No raw pointer or reference is used after it has been invalidated, with the rules in which raw pointers carry tags. With the pointers tracked, the call gives the same answer and the same map as without, and never ends in undefined behaviour.", "quantifier": "all reachable maps, all searches (lawful or not, panicking or not), all allocators, all states of the stacks in which the owner is at the bottom", "why_tests_cant": "a wrong aliasing pattern normally has no visible effect in a test run; Miri checks only the runs it sees", "anchors": ["simple_bst/src/map.rs: 351-506 remove_entry, 328-333 remove", "simple_bst/src/map/node.rs: 25-89"]}
{"id": "C92", "title": "What {:#?} writes", "statement": "The alternate Debug form of BSTMap, BSTSet, SimpleBSTMap, SimpleBSTSet, StableArena and of their nodes writes the tree (or list) with one field per line, each level of nesting four spaces further in, also inside elements that print on several lines. If the elements print on one line each, line i of the output is as listed: root: Some(, Node {, key, value, left, right, }, and ), with two steps of depth per level of the tree. If the formatter or an element fails or panics, what was written is a beginning of this text and the result is that of the last write or of the first failing element; Ok is returned only if everything was written.", "quantifier": "every reachable collection and node, every text written by the elements in any number of writes, every formatter", "why_tests_cant": "no test looks at the printed text; indentation passes through adapters nested twice per level of the tree, and writes may be split anywhere", "anchors": ["src/map.rs: Debug for BSTMap", "src/map/node.rs: Debug for Node, NodeMut", "src/set.rs: Debug for BSTSet", "src/set/node.rs: Debug for Node", "src/arena.rs: Debug for StableArena", "simple_bst/src/map.rs: derive(Debug)", "simple_bst/src/map/node.rs: derive(Debug)", "simple_bst/src/set.rs: Debug", "simple_bst/src/set/node.rs: Debug for Node"]}
{"id": "C93", "title": "Cutting and restoring the length of an arena", "statement": "In any history of calls to StableArena that also uses the unsafe set_len, where every set_len stays within the slots that hold a value, no call is undefined behaviour and each has the specified result: the elements are the first len slots; a slot past the length keeps its address and value, can be made an element again by set_len, and the next alloc writes over the first of them without needing memory. Dropping the arena frees all memory and destroys exactly the elements; values past the length are leaked, never destroyed twice. The contract is needed: after any history without set_len, a larger length makes iteration read an uninitialised slot.", "quantifier": "every finite history of calls with set_len that respects the documented contract, every element type, allocator and build profile", "why_tests_cant": "no test calls set_len; what happens to the slots past the length shows only in leaks, in addresses and in undefined behaviour", "anchors": ["src/arena.rs: StableArena::set_len", "src/arena.rs: StableArena::alloc", "src/arena.rs: StableArena::clear", "src/arena.rs: Drop for StableArena"]}
{"id": "C94", "title": "What extend and collect ask of an iterator", "statement": "extend and collect of all four collections work with any iterator, given as an object with its own state: BSTMap and BSTSet call size_hint once and first, SimpleBSTMap and SimpleBSTSet never; then next is called once per item and once more to see the end, never again after None, after a panic of next, or after an insertion that failed. The collection ends up as for the plain list of the items; what was not asked for stays with the iterator. If no room can be reserved, next is never called. A panic of size_hint changes nothing. With an iterator that never ends the call never returns, and after n rounds the map is as after its first n items.", "quantifier": "every iterator (any state type, unfused, endless, with a wrong hint or panicking), every collection state, comparison, allocator and build profile", "why_tests_cant": "tests pass vectors and ranges, which are fused, finite and truthful; extra calls to next show only with an iterator that counts them or resumes after None", "anchors": ["src/map.rs: Extend for BSTMap", "src/map.rs: FromIterator for BSTMap", "src/set.rs: Extend for BSTSet", "src/set.rs: FromIterator for BSTSet", "simple_bst/src/map.rs: Extend for SimpleBSTMap", "simple_bst/src/map.rs: FromIterator for SimpleBSTMap", "simple_bst/src/set.rs: Extend for SimpleBSTSet", "simple_bst/src/set.rs: FromIterator for SimpleBSTSet"]}
{"id": "C95", "title": "What updates do to the cost of lookups", "statement": "For all four collections, with the cost of a lookup being the number of its comparisons: insert and extend, with any comparator, never lower the cost of any lookup, keep it for every key that was found, raise it by at most one per given entry for the others, and the height likewise; remove, remove_entry and take never raise the cost of finding a key that stays, nor the height, if the keys are in order (with any comparator in the removal); every other call except clear and clone leaves all costs and the height alone. For keys that are not stored a removal can raise the cost, by more than one.", "quantifier": "every reachable collection, key, comparison function, entries, allocator and build profile", "why_tests_cant": "no result differs: a lookup that takes a detour returns the same answer, and the costs can only be seen by counting comparisons in all shapes of tree", "anchors": ["src/map.rs: BSTMap::insert", "src/map.rs: BSTMap::extend", "src/map.rs: BSTMap::remove_entry", "src/set.rs: BSTSet::insert", "src/set.rs: BSTSet::take", "simple_bst/src/map.rs: SimpleBSTMap::insert", "simple_bst/src/map.rs: SimpleBSTMap::remove_entry", "simple_bst/src/set.rs: SimpleBSTSet::take"]}
{"id": "C96", "title": "The references obey Tree Borrows, including when memory is given back", "statement": "Under Tree Borrows no reference or raw pointer of BSTMap (insert, remove, get_mut, get_entry_mut, nodes, iterators and their yielded references, clear, reserve, shrink_to_fit, the destructor) or of SimpleBSTMap::remove_entry is used after it has become invalid. With the references tracked, every call gives the same answer and the same map as without, and none ends in undefined behaviour. In particular giving a chunk back through the reference to its first element is allowed, unlike under Stacked Borrows with tagged raw pointers (C90).", "quantifier": "all reachable maps, all sequences of calls, all comparisons (lawful or not, panicking or not), all panicking destructors, all allocators, all uses of the yielded references, all states of the tags that such programs lead to", "why_tests_cant": "a wrong aliasing pattern normally has no visible effect in a test run; Miri checks only the runs it sees", "anchors": ["src/map.rs: BSTMap", "src/map/preorder.rs", "src/map/inorder.rs", "src/map/postorder.rs", "src/slab.rs: 130-142", "src/arena.rs: 222-238, 363, 451", "simple_bst/src/map.rs: 351-506"]}
{"id": "C97", "title": "An arena can hold values of any type", "statement": "If the allocator grants every chunk, alloc of StableArena stores its value, whatever the type. This is false for zero-sized types: the vector of a chunk then has capacity usize::MAX and the assertion in push_chunk fails, so alloc, reserve(n > 0) and with_capacity(n > 0) always panic and such an arena stays empty. For all other types it holds. (Maps and sets are not affected: a slab entry is never zero-sized.)", "quantifier": "every history of arena calls, every element type and size, every allocator", "why_tests_cant": "the existing tests use no zero-sized type, and a test for one type says nothing about the histories of another", "anchors": ["src/arena.rs: push_chunk 392-417", "src/arena.rs: alloc, reserve, with_capacity"]}
{"id": "C98", "title": "The reference behind &mut self is valid until the call ends", "statement": "Every method of BSTMap that takes &mut self (insert, remove, get_mut, get_entry_mut, root_mut and walks, the mutable iterators, clear, reserve, shrink_to_fit) leaves that reference usable when it ends, whether it returns or panics, under Stacked Borrows and under Tree Borrows; so do clear with panicking destructors, the destructor of the arena, and push, remove and clear of the slab, for the reference that is passed on to them. A reference that has become unusable stays so, therefore it was usable all the time. This is what the protectors of both sets of rules demand of an argument that the compiler marks noalias and dereferenceable.", "quantifier": "every reachable map, every call with any comparison outcomes, every outcome, both sets of rules", "why_tests_cant": "no test can see that an argument was invalidated during a call; Miri sees it only for the executions it runs", "anchors": ["src/map.rs: insert 407-446, remove_entry 487-631, get_mut 299-313, get_entry_mut 372-386, root_mut 747-750, clear 650-655, reserve 758-760, shrink_to_fit 765-767", "src/slab.rs: push 149-168, remove 183-198, clear 205-249", "src/arena.rs: shrink_to_fit 348-378, drop 439-454"]}
{"id": "C99", "title": "Memory follows the most entries ever held, with few requests", "statement": "In every history of a BSTMap or BSTSet the capacity, and so the memory held, never passes the smallest chunk-aligned capacity that covers the most demanding call: the slots in use plus the named number for reserve and extend, the number of entries for every other call. So it is at most twice that need plus six entries, however often entries were inserted and removed. Without shrink_to_fit every chunk was requested once, and the number of requests is logarithmic in the need.", "quantifier": "every way to create a map, every history of calls with any comparison outcomes and any outcome of the calls; for the number of requests, every allocator that grants what is asked or nothing, and histories without shrink_to_fit (with it the bound on the requests is false: C99_shrink_refuted)", "why_tests_cant": "the bound is over all histories; a leak of slots or a growth one call too early shows only after particular mixes of insertions and removals, and tests do not watch the allocator", "anchors": ["src/arena.rs: with_capacity 189-197, alloc 245-270, reserve 337-343, push_chunk 392-411", "src/slab.rs: push 149-168, reserve 273-275", "src/map.rs: insert 407-446, reserve 758-760, extend 770-783, from_iter 785-800, clone 79-97"]}
{"id": "C100", "title": "The arena's iterators obey Stacked and Tree Borrows", "statement": "While StableArena::iter_mut() is alive, every &mut it has yielded (from either end) may be read and written in any order, between and after further calls of next and next_back; with shared iterators (any number of them, mixed with get_unchecked) every reference may be read. Under Stacked Borrows and under Tree Borrows no reference is used that has been invalidated; each element comes out at most once per iterator, in order from its end; a read gives the value last written; and afterwards the arena can be used as before. The same for whole programs of alloc, get_unchecked, get_unchecked_mut, reserve, len, clear and such sessions.", "quantifier": "every arena reached by any history within the contract, every sequence of events the compiler allows, both sets of rules, every allocator and element type; clear only for elements without a destructor, since with one it is undefined under Stacked Borrows with tagged raw pointers whenever the arena is not empty (C100_clear, C100_clear_refuted)", "why_tests_cant": "two references to one element give the right values in a test; that they are undefined behaviour is not visible, and Miri sees only the interleavings it runs", "anchors": ["src/arena.rs: get_unchecked 223-238, alloc 245-269, iter 272-279, clear 286-329, ptr_at 424-434, Iter 525-584, IterMut 587-646"]}
{"id": "C101", "title": "Updates that undo one another", "statement": "Inserting a new key and removing it again restores the collection exactly: the removal hands back the inserted entry, the tree is the same node for node, and for BSTMap every iterator gives the same entries at the same addresses. Inserting over an existing key and then putting the returned value back under an equal key restores it too, and hands back the other value. Removing an entry and inserting it again reports a new key, and restores the tree if and only if the entry was a leaf.", "quantifier": "BSTMap, SimpleBSTMap, BSTSet, SimpleBSTSet; every reachable collection (for the first two claims after any comparisons at all), every lawful order, every key, value and borrowed form; comparisons that panic are excluded by the hypothesis that the calls return", "why_tests_cant": "the claim is about all shapes at the place of insertion; an address or child that changes silently is invisible to tests that look at contents", "anchors": ["src/map.rs: BSTMap::insert", "src/map.rs: BSTMap::extend", "src/map.rs: BSTMap::remove_entry", "src/set.rs: BSTSet::insert", "src/set.rs: BSTSet::take", "simple_bst/src/map.rs: SimpleBSTMap::insert", "simple_bst/src/map.rs: SimpleBSTMap::remove_entry", "simple_bst/src/set.rs: SimpleBSTSet::take"]}
{"id": "C102", "title": "The tree is the search tree in which ancestors were inserted first", "statement": "Collecting items with distinct keys gives exactly one tree: the search tree in which every entry comes after all its ancestors in the sequence of items. So all such sequences for one tree give the same tree; collecting the pre-order of a map, or its reversed post-order, copies the map node for node, and collecting its sorted order gives a chain of right children.", "quantifier": "BSTMap, SimpleBSTMap, BSTSet, SimpleBSTSet; every sequence of items with pairwise different keys, every lawful order, every size hint and allocator for which collecting returns; for BSTMap also every history of insertions into a new map. The post-order itself does not copy the map (C102_postorder_refuted).", "why_tests_cant": "the shape depends on the whole sequence of insertions; tests fix a few sequences", "anchors": ["simple_bst/src/map.rs: SimpleBSTMap::insert", "simple_bst/src/map.rs: SimpleBSTMap::remove_entry", "simple_bst/src/set.rs: SimpleBSTSet::take", "src/lib.rs: bstmap!, bstset!", "src/map.rs: BSTMap::extend", "src/map.rs: BSTMap::insert", "src/map.rs: BSTMap::remove_entry", "src/map.rs: impl Extend, impl FromIterator", "src/set.rs: BSTSet::insert", "src/set.rs: BSTSet::take", "src/set.rs: impl Extend, impl FromIterator"]}
{"id": "C103", "title": "Updates relink only a few nodes", "statement": "Seen by the addresses of its nodes: inserting a new key adds one node without children at an address that held none, below one node whose child on that side was missing (or as the root of an empty map), and changes no other link and no key. Removing an entry takes away exactly the node that held it; every other node keeps its address and key, and at most three of them are given new children; three is reached. Every other call (insertion over an equal key, a removal that finds nothing, lookups, writes, iterators, reserve, shrink_to_fit, and a call that panics or aborts) changes no link at all; extend, clear and clone are the exceptions.", "quantifier": "BSTMap and BSTSet; every reachable map, every comparator, lawful or not, also one that panics; every call", "why_tests_cant": "tests look at contents, where a node that was moved, copied or relinked without need is invisible; references into the map depend on it", "anchors": ["src/map.rs: BSTMap::insert", "src/map.rs: BSTMap::remove", "src/map.rs: BSTMap::remove_entry", "src/set.rs: BSTSet::insert", "src/set.rs: BSTSet::take"]}
{"id": "C104", "title": "Two updates, in either order", "statement": "Two updates (insert, remove, remove_entry) of different keys, made in either order, give the same answers and the same contents. Two insertions also give the same tree if and only if one of the keys was present before or a stored key lies strictly between the two. Two removals need not give the same tree.", "quantifier": "BSTMap, SimpleBSTMap, BSTSet, SimpleBSTSet; every reachable collection whose contents are sorted, every lawful order, every pair of updates of different keys, every borrowed form; calls that return", "why_tests_cant": "the claim compares two histories for all shapes and pairs of keys; tests look at one order", "anchors": ["src/map.rs: BSTMap::insert", "src/map.rs: BSTMap::remove", "src/map.rs: BSTMap::remove_entry", "src/set.rs: BSTSet::insert", "src/set.rs: BSTSet::take", "simple_bst/src/map.rs: SimpleBSTMap::insert", "simple_bst/src/map.rs: SimpleBSTMap::remove_entry", "simple_bst/src/set.rs: SimpleBSTSet::take"]}
{"id": "C105", "title": "The client two_sum finds the first pair", "statement": "two_sum (benches/two_sum.rs) run over a map of this repository returns (i, j) with j < i and numbers[i] + numbers[j] = target, where i is the first index that completes a pair and j the last index that completes one with it. It panics with \"no solution\" exactly if no two of the numbers examined add up to the target. It can stop in no other way than an overflow of target - num (with overflow checks) or refused memory. Without overflow checks the sum is meant modulo 2^64, and it need not be exact; with them an overflow may hide a later solution.", "quantifier": "BSTMap and SimpleBSTMap; every list of i64 and every target; overflow checks on or off; every allocator", "why_tests_cant": "the benchmark runs random inputs with exactly one solution and never looks at the answer; duplicates, overflow and missing solutions do not occur", "anchors": ["benches/two_sum.rs: two_sum", "src/map.rs: BSTMap::get", "src/map.rs: BSTMap::insert", "simple_bst/src/map.rs: SimpleBSTMap::get", "simple_bst/src/map.rs: SimpleBSTMap::insert"]}
{"id": "C106", "title": "The client tabulate_requests counts every request", "statement": "tabulate_requests (benches/movie_requests.rs) run over a map of this repository returns two maps in which get of any title (genre) gives the number of requests with an equal title (genre), and nothing if there was none. It cannot stop otherwise than by refused memory; in particular no counter overflows.", "quantifier": "BSTMap and SimpleBSTMap; every type of names with a lawful order that does not panic; every list of requests that fits in a slice; every allocator, overflow checks on or off", "why_tests_cant": "the benchmark discards the counters; the claim covers every list of requests and needs get_mut, insert and get to agree on every tree shape", "anchors": ["benches/movie_requests.rs: tabulate_requests", "benches/movie_requests.rs: increment_counter", "src/map.rs: BSTMap::get_mut", "src/map.rs: BSTMap::insert", "simple_bst/src/map.rs: SimpleBSTMap::get_mut", "simple_bst/src/map.rs: SimpleBSTMap::insert"]}
{"id": "C107", "title": "The client resolve_program is lexical scoping", "statement": "resolve_program (benches/name_resolution.rs), run over maps of this repository, counts the valid calls, the unresolved names and the calls with a wrong number of arguments as lexical scoping says: a call refers to the latest declaration in view, and what a block declares is forgotten at its end. It cannot stop otherwise than by refused memory; no unwrap of the scope stack fails and no counter overflows.", "quantifier": "BSTMap and SimpleBSTMap; every program of any nesting, with fewer than 2^64 calls; every type of names with a lawful order that does not panic; every allocator, overflow checks on or off", "why_tests_cant": "the benchmark generates a few random programs and discards the counters; the specification has one flat list of declarations instead of a stack of maps, and the agreement holds for all programs", "anchors": ["benches/name_resolution.rs: resolve_program", "benches/name_resolution.rs: resolve_block", "src/map.rs: BSTMap::get", "src/map.rs: BSTMap::insert", "simple_bst/src/map.rs: SimpleBSTMap::get", "simple_bst/src/map.rs: SimpleBSTMap::insert"]}
{"id": "C108", "title": "The client run_requests is a table of entries", "statement": "run_requests (benches/web_server.rs), run over a map of this repository, answers every request as a table from ids to entries would: create refuses an existing id with BadRequest and overwrites nothing, get reads the field asked for, update changes that field only, delete returns the entry it removes; the last three answer NotFound for an unknown id and change nothing. The counters are the numbers of successes, NotFound and BadRequest answers, and the map left behind holds exactly the entries of the table. It cannot stop otherwise than by refused memory.", "quantifier": "BSTMap and SimpleBSTMap; every list of requests that fits in a slice; every allocator, overflow checks on or off", "why_tests_cant": "the benchmark discards responses and counters; the claim covers every interleaving of creates, reads, updates and deletes", "anchors": ["benches/web_server.rs: Server::handle", "benches/web_server.rs: run_requests", "src/map.rs: BSTMap::contains_key", "src/map.rs: BSTMap::get_mut", "src/map.rs: BSTMap::remove", "simple_bst/src/map.rs: SimpleBSTMap::get_mut", "simple_bst/src/map.rs: SimpleBSTMap::remove"]}
