{"claims":[
{"property": "C01", "status": "proved", "theorems": ["C01_lookups_agree_with_abstract_map"], "note": "Refinement: the list [l] is computed by the specification from the same calls with the same results; lookups, len and in-order listing agree with it."},
{"property": "C02", "status": "proved", "theorems": ["C02_insert", "C02_insert_changes_only_its_key"], "note": "Also covers refused allocations (list unchanged)."},
{"property": "C03", "status": "proved", "theorems": ["C03_remove_entry", "C03_remove", "C03_removes_exactly_one"], "note": ""},
{"property": "C04", "status": "proved", "theorems": ["C04_len_counts_entries"], "note": "Holds for every comparator behaviour."},
{"property": "C05", "status": "proved", "theorems": ["C05_clear", "C05_cleared_map_is_like_new"], "note": "Destructors assumed not to panic here; C29 treats panicking ones."},
{"property": "C06", "status": "proved", "theorems": ["C06_inorder_sorted", "C06_inorder_complete"], "note": ""},
{"property": "C07", "status": "proved", "theorems": ["C07_preorder"], "note": "Holds for every comparator behaviour."},
{"property": "C08", "status": "proved", "theorems": ["C08_inorder"], "note": "Holds for every comparator behaviour."},
{"property": "C09", "status": "proved", "theorems": ["C09_postorder"], "note": "Holds for every comparator behaviour."},
{"property": "C10", "status": "proved", "theorems": ["C10_each_entry_once"], "note": "Holds for every comparator behaviour."},
{"property": "C11", "status": "proved", "theorems": ["C11_lazy_and_fused"], "note": "Holds for every comparator behaviour."},
{"property": "C12", "status": "proved", "theorems": ["C12_mutable_iteration"], "note": "Every interleaving of next with writes; the listing after the program is the one computed by the specification mut_walk."},
{"property": "C13", "status": "proved", "theorems": ["C13_no_aliasing"], "note": "The reads are a ghost log in the model of the iterators."},
{"property": "C14", "status": "proved", "theorems": ["C14_search_tree", "C14_a_tree_is_shown"], "note": ""},
{"property": "C15", "status": "proved", "theorems": ["C15_get_mut_same_entry", "C15_write_changes_one_value", "C15_get_mut_refines"], "note": "Rust's borrow checker guarantees that the reference is not used after the map changes; the model writes through the address."},
{"property": "C16", "status": "proved", "theorems": ["C16_equality_is_equality_of_contents", "C16_reflexive", "C16_symmetric", "C16_transitive"], "note": "The element equality of keys must agree with the order (Rust's contract for Ord)."},
{"property": "C17", "status": "proved", "theorems": ["C17_clone", "C17_exact_clone_shows_the_same_tree", "C17_clone_equals_original"], "note": "Independence: two maps are two separate model states, each with its own memory; the clone call returns no new state for the original."},
{"property": "C18", "status": "proved", "theorems": ["C18_no_undefined_behaviour"], "note": "Every comparator answer is independent and arbitrary; key/value destructors outside clear are assumed not to panic (C29 treats those)."},
{"property": "C19", "status": "proved", "theorems": ["C19_every_call_ends", "C19_descents", "C19_successor"], "note": "A node visit is one unit of fuel of the loop; any fuel above len() gives the final result."},
{"property": "C20", "status": "proved", "theorems": ["C20_entries_stay", "C20_removals"], "note": "Addresses are (block, offset) pairs of the model's heap."},
{"property": "C21", "status": "proved", "theorems": ["C21_with_capacity", "C21_with_capacity_fails", "C21_new_allocates_nothing"], "note": "Also: the capacity is the smallest chunk-aligned one, and a panicking with_capacity leaks nothing."},
{"property": "C22", "status": "proved", "theorems": ["C22_reserve", "C22_release_refuted"], "note": "Without overflow of slots + n, slots being len() plus the free slots; C22_release_refuted shows that len() + n representable is not enough in a release build."},
{"property": "C23", "status": "proved", "theorems": ["C23_shrink", "C23_idempotent"], "note": "Least chunk-aligned capacity for the slots in use (live and free)."},
{"property": "C24", "status": "proved", "theorems": ["C24_insert_below_capacity", "C24_one_insert", "C24_removing_keeps_the_capacity"], "note": ""},
{"property": "C25", "status": "proved", "theorems": ["C25_high_water_mark", "C25_freed_slots_first"], "note": ""},
{"property": "C26", "status": "proved", "theorems": ["C26_conserved", "C26_clone", "C26_collect_panics"], "note": "Histories without clone, plus separate theorems for clone and for a collect that panics. Clone replaces the state in the model, so its ledger is stated for the call alone."},
{"property": "C27", "status": "proved", "theorems": ["C27_drop", "C27_whole_life"], "note": ""},
{"property": "C28", "status": "proved", "theorems": ["C28_panic_changes_nothing"], "note": "Any call but extend, which is many inserts: those before the panic stay (C01, C51)."},
{"property": "C29", "status": "partial", "theorems": ["C29_clear_drops_twice", "C29_refuted"], "note": "The claim is false: C29_refuted and, for every map with an entry whose destructor panics, C29_clear_drops_twice."},
{"property": "C30", "status": "proved", "theorems": ["C30_insert", "C30_reserve", "C30_extend"], "note": "A refused allocation aborts in Rust; the panics here are capacity overflow, the assertion on the chunk's capacity and size arithmetic."},
{"property": "C31", "status": "proved", "theorems": ["C31_extend_is_inserts", "C31_extend_iterator_panic", "C31_extend_stops", "C31_collect_is_inserts", "C31_bstmap_macro_is_inserts", "C31_set_extend_is_inserts", "C31_set_collect_is_inserts", "C31_bstset_macro_is_inserts", "C31_last_value_first_key"], "note": "Maps, sets and both macros; the effect is compared with single inserts through the tree that root/left/right show, so it includes the shape; lying size hints and iterators that panic are covered."},
{"property": "C32", "status": "partial", "theorems": ["C32_collect_needs_hint", "C32_extend_needs_hint", "C32_refuted", "C32_collect_partial", "C32_extend_partial"], "note": "The claim is false: C32_refuted and, for every limit, C32_collect_needs_hint and C32_extend_needs_hint. The partial theorems cover hints that do not exceed the number of items."},
{"property": "C33", "status": "partial", "theorems": ["C33_reserve_overflow_partial", "C33_release_wraps", "C33_refuted"], "note": "Holds with overflow checks; false in release builds: C33_refuted, C33_release_wraps."},
{"property": "C34", "status": "proved", "theorems": ["C34_set_refines_list"], "note": "Every history of set calls over every lawful order; comparisons may panic."},
{"property": "C35", "status": "proved", "theorems": ["C35_inorder_increasing", "C35_traversals", "C35_equality", "C35_clone", "C35_order_is_kept"], "note": "Fusedness is part of set_yields (every number of next calls). Traversals and printing hold for every comparator; order, equality and clone for lawful orders."},
{"property": "C36", "status": "proved", "theorems": ["C36_at_most_height_comparisons", "C36_height_at_most_count", "C36_sorted_insertion_is_linear", "C36_documented_log_bound_refuted"], "note": "The positive part (height, hence len) is proved; the documented O(log n) bound is refuted by C36_documented_log_bound_refuted for every constant up to 2^40 (larger ones would need more entries than memory holds)."},
{"property": "C37", "status": "proved", "theorems": ["C37_borrowed_forms", "C37_borrowed_histories", "C37_set_borrowed_forms"], "note": "Per call on every state and for whole histories; comparisons may panic at the same places."},
{"property": "C38", "status": "proved", "theorems": ["C38_agrees_with_abstract_map", "C38_any_comparator", "C38_never_fails", "C38_creation_never_fails", "C38_eq"], "note": "simple_step allows Abort for calls that allocate; SimpleBSTMap::remove allocates (Box::new of moved nodes)."},
{"property": "C39", "status": "proved", "theorems": ["C39_same_results", "C39_same_results_with_clones", "C39_same_creation", "C39_clone_any_comparator_refuted"], "note": "For histories where neither is refused memory. C39_clone_any_comparator_refuted shows why clones need a lawful order."},
{"property": "C40", "status": "partial", "theorems": ["C40_iter_mut_panics", "C40_refuted"], "note": "The claim is false: iter_mut_* are todo!() (C40_refuted; C40_iter_mut_panics for every map)."},
{"property": "C41", "status": "proved", "theorems": ["C41_in_chunk", "C41_distinct", "C41_every_position", "C41_chunk_lengths", "C41_bound_is_tight"], "note": "C41_bound_is_tight shows that the eight last indexes do overflow."},
{"property": "C42", "status": "proved", "theorems": ["C42_history", "C42_readable", "C42_distinct", "C42_creation"], "note": "Histories of calls on the arena itself that respect the contract of its unsafe methods; the model invalidates all addresses at clear."},
{"property": "C43", "status": "proved", "theorems": ["C43_iteration", "C43_each_once", "C43_exact_size"], "note": "Iter and IterMut, with stores through the references IterMut hands out."},
{"property": "C44", "status": "proved", "theorems": ["C44_panics_excused", "C44_begin_excused", "C44_no_assertion", "C44_same_call", "C44_same_begin", "C44_same_history", "C44_modest_history"], "note": "The remaining panics are those of user code, of memory requests and of oversized requests."},
{"property": "C45", "status": "proved", "theorems": ["C45_map", "C45_set", "C45_node", "C45_iter", "C45_set_views", "C45_node_mut", "C45_iter_mut_never", "C45_arena_and_slab", "C45_simple"], "note": "A model of the compiler's auto-trait rules applied to every type declaration of both crates."},
{"property": "C46", "status": "partial", "theorems": ["C46_needless_growth", "C46_refuted", "C46_reserve_idle_partial"], "note": "The claim is false when slots are free: C46_refuted, C46_needless_growth. The partial theorem needs room beside used and free slots."},
{"property": "C47", "status": "proved", "theorems": ["C47_node_equality", "C47_same_node", "C47_equivalence"], "note": "ptr::eq of the slab pointers is a parameter that may be true only for the same map."},
{"property": "C48", "status": "proved", "theorems": ["C48_debug_map", "C48_debug_node", "C48_debug_set"], "note": "The printed form is the tree of debug_struct/field calls; the text layout is Rust's formatter and not modelled."},
{"property": "C49", "status": "proved", "theorems": ["C49_iteration_space"], "note": "Stack sizes are those between calls of next; the bounds are height and 2*height, better than claimed. Reads per node: at most 1/2/3, mutable 1/3/4."},
{"property": "C50", "status": "proved", "theorems": ["C50_root_mut_walks"], "note": ""},
{"property": "C51", "status": "proved", "theorems": ["C51_bookkeeping"], "note": ""},
{"property": "C52", "status": "proved", "theorems": ["C52_set_refines_list", "C52_never_fails", "C52_creation_never_fails", "C52_traversals", "C52_eq", "C52_same_as_BSTSet", "C52_same_as_BSTSet_with_clones", "C52_same_creation", "C52_nodes_are_owned_once"], "note": "SimpleBSTSet is modelled call by call over the SimpleBSTMap model; refinement of a list, comparison with BSTSet, safety, traversals and ownership."},
{"property": "C53", "status": "proved", "theorems": ["C53_history", "C53_readable", "C53_drop"], "note": "Histories of calls on the slab itself that respect the contract of its unsafe methods; clear with destructors that do not panic."},
{"property": "C54", "status": "proved", "theorems": ["C54_eq", "C54_clear", "C54_drop", "C54_clear_with_panicking_destructor_refuted"], "note": "For destructors that do not panic; C54_clear_with_panicking_destructor_refuted shows what happens otherwise."},
{"property": "C55", "status": "proved", "theorems": ["C55_geometric_growth"], "note": ""},
{"property": "C56", "status": "proved", "theorems": ["C56_any_comparator", "C56_any_comparator_call"], "note": "otree_step in SpecOracle.v is the textbook tree fed with the comparison answers; allocation refusals leave the tree as it was."},
{"property": "C57", "status": "proved", "theorems": ["C57_nodes_are_owned_once"], "note": "Keys and values dropped by the nodes are not tracked for SimpleBSTMap."},
{"property": "C58", "status": "proved", "theorems": ["C58_into_iter_panics", "C58_debug"], "note": "If a destructor panics while into_iter unwinds, Rust aborts; that case is excluded."},
{"property": "C59", "status": "proved", "theorems": ["C59_insert", "C59_insert_full", "C59_insert_grows", "C59_call", "C59_creation", "C59_generous", "C59_generous_creation", "C59_set", "C59_set_creation", "C59_arena_alloc", "C59_arena", "C59_arena_creation", "C59_slab_push", "C59_slab", "C59_slab_creation"], "note": "Necessary conditions for all calls; the converse for insert. Vocabulary in SpecAlloc.v."},
{"property": "C60", "status": "proved", "theorems": ["C60_call", "C60_creation", "C60_generous", "C60_generous_creation", "C60_insert_refused", "C60_set", "C60_set_creation"], "note": "Necessary conditions for all calls; the converse for insert. A box is assumed to take at least 16 bytes, so 2^60 of them fill the address space."},
{"property": "C61", "status": "proved", "theorems": ["C61_extend_reserves_first", "C61_extend_room", "C61_extend_asks_once", "C61_collect_reserves_first", "C61_collect_asks_once", "C61_clone", "C61_set_room", "C61_set_asks_once"], "note": "For maps and sets; hinted is the size hint as extend and from_iter read it. Without overflow checks the theorems ask that slots + hint fits in usize."},
{"property": "C62", "status": "proved", "theorems": ["C62_plain_data"], "note": "visited = entries whose destructor the slab ran (ghost log of slab.rs:235-245)"},
{"property": "C63", "status": "proved", "theorems": ["C63_drop_stops", "C63_clear_stops"], "note": "bad: which destructors panic; dropped counts the destructors run by map, slab and arena. What a map is worth after a clear that panicked is C29."},
{"property": "C64", "status": "proved", "theorems": ["C64_set_nodes", "C64_simple_nodes", "C64_simple_set_nodes", "C64_simple_same_node", "C64_simple_equal_then_equal", "C64_equalities_differ"], "note": "C47 is the same for BSTMap. C64_equalities_differ is the witness that the two libraries disagree."},
{"property": "C65", "status": "proved", "theorems": ["C65_assignment", "C65_still_a_tree", "C65_calls", "C65_length_is_lost"], "note": "tampered: all maps made by calls and assignments of cloned nodes. Swapping nodes of two maps is not modelled apart. C65_length_is_lost is the witness that len, is_empty and remove go wrong."},
{"property": "C66", "status": "proved", "theorems": ["C66_no_undefined_behaviour", "C66_panic_changes_nothing", "C66_reserve_fails", "C66_extend_fails"], "note": "C18, C19, C28, C30 for BSTSet."},
{"property": "C67", "status": "proved", "theorems": ["C67_conserved", "C67_whole_life", "C67_clone", "C67_collect_panics", "C67_drop_stops", "C67_clear_stops"], "note": "C26, C27, C63 for BSTSet. C67_clear_stops also shows the double drop of C29."},
{"property": "C68", "status": "proved", "theorems": ["C68_with_capacity", "C68_with_capacity_fails", "C68_new_allocates_nothing", "C68_reserve", "C68_shrink", "C68_insert_below_capacity", "C68_removing_keeps_the_capacity", "C68_freed_slots_first", "C68_high_water_mark", "C68_geometric_growth"], "note": "C21-C25, C55 for BSTSet. C68_reserve assumes that length plus request does not overflow in release builds (C22)."},
{"property": "C69", "status": "proved", "theorems": ["C69_any_comparator", "C69_any_comparator_call"], "note": "C56 for BSTSet."},
{"property": "C70", "status": "proved", "theorems": ["C70_panics_excused", "C70_begin_excused", "C70_same_call", "C70_same_begin", "C70_same_history", "C70_modest_history"], "note": "C44 for BSTSet."},
{"property": "C71", "status": "proved", "theorems": ["C71_with_capacity", "C71_alloc", "C71_reserve", "C71_shrink", "C71_others", "C71_memory", "C71_map_memory"], "note": "least_room and footprint are in SpecMem.v and SpecRoom.v. C71_reserve assumes that length plus request does not overflow in release builds (there it wraps, C22)."},
{"property": "C72", "status": "proved", "theorems": ["C72_with_capacity", "C72_high_water", "C72_push", "C72_reserve", "C72_shrink", "C72_others", "C72_memory"], "note": "slab_free and slab_peak (SpecRoom.v) read free addresses and the high-water mark off the history. C72_reserve has the restriction of C71_reserve."},
{"property": "C73", "status": "proved", "theorems": ["C73_as_if", "C73_alike", "C73_safe", "C73_sorted", "C73_conserved", "C73_first_panic", "C73_insert", "C73_remove", "C73_write", "C73_clone", "C73_collect", "C73_quiet"], "note": "dexec (ModelDrops.v) is exec with destructors that may panic; leaky is the compiler behaviour of rust issue 47949. Panics during clear are C29 and C63, so C73 asks that none happen there. C73_conserved is for maps whose type needs drop, without clone. What a user iterator owns after the stop is not tracked."},
{"property": "C74", "status": "proved", "theorems": ["C74_call", "C74_conserved", "C74_whole_life", "C74_collect"], "note": "wexec (ModelSimpleDrops.v) is simple_exec with a log of what is destroyed; leaky is the compiler behaviour of rust issue 47949. C74_call covers every call, clones included; C74_conserved and C74_whole_life are for histories without clone. What a user iterator owns after the stop is not tracked."},
{"property": "C75", "status": "proved", "theorems": ["C75_as_if", "C75_safe", "C75_sorted", "C75_clear", "C75_drop", "C75_insert", "C75_remove", "C75_write", "C75_clone", "C75_clone_frees", "C75_panics", "C75_quiet"], "note": "C75_quiet is the link to the histories of C38. Stack overflow of the recursive destructor: C81."},
{"property": "C76", "status": "proved", "theorems": ["C76_any_comparator", "C76_any_comparator_call"], "note": "C69 for SimpleBSTSet; ostree_call (SpecSetSafety.v) is the tree of values, sstree_call adapts it to the calls of SimpleBSTSet."},
{"property": "C77", "status": "proved", "theorems": ["C77_call", "C77_conserved", "C77_whole_life", "C77_collect"], "note": "C74 for SimpleBSTSet, with wset_exec (ModelSetDrops.v). The map under a set may leak a (), which has no destructor. C77_conserved and C77_whole_life are for histories without clone, C77_call covers clones."},
{"property": "C78", "status": "proved", "theorems": ["C78_as_if", "C78_safe", "C78_sorted", "C78_clear", "C78_drop", "C78_insert", "C78_remove", "C78_clone", "C78_panics", "C78_quiet"], "note": "C75 for SimpleBSTSet."},
{"property": "C79", "status": "proved", "theorems": ["C79_as_if", "C79_alike", "C79_safe", "C79_sorted", "C79_conserved", "C79_first_panic", "C79_insert", "C79_remove", "C79_clone", "C79_collect", "C79_quiet"], "note": "C73 for BSTSet, with dset_exec (ModelSetDrops.v). Panics during clear are C29 and C67. C79_conserved is for types that need drop, without clone."},
{"property": "C80", "status": "proved", "theorems": ["C80_simple_comparisons", "C80_simple_height", "C80_simple_sorted_insertion", "C80_simple_iteration_space", "C80_set_comparisons", "C80_set_height", "C80_set_sorted_insertion", "C80_set_iteration_space", "C80_sset_comparisons", "C80_sset_height", "C80_sset_sorted_insertion", "C80_sset_iteration_space"], "note": "C36 and C49 for the other collections. The documented O(log n) is the false claim of C36; here only the linear case is stated."},
{"property": "C81", "status": "proved", "theorems": ["C81_simple_enough", "C81_simple_small_programs", "C81_simple_overflow", "C81_simple_no_stack_is_enough", "C81_simple_node_equality", "C81_map", "C81_set", "C81_sset_enough", "C81_sset_overflow"], "note": "ModelStack.v reads the depth counters of the recursive functions as frames. That the other functions are loops is part of the model. The destructor that runs when a panic unwinds out of from_iter or clone is not included."},
{"property": "C82", "status": "proved", "theorems": ["C82_map", "C82_simple", "C82_set", "C82_sset", "C82_arena", "C82_nodes", "C82_mutable_nodes", "C82_set_nodes", "C82_simple_nodes", "C82_sset_nodes", "C82_in_order", "C82_answers_or_panics", "C82_without_state"], "note": "ModelEq.v repeats the definitions of == with user code in a state monad; C82_without_state is the link to the definitions used elsewhere."},
{"property": "C83", "status": "proved", "theorems": ["C83_begin", "C83_arena_call", "C83_arena_history", "C83_arena_ends", "C83_arena_eq", "C83_slab_call", "C83_slab_history", "C83_slab_drop", "C83_oversized_request_refuted"], "note": "C33 is the same for BSTMap. Destructors do not panic in C83_arena_ends and C83_slab_drop. C83_oversized_request_refuted is the witness that the restriction on reserve is needed."},
{"property": "C84", "status": "proved", "theorems": ["C84_map", "C84_simple", "C84_set", "C84_sset", "C84_arena", "C84_nodes", "C84_mutable_nodes", "C84_set_nodes", "C84_simple_nodes", "C84_sset_nodes", "C84_complete", "C84_map_text", "C84_simple_text", "C84_set_text", "C84_sset_text", "C84_arena_text", "C84_node_text", "C84_simple_node_text", "C84_structure"], "note": "The builders of core::fmt (DebugStruct, DebugTuple for Option, DebugList, str) are part of the model ModelFmt.v. {:#?} is not modelled. C84_structure is the link to the structures of C35, C38, C48 and C52."},
{"property": "C85", "status": "proved", "theorems": ["C85_map", "C85_set", "C85_simple", "C85_arena_and_slab", "C85_shared_views", "C85_shared_set_views", "C85_exclusive_views", "C85_preorder"], "note": "The declarations and the compiler's rules are ModelTypes.v. Of the variance rules only those for the type constructors in use are modelled."},
{"property": "C86", "status": "proved", "theorems": ["C86_map", "C86_set", "C86_arena_and_slab", "C86_simple", "C86_contents_are_alive", "C86_views"], "note": "Same model. Box, Vec and Option count as may_dangle owners, as in std."},
{"property": "C87", "status": "proved", "theorems": ["C87_map", "C87_set", "C87_arena_and_slab", "C87_simple", "C87_shared_views", "C87_exclusive_views"], "note": "Same model. Neither crate has an impl for these traits, so only the rules of std decide."},
{"property": "C88", "status": "proved", "theorems": ["C88_programs", "C88_insert", "C88_remove_entry", "C88_get_mut", "C88_get_entry_mut", "C88_node_mut", "C88_iter_mut", "C88_views"], "note": "The rules and what they leave out are at the top of ModelBorrow.v: references to locals, protectors, and the retag when a reference is passed on. clear, reserve, shrink_to_fit and the destructor are in C89 and C90; into_iter is not included. C88_stale_case shows that the stacks reject stale references."},
{"property": "C89", "status": "proved", "theorems": ["C89_programs", "C89_clear"], "note": "Rules as in C88, raw pointers without tags. Vec::from_raw_parts and the drop of the Vec are taken as a write to every element of the chunk."},
{"property": "C90", "status": "partial", "theorems": ["C90_refuted", "C90_shrink", "C90_drop"], "note": "The claim is false: C90_refuted. C90_shrink and C90_drop say exactly when the rules are broken: whenever a chunk is given back."},
{"property": "C91", "status": "proved", "theorems": ["C91_remove_entry", "C91_remove"], "note": "Stacked Borrows with tagged raw pointers, for remove_entry and remove; the other methods of SimpleBSTMap are safe code. C91_stale_case shows that wrong orders of borrowing are rejected."},
{"property": "C92", "status": "proved", "theorems": ["C92_map", "C92_simple", "C92_set", "C92_sset", "C92_arena", "C92_nodes", "C92_mutable_nodes", "C92_simple_nodes", "C92_set_nodes", "C92_sset_nodes", "C92_lines", "C92_map_failures", "C92_simple_failures", "C92_set_failures", "C92_arena_failures", "C92_node_failures"], "note": "The builders of core::fmt are modelled as in the standard library (ModelFmtPretty.v). An element is the list of texts it writes and its result; it does not depend on the state of the formatter."},
{"property": "C93", "status": "proved", "theorems": ["C93_history", "C93_readable", "C93_distinct", "C93_drop", "C93_contract_needed"], "note": "After clear and shrink_to_fit the specification keeps only the elements as slots known to hold a value; this makes the contract a little stricter than the code needs."},
{"property": "C94", "status": "proved", "theorems": ["C94_map_extend", "C94_map_collect", "C94_set_extend", "C94_set_collect", "C94_simple_extend", "C94_simple_collect", "C94_sset_extend", "C94_sset_collect", "C94_hint_panics", "C94_set_hint_panics", "C94_endless", "C94_set_endless", "C94_rounds", "C94_simple_rounds"], "note": "The destructor of the iterator and IntoIterator::into_iter of the argument are not modelled. The number of rounds is a parameter; any number above the number of items gives the same answer."},
{"property": "C95", "status": "proved", "theorems": ["C95_map_additions", "C95_map_removals", "C95_map_others", "C95_simple_additions", "C95_simple_removals", "C95_simple_others", "C95_set_additions", "C95_set_removals", "C95_set_others", "C95_sset_additions", "C95_sset_removals", "C95_sset_others", "C95_absent_keys_refuted"], "note": "C95_absent_keys_refuted shows why the claim about removals is restricted to keys that stay: a lookup of an absent key can become dearer. clear and clone are left out; they build a new tree."},
{"property": "C96", "status": "proved", "theorems": ["C96_programs", "C96_clear", "C96_insert", "C96_remove_entry", "C96_get_mut", "C96_get_entry_mut", "C96_node_mut", "C96_iter_mut", "C96_views", "C96_simple_remove_entry", "C96_simple_remove"], "note": "Tree Borrows without protectors. C96_stale_case shows that stale references, writes through shared references and references into freed memory are rejected. Raw pointers get tags of their own, which is stricter."},
{"property": "C97", "status": "partial", "theorems": ["C97_refuted", "C97_zero_sized", "C97_zero_sized_creation", "C97_other_sizes_partial"], "note": "The claim is false: C97_refuted. C97_zero_sized and C97_zero_sized_creation say what happens for zero-sized values; C97_other_sizes_partial is the claim for all other types."},
{"property": "C98", "status": "proved", "theorems": ["C98_self", "C98_clear", "C98_arena_drop", "C98_enter", "C98_passed_on", "C98_slab_push", "C98_slab_remove", "C98_slab_clear", "C98_lost"], "note": "Protectors of &mut self, as statements about the end of the call and C98_lost."},
{"property": "C99", "status": "proved", "theorems": ["C99_capacity", "C99_twice", "C99_memory", "C99_requests", "C99_few_requests", "C99_plain", "C99_shrink_refuted", "C99_set_capacity", "C99_set_requests"], "note": "The bound on the number of requests excludes shrink_to_fit, because with it the claim is false (C99_shrink_refuted)."},
{"property": "C100", "status": "proved", "theorems": ["C100_session", "C100_programs", "C100_programs_end", "C100_clear", "C100_clear_refuted"], "note": "clear is in the programs only for elements without a destructor, because with one the claim is false under Stacked Borrows with tagged raw pointers (C100_clear, C100_clear_refuted). shrink_to_fit and drop: see C89 and C90."},
{"property": "C101", "status": "proved", "theorems": ["C101_map_insert_remove", "C101_map_put_back", "C101_map_remove_insert", "C101_simple_insert_remove", "C101_simple_put_back", "C101_simple_remove_insert", "C101_set_insert_take", "C101_set_take_insert", "C101_sset_insert_take", "C101_sset_take_insert"], "note": "For the four collections: insert then remove, insert over a value then put it back, and remove then insert (restored if and only if the entry was a leaf)."},
{"property": "C102", "status": "proved", "theorems": ["C102_map_collect", "C102_map_inserts", "C102_map_copy", "C102_map_copy_sorted", "C102_simple_collect", "C102_set_collect", "C102_sset_collect", "C102_postorder_refuted"], "note": "Collecting distinct keys, for the four collections: exactly the search tree in which ancestors come first. C102_postorder_refuted shows that collecting the post-order does not copy a map."},
{"property": "C103", "status": "proved", "theorems": ["C103_map_insert", "C103_map_remove_entry", "C103_map_remove", "C103_map_others", "C103_set_insert", "C103_set_take", "C103_set_remove", "C103_set_others", "C103_two_refuted"], "note": "BSTMap and BSTSet, any comparator: the links that each call changes. C103_two_refuted shows that the bound of three relinked nodes in a removal is reached."},
{"property": "C104", "status": "proved", "theorems": ["C104_map_contents", "C104_map_inserts", "C104_simple_contents", "C104_simple_inserts", "C104_set_contents", "C104_set_inserts", "C104_sset_contents", "C104_sset_inserts", "C104_removals_refuted"], "note": "For the four collections: answers and contents of two updates do not depend on their order; when two insertions give the same tree, exactly. C104_removals_refuted shows that the tree after two removals depends on their order."},
{"property": "C105", "status": "proved", "theorems": ["C105_map_two_sum", "C105_simple_two_sum", "C105_exact_refuted", "C105_finds_refuted"], "note": "For BSTMap and SimpleBSTMap: which pair two_sum returns, and every way it can stop. C105_exact_refuted shows that without overflow checks the sum is right only modulo 2^64, C105_finds_refuted that with them an overflow may hide a solution."},
{"property": "C106", "status": "proved", "theorems": ["C106_map_tabulate", "C106_simple_tabulate"], "note": "For BSTMap and SimpleBSTMap: get on the tables built by tabulate_requests gives the number of requests."},
{"property": "C107", "status": "proved", "theorems": ["C107_map_resolve", "C107_simple_resolve"], "note": "For BSTMap and SimpleBSTMap: the three counters of resolve_program are those of lexical scoping."},
{"property": "C108", "status": "proved", "theorems": ["C108_map_serve", "C108_simple_serve"], "note": "For BSTMap and SimpleBSTMap: the responses, the counters and the final contents of run_requests are those of a table from ids to entries."}
]}
