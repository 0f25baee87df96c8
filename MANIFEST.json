{
 "claims": [
  {
   "property": "C01",
   "status": "proved",
   "theorems": [
    "C01_refines_rose_trees",
    "C01_step_refines_rose_trees",
    "C01_C14_frame"
   ],
   "note": "28 operations incl. clone, bfs, into_bfs, into_iter and iter_mut loops"
  },
  {
   "property": "C02",
   "status": "proved",
   "theorems": [
    "C02_counts_exact",
    "C03_observers_agree"
   ],
   "note": ""
  },
  {
   "property": "C03",
   "status": "proved",
   "theorems": [
    "C03_observers_agree"
   ],
   "note": ""
  },
  {
   "property": "C04",
   "status": "proved",
   "theorems": [
    "C03_observers_agree",
    "C04_root_has_no_parent"
   ],
   "note": ""
  },
  {
   "property": "C05",
   "status": "proved",
   "theorems": [
    "C05_push",
    "C05_pop",
    "C05_push_pop"
   ],
   "note": ""
  },
  {
   "property": "C06",
   "status": "proved",
   "theorems": [
    "C06_concat",
    "C06_concat_counts"
   ],
   "note": ""
  },
  {
   "property": "C07",
   "status": "proved",
   "theorems": [
    "C07_insert",
    "C07_insert_at_root_panics"
   ],
   "note": ""
  },
  {
   "property": "C08",
   "status": "proved",
   "theorems": [
    "C08_detach",
    "C08_detach_root_panics"
   ],
   "note": ""
  },
  {
   "property": "C09",
   "status": "proved",
   "theorems": [
    "C09_abandon",
    "C12_C13_memory_exact"
   ],
   "note": ""
  },
  {
   "property": "C10",
   "status": "proved",
   "theorems": [
    "C10_iter_mut"
   ],
   "note": ""
  },
  {
   "property": "C11",
   "status": "proved",
   "theorems": [
    "C11_memory_safe"
   ],
   "note": ""
  },
  {
   "property": "C12",
   "status": "proved",
   "theorems": [
    "C12_drop",
    "C12_C13_memory_exact",
    "C12_nothing_left"
   ],
   "note": ""
  },
  {
   "property": "C13",
   "status": "proved",
   "theorems": [
    "C12_C13_memory_exact"
   ],
   "note": ""
  },
  {
   "property": "C14",
   "status": "proved",
   "theorems": [
    "C14_clone",
    "C14_clone_forest",
    "C01_C14_frame"
   ],
   "note": ""
  },
  {
   "property": "C15",
   "status": "proved",
   "theorems": [
    "C15_eq",
    "C15_ne",
    "C15_forest_eq_ne",
    "C15_equivalence",
    "C15_eq_decides"
   ],
   "note": ""
  },
  {
   "property": "C16",
   "status": "proved",
   "theorems": [
    "C16_cmp",
    "C16_partial_cmp",
    "C16_forest_cmp",
    "C16_total_order",
    "C16_total_order_laws",
    "C16_comparisons_agree",
    "C16_partial_cmp_dual"
   ],
   "note": ""
  },
  {
   "property": "C17",
   "status": "proved",
   "theorems": [
    "C17_hash_stream",
    "C17_equal_nodes_hash_alike",
    "C17_equal_forests_hash_alike"
   ],
   "note": ""
  },
  {
   "property": "C18",
   "status": "proved",
   "theorems": [
    "C18_display",
    "C18_display_forest",
    "C18_display_injective",
    "C18_display_forest_injective"
   ],
   "note": ""
  },
  {
   "property": "C19",
   "status": "proved",
   "theorems": [
    "C19_bfs",
    "C19_bfs_children",
    "C19_size",
    "C19_level_order_complete",
    "C19_wrapped"
   ],
   "note": ""
  },
  {
   "property": "C20",
   "status": "proved",
   "theorems": [
    "C20_from_visits",
    "C20_from_into_bfs",
    "C20_clone_contiguous"
   ],
   "note": ""
  },
  {
   "property": "C21",
   "status": "proved",
   "theorems": [
    "C21_bfs_mut",
    "C21_bfs_children_mut"
   ],
   "note": ""
  },
  {
   "property": "C22",
   "status": "proved",
   "theorems": [
    "C22_into_bfs",
    "C12_C13_memory_exact"
   ],
   "note": ""
  },
  {
   "property": "C23",
   "status": "proved",
   "theorems": [
    "C23_traversal_nodes",
    "C23_traversal_once",
    "C23_traversal_order",
    "C23_get_forward",
    "C23_next"
   ],
   "note": ""
  },
  {
   "property": "C24",
   "status": "proved",
   "theorems": [
    "C24_operations_end",
    "C24_forward_returns",
    "C24_stays_completed"
   ],
   "note": ""
  },
  {
   "property": "C25",
   "status": "proved",
   "theorems": [
    "C25_parent"
   ],
   "note": ""
  },
  {
   "property": "C26",
   "status": "proved",
   "theorems": [
    "C26_to_child",
    "C26_to_sib"
   ],
   "note": ""
  },
  {
   "property": "C27",
   "status": "proved",
   "theorems": [
    "C27_revisit_unchanged",
    "C27_revisit_end",
    "C27_revisit_restarts"
   ],
   "note": ""
  },
  {
   "property": "C28",
   "status": "partial",
   "theorems": [
    "C28_get_never_panics_refuted",
    "C28_get_partial",
    "C28_panics_exactly_partial"
   ],
   "note": "FALSE of the code: after to_child(n)/to_sib(n) with n too large get() panics (unwrap of None); proved: exactly which calls after which calls panic (get, to_child, to_sib, revisit, after to_sib at a visit or to_child at a branch returned None)"
  },
  {
   "property": "C29",
   "status": "partial",
   "theorems": [
    "C29_from_tuple_refuted",
    "C29_forest_from_tuple_refuted",
    "C29_from_tuple_partial",
    "C29_forest_from_tuple_partial",
    "C29_unsupported_partial",
    "C29_forest_unsupported_partial",
    "C29_exactly_partial",
    "C29_forest_exactly_partial",
    "C29_two_levels"
   ],
   "note": "FALSE of the code: (0,(1,(2,3)),4) builds 0( 4 ) and dropping it panics; proved for all shapes in which a node whose last child has children is only found on the last-child path from the root, and that every other shape goes wrong (a value is dropped during the construction)"
  },
  {
   "property": "C30",
   "status": "proved",
   "theorems": [
    "C30_tree",
    "C30_forest",
    "C30_preorder_values"
   ],
   "note": ""
  },
  {
   "property": "C31",
   "status": "partial",
   "theorems": [
    "C31_refines_partial",
    "C31_handle_alive_partial",
    "C31_alive_exactly_partial",
    "C31_released_exactly_partial",
    "C31_drop_keeps_partial",
    "C31_drop_values_partial",
    "C31_root_has_handle_partial",
    "C31_same_node_partial",
    "C31_change_seen_partial",
    "C31_memory_exact_partial",
    "C31_nothing_left_partial",
    "C31_copy_free_partial",
    "C31_buffer_free_partial"
   ],
   "note": "proved for all histories in which no handle of a node in a buffer is cloned or downgraded (and no released node is asked of IterRc); with these operations the claim is FALSE of the code (C32, C33, C35 refuted)"
  },
  {
   "property": "C32",
   "status": "partial",
   "theorems": [
    "C32_clone_drop_refuted",
    "C32_every_clone_refuted",
    "C32_clone_drop_partial"
   ],
   "note": "FALSE of the code for nodes in a buffer: clone does not count in the buffer's reference count, drop does; proved for scattered nodes"
  },
  {
   "property": "C33",
   "status": "partial",
   "theorems": [
    "C33_weak_drop_refuted",
    "C33_upgrade_drop_refuted",
    "C33_upgrade_refuted",
    "C33_every_weak_refuted",
    "C33_every_upgrade_refuted",
    "C33_weak_drop_partial",
    "C33_upgrade_partial"
   ],
   "note": "FALSE of the code for nodes in a buffer; proved for scattered nodes"
  },
  {
   "property": "C34",
   "status": "proved",
   "theorems": [
    "C34_notation",
    "C34_operators"
   ],
   "note": "expressions of any nesting; a borrowed operand is a variable"
  },
  {
   "property": "C35",
   "status": "partial",
   "theorems": [
    "C35_iter_rc_refuted",
    "C35_next_exact_refuted",
    "C35_iter_new_partial",
    "C35_iter_next_partial",
    "C35_iter_end_partial",
    "C35_iter_frame_partial"
   ],
   "note": "safety is FALSE of the code: the iterator holds a raw pointer to the next node; completeness is proved as long as the children left stay children of one node"
  },
  {
   "property": "C36",
   "status": "proved",
   "theorems": [
    "C36_iter",
    "C36_once",
    "C36_iter_mut",
    "C36_into_iter"
   ],
   "note": ""
  },
  {
   "property": "C37",
   "status": "partial",
   "theorems": [
    "C37_from_visits_refuted",
    "C37_forest_from_visits_refuted",
    "C37_short_refuted",
    "C37_from_visits_partial",
    "C37_forest_from_visits_partial",
    "C37_outcome_partial",
    "C37_forest_outcome_partial"
   ],
   "note": "FALSE of the code: sizes supplied by the caller are trusted, more visits than declared write outside the buffer; proved: exactly which sequences write outside the buffer, which panic and which are accepted"
  },
  {
   "property": "C38",
   "status": "proved",
   "theorems": [
    "C38_into_iter"
   ],
   "note": ""
  },
  {
   "property": "C39",
   "status": "partial",
   "theorems": [
    "C39_postorder_refuted",
    "C39_postorder_partial",
    "C39_postorder_values"
   ],
   "note": "FALSE of the code: postorder_with_size_hint emits Branch, children, Frame; proved: exactly what each of the two emits, and that they agree only for leaves"
  },
  {
   "property": "C40",
   "status": "proved",
   "theorems": [
    "C40_size_arithmetic"
   ],
   "note": ""
  },
  {
   "property": "C41",
   "status": "proved",
   "theorems": [
    "C41_into_back"
   ],
   "note": ""
  },
  {
   "property": "C42",
   "status": "proved",
   "theorems": [
    "C42_guard_blocks_changes",
    "C42_refmut_blocks_looks",
    "C42_other_guards",
    "C42_panics_exactly"
   ],
   "note": "the blocking theorems are for all histories; that nothing else panics is for the histories of C31 (reached)"
  },
  {
   "property": "C43",
   "status": "partial",
   "theorems": [
    "C43_threads_never_early_partial",
    "C43_threads_exact_partial",
    "C43_one_thread",
    "C43_any_programs_partial",
    "C43_no_leak_refuted"
   ],
   "note": "FALSE of the code: a decrement of the non-atomic buffer counter can be lost and the buffer leak; proved: under every schedule nothing is freed early, and nothing leaks when no buffer is shared between threads. Memory is sequentially consistent in the model"
  },
  {
   "property": "C44",
   "status": "partial",
   "theorems": [
    "C44_without_swap_partial",
    "C44_swap_leaves_refuted",
    "C44_swap_refuted"
   ],
   "note": "FALSE of the code: Node is Unpin when T is, mem::swap of two roots and dropping the trees accesses released memory; proved: safe as long as nodes are not exchanged"
  },
  {
   "property": "C45",
   "status": "partial",
   "theorems": [
    "C45_reference_after_detach_partial",
    "C45_reference_after_drop_refuted",
    "C45_detach_then_use_refuted"
   ],
   "note": "FALSE of the code: detach(&mut self) does not consume the reference; proved: the reference reads the detached node while the returned tree is alive; after that reading always fails, and when it is an access to released memory and when a panic"
  },
  {
   "property": "C46",
   "status": "partial",
   "theorems": [
    "C46_hash_separates_shapes_refuted",
    "C46_same_hash_exactly_partial"
   ],
   "note": "FALSE of the code: 0( 1 2 ) and 0( 1( 2 ) ) feed the hasher the same sequence; proved: two nodes feed the same sequence exactly if their data agree in depth-first order"
  },
  {
   "property": "C47",
   "status": "proved",
   "theorems": [
    "C47_into_tree",
    "C47_round_trip"
   ],
   "note": "into_tree is unsafe: its contract (no other handle, weak handle or iterator for the tree) is a hypothesis"
  },
  {
   "property": "C48",
   "status": "proved",
   "theorems": [
    "C48_eq",
    "C48_ne",
    "C48_cmp",
    "C48_partial_cmp",
    "C48_hash",
    "C48_display",
    "C48_root_locked_panics",
    "C48_equal_locked_panics"
   ],
   "note": "for the histories of C31 (reached)"
  },
  {
   "property": "C49",
   "status": "proved",
   "theorems": [
    "C49_map_into",
    "C49_map_bfs",
    "C49_map_bfs_children"
   ],
   "note": "the closure is any function of its argument and of the arguments of its earlier calls"
  },
  {
   "property": "C50",
   "status": "proved",
   "theorems": [
    "C50_panic_safety",
    "C50_usable_after_panics"
   ],
   "note": "panicking T::drop is modelled for dropping a tree or forest; comparison, hashing and formatting only read"
  },
  {
   "property": "C51",
   "status": "proved",
   "theorems": [
    "C51_borrowing_panic_changes_nothing",
    "C51_map_panics_iff",
    "C51_insert_at_root_panics",
    "C51_shared_clone_panics",
    "C51_shared_clone_returns",
    "C51_shared_clone_borrowed"
   ],
   "note": "clone that panics is the case of a closure that returns its argument otherwise; for deep_clone of a shared node: in the states of C31 (allowed calls), what is left of the aborted copy is not reachable (it leaks, C53)"
  },
  {
   "property": "C52",
   "status": "proved",
   "theorems": [
    "C52_owned_map_panic",
    "C52_drop_panic",
    "C52_drop_iter_panic"
   ],
   "note": ""
  },
  {
   "property": "C53",
   "status": "partial",
   "theorems": [
    "C53_panics_leak_nothing_refuted",
    "C53_panics_leak_nothing_partial"
   ],
   "note": "FALSE of the code: a panicking clone or map leaves its buffer behind, with the values in it, and a panicking T::drop the rest of its tree; proved for histories in which only the library panics"
  },
  {
   "property": "C54",
   "status": "proved",
   "theorems": [
    "C54_extend",
    "C54_extend_panics",
    "C54_extend_iterator"
   ],
   "note": "for the histories of C31 (reached)"
  },
  {
   "property": "C55",
   "status": "partial",
   "theorems": [
    "C55_bounded_stack_refuted",
    "C55_drop_partial",
    "C55_hash_partial",
    "C55_display_partial",
    "C55_eq_partial",
    "C55_eq_any_partial",
    "C55_eq_depth_partial",
    "C55_ne_depth_partial",
    "C55_partial_cmp_depth_partial",
    "C55_cmp_depth_partial",
    "C55_rc_bounded_stack_refuted",
    "C55_rc_drop_partial",
    "C55_debug_depth_partial",
    "C55_rc_eq_depth_partial",
    "C55_rc_ne_depth_partial",
    "C55_rc_partial_cmp_depth_partial",
    "C55_rc_cmp_depth_partial",
    "C55_rc_read_depth_partial"
   ],
   "note": "FALSE of the code: the functions recurse, for every stack size there is a tree (and an RcNode) that cannot be dropped; proved: the exact depth needed, for nodes and for shared nodes without mutable borrows: the height of the tree for drop, hash, Display and Debug, the depth to which the trees agree for ==, !=, partial_cmp and cmp, the height of the part released for an RcNode"
  },
  {
   "property": "C56",
   "status": "proved",
   "theorems": [
    "C56_history",
    "C56_panic",
    "C56_nothing_changes",
    "C56_otherwise"
   ],
   "note": "panics of the library; panics of T's code are C51-C53; for the histories of C31 (allowed calls)"
  },
  {
   "property": "C57",
   "status": "proved",
   "theorems": [
    "C57_stay_put",
    "C57_same_data",
    "C57_never_move"
   ],
   "note": "for the exclusive interface; blocks are never reused in the model"
  },
  {
   "property": "C58",
   "status": "proved",
   "theorems": [
    "C58_debug",
    "C58_debug_forest",
    "C58_debug_shared"
   ],
   "note": "an RcNode prints the address of the handle, not of the node, after each value"
  },
  {
   "property": "C59",
   "status": "partial",
   "theorems": [
    "C59_drop_panics_refuted",
    "C59_drop_panics_partial"
   ],
   "note": "false of the code: the other handles may refer to a freed parent; proved: the exact values dropped, no double drop, no use of freed memory during the drop, data of the others still readable"
  },
  {
   "property": "C60",
   "status": "proved",
   "theorems": [
    "C60_breadth_first",
    "C60_tree_from",
    "C60_forest_from",
    "C60_any_sizes"
   ],
   "note": "for every client implementation of Split without effects of its own"
  },
  {
   "property": "C61",
   "status": "proved",
   "theorems": [
    "C61_counters",
    "C61_counters_shared"
   ],
   "note": "shared nodes: the histories of C31"
  },
  {
   "property": "C62",
   "status": "proved",
   "theorems": [
    "C62_drop_owning"
   ],
   "note": "shared nodes: the histories of C31, then one drop with re-entrant destructors; T's destructor does nothing but drop its fields"
  },
  {
   "property": "C63",
   "status": "proved",
   "theorems": [
    "C63_drop_owning",
    "C63_one_order"
   ],
   "note": "T's destructor does nothing but drop its fields; other calls that drop values (partly consumed into_iter, ...) with owning values are not modelled"
  },
  {
   "property": "C64",
   "status": "proved",
   "theorems": [
    "C64_program",
    "C64_memory",
    "C64_built",
    "C64_pure"
   ],
   "note": "all programs of operations and nested constructions; panics of closures stop the program here, their unwinding is C50 to C53; closures of bfs_mut, and of T::eq, T::hash, T::fmt, do not run operations in the model"
  },
  {
   "property": "C65",
   "status": "proved",
   "theorems": [
    "C65_calls",
    "C65_iterator",
    "C65_walk",
    "C65_iter_mut",
    "C65_bfs_mut",
    "C65_closed"
   ],
   "note": "all sequences of calls on held iterators, walks and the references they gave"
  },
  {
   "property": "C66",
   "status": "proved",
   "theorems": [
    "C66_own_methods",
    "C66_own_methods_run"
   ],
   "note": "from every state the exclusive interface can reach; the borrow of the references front_mut, iter_mut and bfs_mut give ends with the call here (held references are C65)"
  },
  {
   "property": "C67",
   "status": "proved",
   "theorems": [
    "C67_node_read",
    "C67_node_compare",
    "C67_node_mut"
   ],
   "note": "Rust's aliasing rules are the caller's obligation (the methods are unsafe) and are not modelled; Debug and detach through these references are not covered"
  },
  {
   "property": "C68",
   "status": "proved",
   "theorems": [
    "C68_program",
    "C68_memory",
    "C68_stack",
    "C68_idle"
   ],
   "note": "the values are dropped by drop of a tree or forest (in any state reached) and by assignment to data; a partly consumed into_iter is abandon, pop_front and drop, which these programs have; a partly consumed into_bfs is not part of them; a panic of T::drop stops the program here, its unwinding is C50 to C53"
  },
  {
   "property": "C69",
   "status": "partial",
   "theorems": [
    "C69_reentrant_partial",
    "C69_buffer_free_partial",
    "C69_memory_partial",
    "C69_reentrant_refuted",
    "C69_idle",
    "C69_stack"
   ],
   "note": "false for nodes stored in a buffer: while such a node is being released its count is 0, and parent() of its children panics (RefCount::incr, rc.rs:27-36) where a scattered node would live on; the partial theorem covers every program in which the last handle of a node in a buffer is not dropped and such a node is not cloned or downgraded (C32, C33), watched by an observer that is proved to change nothing, in particular (C69_buffer_free_partial, without observer) every program that makes no trees in a buffer; C69_idle covers nodes of both kinds; programs use the operations that drop no value besides drop itself; IterRc::next (C35) and into_tree are not part of them"
  }
 ]
}