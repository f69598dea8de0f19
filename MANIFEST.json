{
 "claims": [
  {
   "property": "C01",
   "status": "proved",
   "theorems": [
    "C01_priority_queue_is_a_bag",
    "C01_peek_announces_pop"
   ],
   "note": "All histories, all comparators satisfying cmp_ok: replies equal those of a bag with extract-min (refinement). Int overflow of the child index is not modelled."
  },
  {
   "property": "C02",
   "status": "proved",
   "theorems": [
    "C02_drain_sorted"
   ],
   "note": "Draining after any history yields a sorted permutation of the contents."
  },
  {
   "property": "C03",
   "status": "proved",
   "theorems": [
    "C03_new_panics_iff_no_size",
    "C03_ofwith_always_panics",
    "C03_size_hint_ignored"
   ],
   "note": "New panics iff called without a size; the value of the size is irrelevant; OfWith always panics. The panic is the code's behaviour (size[0] of an empty variadic)."
  },
  {
   "property": "C04",
   "status": "proved",
   "theorems": [
    "C04_queue_is_fifo"
   ],
   "note": "Refinement of the pointer structure to a list, all histories of one goroutine."
  },
  {
   "property": "C05",
   "status": "proved",
   "theorems": [
    "C05_queue_linearizable",
    "C05_queue_no_deadlock",
    "C05_lock_free_when_quiet"
   ],
   "note": "Per-statement interleaving semantics, any number of goroutines; linearizability in the sense of Lin_Spec (complete histories with pending calls), plus deadlock freedom and the lock being free when nobody is inside."
  },
  {
   "property": "C06",
   "status": "proved",
   "theorems": [
    "C06_push_detached_node",
    "C06_repush_makes_a_cycle",
    "C06_repush_only_element_is_safe",
    "C06_pop_node_returns"
   ],
   "note": "Exact effect of pushing caller-held nodes, and the counterexample (a pushed node pushed again makes a cycle)."
  },
  {
   "property": "C07",
   "status": "proved",
   "theorems": [
    "C07_list_is_a_sequence",
    "C07_one_place_per_element"
   ],
   "note": "Any number of lists over one heap, any history of calls on handles, refinement to sequences of handles."
  },
  {
   "property": "C08",
   "status": "proved",
   "theorems": [
    "C08_foreign_elements_ignored",
    "C08_self_move_ignored"
   ],
   "note": "Calls with foreign, removed or self arguments change nothing."
  },
  {
   "property": "C09",
   "status": "proved",
   "theorems": [
    "C09_clear_and_reuse",
    "C09_zero_value_panics",
    "C09_orphan_makes_len_negative"
   ],
   "note": "Clear keeps the list usable; zero-value panics and the negative Len after Clear + Remove of an orphan are proved as the code's behaviour."
  },
  {
   "property": "C10",
   "status": "proved",
   "theorems": [
    "C10_iter_cycles"
   ],
   "note": "Iter delivers the sequence, then one end, and cycles."
  },
  {
   "property": "C11",
   "status": "proved",
   "theorems": [
    "C11_push_lists"
   ],
   "note": "PushBackList/PushFrontList incl. self-copy."
  },
  {
   "property": "C12",
   "status": "proved",
   "theorems": [
    "C12_split_partitions",
    "C12_split_sequential",
    "C12_split_never_ends",
    "C12_split_empty"
   ],
   "note": "All slices and parallelisms, incl. the case 0 < n < p where the generator never ends."
  },
  {
   "property": "C13",
   "status": "proved",
   "theorems": [
    "C13_linkedlist_splits_like_its_slice",
    "C13_rbtree_splits_like_its_slice",
    "C13_skiplist_splits_like_its_slice"
   ],
   "note": "Linked list, red-black tree and skip list generators agree with the slice generator on the contents."
  },
  {
   "property": "C14",
   "status": "proved",
   "theorems": [
    "C14_insert",
    "C14_insert_panics",
    "C14_delete",
    "C14_delete_panics",
    "C14_replace",
    "C14_replace_panics",
    "C14_insert_aliased_refuted"
   ],
   "note": "Heap of arrays and slice headers; growth policy is an arbitrary function. Aliasing counterexample for Insert(s, i, s[a:b]...)."
  },
  {
   "property": "C15",
   "status": "proved",
   "theorems": [
    "C15_clone_is_fresh",
    "C15_append",
    "C15_fresh_results_are_isolated",
    "C15_outside_window_unaffected"
   ],
   "note": "Frame theorems: what lies outside the written window is unchanged; results documented as fresh share nothing."
  },
  {
   "property": "C16",
   "status": "proved",
   "theorems": [
    "C16_compact_func",
    "C16_compacted_determined",
    "C16_compact_drops_repeats"
   ],
   "note": "CompactFunc and Compact for every equivalence-or-not eq function."
  },
  {
   "property": "C17",
   "status": "proved",
   "theorems": [
    "C17_equal_func",
    "C17_compare_func",
    "C17_compare_is_lexicographic",
    "C17_lexicographic_is_a_strict_order"
   ],
   "note": "Equal/EqualFunc, Compare/CompareFunc; Compare is the lexicographic order."
  },
  {
   "property": "C18",
   "status": "proved",
   "theorems": [
    "C18_index",
    "C18_contains"
   ],
   "note": "Index, Contains and their Func variants."
  },
  {
   "property": "C19",
   "status": "proved",
   "theorems": [
    "C19_grow",
    "C19_grow_panics",
    "C19_clip"
   ],
   "note": "Grow and Clip."
  },
  {
   "property": "C20",
   "status": "proved",
   "theorems": [
    "C20_push_back_leaves_receiver",
    "C20_insert_method"
   ],
   "note": "The method versions on Slice[T] do not change the receiver's header."
  },
  {
   "property": "C21",
   "status": "proved",
   "theorems": [
    "C21_pipeline_is_one_loop",
    "C21_collect_pipeline",
    "C21_collect_map",
    "C21_collect_filter",
    "C21_collect_inspect",
    "C21_map_filter_lists",
    "C21_slices_are_sources",
    "C21_parallel"
   ],
   "note": "Pipelines of Map, Filter, Inspect, Skip, SkipWhile, Take, Enumerate with state-dependent callbacks on any source with parallelism 0."
  },
  {
   "property": "C22",
   "status": "proved",
   "theorems": [
    "C22_take",
    "C22_skip",
    "C22_skip_while",
    "C22_enumerate",
    "C22_counters_start_at_zero"
   ],
   "note": "Counters are shared between activations: stated for any initial counter value."
  },
  {
   "property": "C23",
   "status": "proved",
   "theorems": [
    "C23_zip",
    "C23_chain",
    "C23_chain_concat",
    "C23_flat_map",
    "C23_flat_map_concat"
   ],
   "note": "Zip, Chain, FlatMap incl. the end at an empty inner stream."
  },
  {
   "property": "C24",
   "status": "proved",
   "theorems": [
    "C24_fold",
    "C24_sum",
    "C24_first",
    "C24_reduce",
    "C24_max",
    "C24_min",
    "C24_try_fold",
    "C24_try_fold_stops",
    "C24_all_match",
    "C24_any_match",
    "C24_reduce_single_refuted"
   ],
   "note": "Fold, Sum, First, Reduce, Max, Min, TryFold, AllMatch, AnyMatch on parallelism 0; the parallel branches are C25 and C64."
  },
  {
   "property": "C25",
   "status": "proved",
   "theorems": [
    "C25_returned_value",
    "C25_no_deadlock",
    "C25_equals_sequential_fold",
    "C25_panic_when_not_divisible",
    "C25_empty_deadlocks",
    "C25_short_never_returns"
   ],
   "note": "FoldWith's parallel branch over a slice: all schedules; result, deadlock freedom, termination, and the panics/hangs when p does not divide n."
  },
  {
   "property": "C26",
   "status": "proved",
   "theorems": [
    "C26_enumerate_keys",
    "C26_skip_drops_exactly",
    "C26_take_bounds",
    "C26_take_lower_bound_reached",
    "C26_take_exceeds_limit"
   ],
   "note": "Collect in parallel over any segments with Skip, Take or Enumerate: all schedules, bounds proved tight."
  },
  {
   "property": "C27",
   "status": "proved",
   "theorems": [
    "C27_collect_exactly_once",
    "C27_collect_terminates"
   ],
   "note": "Collect in parallel: exactly once, in order per segment, always terminates."
  },
  {
   "property": "C28",
   "status": "proved",
   "theorems": [
    "C28_never_reordered_or_duplicated",
    "C28_prefix_until_stop",
    "C28_exhaustion_is_final",
    "C28_after_push_returns_only_exhaustion",
    "C28_producer_is_told",
    "C28_one_result_per_next",
    "C28_next_and_stop_make_progress",
    "C28_abandoned_producer_is_blocked"
   ],
   "note": "CastToPull as producer, channel, consumers and cancel; all schedules, several consumers."
  },
  {
   "property": "C29",
   "status": "proved",
   "theorems": [
    "C29_from_chan",
    "C29_from_chan_answers",
    "C29_cast_to_push",
    "C29_iter_all_ignores_rejection",
    "C29_slice_all_stops_at_rejection",
    "C29_visits_determined",
    "C29_from_slice"
   ],
   "note": "CastToPush, Iter.All, FromSlice, Slice.All; FromChan on a channel with any number of senders and callers (every value once, in order, false only after close and drain)."
  },
  {
   "property": "C30",
   "status": "proved",
   "theorems": [
    "C30_lines",
    "C30_lines_determined",
    "C30_lines_lossless_iff",
    "C30_unopenable_file"
   ],
   "note": "Lines over a byte file, incl. the lost unterminated last line."
  },
  {
   "property": "C31",
   "status": "proved",
   "theorems": [
    "C31_never_early",
    "C31_reading_is_real",
    "C31_pop_delivers",
    "C31_pop_sleeps_until_expiration"
   ],
   "note": "Any number of producers/consumers, clock as an oracle."
  },
  {
   "property": "C32",
   "status": "proved",
   "theorems": [
    "C32_conserved",
    "C32_pop_drops_nothing",
    "C32_dropped_iff_cancelled",
    "C32_ctx_loses_element_refuted"
   ],
   "note": "Conservation of elements; the loss under PopWithCtx cancellation is proved as a counterexample."
  },
  {
   "property": "C33",
   "status": "proved",
   "theorems": [
    "C33_calls_wait_only_there",
    "C33_handshake",
    "C33_lost_wakeup_refuted",
    "C33_two_consumers_refuted",
    "C33_cancel_blocks_push_refuted"
   ],
   "note": "Handshake invariant; three lost wake-up/blocking schedules exhibited."
  },
  {
   "property": "C34",
   "status": "proved",
   "theorems": [
    "C34_poll_result",
    "C34_poll_removes_nothing",
    "C34_len"
   ],
   "note": "Poll's and Len's result and effect."
  },
  {
   "property": "C35",
   "status": "proved",
   "theorems": [
    "C35_map_for_ascending_histories"
   ],
   "note": "Histories whose new keys arrive in increasing order: exact map behaviour for put, get, has, delete and so on."
  },
  {
   "property": "C36",
   "status": "proved",
   "theorems": [
    "C36_red_black_always",
    "C36_calls_return",
    "C36_delete_panics_iff",
    "C36_delete_never_panics_refuted"
   ],
   "note": "Red-black invariants for every history and every comparator; panics of Delete characterised exactly."
  },
  {
   "property": "C37",
   "status": "proved",
   "theorems": [
    "C37_put_on_the_left_loses_data",
    "C37_put_below_the_minimum",
    "C37_two_puts",
    "C37_three_puts"
   ],
   "note": "The effect of a put whose key belongs on the left, exactly."
  },
  {
   "property": "C38",
   "status": "proved",
   "theorems": [
    "C38_iteration_in_order",
    "C38_rightmost_without_deletions",
    "C38_iter_of_an_empty_tree_hangs",
    "C38_iteration_after_any_deletion_refuted"
   ],
   "note": "In-order iteration, and where it fails."
  },
  {
   "property": "C39",
   "status": "proved",
   "theorems": [
    "C39_pool_disjoint",
    "C39_put_uses_an_unused_node"
   ],
   "note": "Node buffer: nodes in the tree, in the free list and in the slice are disjoint."
  },
  {
   "property": "C40",
   "status": "proved",
   "theorems": [
    "C40_links_and_spans_consistent",
    "C40_queries_never_panic"
   ],
   "note": "Level chains, spans, backward links and size, every history and tower heights."
  },
  {
   "property": "C41",
   "status": "proved",
   "theorems": [
    "C41_inserts_always_succeed",
    "C41_delete_removes_nothing",
    "C41_duplicates_refuted"
   ],
   "note": "Delete removes nothing, InsertUnique inserts duplicates: proved for every history."
  },
  {
   "property": "C42",
   "status": "proved",
   "theorems": [
    "C42_sorted_map_for_decreasing_histories",
    "C42_zero_key_reported_present",
    "C42_lookup_sound",
    "C42_increasing_refuted"
   ],
   "note": "Sorted map for keys arriving in decreasing order."
  },
  {
   "property": "C43",
   "status": "proved",
   "theorems": [
    "C43_range_queries",
    "C43_last_in_range_refuted"
   ],
   "note": "Range queries on sorted lists; LastInRange counterexample."
  },
  {
   "property": "C44",
   "status": "proved",
   "theorems": [
    "C44_level_law",
    "C44_level_counts"
   ],
   "note": "The number of random words giving each level (law of the level) for any word length."
  },
  {
   "property": "C45",
   "status": "proved",
   "theorems": [
    "C45_insertions_lose_nothing",
    "C45_every_history_keeps_a_balanced_tree",
    "C45_reading_is_computable",
    "C45_degree_below_two_refuted",
    "C45_is_empty",
    "C45_leftmost_rightmost"
   ],
   "note": "Degree >= 2, every history without deletion is exact; every history keeps balance and occupancy."
  },
  {
   "property": "C46",
   "status": "proved",
   "theorems": [
    "C46_lookup_is_sound",
    "C46_lookup_finds_keys_that_are_not_separators",
    "C46_insert_unique_refuses_only_stored_keys",
    "C46_lookup_finds_well_placed_keys",
    "C46_lookup_exact",
    "C46_well_placed_positions",
    "C46_middle_separators_are_missed",
    "C46_small_insertion_histories_are_right",
    "C46_lookup_of_a_separator_refuted"
   ],
   "note": "Soundness for every history; exactly which keys are found after insertions (findable); right up to 4*degree-3 insertions, with a counterexample at 4*degree-2."
  },
  {
   "property": "C47",
   "status": "proved",
   "theorems": [
    "C47_small_histories_are_right",
    "C47_one_insertion_more_refuted",
    "C47_single_leaf_deletion_is_exact",
    "C47_effect_of_a_deletion",
    "C47_deletion_loses_another_key_refuted",
    "C47_deletion_removes_nothing_refuted",
    "C47_reinserted_key_is_invisible_refuted",
    "C47_deletion_can_panic_refuted",
    "C47_deleting_many_keys",
    "C47_delete_entry_by_key"
   ],
   "note": "Exact while the tree is a single leaf; for larger trees the strongest true effect, with counterexamples for every stronger claim."
  },
  {
   "property": "C48",
   "status": "proved",
   "theorems": [
    "C48_cleared_tree_stores_nothing"
   ],
   "note": "After Clear nothing is ever stored."
  },
  {
   "property": "C49",
   "status": "proved",
   "theorems": [
    "C49_delete_by_whole_mapping_condition",
    "C49_equal_value_is_not_deleted"
   ],
   "note": "Condition is compV < 0, so an equal value is not deleted."
  },
  {
   "property": "C50",
   "status": "proved",
   "theorems": [
    "C50_lockfree_linearizable",
    "C50_quiet_call"
   ],
   "note": "Add, Del, Has and Get linearizable (hindsight for lookups), any number of goroutines and tower heights, one step per atomic operation, sequentially consistent atomics. Memory reclamation is the garbage collector's: addresses are never reused."
  },
  {
   "property": "C51",
   "status": "proved",
   "theorems": [
    "C51_missing_links_stay_missing",
    "C51_levels_complete_after_overlap_refuted",
    "C51_bottom_level",
    "C51_links",
    "C51_levels",
    "C51_no_panic",
    "C51_levels_complete"
   ],
   "note": "Structural invariants in every reachable state; completeness of the upper levels for histories whose calls do not overlap; refuted at rest after overlapping additions, and never repaired by calls that do not overlap."
  },
  {
   "property": "C52",
   "status": "proved",
   "theorems": [
    "C52_len_quiet",
    "C52_len_error"
   ],
   "note": "Len exact when quiet, and its error bounded by the calls in progress."
  },
  {
   "property": "C53",
   "status": "proved",
   "theorems": [
    "C53_rank_exact_after_overlap_refuted",
    "C53_get_quiet",
    "C53_rank_quiet",
    "C53_rank_exact",
    "C53_rank_is_position"
   ],
   "note": "Rank bounded on a quiet list with counterexample to equality, and exact (in terms of the tower heights) after calls that did not overlap; refuted in both directions after additions that overlapped; Get on a quiet list."
  },
  {
   "property": "C54",
   "status": "proved",
   "theorems": [
    "C54_hash_is_xxh64",
    "C54_complex_hashers",
    "C54_key_hash_is_string_hash"
   ],
   "note": "Agreement with an independently written XXH64 (seed 0) on the little-endian bytes, all lengths."
  },
  {
   "property": "C55",
   "status": "proved",
   "theorems": [
    "C55_fixed_width_hash_is_injective"
   ],
   "note": "Injectivity per width."
  },
  {
   "property": "C56",
   "status": "proved",
   "theorems": [
    "C56_hash_func_iff_predeclared",
    "C56_hash_panics_iff_named_type"
   ],
   "note": "GetHashFunc is nil exactly for named types."
  },
  {
   "property": "C57",
   "status": "proved",
   "theorems": [
    "C57_equal_floats_hash_equally_unless_zero",
    "C57_float_hash_identifies_bits",
    "C57_signed_zeros_refuted",
    "C57_equal_strings_hash_equally"
   ],
   "note": "Floats as bit patterns (IEEE formats as words)."
  },
  {
   "property": "C58",
   "status": "proved",
   "theorems": [
    "C58_predicate_combinators",
    "C58_short_circuit_hides_panics",
    "C58_function_combinators",
    "C58_consumer_combinators",
    "C58_bin_and_is_conjunction",
    "C58_bin_or_is_conjunction",
    "C58_bin_or_is_disjunction_refuted",
    "C58_bin_negate"
   ],
   "note": "Callbacks log their calls, so order and short-circuiting are visible."
  },
  {
   "property": "C59",
   "status": "proved",
   "theorems": [
    "C59_bplustree_depends_only_on_sign",
    "C59_comp_is_a_total_order_on_integers_and_strings",
    "C59_string_order_is_lexicographic",
    "C59_comp_with_nan_is_not_an_order",
    "C59_priority_queue_depends_only_on_sign",
    "C59_rbtree_needs_unit_comparators",
    "C59_skiplist_needs_unit_comparators"
   ],
   "note": "Sign-only dependence for priority queue and B+ tree; refuted for red-black tree and skip list."
  },
  {
   "property": "C60",
   "status": "proved",
   "theorems": [
    "C60_sortedset_unusable"
   ],
   "note": "New returns nil."
  },
  {
   "property": "C61",
   "status": "proved",
   "theorems": [
    "C61_owned_nodes_keep_their_contents",
    "C61_owned_until_handed_back",
    "C61_put_node_links_the_node",
    "C61_put_node_of_a_present_key",
    "C61_handed_over_nodes_keep_their_contents_refuted",
    "C61_node_returned_by_delete",
    "C61_put_node_keeps_size",
    "C61_delete_then_put_node_refuted"
   ],
   "note": "The node returned by Delete and PutNode; through any number of later calls an owned node stays outside the tree and keeps key and value until its owner rewrites it or hands it over."
  },
  {
   "property": "C62",
   "status": "proved",
   "theorems": [
    "C62_running_alone_finishes",
    "C62_call_returns"
   ],
   "note": "Obstruction freedom from every reachable state."
  },
  {
   "property": "C63",
   "status": "proved",
   "theorems": [
    "C63_lock_free",
    "C63_bounded_without_return",
    "C63_never_blocked",
    "C63_wait_free_refuted"
   ],
   "note": "Lock freedom over infinite executions; wait freedom is refuted by an explicit infinite execution that starves a Has."
  },
  {
   "property": "C64",
   "status": "proved",
   "theorems": [
    "C64_tryfold_returns",
    "C64_tryfold_true",
    "C64_tryfold_false",
    "C64_tryfold_leaves_no_goroutine",
    "C64_tryfold_empty_deadlocks",
    "C64_tryfold_short_never_returns",
    "C64_first",
    "C64_all_match",
    "C64_any_match",
    "C64_all_match_false_any_match_true_are_right",
    "C64_match_with_remainder_refuted",
    "C64_match_short",
    "C64_tryfold_leaks_a_goroutine_refuted"
   ],
   "note": "TryFold's parallel branch with cancellation; AllMatch, AnyMatch, First on slices."
  },
  {
   "property": "C65",
   "status": "proved",
   "theorems": [
    "C65_fits_iff",
    "C65_sum",
    "C65_reduce",
    "C65_max",
    "C65_min",
    "C65_through_stages",
    "C65_stages",
    "C65_short",
    "C65_not_divisible",
    "C65_max_is_wrong_refuted",
    "C65_negative"
   ],
   "note": "Terminal operations built on FoldWith; every parallelism including 0 and negative; crashes after the return are outcomes too."
  },
  {
   "property": "C66",
   "status": "proved",
   "theorems": [
    "C66_linkedlist_is_cut_like_its_slice",
    "C66_fold_value",
    "C66_fold_returns",
    "C66_fold_sequential",
    "C66_fold_too_few_segments",
    "C66_fold_too_many_segments",
    "C66_collect_exactly_once",
    "C66_collect_returns",
    "C66_stages",
    "C66_slice_segments",
    "C66_pipeline_fold",
    "C66_pipeline_fold_empty",
    "C66_pipeline_collect",
    "C66_slices_are_cut_like_themselves",
    "C66_parallel_zip",
    "C66_zip_different_lengths_refuted",
    "C66_parallel_chain_never_folds",
    "C66_skiplist_is_cut_like_its_slice",
    "C66_rbtree_is_cut_like_its_slice"
   ],
   "note": "FoldWith and Collect over arbitrary streams; the goroutines call the iterators of the sequential model. One call of an iterator is one step."
  },
  {
   "property": "C67",
   "status": "proved",
   "theorems": [
    "C67_list_iterator_sees_the_current_list",
    "C67_list_iterator_on_removed_element_panics",
    "C67_list_clear_does_not_stop_an_iterator",
    "C67_tree_iterator_from_a_node",
    "C67_tree_nodes_and_put",
    "C67_tree_nodes_and_delete",
    "C67_tree_iteration_and_deletion_refuted",
    "C67_tree_write_through_a_handle",
    "C67_tree_lookup_while_sorted",
    "C67_tree_write_out_of_order_refuted",
    "C67_skiplist_nodes_and_iterators",
    "C67_skiplist_clear_and_iterators"
   ],
   "note": "Sequential changes between pulls; concurrent use is not modelled (the containers are not meant for it)."
  },
  {
   "property": "C68",
   "status": "proved",
   "theorems": [
    "C68_skiplist_string",
    "C68_rbtree_string",
    "C68_string_of_an_empty_tree_hangs",
    "C68_string_after_any_deletion_refuted"
   ],
   "note": "fmt.Sprintf is an arbitrary rendering function for keys and for values."
  },
  {
   "property": "C69",
   "status": "proved",
   "theorems": [
    "C69_comparator_is_the_first_given"
   ],
   "note": "Only the comparator field is modelled; New with a nil comparator and Init again are covered."
  },
  {
   "property": "C70",
   "status": "proved",
   "theorems": [
    "C70_tryfold_returns",
    "C70_tryfold_true",
    "C70_tryfold_false",
    "C70_tryfold_leaves_no_goroutine",
    "C70_tryfold_too_few_segments",
    "C70_negative_parallelism_panics",
    "C70_first",
    "C70_all_match",
    "C70_any_match",
    "C70_match_with_empty_first_segment",
    "C70_pipeline_match",
    "C70_filtered_match_refuted"
   ],
   "note": "Pull and select are separate steps; the callback may change the user's state but answers from its arguments."
  },
  {
   "property": "C71",
   "status": "proved",
   "theorems": [
    "C71_delay_queue_races_only_on_the_size",
    "C71_delay_queue_race_free_without_len",
    "C71_delay_queue_len_races_refuted",
    "C71_delay_queue_writes_are_listed",
    "C71_lock_free_race_free",
    "C71_lock_free_nodes_exist",
    "C71_lock_free_writes_are_listed",
    "C71_queue_races_only_on_the_counter",
    "C71_queue_race_free_without_len",
    "C71_queue_len_races_refuted",
    "C71_queue_nodes_exist",
    "C71_queue_writes_are_listed"
   ],
   "note": "Each step lists the memory it accesses; a race is two goroutines about to make conflicting accesses in a reachable state; theorems *_writes_are_listed tie the lists to the steps."
  },
  {
   "property": "C72",
   "status": "proved",
   "theorems": [
    "C72_bplus_recording_is_the_model",
    "C72_bplus_depth",
    "C72_bplus_comparator_calls",
    "C72_bplus_no_other_question",
    "C72_pq_recording_is_the_model",
    "C72_pq_comparator_calls",
    "C72_pq_no_other_question",
    "C72_rb_recording_is_the_model",
    "C72_rb_comparator_calls",
    "C72_rb_no_other_question",
    "C72_rb_loops",
    "C72_skiplist_lookup_calls",
    "C72_skiplist_update_calls",
    "C72_skiplist_lookups_are_logarithmic_refuted"
   ],
   "note": "Comparator calls are recorded by twins of the model functions (Cost_Model.v): the *_recording_is_the_model theorems say that forgetting the record gives the model, the *_no_other_question theorems that the result depends on the comparator only through the recorded pairs. log2 is rounded down. For the skip list calls are counted by the allowance monad of C74 (a call cut short with fewer than c answers and returning with j left when given c + j makes exactly c calls); FirstInRange and LastInRange are not counted."
  },
  {
   "property": "C73",
   "status": "proved",
   "theorems": [
    "C73_stable_streams",
    "C73_stages",
    "C73_sequential_fold",
    "C73_fold_value",
    "C73_fold_panic_ends_the_process",
    "C73_fold_no_panic",
    "C73_collect_prefix",
    "C73_collect_panic_ends_the_process",
    "C73_collect_no_panic",
    "C73_tryfold_sequential",
    "C73_tryfold_negative_parallelism",
    "C73_tryfold_results",
    "C73_tryfold_ends",
    "C73_tryfold_panic",
    "C73_tryfold_panic_after_return"
   ],
   "note": "Whether a callback panics depends on its arguments only. A panic of a goroutine sets a flag and stops every step; a panic of the caller is a final state of the caller. A segment is described by the elements it yields and whether it then panics."
  },
  {
   "property": "C74",
   "status": "proved",
   "theorems": [
    "C74_rbtree_recovers_the_model",
    "C74_rbtree_abandoned_calls_change_nothing",
    "C74_rbtree_stays_reachable",
    "C74_rbtree_abandoned_calls_can_be_struck_out",
    "C74_rbtree_map_for_ascending_histories",
    "C74_rbtree_delete_keys_is_atomic_refuted",
    "C74_skiplist_recovers_the_model",
    "C74_skiplist_lookups_recover_the_model",
    "C74_skiplist_stays_consistent",
    "C74_skiplist_abandoned_calls_change_nothing",
    "C74_skiplist_abandoned_lookups_change_nothing",
    "C74_skiplist_range_deletion_is_atomic_refuted",
    "C74_pq_recovers_the_model",
    "C74_pq_no_element_lost",
    "C74_pq_front",
    "C74_pq_empty_is_as_new",
    "C74_pq_order_after_abandoned_push_refuted",
    "C74_pq_order_after_abandoned_pop_refuted"
   ],
   "note": "The value comparator given to DeleteByWholeMapping does not panic. The comparator answers from its arguments; the panic strikes after any number of answers."
  },
  {
   "property": "C75",
   "status": "proved",
   "theorems": [
    "C75_bplus_recovers_the_model",
    "C75_bplus_abandoned_calls_keep_size",
    "C75_bplus_abandoned_insert_equal",
    "C75_bplus_abandoned_insert_unique",
    "C75_bplus_abandoned_deletion",
    "C75_bplus_reached_trees_stand",
    "C75_bplus_insertions_and_lookups",
    "C75_bplus_all_histories",
    "C75_bplus_abandoned_insertion_loses_an_entry_refuted",
    "C75_bplus_abandoned_insertion_loses_the_upper_part_refuted",
    "C75_bplus_deletion_after_an_abandoned_deletion_panics_refuted"
   ],
   "note": "The value comparator given to DeleteByWholeMapping does not panic. Only Size, the root and the degree are followed through arbitrary trees; the other theorems start from trees reached by histories (C75_bplus_reached_trees_stand, C75_bplus_insertions_and_lookups)."
  },
  {
   "property": "C76",
   "status": "proved",
   "theorems": [
    "C76_nodes_in_line",
    "C76_line_is_in_key_order",
    "C76_backwards_from_rightmost"
   ],
   "note": "The fuel bounds the loops of Next, Prev, MinChildNode and MaxChildNode by the number of nodes."
  },
  {
   "property": "C77",
   "status": "proved",
   "theorems": [
    "C77_panicking_comparators_lose_nothing",
    "C77_panicking_comparators_leave_the_lock",
    "C77_handshake_with_panicking_comparators",
    "C77_panicking_expiration_locks_the_queue_for_ever",
    "C77_later_calls_wait_for_ever",
    "C77_panicking_comparator_loses_the_wakeup_refuted"
   ],
   "note": "The caller of Push recovers, so the goroutine goes on outside the queue; if nobody recovers Go ends the process."
  },
  {
   "property": "C78",
   "status": "proved",
   "theorems": [
    "C78_linearizable_with_panics",
    "C78_only_additions_are_lost_to_len",
    "C78_memory_stays_sound",
    "C78_lock_free_with_panics",
    "C78_bounded_between_events",
    "C78_alone_abandoned_calls_change_nothing",
    "C78_alone_calls_are_exact",
    "C78_len_after_an_abandoned_add_refuted"
   ],
   "note": "Each goroutine that recovers is renamed after its panic, so an abandoned call is a pending call of the history. Len exactness of C52 is refuted for histories with panics."
  },
  {
   "property": "C79",
   "status": "proved",
   "theorems": [
    "C79_all_match_answers",
    "C79_all_match_exact",
    "C79_any_match_answers",
    "C79_any_match_exact",
    "C79_all_match_checks_everything_refuted",
    "C79_fold_one_segment_in_turn",
    "C79_fold_value",
    "C79_fold_returns_last",
    "C79_fold_nobody_is_held_up",
    "C79_fold_ends",
    "C79_fold_calls_overlap",
    "C79_fold_returns_last_refuted",
    "C79_collect_one_segment_in_turn",
    "C79_collect_returns_last",
    "C79_collect_ends",
    "C79_tryfold_one_segment_in_turn",
    "C79_tryfold_true",
    "C79_tryfold_false",
    "C79_tryfold_gives_up",
    "C79_tryfold_ends"
   ],
   "note": "Segments are given lists (C66); the events are entries to and exits from pull, the callback and the combiner. The claim that FoldWith returns last is refuted when there are more segments than the parallelism."
  },
  {
   "property": "C80",
   "status": "proved",
   "theorems": [
    "C80_priority_queue_keeps_what_it_popped",
    "C80_queue_keeps_only_its_elements",
    "C80_popped_node_keeps_those_behind_it",
    "C80_list_keeps_only_its_elements",
    "C80_removed_element_keeps_nothing",
    "C80_clear_keeps_every_element",
    "C80_skip_list_keeps_only_its_entries",
    "C80_tree_keeps_deleted_entries",
    "C80_slice_delete_keeps_the_last_cells",
    "C80_bplus_forgets_deleted_entries_refuted",
    "C80_lockfree_removed_element_stays_linked",
    "C80_lockfree_removing_downwards_keeps_all",
    "C80_lockfree_linked_is_reachable",
    "C80_lockfree_search_frees_refuted"
   ],
   "note": "References are the pointer fields of the heap models; the rest of a slab of 16 tree nodes, which Go frees only as a whole, is not counted. The tree theorem is about DeleteKeys with one key; for the B+ tree there is a counterexample to forgetting, no exact description. Lock-free skip list: the theorems about Del speak of one call (or one goroutine's calls) running alone after any concurrent history; the set reachable in general is not described exactly."
  },
  {
   "property": "C81",
   "status": "proved",
   "theorems": [
    "C81_delay_queue_without_comparator_is_safe",
    "C81_delay_queue_pushes_always_panic",
    "C81_delay_queue_wakes_nobody",
    "C81_lockfree_list_without_comparator",
    "C81_lockfree_list_calls_panic",
    "C81_lockfree_list_works_while_empty",
    "C81_lockfree_list_goes_on",
    "C81_rbtree_without_comparator",
    "C81_skiplist_without_comparator",
    "C81_skiplist_lookups_always_panic",
    "C81_priority_queue_without_comparator",
    "C81_bplus_without_comparator",
    "C81_at_most_one_entry",
    "C81_priority_queue_stuck_at_three"
   ],
   "note": "The functions are those of C74 and C75 with 0 answers of the comparator; calls on user-held tree nodes (PutNode) are left out. The B+ tree has no SetCompareFunc."
  },
  {
   "property": "C82",
   "status": "proved",
   "theorems": [
    "C82_fold_one_segment_in_turn",
    "C82_fold_panic_is_last",
    "C82_fold_value",
    "C82_fold_returns_last",
    "C82_fold_combiner_panics",
    "C82_fold_nobody_is_held_up",
    "C82_fold_ends",
    "C82_fold_returns_last_refuted",
    "C82_fold_nobody_is_held_up_refuted",
    "C82_collect_one_segment_in_turn",
    "C82_collect_returns_last",
    "C82_collect_ends",
    "C82_tryfold_one_segment_in_turn",
    "C82_tryfold_true",
    "C82_tryfold_false",
    "C82_tryfold_caller_panics",
    "C82_tryfold_ends",
    "C82_tryfold_false_then_panic"
   ],
   "note": "Segments are given lists, as in C79. The claims that FoldWith returns last and that nobody is held up are refuted when there are more segments than the parallelism."
  },
  {
   "property": "C83",
   "status": "proved",
   "theorems": [
    "C83_inorder_prints_the_reading",
    "C83_inorder_after_insertions",
    "C83_inorder_of_the_leftmost_leaf",
    "C83_inorder_prints_each_entry_once_refuted",
    "C83_inorder_prints_stored_keys_only_refuted"
   ],
   "note": "Printed lines are pairs of key and value; fmt itself is not modelled. The root node is not exported, so the theorem about the root speaks of what code inside the package prints; the unexported display, which nothing calls, is not modelled."
  }
 ]
}