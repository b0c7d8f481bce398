{
 "claims": [
  {
   "property": "C01",
   "status": "proved",
   "theorems": [
    "C01_insert_at",
    "C01_insert"
   ],
   "note": "for every lawful trait, every intact tree and valid cursor"
  },
  {
   "property": "C02",
   "status": "proved",
   "theorems": [
    "C02_push"
   ],
   "note": ""
  },
  {
   "property": "C03",
   "status": "partial",
   "theorems": [
    "C03_prepend_empty_refuted",
    "C03_prepend_partial",
    "C03_prepend_empty_partial"
   ],
   "note": "proved for non-empty trees; refuted for the empty tree: prepend leaves root_cache at the default"
  },
  {
   "property": "C04",
   "status": "proved",
   "theorems": [
    "C04_remove",
    "C04_remove_dead"
   ],
   "note": "for traits whose default cache is the aggregate of nothing, or trees without under-full nodes (kept by the ordered containers' own operations)"
  },
  {
   "property": "C05",
   "status": "proved",
   "theorems": [
    "C05_update_leaf"
   ],
   "note": "All results of f; the caller contract for need_update_cache=false is a hypothesis."
  },
  {
   "property": "C06",
   "status": "proved",
   "theorems": [
    "C06_update_leaf_by_search",
    "C06_too_deep",
    "C06_second_insertion"
   ],
   "note": "Full result for trees of at most 10 levels (the path buffer's capacity); deeper trees proved to panic, as is a second insertion. Correct diffs are a hypothesis."
  },
  {
   "property": "C07",
   "status": "proved",
   "theorems": [
    "C07_units",
    "C07_update"
   ],
   "note": "Every tree and ordered cursor pair; when the tree after the boundary splits is deeper than the path buffer (9 levels) the call is proved to panic. Correct diffs are a hypothesis (upd_sound)."
  },
  {
   "property": "C08",
   "status": "proved",
   "theorems": [
    "C08_drain",
    "C08_drain_by_query"
   ],
   "note": "Every tree and ordered cursor pair but the two excluded cases; when the tree after the boundary splits is deeper than the path buffer (9 levels) the call is proved to panic. C08_drain_by_query restates it by positions for trees without zero-length elements: right result, or panic on a tree deeper than 7."
  },
  {
   "property": "C09",
   "status": "proved",
   "theorems": [
    "C09_drain_early"
   ],
   "note": "For every number k of next() calls before the drop the yielded values are the first k drained ones and the final tree is the same tree for all k. Same exclusions as C08."
  },
  {
   "property": "C10",
   "status": "partial",
   "theorems": [
    "C10_drain_at_end_refuted",
    "C10_empty_range_partial",
    "C10_drain_empty_tree_refuted",
    "C10_drain_empty_range_at_end_refuted"
   ],
   "note": "REFUTED at the end of the tree and on the empty tree (Drain::drop unwraps a None store): general theorem and witnesses. Elsewhere an empty range drains nothing (C10_empty_range_partial)."
  },
  {
   "property": "C11",
   "status": "proved",
   "theorems": [
    "C11_history",
    "C11_all",
    "C11_check"
   ],
   "note": "Every history of valid calls of push, prepend, insert, remove_leaf, update_leaf, update, drain (dropped early or not) and update_leaf_by_search from the empty tree runs without panic and ends in such a state. Valid excludes the calls refuted as C03 (prepend on the empty tree), C10 and C44, and update/drain when the tree after the boundary splits is deeper than the path buffer (9 levels). check() itself is covered for trees up to 9 levels. C11_all adds bulk insertion, range updates, writes through get_elem_mut, filtered updates, clear and from_iter."
  },
  {
   "property": "C12",
   "status": "proved",
   "theorems": [
    "C12_history",
    "C12_all",
    "C12_root_cache"
   ],
   "note": "Every history of valid calls of push, prepend, insert, remove_leaf, update_leaf, update, drain (dropped early or not) and update_leaf_by_search from the empty tree runs without panic and ends in such a state. Valid excludes the calls refuted as C03 (prepend on the empty tree), C10 and C44, and update/drain when the tree after the boundary splits is deeper than the path buffer (9 levels). C12_all adds bulk insertion, range updates, writes through get_elem_mut, filtered updates, clear and from_iter."
  },
  {
   "property": "C13",
   "status": "proved",
   "theorems": [
    "C13_history",
    "C13_all",
    "C13_slots",
    "C13_fan_out"
   ],
   "note": "Every history of valid calls of push, prepend, insert, remove_leaf, update_leaf, update, drain (dropped early or not) and update_leaf_by_search from the empty tree runs without panic and ends in such a state. Valid excludes the calls refuted as C03 (prepend on the empty tree), C10 and C44, and update/drain when the tree after the boundary splits is deeper than the path buffer (9 levels). C13_all adds bulk insertion, range updates, writes through get_elem_mut, filtered updates, clear and from_iter. C13_slots: every stored slot of a non-root node is at most 10 and names the node in its parent."
  },
  {
   "property": "C14",
   "status": "proved",
   "theorems": [
    "C14_depth",
    "C14_min_entries"
   ],
   "note": ""
  },
  {
   "property": "C15",
   "status": "proved",
   "theorems": [
    "C15_history",
    "C15_all",
    "C15_node_len"
   ],
   "note": "Every history of valid calls of push, prepend, insert, remove_leaf, update_leaf, update, drain (dropped early or not) and update_leaf_by_search from the empty tree runs without panic and ends in such a state. Valid excludes the calls refuted as C03 (prepend on the empty tree), C10 and C44, and update/drain when the tree after the boundary splits is deeper than the path buffer (9 levels). C15_all adds bulk insertion, range updates, writes through get_elem_mut, filtered updates, clear and from_iter."
  },
  {
   "property": "C16",
   "status": "partial",
   "theorems": [
    "C16_dead_forever",
    "C16_handle_stable",
    "C16_handles_all",
    "C16_dead_all",
    "C16_stable_all",
    "C16_get_elem",
    "C16_clear_refuted"
   ],
   "note": "Handle/content correspondence, death forever and stability proved over all histories of valid calls of all mutating methods (C16_handles_all, C16_dead_all, C16_stable_all); REFUTED across clear(): the arenas restart and old handles alias new leaves."
  },
  {
   "property": "C17",
   "status": "proved",
   "theorems": [
    "C17_lazy",
    "C17_lazy_too_deep",
    "C17_iter",
    "C17_iter_too_deep"
   ],
   "note": "including the panic when deeper than the path buffer; C17_lazy: call by call, and None forever after the end"
  },
  {
   "property": "C18",
   "status": "proved",
   "theorems": [
    "C18_next",
    "C18_prev"
   ],
   "note": ""
  },
  {
   "property": "C19",
   "status": "proved",
   "theorems": [
    "C19_compare"
   ],
   "note": ""
  },
  {
   "property": "C20",
   "status": "proved",
   "theorems": [
    "C20_first",
    "C20_last",
    "C20_start",
    "C20_end",
    "C20_is_empty"
   ],
   "note": ""
  },
  {
   "property": "C21",
   "status": "proved",
   "theorems": [
    "C21_prefer_right",
    "C21_prefer_left"
   ],
   "note": ""
  },
  {
   "property": "C22",
   "status": "partial",
   "theorems": [
    "C22_shift_any_partial",
    "C22_shift_right_partial",
    "C22_shift_lost_refuted",
    "C22_shift_partial",
    "C22_shift_from_end_refuted"
   ],
   "note": "Proved from every cursor strictly inside an element (C22_shift_partial). C22_shift_any_partial gives the exact result for every offset: the carried offset is lost at the end of the node. So the claim holds as long as the units to pass lie under the same node (C22_shift_right_partial) and fails otherwise (C22_shift_lost_refuted general, C22_shift_from_end_refuted witness)."
  },
  {
   "property": "C23",
   "status": "proved",
   "theorems": [
    "C23_range",
    "C23_range_end",
    "C23_query_inside",
    "C23_query_past_end",
    "C23_query_empty",
    "C23_rope",
    "C23_range_num_map"
   ],
   "note": "for every trait whose aggregate carries the length; contract proved for Rope and the range-number map"
  },
  {
   "property": "C24",
   "status": "proved",
   "theorems": [
    "C24_too_deep",
    "C24_visit",
    "C24_visit_aggregate",
    "C24_visit_length"
   ],
   "note": "for trees at most 9 levels deep (NodePath capacity); deeper: panic (C24_too_deep)"
  },
  {
   "property": "C25",
   "status": "proved",
   "theorems": [
    "C25_lazy",
    "C25_lazy_same_leaf",
    "C25_too_deep",
    "C25_iter_range",
    "C25_iter_range_same_leaf",
    "C25_unbounded_start",
    "C25_unbounded_end"
   ],
   "note": "for trees at most 9 levels deep; deeper: panic (C25_too_deep); C25_lazy: call by call"
  },
  {
   "property": "C26",
   "status": "partial",
   "theorems": [
    "C26_lazy_partial",
    "C26_nonempty_range_partial",
    "C26_nonempty_depth_partial",
    "C26_unbounded_empty_refuted"
   ],
   "note": "REFUTED on the empty tree: both calls panic for every trait. Both succeed on every non-empty tree (C26_nonempty_*_partial)."
  },
  {
   "property": "C27",
   "status": "proved",
   "theorems": [
    "C27_from_iter",
    "C27_check"
   ],
   "note": "Every finite list of valid elements. The self-check and iter() walk paths of at most 10 entries, so C27_check is stated for up to 10^9 elements (never more than 9 levels)."
  },
  {
   "property": "C28",
   "status": "partial",
   "theorems": [
    "C28_insert_many_partial",
    "C28_insert_many_exact",
    "C28_nothing_lost",
    "C28_no_cursor_refuted",
    "C28_chunks",
    "C28_insert_many_empty_refuted",
    "C28_insert_many_place_refuted"
   ],
   "note": "The exact result for all data on a non-empty tree is C28_insert_many_exact; the claim as stated holds for inputs without mergeable neighbours whose first element does not merge into the leaf before the cursor's (C28_insert_many_partial); no unit is ever lost (C28_nothing_lost). Refuted: panics on an empty tree; merges into the previous leaf when the cursor is inside a leaf. Without a cursor the behaviour on every intact tree is C28_no_cursor_refuted."
  },
  {
   "property": "C29",
   "status": "partial",
   "theorems": [
    "C29_units_kept_partial",
    "C29_unmergeable_partial",
    "C29_merge_adj_refuted"
   ],
   "note": "REFUTED (order): witness given. Units are kept up to order for all data; unmergeable data is unchanged."
  },
  {
   "property": "C30",
   "status": "proved",
   "theorems": [
    "C30_iter_with_filter",
    "C30_shape_independent",
    "C30_stateful"
   ],
   "note": "Pure filters: C30_iter_with_filter, C30_shape_independent (filters respecting the aggregation). Any stateful filter, call by call: C30_stateful (order of the calls, result, everything asked in the first next)."
  },
  {
   "property": "C31",
   "status": "proved",
   "theorems": [
    "C31_ranges",
    "C31_units",
    "C31_stateful",
    "C31_stateless",
    "C31_empty_range_panics_refuted",
    "C31_empty_range_misapplied_refuted"
   ],
   "note": "C31_ranges (states for each leaf the run of leaves it becomes, which contains the leaf itself; every other leaf of the run is in the returned list): any lawful trait with USE_DIFF and a flattening, any non-empty well-formed tree, any list of non-empty ranges inside leaves (overlapping or not), any iteration order of both hash maps: the call succeeds (including the debug assertion on the result of each insertion), the tree stays well formed, each leaf is cut exactly at the range ends and each piece gets the closure once per covering range, in the order given; old handles survive and the returned handles are live. C31_units: the same unit by unit for closures acting unit by unit. Outside the property's domain: C31_empty_range_panics_refuted and C31_empty_range_misapplied_refuted show that empty ranges panic or are applied to a neighbouring piece. The returned list is not a list of new leaves: a piece merged back into its leaf reports the old handle (C31_example). C31_stateful: the same for closures with a state, threaded through leaves, pieces (left to right) and covering ranges (in the order given); C31_stateless: without state this is the call of C31_ranges."
  },
  {
   "property": "C32",
   "status": "proved",
   "theorems": [
    "C32_new",
    "C32_insert",
    "C32_insert_out_of_bounds",
    "C32_delete_range",
    "C32_delete_range_any",
    "C32_to_string",
    "C32_len",
    "C32_history",
    "C32_history_any",
    "C32_insert_history"
   ],
   "note": "Every history of insertions and deletions, every leaf capacity: right string, or panic of a deletion on a tree deeper than 7 (C32_history_any); insert-only histories never fail. Bytes; for UTF-8 see C51. Strings of at most 5^7 bytes never give such a tree (C59)."
  },
  {
   "property": "C33",
   "status": "partial",
   "theorems": [
    "C33_stale_cursor_refuted",
    "C33_silent_refuted",
    "C33_rope_clear_refuted",
    "C33_clear_partial"
   ],
   "note": "REFUTED: the cursor cached before clear is used after it. C33_stale_cursor_refuted: every later edit behind its position panics if its leaf is missing from the new tree; C33_silent_refuted: edits silently go to the wrong place if the new tree has a leaf of that name. Holds when no cursor is cached."
  },
  {
   "property": "C34",
   "status": "proved",
   "theorems": [
    "C34_new",
    "C34_insert_bytes",
    "C34_insert_bytes_rejects",
    "C34_push_bytes",
    "C34_insert_bytes_pair",
    "C34_insert_bytes_pair_rejects",
    "C34_delete",
    "C34_split",
    "C34_slice",
    "C34_merge",
    "C34_try_insert",
    "C34_len",
    "C34_insert_panics",
    "C34_insert_pair_panics",
    "C34_split_panics",
    "C34_try_insert_panics",
    "C34_slice_panics",
    "C34_slice_in_place_panics",
    "C34_merge_panics"
   ],
   "note": "every gap buffer operation acts on the content as the list operation, for every capacity; positions and ranges outside the content panic with debug assertions (C34_insert_panics, C34_insert_pair_panics, C34_split_panics, C34_try_insert_panics, C34_slice_panics, C34_slice_in_place_panics, C34_merge_panics)"
  },
  {
   "property": "C35",
   "status": "proved",
   "theorems": [
    "C35_from_str"
   ],
   "note": ""
  },
  {
   "property": "C36",
   "status": "proved",
   "theorems": [
    "C36_total",
    "C36_spec_get_insert",
    "C36_spec_get_insert_other",
    "C36_map",
    "C36_insert",
    "C36_search"
   ],
   "note": "History theorem over every list of inserts and deletes of present keys, for every total preorder on keys. Deleting absent keys is C37. C36_total: no history of insertions and deletions of any keys panics."
  },
  {
   "property": "C37",
   "status": "partial",
   "theorems": [
    "C37_delete_near_partial",
    "C37_spec_delete",
    "C37_spec_delete_other",
    "C37_delete_partial",
    "C37_delete_empty_partial",
    "C37_delete_absent_always_refuted",
    "C37_delete_absent_refuted"
   ],
   "note": "Holds for present keys and on the empty map. False for absent keys: every deletion of an absent key from a non-empty map removes another entry, always the one just before or just after the gap (C37_delete_near_partial)."
  },
  {
   "property": "C38",
   "status": "proved",
   "theorems": [
    "C38_spec_mem",
    "C38_set"
   ],
   "note": "OrdTreeSet is OrdTreeMap with unit values; the list specification is proved to be set membership."
  },
  {
   "property": "C39",
   "status": "proved",
   "theorems": [
    "C39_update_with_split",
    "C39_content",
    "C39_slice",
    "C39_default_split",
    "C39_bounds",
    "C39_slice_picks",
    "C39_update_picks",
    "C39_pick_unique",
    "C39_gap_buffer",
    "C39_range_elem"
   ],
   "note": "Every lawful Sliceable (SliceLaw; proved for GapBuffer and the range-number-map element), every range and every length-preserving or -changing f; the default Sliceable::split is covered. C39_bounds, C39_slice_picks and C39_update_picks say the same with the bounds spelled out as std::ops::Bound."
  },
  {
   "property": "C40",
   "status": "proved",
   "theorems": [
    "C40_clear"
   ],
   "note": "clear; clone is not modelled (values are immutable)"
  },
  {
   "property": "C41",
   "status": "proved",
   "theorems": [
    "C41_split_leaf"
   ],
   "note": ""
  },
  {
   "property": "C42",
   "status": "proved",
   "theorems": [
    "C42_rebalance"
   ],
   "note": ""
  },
  {
   "property": "C43",
   "status": "partial",
   "theorems": [
    "C43_never_called_refuted",
    "C43_update_zero_length_refuted"
   ],
   "note": "REFUTED (documentation claim): for every tree, cursor and function a zero-length range never calls the function (C43_never_called_refuted); witness given"
  },
  {
   "property": "C44",
   "status": "partial",
   "theorems": [
    "C44_drain_zero_length_refuted",
    "C44_drain_any_partial",
    "C44_covered_next_partial",
    "C44_covered_prev_partial"
   ],
   "note": "Drained values, remaining sequence, links and shape are right for all lengths (C44_drain_any_partial: equal to an intact tree except for cached summaries). The summaries are right if every node above the zero-length end element that loses leaves is above the leaf before the range or above the successor of the end element, e.g. if the end element and its successor share a parent. REFUTED otherwise (C44_drain_zero_length_refuted): drop refreshes the summaries above the wrong leaf."
  },
  {
   "property": "C45",
   "status": "partial",
   "theorems": [
    "C45_emptied_refuted",
    "C45_check_partial",
    "C45_ord_delete_last_refuted"
   ],
   "note": "Holds for every non-empty map; false for every map emptied by delete (C45_emptied_refuted): the root cache keeps naming the removed key and check panics."
  },
  {
   "property": "C46",
   "status": "proved",
   "theorems": [
    "C46_write_and_refresh",
    "C46_write_same_cache"
   ],
   "note": "C46_write_and_refresh, any lawful trait; C46_write_same_cache when the cache does not change. The write through the returned reference is modelled as a store of a new element."
  },
  {
   "property": "C47",
   "status": "partial",
   "theorems": [
    "C47_frame",
    "C47_effect_partial",
    "C47_root_cache_refuted"
   ],
   "note": "C47_frame: for all stateless callbacks, what is and is not rewritten. C47_effect_partial: callbacks obeying UcfLaw give an intact tree with exactly the accepted elements updated, except that root_cache is never written; hence intact iff the aggregate of the content is unchanged. C47_root_cache_refuted: the root cache claim is false (emptying all chunks of a rope leaves root_cache at the old length, check panics)."
  },
  {
   "property": "C48",
   "status": "partial",
   "theorems": [
    "C48_sound_partial",
    "C48_exact_partial",
    "C48_blind_refuted",
    "C48_fan_out_refuted"
   ],
   "note": "C48_sound_partial / C48_exact_partial: a passing check together with the facts of Unchecked (leaf entries live and naming the node, listed once, root without parent, fan-out, valid elements, arena counters) is equivalent to an intact tree of at most 9 levels. The claim without them is false: C48_blind_refuted (dangling leaf entry, leaf listed twice, root its own child), C48_fan_out_refuted."
  },
  {
   "property": "C49",
   "status": "proved",
   "theorems": [
    "C49_new",
    "C49_insert",
    "C49_plus",
    "C49_drain",
    "C49_get",
    "C49_history",
    "C49_short",
    "C49_empty_insert"
   ],
   "note": "Refinement to lists of optional numbers, over all histories of insert/plus/drain with any iteration order of the dirty map. insert(0..0) into an empty map (pushes an entry of length 0) and drains outside the array are excluded by mops_ok; the only panic is on trees deeper than 7; C49_short: none at all while the array, with the room reserved by the calls, stays within 5^7 entries. C49_empty_insert: what the excluded insert(0..0) does."
  },
  {
   "property": "C50",
   "status": "partial",
   "theorems": [
    "C50_values_partial",
    "C50_ranges_partial",
    "C50_iter_refuted"
   ],
   "note": "Refuted (C50_iter_refuted): indices are not advanced over entries without value. C50_values_partial: the values are right; C50_ranges_partial: the ranges are right if the entries without value all come last."
  },
  {
   "property": "C51",
   "status": "proved",
   "theorems": [
    "C51_check_is_utf8",
    "C51_boundary",
    "C51_to_string",
    "C51_history",
    "C51_inside",
    "C51_cut"
   ],
   "note": "The check behind to_string is exactly \"encoding of a sequence of Unicode scalar values\" (C51_check_is_utf8). Histories that insert strings at character boundaries and delete between boundaries: to_string succeeds (C51_history; trees of at most 7 levels). It panics exactly on other byte contents (C51_to_string), which insertion inside a character always produces (C51_inside) and deletions can produce (C51_cut): Rope accepts such edits."
  },
  {
   "property": "C52",
   "status": "proved",
   "theorems": [
    "C52_edges",
    "C52_average",
    "C52_overhead",
    "C52_tables",
    "C52_history"
   ],
   "note": "For every intact tree and every history (C52_history): the child entries name every node but the root exactly once (C52_edges), so sum + 1 = count + number of elements, 1 <= average <= 11 (C52_average); with minimal fan-outs the number of internal nodes is between a tenth and a fifth of the number of elements (C52_overhead); the printed tables count fan-outs and element lengths (C52_tables). The rounding of the f64 division is not modelled: the exact fraction is."
  },
  {
   "property": "C53",
   "status": "partial",
   "theorems": [
    "C53_push_partial",
    "C53_push_at_end_partial",
    "C53_push_refuted"
   ],
   "note": "False of the code: push writes at the gap (C53_push_refuted: [2;1] becomes [2;3;1]). Proved: full buffers answer Err, other buffers get the byte at the gap (C53_push_partial), which is the end exactly when nothing lies behind the gap (C53_push_at_end_partial). The crate itself does not call push."
  },
  {
   "property": "C54",
   "status": "proved",
   "theorems": [
    "C54_reads",
    "C54_writes",
    "C54_insert_many",
    "C54_ranges",
    "C54_args"
   ],
   "note": "Reads (C54_reads), writes (C54_writes), bulk insertion (C54_insert_many), ranges with one dead end (C54_ranges) and update_leaves_with_arg_in_ranges (C54_args) on any dead handle. C16_dead_all says that removed handles stay dead."
  },
  {
   "property": "C55",
   "status": "partial",
   "theorems": [
    "C55_one_leaf_partial",
    "C55_past_end_partial",
    "C55_update_refuted",
    "C55_iter_range_refuted",
    "C55_drain_refuted"
   ],
   "note": "False of the code. Proved: update and drain panic for reversed ranges within one leaf that end behind its first position (C55_one_leaf_partial) and for offsets past the end (C55_past_end_partial). All other reversed ranges: update calls the function on everything from the start to the end of the tree (C55_update_refuted), iter_range yields all of it (C55_iter_range_refuted), drain can remove it (C55_drain_refuted, a witness)."
  },
  {
   "property": "C56",
   "status": "partial",
   "theorems": [
    "C56_leak_partial",
    "C56_refuted"
   ],
   "note": "False of the code (C56_refuted). Proved: the tree left behind is exactly the cut tree without the leaves handed out; with no call of next it is intact; after at least one, iteration always panics (C56_leak_partial)."
  },
  {
   "property": "C57",
   "status": "partial",
   "theorems": [
    "C57_update_partial",
    "C57_update_leaf_partial",
    "C57_by_search_partial",
    "C57_refuted",
    "C57_ranges_partial",
    "C57_ranges_refuted"
   ],
   "note": "False of the code: summaries are stale (C57_refuted). Proved: the elements, links, depth and handles are right in every case (an intact tree with the expected content differs from it only in summaries), the summaries are those from before the calls, and the tree is intact if no summary changed (C57_update_partial, C57_update_leaf_partial, C57_by_search_partial). After update_leaf one recursive_update_cache mends it. update_leaves_with_arg_in_ranges: false too, pieces after the first of the visited leaves are lost (C57_ranges_refuted); proved: exactly these are lost, links, depth and handles are right (C57_ranges_partial)."
  },
  {
   "property": "C58",
   "status": "proved",
   "theorems": [
    "C58_ord",
    "C58_rope",
    "C58_rope_short",
    "C58_blind"
   ],
   "note": "C58_ord unconditional; C58_rope with the depth alternative of the statement; C58_rope_short: no such alternative for up to 26041 actions. C58_blind: what the ordered-set harness cannot see (it only deletes members; deleting absent keys fails, C37)."
  },
  {
   "property": "C59",
   "status": "proved",
   "theorems": [
    "C59_meaning",
    "C59_step",
    "C59_history",
    "C59_sized",
    "C59_rope_depth",
    "C59_rope_delete",
    "C59_rope_to_string",
    "C59_rope_history"
   ],
   "note": "Every history of all mutating methods but collecting from an iterator (from_iter builds a thin right spine; its depth is bounded by C27), and of rope edits. C59_sized and C59_rope_history have no hypothesis on depths, only on sizes (at most 5^7 elements or bytes)."
  },
  {
   "property": "C60",
   "status": "proved",
   "theorems": [
    "C60_levels",
    "C60_empty",
    "C60_history",
    "C60_collect",
    "C60_rope",
    "C60_visit"
   ],
   "note": "Every finder, every intact tree; the logarithmic bounds combine with C27 and C59. Work inside a node is bounded by its at most 11 children; running time itself is not modelled."
  },
  {
   "property": "C61",
   "status": "proved",
   "theorems": [
    "C61_trace",
    "C61_random",
    "C61_rope",
    "C61_rope_from",
    "C61_unit_tests",
    "C61_insert_many",
    "C61_repeat_insert",
    "C61_ben",
    "C61_test_clear",
    "C61_from_str",
    "C61_from_iter",
    "C61_drain"
   ],
   "note": "Contextual equivalence for all adaptive programs over insert, delete_range, len, is_empty, to_string, check and the test helper test_prev_length, for strings of at most 5^7 bytes. clear is left out of the programs because it leaves the cursor cache behind (C33); slice_bytes, iter and drain are covered by C34/C35 only. All unit tests of rope.rs (with loop counts, strings and data as parameters), including test_clear, from_str, from_iter and drain, which reach into the tree and are stated directly. C61_trace and C61_random are the benchmarks and the example with any actions; the shipped editing trace itself peaks at 106979 bytes, above the bound 5^7 on the text that rules out a tree deeper than 7 levels (C59), so for it only C32_history_any applies: the right text, or a panic of a deletion on a tree deeper than 7 levels."
  },
  {
   "property": "C62",
   "status": "proved",
   "theorems": [
    "C62_ord",
    "C62_ord_from",
    "C62_test",
    "C62_test_delete",
    "C62_test_compare_pos",
    "C62_move_event_test",
    "C62_set",
    "C62_set_from",
    "C62_set_insert",
    "C62_set_delete",
    "C62_bench"
   ],
   "note": "Contextual equivalence for all adaptive programs over insert, delete, len, is_empty, iter, iter_key, check and compare_pos of two keys. Excluded by ord_legal because false of the code: deleting an absent key from a non-empty map (C37) and checking an empty map (C45). The unit tests of ord.rs for all data; the ignored depth_test prints only and is not included. C62_set and C62_set_from are the same for OrdTreeSet; C62_bench is benches/bench_ord.rs for any data."
  },
  {
   "property": "C63",
   "status": "proved",
   "theorems": [
    "C63_program",
    "C63_program_from",
    "C63_basic",
    "C63_get_item",
    "C63_iter",
    "C63_drain",
    "C63_plus"
   ],
   "note": "Program logic for all adaptive programs over insert, plus, get, len, iter and drain (run to the end): a condition on arrays only implies that the run on the map ends without panic in the stated result; arrays of at most 5^7 entries, any iteration order of the dirty map. iter and drain may cut the values into ranges in any way (C50). All tests of tests/integration.rs as instances, with their constants as parameters."
  },
  {
   "property": "C64",
   "status": "proved",
   "theorems": [
    "C64_len",
    "C64_caches",
    "C64_lookup",
    "C64_history",
    "C64_bound_needed"
   ],
   "note": "For the trait of the rope with its cache in wrapping integers of any width: it is lawful, so every tree theorem holds at any length (C64_history: no operation panics because of an overflow); stored lengths are exact while the total is below h (2^63), lookups by position while it is below 2h (2^64), which is needed (C64_bound_needed). This is the behaviour of builds without overflow checks; that intermediate sums do not overflow in builds with overflow checks is not shown. The Rope methods themselves are modelled with unbounded integers."
  },
  {
   "property": "C65",
   "status": "proved",
   "theorems": [
    "C65_meaning",
    "C65_insert",
    "C65_insert_by_path",
    "C65_push",
    "C65_prepend",
    "C65_remove",
    "C65_update_leaf",
    "C65_update_leaf_by_search",
    "C65_log_insert",
    "C65_log_insert_by_path",
    "C65_log_push",
    "C65_log_prepend",
    "C65_log_remove",
    "C65_log_update_leaf",
    "C65_log_update_leaf_by_search",
    "C65_log_insert_many",
    "C65_log_update",
    "C65_log_ranges",
    "C65_rope_insert",
    "C65_rope_paste",
    "C65_rope_delete",
    "C65_rope_delete_in",
    "C65_map_insert",
    "C65_map_delete"
   ],
   "note": "Counts distinct arena entries that differ after a call that returns, not steps. The number of steps of the reads is bounded in C60 (lookups). Covers insert, insert_by_path, push, prepend, remove_leaf, update_leaf, update_leaf_by_search, insert_many_by_cursor with a cursor, update of a range, update_leaves_with_arg_in_ranges, ordered maps, and ropes: the insertion of a text of any length and the deletion of one byte or of a range inside one buffer. Drains (so deletions from a rope that reach into another buffer) are not covered by a bound; they may write many nodes. What update_cache_and_elem_with_filter writes is described exactly by C47_frame: the nodes its filter accepts. C65_meaning spells out the footprint relation."
  },
  {
   "property": "C66",
   "status": "proved",
   "theorems": [
    "C66_space",
    "C66_space_log",
    "C66_space_full",
    "C66_history",
    "C66_from_iter",
    "C66_rope",
    "C66_map"
   ],
   "note": "Counts arena entries (node_len), not bytes; the capacity of the arenas' backing vectors is not modelled. A tree that from_iter has just collected has its own bound (C66_from_iter), because its right spine may be thin; a history that goes on after from_iter is not covered. Everything else is, through the minimal filling of C59."
  }
 ]
}