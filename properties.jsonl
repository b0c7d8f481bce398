{"id": "C01", "title": "Insert at a cursor splices the sequence", "statement": "insert_by_path(cursor, data) on a valid cursor (live leaf, offset <= its rle_len) never panics; afterwards iter() yields the old element sequence with data placed exactly at the cursor: absorbed by the leaf if try_insert/can_merge says so, otherwise as a new leaf before/after the leaf or between its two halves; all other leaves keep their handle, element and order; the returned cursor addresses the inserted data and the splitted list names exactly the leaf that received the right half.", "quantifier": "every well-formed tree, every lawful BTreeTrait, every live leaf, offset and element", "why_tests_cant": "tree shapes, fan-outs and cursors are unbounded; a wrong slot only shows for particular node fullness", "anchors": ["src/lib.rs: BTree::insert_by_path, split_leaf_if_needed, alloc_leaf_child, split"]}
{"id": "C02", "title": "push appends", "statement": "push(e) never panics and afterwards iter() yields the old sequence followed by e, either merged into the last element (iff can_merge) or as a new last leaf; the returned cursor addresses the start of e.", "quantifier": "every well-formed tree and element", "why_tests_cant": "needs all fullness patterns of the right spine", "anchors": ["src/lib.rs: BTree::push"]}
{"id": "C03", "title": "prepend prepends", "statement": "prepend(e) never panics and afterwards iter() yields e followed by the old sequence (merged into the first element iff can_merge), and root_cache() is the aggregate of the new sequence.", "quantifier": "every well-formed tree, including the empty one, and every element", "why_tests_cant": "fullness patterns of the left spine; the empty tree takes a separate path", "anchors": ["src/lib.rs: BTree::prepend"]}
{"id": "C04", "title": "remove_leaf removes exactly one leaf", "statement": "remove_leaf(cursor) on a live leaf returns its element, and afterwards iter() yields the old sequence without that leaf, every other leaf keeping handle, element and order; on a leaf that is not (or no longer) in the tree it returns None and changes nothing.", "quantifier": "every well-formed tree and every leaf handle, live or stale", "why_tests_cant": "rebalancing after removal (borrow, merge, cascade, root collapse) depends on the whole shape", "anchors": ["src/lib.rs: BTree::remove_leaf, remove_internal_node, handle_lack_recursively, handle_lack_single_layer, try_reduce_levels"]}
{"id": "C05", "title": "update_leaf rewrites one leaf in place", "statement": "update_leaf(leaf, f) replaces the leaf's element by the non-removable ones among (f's new element, new_insert_1, new_insert_2) in that order at the same place in the sequence (a single extra element may instead be merged into the following element); the bool result is false exactly when nothing remains and the leaf is removed; no other element changes.", "quantifier": "every well-formed tree, live leaf, and result of f", "why_tests_cant": "normalisation has many cases and each can trigger a node split or rebalancing", "anchors": ["src/lib.rs: BTree::update_leaf"]}
{"id": "C06", "title": "update_leaf_by_search edits the leaf the query finds", "statement": "update_leaf_by_search(q, f) applies f to the element reached by the query and nothing else; removable results are removed (and None returned), an extra element is placed right after it, and all caches stay correct if f reports a correct diff; in a tree deeper than the fixed path capacity (10 levels) it panics before calling f.", "quantifier": "every non-empty well-formed tree, query and f", "why_tests_cant": "splits and merges are done along the search path with diffs instead of recomputation", "anchors": ["src/lib.rs: BTree::update_leaf_by_search"]}
{"id": "C07", "title": "update visits exactly the range", "statement": "update(start..end, f) calls f exactly once, in order, on the pieces of the elements lying between the two cursors (after splitting boundary elements) and on nothing else; everything outside the range is unchanged; removable results are dropped; caches are right afterwards. If the tree after the boundary splits is too deep for the fixed-capacity path (10 entries) the call panics before f is called.", "quantifier": "every well-formed tree, every ordered pair of cursors, every f", "why_tests_cant": "range endpoints against node boundaries and cascaded splits are unbounded", "anchors": ["src/lib.rs: BTree::update, split_leaf_if_needed, update_dirty_cache_map"]}
{"id": "C08", "title": "drain removes exactly the range", "statement": "draining start..end yields, in order, exactly the (pieces of) elements between the cursors, and after the Drain is dropped iter() yields exactly the elements before start followed by those from end on; the structure and all caches are valid again. If the tree after the boundary splits is too deep for the fixed-capacity path (10 entries) the call panics.", "quantifier": "every well-formed tree and every ordered pair of cursors (also empty ranges), except a start at the end of the tree (C10) and an end directly before a zero-length element (C44)", "why_tests_cant": "multi-level deletion, cache repair on two spines and re-sealing depend on depth and shape", "anchors": ["src/iter.rs: Drain::new, Drain::next, Drain::drop, seal, handle_lack_on_path_to_leaf", "src/lib.rs: drain, drain_by_query, purge, filter_deleted_children"]}
{"id": "C09", "title": "Dropping a Drain early is the same as consuming it", "statement": "For every number k of next() calls made before the Drain is dropped, the values returned are the first k of the full drain and the tree after the drop is the same.", "quantifier": "every drain that C08 covers and every k", "why_tests_cant": "the tree is in an invalid state between the calls", "anchors": ["src/iter.rs: Drain::next, ensure_finished, drop"]}
{"id": "C10", "title": "Draining an empty tree or an empty range at the end is a no-op", "statement": "drain_by_query on an empty tree, or drain of an empty range located at the end of the tree, yields nothing and leaves the tree unchanged without panicking.", "quantifier": "every tree", "why_tests_cant": "a separate code path (Drain::none) reached only at the boundary", "anchors": ["src/iter.rs: Drain::none, Drain::drop"]}
{"id": "C11", "title": "Structural invariant (check) holds after every operation", "statement": "In every state reachable from an empty tree by push, prepend, insert, remove_leaf, update_leaf, update, drain the self-check BTree::check() succeeds: parent links and slots agree with child lists, all leaves are at the same depth, no internal node but the root is empty and every cached value equals the one recomputed from scratch.", "quantifier": "every finite history of valid calls from the empty tree (push, prepend, insert, remove_leaf, update_leaf, update, drain, update_leaf_by_search; excluded: prepend on the empty tree, see C03, the drains of C10/C44, and update/drain on trees deeper than the path buffer allows); every lawful trait", "why_tests_cant": "histories are unbounded", "anchors": ["src/lib.rs: BTree::check and all mutators"]}
{"id": "C12", "title": "root_cache is the aggregate of all elements", "statement": "After every operation root_cache() equals the aggregate of get_elem_cache over the elements in iteration order.", "quantifier": "every finite history of valid calls from the empty tree (push, prepend, insert, remove_leaf, update_leaf, update, drain, update_leaf_by_search; excluded: prepend on the empty tree, see C03, the drains of C10/C44, and update/drain on trees deeper than the path buffer allows); every lawful trait", "why_tests_cant": "diff propagation and recomputation are mixed along different paths", "anchors": ["src/lib.rs: recursive_update_cache, recursive_update_cache_with_diff, update_dirty_cache_map, calc_cache, root_cache"]}
{"id": "C13", "title": "Fan-out bound: fixed-capacity child vectors never overflow", "statement": "No operation ever pushes a 13th child into a node (the unwraps on heapless pushes never fail) and after every operation each node has at most 11 children.", "quantifier": "every finite history of valid calls from the empty tree (push, prepend, insert, remove_leaf, update_leaf, update, drain, update_leaf_by_search; excluded: prepend on the empty tree, see C03, the drains of C10/C44, and update/drain on trees deeper than the path buffer allows); every lawful trait", "why_tests_cant": "needs the worst case over all histories", "anchors": ["src/lib.rs: MAX_CHILDREN_NUM, split, split_leaf_if_needed, handle_lack_single_layer"]}
{"id": "C14", "title": "All leaves at the same depth; depth is logarithmic for the ordered containers", "statement": "In every reachable tree all leaves are at depth depth(); for OrdTreeMap/OrdTreeSet every non-root node has at least 6 children, so depth d holds at least 2*6^(d-1) entries.", "quantifier": "all histories", "why_tests_cant": "growth and shrink interleavings", "anchors": ["src/lib.rs: depth, is_lack, split, handle_lack_single_layer"]}
{"id": "C15", "title": "No leaks: node_len counts exactly the reachable nodes", "statement": "After every operation the arenas hold exactly the nodes reachable from the root: node_len() = number of internal nodes reachable + number of elements iterated.", "quantifier": "every finite history of valid calls from the empty tree (push, prepend, insert, remove_leaf, update_leaf, update, drain, update_leaf_by_search; excluded: prepend on the empty tree, see C03, the drains of C10/C44, and update/drain on trees deeper than the path buffer allows); every lawful trait", "why_tests_cant": "leaks are invisible to functional tests", "anchors": ["src/lib.rs: node_len, purge, remove_internal_node, try_reduce_levels"]}
{"id": "C16", "title": "Leaf handles are stable", "statement": "A LeafIndex keeps denoting the same live leaf across every operation that does not remove that leaf (inserts, splits, merges of internal nodes, root growth/collapse), and after the leaf is removed get_elem(handle) is None forever, also after further insertions.", "quantifier": "all histories", "why_tests_cant": "handles are held across unboundedly many operations", "anchors": ["src/lib.rs: LeafIndex, get_elem, split_node, handle_lack_single_layer"]}
{"id": "C17", "title": "iter yields the in-order sequence", "statement": "iter() yields each live element exactly once in tree order (depth first, left to right); it panics only if the tree is deeper than the fixed path capacity (depth() > 9).", "quantifier": "every well-formed tree", "why_tests_cant": "cursor movement across node boundaries at any depth", "anchors": ["src/lib.rs: iter, first_path, next_sibling"]}
{"id": "C18", "title": "next_elem / prev_elem are the neighbours in iteration order", "statement": "For every live leaf next_elem returns the leaf following it in iteration order (None for the last) and prev_elem the preceding one (None for the first); they are mutually inverse.", "quantifier": "every well-formed tree and live leaf", "why_tests_cant": "crossing subtree boundaries at arbitrary height", "anchors": ["src/lib.rs: next_elem, prev_elem, next_same_level_in_node, prev_same_level_in_node"]}
{"id": "C19", "title": "compare_pos is the iteration order", "statement": "compare_pos(a,b) is Less / Equal / Greater exactly according to the positions of the leaves in iteration order and then the offsets; it is a total order on valid cursors.", "quantifier": "every well-formed tree and every pair of valid cursors", "why_tests_cant": "lowest common ancestor can be anywhere", "anchors": ["src/lib.rs: compare_pos"]}
{"id": "C20", "title": "first_leaf / last_leaf / start_cursor / end_cursor", "statement": "first_leaf()/last_leaf() are the first/last leaves in iteration order (None iff the tree is empty); start_cursor is (first,0), end_cursor is (last, its length).", "quantifier": "every well-formed tree", "why_tests_cant": "any depth", "anchors": ["src/lib.rs: first_leaf, last_leaf, start_cursor, end_cursor, is_empty"]}
{"id": "C21", "title": "prefer_left / prefer_right denote the same position", "statement": "prefer_right maps (leaf, len) to (next leaf, 0) (None at the end) and leaves other cursors alone; prefer_left maps (leaf,0) to (previous leaf, its length) (None at the beginning) and leaves other cursors alone; the absolute position is unchanged whenever a cursor is returned.", "quantifier": "every well-formed tree and valid cursor", "why_tests_cant": "any boundary", "anchors": ["src/lib.rs: prefer_left, prefer_right"]}
{"id": "C22", "title": "shift_path_by_one_offset advances the absolute position by one", "statement": "For a valid cursor, shift_path_by_one_offset returns the cursor whose absolute offset is one larger, resting on a non-empty element strictly inside it, or None iff there is no such position.", "quantifier": "every well-formed tree and valid cursor (offset <= length)", "why_tests_cant": "empty elements and node boundaries in the way", "anchors": ["src/lib.rs: shift_path_by_one_offset"]}
{"id": "C23", "title": "Length queries find the right place", "statement": "query::<LengthFinder>(i) with i < total length returns found=true and the leaf and offset containing the i-th unit; with i = total length it returns found=false and the end of the last element; on an empty tree None.", "quantifier": "every well-formed tree whose caches are lengths, every i <= total", "why_tests_cant": "depends on all caches on the path", "anchors": ["src/generic_impl/len_finder.rs: LengthFinder::find_node, confirm_elem", "src/lib.rs: query, query_with_finder_return"]}
{"id": "C24", "title": "visit_previous_caches partitions the prefix", "statement": "The caches handed to the callback by visit_previous_caches(cursor) followed by this element aggregate to exactly the elements before the cursor's leaf; for length caches their sum plus the offset is the absolute position, i.e. it inverts query::<LengthFinder>.", "quantifier": "every well-formed tree and valid cursor", "why_tests_cant": "any path", "anchors": ["src/lib.rs: visit_previous_caches, get_path"]}
{"id": "C25", "title": "iter_range yields exactly the leaves between two cursors", "statement": "iter_range(a..b) yields in order exactly the leaves from a's to b's (excluding b's leaf when b.offset = 0 and the end is exclusive), with start set only on a's leaf and end only on b's.", "quantifier": "every well-formed tree and ordered pair of cursors", "why_tests_cant": "arbitrary spans across subtrees", "anchors": ["src/lib.rs: iter_range, _iter_range", "src/iter.rs: Iter::next"]}
{"id": "C26", "title": "Unbounded ranges on an empty tree", "statement": "iter_range(..) on an empty tree yields nothing, and depth() of an empty tree does not panic.", "quantifier": "the empty tree", "why_tests_cant": "boundary behaviour", "anchors": ["src/lib.rs: iter_range, start_cursor, depth"]}
{"id": "C27", "title": "Bulk construction preserves the sequence", "statement": "BTree::from_iter(xs) terminates without panic in a well-formed tree (check() succeeds) whose iter() is xs in order and whose root_cache is the aggregate of xs.", "quantifier": "every finite input list", "why_tests_cant": "level-by-level grouping at all sizes", "anchors": ["src/lib.rs: FromIterator::from_iter"]}
{"id": "C28", "title": "Bulk insertion equals inserting the sequence at the cursor", "statement": "insert_many_by_cursor(cursor, xs) results in the same content as splicing xs, in order, at the cursor (at the end if the cursor is None and the tree is empty), without panicking, with correct caches.", "quantifier": "every well-formed tree, cursor and list", "why_tests_cant": "merging of adjacent inputs and neighbours depends on data", "anchors": ["src/lib.rs: insert_many_by_cursor, merge_adj, create_subtrees_from_elem, split_leaf_if_needed"]}
{"id": "C29", "title": "merge_adj preserves content order", "statement": "The pre-pass merging adjacent mergeable inputs keeps the concatenated content in order.", "quantifier": "every list of mergeable elements", "why_tests_cant": "the wrong permutation needs particular merge patterns", "anchors": ["src/lib.rs: merge_adj"]}
{"id": "C30", "title": "iter_with_filter yields exactly the accepted leaves with prefix offsets", "statement": "iter_with_filter(f) yields, in tree order, exactly the leaves all of whose ancestors' caches and whose own cache pass f, each with the sum of f's second component over everything to its left; when f is a homomorphism the offset is the aggregate over all preceding elements.", "quantifier": "every well-formed tree and pure filter", "why_tests_cant": "pruning at any level", "anchors": ["src/lib.rs: iter_with_filter"]}
{"id": "C31", "title": "update_leaves_with_arg_in_ranges applies each argument exactly to its range", "statement": "For disjoint or overlapping non-empty ranges inside leaves, every element piece is passed to f once for each range that covers it and no other, and the sequence is otherwise unchanged, independent of hash iteration order; a closure that keeps state sees the leaves one after the other, the pieces of a leaf from left to right and the covering ranges in the order given.", "quantifier": "every well-formed non-empty tree over a trait with USE_DIFF, every list of (leaf, non-empty range, arg) and every hash order; every closure that returns valid elements, with or without state", "why_tests_cant": "hash iteration order is nondeterministic", "anchors": ["src/lib.rs: update_leaves_with_arg_in_ranges, update_dirty_cache_map"]}
{"id": "C32", "title": "Rope behaves like a byte string", "statement": "Starting from an empty rope, after any sequence of insert(i, s) with i <= len and delete_range(a..b), to_string()'s bytes and len() equal those of a plain byte vector subjected to the same edits, and no call panics (while the tree is at most 7 levels deep: a deletion may add two levels and node paths hold 10 entries; insertions never panic at any depth); inserting beyond the end panics.", "quantifier": "all edit histories, including every use of the cached cursor", "why_tests_cant": "histories and cursor cache interactions are unbounded", "anchors": ["src/generic_impl/rope.rs: Rope::insert, delete_range, len, Display", "src/generic_impl/gap_buffer.rs: GapBuffer"]}
{"id": "C33", "title": "Rope::clear resets the rope", "statement": "After clear() the rope behaves exactly like a new one for all later edits.", "quantifier": "all histories containing clear", "why_tests_cant": "the stale cursor matters only after particular edits", "anchors": ["src/generic_impl/rope.rs: Rope::clear, Rope.cursor"]}
{"id": "C34", "title": "GapBuffer behaves like a bounded byte vector", "statement": "Each of insert_bytes, insert_bytes_pair, push_bytes, delete, split, slice, merge_left, merge_right, try_insert acts on the byte content as the corresponding list operation, rejects exactly when the capacity would be exceeded, never touches bytes outside, and never corrupts the gap.", "quantifier": "every capacity, content, gap position and argument", "why_tests_cant": "gap positions times arguments", "anchors": ["src/generic_impl/gap_buffer.rs: GapBuffer::*"]}
{"id": "C35", "title": "GapBuffer::from_str chops losslessly", "statement": "The chunks produced by from_str concatenate to the input, each has between 1 and MAX_STRING_SIZE bytes, and all but the last are full.", "quantifier": "every byte string", "why_tests_cant": "all lengths", "anchors": ["src/generic_impl/gap_buffer.rs: GapBuffer::from_str"]}
{"id": "C36", "title": "OrdTreeMap insert/lookup behaves like a sorted map", "statement": "After any sequence of inserts and deletes of present keys no call panics, len() is the size of the abstract finite map, and iter() yields its entries in strictly increasing key order (iter: for maps below 2*6^9 = 20155392 entries, where the iterator's fixed-capacity path of 10 suffices).", "quantifier": "all histories, every total order on keys", "why_tests_cant": "histories unbounded; caches steer the search", "anchors": ["src/generic_impl/ord.rs: OrdTreeMap::insert, iter, len, OrdTrait::find_node, confirm_elem"]}
{"id": "C37", "title": "OrdTreeMap::delete removes exactly the given key", "statement": "delete(k) removes k's entry and returns it if k is present; if k is absent it returns None and changes nothing.", "quantifier": "every reachable map and every key", "why_tests_cant": "needs absent keys; existing tests only delete present keys", "anchors": ["src/generic_impl/ord.rs: OrdTreeMap::delete, OrdTreeSet::delete"]}
{"id": "C38", "title": "OrdTreeSet is a sorted set", "statement": "OrdTreeSet's insert, delete of present keys, iter and len implement a mathematical set with iteration in strictly increasing order (iter: below 2*6^9 keys, where the iterator's fixed-capacity path suffices).", "quantifier": "all histories", "why_tests_cant": "as for the map", "anchors": ["src/generic_impl/ord.rs: OrdTreeSet"]}
{"id": "C39", "title": "update_with_split partitions an element", "statement": "Sliceable::update_with_split(range, f) leaves self and the returned parts, concatenated, equal to the original content with f applied exactly to the slice in range, for every sub-range of the element.", "quantifier": "every lawful Sliceable, range and f", "why_tests_cant": "four boundary cases over all ranges", "anchors": ["src/rle.rs: Sliceable::update_with_split, split, slice"]}
{"id": "C40", "title": "clear and clone", "statement": "clear() makes the tree equal to a new one: empty, default root_cache, node_len 1; later operations behave as on a new tree.", "quantifier": "every tree", "why_tests_cant": "any prior state", "anchors": ["src/lib.rs: clear, new"]}
{"id": "C41", "title": "Splitting a leaf for an update is invisible", "statement": "split_leaf_if_needed used by update and drain changes neither the content sequence nor any aggregate, keeps the left part under the old handle, and never overflows a node.", "quantifier": "every well-formed tree and cursor", "why_tests_cant": "the parent may have to be split first, moving the leaf", "anchors": ["src/lib.rs: split_leaf_if_needed"]}
{"id": "C42", "title": "Rebalancing is invisible", "statement": "Handling a node that lacks children (borrowing, merging, cascading, collapsing the root) changes neither the iteration order nor any element, handle or aggregate.", "quantifier": "every well-formed tree and node", "why_tests_cant": "shape dependent", "anchors": ["src/lib.rs: handle_lack_recursively, handle_lack_single_layer, try_reduce_levels, pair_neighbor"]}
{"id": "C43", "title": "Zero-length ranges in update", "statement": "As documented, update over a zero-length range still calls f once on an empty slice position.", "quantifier": "every tree and cursor", "why_tests_cant": "boundary behaviour stated only in docs", "anchors": ["src/lib.rs: update (doc comment)"]}
{"id": "C44", "title": "Zero-length elements survive drain with correct caches", "statement": "If the element at the end cursor has length 0 (which the trait docs allow), drain still leaves correct caches everywhere.", "quantifier": "every tree", "why_tests_cant": "needs a zero-length element at a node boundary", "anchors": ["src/iter.rs: Drain::new (leaf_after_drain_range), Drain::drop", "src/lib.rs: BTreeTrait::Elem docs"]}
{"id": "C45", "title": "Self-check of an ordered map emptied by deletions", "statement": "After any sequence of insert/delete on an OrdTreeMap, also one that deletes the last remaining key, the tree's self-check succeeds and root_cache equals the cache of an empty tree when the map is empty.", "quantifier": "every history of inserts and deletes", "why_tests_cant": "the repository's tests never run check() on a map emptied by deletion", "anchors": ["src/generic_impl/ord.rs: OrdTrait::calc_cache_internal, OrdTreeMap::delete", "src/lib.rs: remove_leaf, check"]}
{"id": "C46", "title": "Writing an element in place and refreshing the caches", "statement": "After replacing the element behind a handle through get_elem_mut and calling recursive_update_cache on that leaf (without diffs, with diffs and the diff between the old and the new element, or with diffs and none given) the tree is intact and its content is the old one with that element replaced. If the new element has the same cache as the old one, no refresh is needed.", "quantifier": "every lawful trait, every intact tree, every leaf, every new element, both values of can_use_diff allowed by the trait", "why_tests_cant": "the method is public and the invariant only shows at every ancestor; tests only exercise it through other operations", "anchors": ["src/lib.rs: get_elem_mut, recursive_update_cache, recursive_update_cache_with_diff"]}
{"id": "C47", "title": "update_cache_and_elem_with_filter updates exactly the drilled elements and keeps the tree intact", "statement": "The call terminates without panicking, rewrites exactly the caches held by reached nodes and exactly the reached leaves, each once; if the callbacks keep every cache they see equal to the aggregate of the updated elements and only decline where nothing changes, then afterwards the elements accepted by the filter are updated, the others are untouched and every cache, including the root cache, is right.", "quantifier": "every lawful trait, every intact tree, all callbacks without state", "why_tests_cant": "depends on the shape of the tree and on the caches of all ancestors; the root cache is not visible to the callback", "anchors": ["src/lib.rs: update_cache_and_elem_with_filter, root_cache, check"]}
{"id": "C48", "title": "check accepts only well-formed trees", "statement": "If BTree::check() returns without panicking then the arenas form a well-formed tree: all leaves at the same depth, every node and leaf listed by exactly one parent, parent links and slots right, every cached summary equal to the aggregate of the elements below it, at most nine levels.", "quantifier": "every lawful trait whose cache equality is sound, every heap (arenas, root and root cache), reachable or not", "why_tests_cant": "the tests use check() as their oracle, so nothing tests what check() itself overlooks", "anchors": ["src/lib.rs: BTree::check, get_path, get_internal, Node::calc_cache"]}
{"id": "C49", "title": "RangeNumMap is an array of optional numbers", "statement": "A RangeNumMap built by insert, plus and drain behaves as a growing array of optional numbers: insert(range, v) makes exactly the entries of the range v, plus(range, d) adds d to exactly those entries of the range that have a value, both growing the array with empty entries first if needed, drain(range) removes exactly the range, get(i) reads entry i (None outside), len is the length of the array.", "quantifier": "all histories of calls with ranges the right way round, any order of visiting dirty nodes; the only other outcome is a panic on a tree deeper than the path buffer allows", "why_tests_cant": "depends on how range ends fall into run-length encoded entries and on the shape of the tree", "anchors": ["tests/range_num_map/mod.rs", "src/lib.rs: update, range, query, push, drain", "src/generic_impl/len_finder.rs"]}
{"id": "C50", "title": "RangeNumMap::iter reports the ranges of equal values", "statement": "iter() lists (range, value) pairs such that index i is in a pair with value v exactly if get(i) is Some(v).", "quantifier": "every range map", "why_tests_cant": "the tests only iterate over maps without empty entries in front", "anchors": ["tests/range_num_map/mod.rs: iter"]}
{"id": "C51", "title": "Rope::to_string succeeds after edits at character boundaries", "statement": "If every insertion into a rope is of valid UTF-8 text at a character boundary and every deletion is between character boundaries, to_string() never panics, although leaves cut characters into pieces; it panics exactly when the content is not valid UTF-8, in particular after inserting text inside a character.", "quantifier": "every leaf capacity, every history of edits, every content", "why_tests_cant": "the tests and the fuzzer only insert ASCII digits and letters", "anchors": ["src/generic_impl/rope.rs: Display::fmt", "src/generic_impl/gap_buffer.rs: from_str"]}
{"id": "C52", "title": "Node statistics agree with the content", "statement": "The child entries of the internal nodes name every node except the root exactly once. So internal_avg_children_num divides (number of internal nodes - 1 + number of elements) by the number of internal nodes and lies between 1 and 11 for a non-empty tree, and diagnose_balance prints the exact counts of fan-outs (none above 11) and of element lengths. With minimal fan-outs the number of internal nodes is between a tenth and a fifth of the number of elements.", "quantifier": "every lawful trait, every intact tree, every history of operations", "why_tests_cant": "the functions are for manual inspection; no test looks at their result, and a count that is off by a leaked or doubly linked node is only visible for all shapes", "anchors": ["src/lib.rs: internal_avg_children_num", "src/lib.rs: diagnose_balance"]}
{"id": "C53", "title": "GapBuffer::push appends a byte", "statement": "GapBuffer::push(v) adds v behind the last byte of the buffer, or returns Err when the buffer is full.", "quantifier": "every capacity, every buffer that earlier calls can produce, every byte", "why_tests_cant": "the only way the crate fills buffers is push_bytes and insert_bytes; no test calls push on a buffer whose gap is not at the end", "anchors": ["src/generic_impl/gap_buffer.rs: GapBuffer::push"]}
{"id": "C54", "title": "A cursor to a removed leaf is never followed silently", "statement": "If the leaf of a cursor has been removed, every method that follows the cursor (insert, bulk insert of at least one element, update_leaf, update, drain, iter_range, next_elem, prev_elem, shift, compare_pos, visit_previous_caches, recursive_update_cache, update_leaves_with_arg_in_ranges) panics, with the dead cursor as either end of a range; remove_leaf answers None and leaves the tree unchanged, get_elem answers None. prefer_right and prefer_left hand a dead cursor back when they need not look at the leaf.", "quantifier": "every lawful trait, every intact tree, every dead handle, all other arguments", "why_tests_cant": "the tests never use a cursor after its leaf was removed", "anchors": ["src/lib.rs: insert_by_path, remove_leaf, update_leaf, update, iter_range, split_leaf_if_needed, get_path", "src/iter.rs: Drain::new"]}
{"id": "C55", "title": "Reversed ranges are rejected", "statement": "update, drain and iter_range with a start cursor that lies behind the end cursor panic or act on nothing.", "quantifier": "every lawful trait, every intact tree, every pair of live cursors", "why_tests_cant": "the fuzzer sorts its positions before forming a range; the effect depends on where the range lies in the tree", "anchors": ["src/lib.rs: update, _iter_range, split_leaf_if_needed", "src/iter.rs: Drain::new, Iter::next"]}
{"id": "C56", "title": "A leaked Drain leaves a usable tree", "statement": "If a Drain is leaked (mem::forget) instead of dropped, after any number of calls of next, the tree is intact and holds the elements that were not handed out.", "quantifier": "every lawful trait, every intact tree, every ordered pair of live cursors, every number of calls of next", "why_tests_cant": "the tests always drop their drains; the drop code repairs the tree, so the state in between is never looked at", "anchors": ["src/iter.rs: Drain::new, Drain::next, Drop for Drain"]}
{"id": "C57", "title": "A panicking closure leaves an intact tree", "statement": "If the closure given to update, update_leaf, update_leaf_by_search or update_leaves_with_arg_in_ranges panics and the caller catches the panic, the tree is intact; its elements are those the closure left behind.", "quantifier": "every lawful trait, every intact tree, every ordered pair of live cursors, every closure that leaves valid elements behind, a panic in any of its calls", "why_tests_cant": "no test closure panics; the state after a panic depends on the call that panicked and on the cuts made before", "anchors": ["src/lib.rs: update, update_leaf, update_leaf_by_search, update_leaves_with_arg_in_ranges"]}
{"id": "C58", "title": "The shipped fuzzing harnesses never fail", "statement": "The ordered-set fuzz target ends without a panic and with equal contents for every list of actions. The rope fuzz target and the rope test harness (check, length and string compared after every action) end without a panic and with equal strings for every list of actions, unless some prefix of the actions has built a tree of more than 7 levels.", "quantifier": "every list of actions of any length, for the rope every leaf capacity > 0", "why_tests_cant": "a fuzzer samples finitely many short action lists", "anchors": ["fuzz/fuzz_targets/ord.rs", "fuzz/fuzz_targets/rope.rs", "src/generic_impl/rope.rs: tests::fuzz"]}
{"id": "C59", "title": "Depth is logarithmic and small trees never hit the path buffer", "statement": "After any history of valid calls from the empty tree (no bulk construction from an iterator) every inner node off the left spine except the root has at least 5 children, so a tree of depth d >= 2 holds more than 5^(d-1) elements. Hence a history during which the tree holds at most 5^7 elements never panics because of depth, and a rope whose string has at most 5^7 bytes whenever something is deleted never panics.", "quantifier": "every lawful trait with sliceable elements, every finite history of valid calls other than from_iter, every leaf capacity of the rope > 0", "why_tests_cant": "the lower bound on fan-out must hold for the thinnest tree any sequence of splits, merges and prunings can produce", "anchors": ["src/lib.rs: split, handle_lack_single_layer, try_reduce_levels, update, insert_many_by_cursor, update_leaves_with_arg_in_ranges", "src/iter.rs: Drain", "src/generic_impl/rope.rs"]}
{"id": "C60", "title": "Lookups ask the finder once per level, logarithmically often", "statement": "A lookup in a non-empty tree of depth d calls find_node exactly d times, each time on a node of 1 to 11 children, and confirm_elem exactly once; on an empty tree it calls neither. So after any history of valid calls without bulk construction a lookup in a tree of at most 5^k elements calls find_node at most k times (after from_iter: 10^k), and likewise in a rope of at most 5^k bytes. visit_previous_caches calls its callback at most 11 times per level and once for the leaf.", "quantifier": "every lawful trait, every finder, every intact tree; every finite history of valid calls other than from_iter; every leaf capacity of the rope > 0", "why_tests_cant": "a test sees the answer, not the number of nodes visited, and only for the finders and trees it builds", "anchors": ["src/lib.rs: query_with_finder_return, visit_previous_caches, FromIterator", "src/generic_impl/rope.rs"]}
{"id": "C61", "title": "No program can tell a Rope from a string of bytes", "statement": "For every program that uses a Rope only through insert, delete_range, len, is_empty, to_string, check (and the test helper that sums visit_previous_caches), where each step may depend on all earlier results, running it on a fresh Rope gives exactly the outcome (result, or panic) of running it on a plain byte string, provided the string never exceeds 5^7 bytes. In particular the rope.rs unit tests pass for every leaf capacity, with any loop count, string and random actions within that size. The shipped rope benchmarks and the example are such programs: any editing trace and any random actions leave the rope with the text they leave in a string.", "quantifier": "every adaptive program, every result type, every leaf capacity > 0", "why_tests_cant": "a test is one program; a defect may need a call chosen from what earlier calls returned", "anchors": ["src/generic_impl/rope.rs: Rope, tests", "benches/bench_rope.rs", "examples/rope.rs"]}
{"id": "C62", "title": "No program can tell an OrdTreeMap or an OrdTreeSet from a sorted list", "statement": "For every program that uses an OrdTreeMap through insert, delete, len, is_empty, iter, iter_key, check and compare_pos on looked-up keys, where each step may depend on all earlier results, running it on a fresh map gives exactly the outcome of running it on a sorted association list, provided it never deletes an absent key from a non-empty map, never checks an empty map and keeps fewer than 2*6^9 entries. In particular the ord.rs unit tests pass for all data without repetitions. The same holds for programs on an OrdTreeSet (insert, delete, iter, len, is_empty, check) against a sorted list of keys, and the ordered-set benchmark lists every key once and in order, whatever its data.", "quantifier": "every adaptive program, every result type, every key type with a total preorder, every value type", "why_tests_cant": "a test is one program; a defect may need a call chosen from what earlier calls returned", "anchors": ["src/generic_impl/ord.rs: OrdTreeMap, tests", "src/lib.rs: compare_pos", "src/generic_impl/ord.rs: OrdTreeSet", "benches/bench_ord.rs"]}
{"id": "C63", "title": "Every program on a RangeNumMap that is right on arrays is right", "statement": "For every program that uses a RangeNumMap through insert, plus, get, len, iter and drain, where each step may depend on all earlier results: if the program, run on a plain array of optional numbers, respects the preconditions of the calls, stays within 5^7 entries and ends in a result satisfying Q however iter and drain cut the values into ranges, then run on a fresh RangeNumMap it ends without a panic in a result satisfying Q, whatever order the hash map of dirty nodes is iterated in. In particular the integration tests pass for all sizes, positions and values.", "quantifier": "every adaptive program, every result type and postcondition, every iteration order of the dirty map; the integration tests for all their constants", "why_tests_cant": "The shipped tests are five fixed programs with the constant 100; programs, sizes, values and hash-map orders are unbounded.", "anchors": ["tests/range_num_map/mod.rs", "tests/integration.rs"]}
{"id": "C64", "title": "Lengths in wrapping machine integers: nothing breaks below 2^64 bytes", "statement": "With the rope's isize cache modelled as an integer of a fixed width 2h that wraps around: every history of tree operations succeeds and leaves an intact tree at any total length; the reported length is the true length modulo 2h; every stored length is exact while the total is below h; a lookup by position finds the right leaf and offset as long as the total is below 2h. The last bound is needed: above it an intact tree answers a lookup of position 0 with a leaf of its second half.", "quantifier": "every width, every buffer capacity, every history of tree operations, every tree and position", "why_tests_cant": "No test can build a rope of 2^63 bytes; the width of isize is fixed by the machine the tests run on.", "anchors": ["src/generic_impl/rope.rs: impl BTreeTrait for RopeTrait, get_len", "src/generic_impl/len_finder.rs"]}
{"id": "C65", "title": "An edit writes only logarithmically many nodes", "statement": "insert, insert_by_path, push, prepend, remove_leaf, update_leaf and update_leaf_by_search change, create or free at most a fixed multiple of the depth of the tree many arena entries (57d+41, 57d+41, 29d+6, 29d+6, 31d+1, 31d+9, 31d+16); every other node and leaf is left exactly as it was. In a tree with the minimal filling that every history keeps, at most 5^k elements give at most 57k+41 (and so on) changed entries; in an ordered map with fewer than 2*6^n entries an insertion changes at most 29n+6 and a deletion at most 31n+1; in a rope of at most 5^k bytes inserting at most one buffer of text changes at most 88k+50 and deleting one byte, or a range of any length inside one buffer (in the last buffer: to its end), at most 31k+16. Inserting n elements at a cursor at once changes at most (n+1)(57k+41) entries, and pasting a text s into a rope at most (|s|/CAP+2)(57k+41)+31k+9, where 5^k bounds the size with twice the inserted amount added. Updating a range that covers n leaves after its ends are cut changes at most 56k+12+n(32k+3) entries. update_leaves_with_arg_in_ranges with n ranges changes at most n(115k+84) entries.", "quantifier": "every lawful trait, every intact tree, every element, query, finder and cursor, every update function that returns valid elements, every key, every text; every number of elements", "why_tests_cant": "The tests look at the content after an edit, not at which nodes were written; a bound for every size cannot be tested.", "anchors": ["src/lib.rs: insert, insert_by_path, push, prepend, remove_leaf, update_leaf, update_leaf_by_search, split_leaf_if_needed, split, split_root, recursive_update_cache, handle_lack_recursively, handle_lack_single_layer, remove_internal_node, try_reduce_levels, purge, insert_many_by_cursor, update, update_dirty_cache_map, update_leaves_with_arg_in_ranges", "src/generic_impl/ord.rs: insert, delete", "src/generic_impl/rope.rs: insert, delete_range"]}
{"id": "C66", "title": "A tree needs few nodes for its elements", "statement": "After any history of valid calls without from_iter, a tree of depth d that holds n elements has fewer than (5n+5d)/4 nodes, leaves included; with n at most 5^k fewer than (5n+5k)/4. So inner nodes cost at most a quarter of the leaves plus a logarithmic term, whatever was inserted, removed or drained before, and an emptied tree is back to one node. A rope of at most 5^k bytes s has fewer than (5|s|+5k)/4 nodes, and an ordered map with n entries fewer than (6n+6)/5. A tree collected by from_iter from n elements also has fewer than (6n+6)/5.", "quantifier": "every lawful trait, every history of valid calls without from_iter, every collected list, every rope and ordered map, every number of elements", "why_tests_cant": "The tests call check, which accepts nodes with a single child on the way to thin trees of any size; no test compares node_len with the number of elements, and a bound for every history cannot be tested.", "anchors": ["src/lib.rs: node_len, split_node, handle_lack_single_layer, try_reduce_levels, purge, drain, FromIterator::from_iter", "src/generic_impl/ord.rs: insert, delete", "src/generic_impl/rope.rs: insert, delete_range"]}
