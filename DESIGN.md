# Design: a machine-checked model of generic-btree

## 1. What is modelled

`rocq/theories/` (logical name `Verif`), Coq 8.16.1 + std++ (`gmap`, `list`; no axioms).

| file | code | content |
|---|---|---|
| `Base.v` | – | result monad (`Ok`/`Panic`/`OutOfFuel`), arenas, bounded vectors, `delete_range` |
| `Trait.v` | src/lib.rs 27-200, 243-272, 373-376; src/rle.rs | the `BTreeTrait` interface as a record, the tree layout, `Query` |
| `BTree.v` | src/lib.rs 410-2973, src/iter.rs | every method of `impl BTree`, `FromIterator`, `Drain`, `Iter`, `check` |
| `GapBuffer.v` | src/generic_impl/gap_buffer.rs | gap buffer on a raw byte array with explicit gap |
| `LenFinder.v` | src/generic_impl/len_finder.rs | `LengthFinder` |
| `Rope.v` | src/generic_impl/rope.rs | `RopeTrait`, `Rope` with its cached cursor |
| `OrdMap.v` | src/generic_impl/ord.rs | `OrdTreeMap`, `OrdTreeSet` |
| `RangeNumMap.v` | tests/range_num_map/mod.rs | second client of the public API |
| `Utf8.v` (first part) | src/generic_impl/rope.rs 263-274 | the UTF-8 check of `to_string` |
| `Lazy.v` (first part) | src/lib.rs 1581-1610, 1719-1768, 2650-2678; src/iter.rs 290-322 | the iterators as states with `next` |
| `Rle.v` (first part) | src/rle.rs 5-92 | the provided methods of `Sliceable` |
| `Stats.v` (first part) | src/lib.rs 2635-2647, 2725-2731 | `internal_avg_children_num`, `diagnose_balance` |
| `Poke.v` (first part) | src/lib.rs 922-925 | `get_elem_mut` and a write through the reference |
| `Unwind.v` (first part) | src/lib.rs 989-1057, 1107-1146, 1255-1266 | closures that panic inside `update`, `update_leaf`, `update_leaf_by_search`; leaked drains |
| `RangesS.v` (first part) | src/lib.rs 1396-1503 | `update_leaves_with_arg_in_ranges` with a closure that keeps state or panics |
| `Fuzz.v` (first part) | fuzz/fuzz_targets/ | the shipped fuzzing harnesses as programs over the model |
| `UnitTests.v` (definitions `ut_…`) | src/generic_impl/rope.rs 315-427, 2708-2742; src/generic_impl/ord.rs 307-388 | the shipped unit tests as programs (Prog.v) |
| `UnitTests2.v` (definitions `ut_…`) | src/generic_impl/rope.rs 396-406, 3392-3436 | unit tests that call clear or reach into the tree |
| `IntWidth.v` (`WRope`, `w_get_len`) | src/generic_impl/rope.rs 30-41, 276-312 | the rope's trait with wrapping integers of any width |
| `SetProg.v` (`set_prog`, `bench_ord`) | src/generic_impl/ord.rs 115-148; benches/bench_ord.rs 12-22 | programs over `OrdTreeSet` |
| `Benches.v` (definitions `bn_…`) | benches/bench_rope.rs 31-44, 98-105; examples/rope.rs 70-84, 93-100 | the rope benchmarks as programs over any actions |
| `RnmProg.v` (definitions `it_…`) | tests/integration.rs 8-94 | the integration tests as programs over `RangeNumMap.v` |

The model is a *heap* model: arenas are finite maps from handles to nodes, child vectors
hold (handle, cache) pairs, nodes hold parent links and slots, exactly as in the code.  A
`&mut self` method is a function to `res (result * tree)`.  A panic (`unwrap`, index out
of range, `assert!`, `debug_assert!`, `unreachable!`, push on a full `heapless::Vec`) is the
value `Panic`.  Every `debug_assert!` of src/ is in the model (lib.rs 894, 942, 1308-1309,
1321, 1494, 1585, 1600, 2005, 2961, 2964; gap_buffer.rs 184, 205), so each theorem that
concludes `= Ok _` also shows that no debug assertion fires.
Loops over links run on fuel computed inside the model from the number of handles ever
allocated; every positive theorem states `= Ok _`, hence shows that fuel suffices.

Subtraction on `nat` truncates; every subtraction in the model of src/ is behind the code's own
test or an explicit `Panic` where Rust would underflow (the one exception, in the test trait
`RNMTrait`, is stated there).

Not modelled: integer widths (unbounded `nat`/`Z`; the cached lengths of the rope are treated with wrapping
integers in IntWidth.v, C64; `parent_slot: u8` loses nothing, C13_slots), the generation counter wrap-around of `thunderdome` (handles are never
reused in the model), panics inside trait methods (panicking closures of `update`, `update_leaf`,
`update_leaf_by_search` and `update_leaves_with_arg_in_ranges` are modelled in Unwind.v and RangesS.v), `Debug`, `Clone` (a value), allocation
failure, performance.  Hash-map iteration order is an arbitrary permutation (parameters
`ord`, `ord2`), closures thread an explicit state.  Lazy iterators (`iter`, `iter_range`,
`iter_with_filter`) are modelled twice: run to exhaustion (BTree.v) and call by call (Lazy.v), with a
proof that the two agree; `Drain` is modelled step by step (`drain_new`, `drain_next`, `drain_drop`).

## 2. How it is proved

1. `Lawful B` (Law.v) — the contract a trait implementation owes the tree (aggregates
   compose, diffs are correct, splitting/merging keep the cache).  Theorems about the tree are
   for **all** lawful traits; `RopeTrait`, `OrdTrait` and `RNMTrait` are proved lawful
   (Inst.v).  `mono L = true` when the default cache is the aggregate of nothing (rope, range
   map; not the ordered map).  `Flatten L U` (Many.v): elements as lists of units, for
   statements independent of how the sequence is cut into elements.
2. Working invariant (Inv.v, Law.v): `WT` (links and slots agree both ways, levels, no
   sharing, no empty internal node but the root, nothing unreachable), `LK`, `SZ` (fan-out),
   `CO`/`RC` (every cached value equals the one recomputed from the elements below it), `VA`.
   `OK` is their conjunction.
3. Independent specification (Spec.v): `InOrder`/`Content` (depth-first content of the heap
   as an inductive relation), `Reach`, and `Intact`/`Tree t xs` — a readable list of what a
   well-formed tree with content `xs : list (handle * element)` is.  `Tree_OK`/`OK_Tree` link
   it to the working invariant.  Property theorems speak only about `Tree`, lists and `Ok`.
4. Each operation: `Tree t xs -> args valid -> exists t', op t args = Ok .. /\ Tree t' (spec xs)`,
   plus what it does to handles.  Histories: induction over operation lists (Hist.v).
5. Clients (`Rope`, `OrdTreeMap`, `OrdTreeSet`) refine byte strings / sorted association lists
   by composing these, over all histories of edits.

Dependency order: Inv, Seq, Struct, Links, Law (invariant) → Ruc (cache propagation), Rd,
Split, Edit, Nav, Repl (local reshapings) → Insert, Lack, Remove, UpdLeaf, Upd, Drain1-6, Sim,
Prune, Ulbs (operations on `OK`) → Path, Spec, Ops, Ops2, Query, Visit, Shift, Shift2 (operations on
`Tree`, navigation, queries) → Many, ByQuery, Flat, Pos, Ranges, Filter, FromIter, Lazy, Poke, Ucf, CheckP, Rnm (bulk and
unit-level statements) → OrdP, OrdM, OrdE, RopeFl, RopeP, Utf8, GapBufferP, GapPanic, Rle (clients), Dead, Rev (misuse) → Hist, Frame,
Hist2, Thick, Thick2, Thick3 (minimum degrees), Refuted, Demo*.

Property theorems live in `Prop*.v`, closed by `exact`, each followed by
`Print Assumptions`; `Example`s (built in Demo*.v) show their hypotheses satisfiable on
concrete multi-level trees.  False properties are refuted by a concrete run of the model
(`..._refuted`, closed by `vm_compute`) or by a general theorem.

NodePath has capacity 10 in the code, so operations that build a path panic on deeper trees.
Where that matters the theorem either has the hypothesis `Shallow t k` (at most k levels) or
characterises the panic (C06_too_deep, C07_update, C08_drain, C17_iter_too_deep, C24_too_deep, C25_too_deep).  Trees
built without from_iter have at least 5 children in every inner node off the left spine, so d >= 2 levels
need more than 5^(d-1) elements (C59); the ordered containers have 6 (C14).

## 3. Per property

| id | status | how |
|---|---|---|
| C01, C02 | proved | exact new content for each branch of `insert_by_path`/`push`, any lawful trait |
| C03 | partial | positive for non-empty trees; refuted on the empty tree (root cache not updated) |
| C04 | proved | `remove_leaf`: all branches incl. emptying nodes, borrowing, merging, root collapse; needs a monoidal cache or a non-emptied parent |
| C05 | proved | `update_leaf`, all results of the closure |
| C06 | proved | `update_leaf_by_search`; > 10 levels and second insertions proved to panic |
| C07 | proved | `update`, panic characterised by depth |
| C08, C09 | proved | `drain_new`/`drain_next`/`drain_drop`, any number of `next` before the drop |
| C10 | partial | refuted (the Drop impl unwraps `None`) at the end and on empty trees; elsewhere an empty range drains nothing |
| C11, C12, C13, C15 | proved | induction over histories of all mutating operations (Hist.v: eight; Hist2.v: the rest, by a frame relation on handles, Frame.v) |
| C14 | proved | levels from the invariant; minimum degree for the ordered map |
| C16 | partial | histories; refuted across `clear` |
| C17-C21, C24, C25 | proved | navigation against positions in the content |
| C22 | partial | exact result for every offset (Shift2.v); right iff the units passed lie under one node |
| C23 | proved | `LengthFinder` against prefix sums |
| C26 | partial | refuted for every trait on the empty tree; holds on every non-empty tree |
| C27 | proved | `from_iter` level by level |
| C28 | partial | refuted (panic on empty tree; wrong place) + positive part; `C28_insert_many_exact` gives the exact result for all data on a non-empty tree |
| C29 | partial | order refuted; units kept up to order, for all data |
| C30 | proved | breadth-first queue against the depth-first list; stateful filters level by level (Lazy.v) |
| C31 | proved | cut points per leaf, dirty map, then insertions (run of pieces per leaf), also for closures with a state (RangesS.v); empty ranges refuted |
| C32 | proved | rope refinement of byte lists over all histories |
| C33 | partial | refuted in general (panic) and by a silent corruption; positive when no cursor is cached |
| C34, C35 | proved | list semantics of every gap-buffer operation for every capacity |
| C36, C38 | proved | refinement to sorted association lists over all histories |
| C37 | partial | present keys; refuted for every absent key on a non-empty map, the entry removed is a neighbour of the gap |
| C39 | proved | partition law for every lawful `Sliceable`; the bounds also spelled out position by position |
| C40 | proved | `clear` |
| C41, C42 | proved | the split / rebalancing lemmas themselves |
| C43 | partial | refuted (documentation disagrees with the code), for every tree, cursor and function |
| C44 | partial | sequence and shape for all lengths by simulation up to summaries (Sim.v, Drain6.v); summaries under `Covered`, refuted otherwise |
| C45 | partial | non-empty maps; refuted for every map emptied by delete |
| C46 | proved | cache propagation lemmas (Ruc.v) for both values of `can_use_diff` |
| C47 | partial | set of visited nodes as stack invariant (Ucf.v); root cache refuted |
| C48 | partial | distance to the root as height, `check`'s own path walks bound it (CheckP.v); refuted without the facts of `Unchecked` |
| C49 | proved | sequence semantics of `update` (Rnm.v) composed with queries and drains; fan-out invariant `MDw true` for the absence of panics on small arrays (Rnm2.v) |
| C50 | partial | refuted; right without inner holes |
| C51 | proved | automaton of the byte check against encodings of scalar values (Utf8.v) |
| C52 | proved | child entries are a permutation of the non-root nodes (Stats.v) |
| C53 | partial | list view of the two halves of the buffer (GapPanic.v); refuted by a witness for every capacity ≥ 3 |
| C54 | proved | unfolding to the first arena lookup; cuts at live cursors do not revive a handle (Dead.v) |
| C55 | partial | loop of `update` never meets the end leaf (Rev.v); refuted in general |
| C56 | partial | invariant of the half-finished drain (Drain5.v); simulation of `iter` by the cut tree (Unwind.v); refuted |
| C57 | partial | loop induction; an intact tree of the same shape built leaf by leaf (`repair`, Unwind.v, RangesS.v); refuted for summaries and for `update_leaves_with_arg_in_ranges` |
| C58 | proved | harness loops as programs; induction over the actions with `SetOf` / `RopeOf` as invariant (Fuzz.v); at most 26041 actions never reach the depth limit |
| C59 | proved | weak minimum degree `MDw true` (5 children off the left spine) as a further invariant of every operation; counting gives the depth (Thick.v, Thick2.v, Thick3.v) |
| C60 | proved | a finder that writes down what it is shown (`Watch`) runs in lockstep with the given finder; induction on the depth (Steps.v); depth bounds from C27, C59 |
| C61 | proved | free-monad programs interpreted over the model and over lists; induction over the program with `RopeOf` as invariant (Prog.v); unit tests as instances (UnitTests.v) |
| C62 | proved | same with `MapOf` (Prog.v, UnitTests.v); sets: SetProg.v |
| C63 | proved | programs over RangeNumMap with a predicate transformer `arr_wp` over arrays; soundness by induction over the program with `RnmMd` (array refinement and half-full nodes) as invariant; integration tests as instances (RnmProg.v) |
| C64 | proved | the wrapping integers form a group, so the trait is lawful (`WLaw`); the length query is re-proved from exactness of the runs of leaves that occur (`LenOn`); the bound shown necessary by a run (IntWidth.v) |
| C65 | proved | a footprint relation that composes (`Touched`); an invariant weaker than intactness that survives every intermediate state of a split, a cache refresh and a rebalancing (`Lev`: parents are one level higher), so each loop runs at most once per level (Touch.v to Touch12.v); for bulk insertion the bound of one insertion is iterated while the number of leaves, and with the minimal filling the depth, stays bounded |
| C66 | proved | edge counting: the child entries name every node but the root once (t_avg of C52), nodes with fewer than five children lie on the left spine, and the spine has one node per level (Space.v); the minimal filling comes from C59. from_iter: the nodes allocated per level, ten slots each, bounded by a geometric sum (SpaceFrom.v) |

MANIFEST.json lists the theorems and the exact scope of each.

## 4. Trusted base

Coq kernel (and `coqchk`), the reading of /repo as described in the comments of the model
(file and lines at each definition), the statements in `Prop*.v` with the definitions they
mention (Spec.v, `Lawful` in Law.v, `Flatten`/`CurAt` in Many.v and the short definitions at
the head of each `Prop*.v`; `from_utf8` is given by table 3-7 of the Unicode standard).  No axioms; the output of `Print Assumptions` is "Closed under
the global context" for each theorem.

Two simplifications of the heap: handles are never reused (the code reuses slots with a new
generation, which the `thunderdome` index type tells apart), and `mem::take` of a cache that
is overwritten before being read again is a read.

## 5. Findings

Each refuted property traces to lines of the implementation (comments in Refuted.v).

1. `insert_many_by_cursor`/`create_subtrees` on an empty tree panics (C28).
2. `merge_adj` reorders content (C29).
3. Dropping `Drain::none` panics: drains of an empty tree or at the very end (C10).
4. `insert_many_by_cursor` merges into the leaf before the cursor's leaf even when the cursor
   is inside a leaf: content lands in the wrong place (C28).
5. `prepend` on an empty tree leaves `root_cache` at its default (C03).
6. `OrdTreeMap::delete` of an absent key removes a neighbouring entry (C37).
7. `Rope::clear` keeps the cached cursor; later edits panic or silently go to the wrong place (C33).
8. `update` on a zero-length range does not call the closure, against its documentation (C43).
9. `shift_path_by_one_offset` from offset >= len drops the carried offset at the end of a node (C22).
10. `drain` up to a zero-length element refreshes the caches above the leaf after it instead of those
    above that element (C44).
11. `iter_range(..)` and depth queries on an empty tree panic (C26).
12. `GapBuffer::push` inserts at the gap, not at the end (C53; unused in the crate).
13. `remove_leaf` emptying a one-child node leaves stale caches for traits without a neutral
    default cache (unreachable through the ordered containers' own methods; hypothesis of C04).
14. `NodePath` has capacity 10: deeper trees panic in path-building operations.
15. `update_leaves_with_arg_in_ranges` with an empty range panics, or applies the argument to a
    neighbouring piece (C31 refuted theorems).  Its result lists the leaf itself, repeatedly,
    when pieces merge back (C31_example), not only new leaves.
16. An `OrdTreeMap` emptied by `delete` keeps a stale root cache, `check` panics (C45).
17. `RangeNumMap::iter` (test helper) goes wrong after an entry without value (C50).
18. `update_leaf_by_search`, deletion: under-fullness is computed before the children are
    removed, so the minimum degree may be violated (sequence and caches still right: C06).
19. `clear` restarts the arenas, old handles alias new leaves (C16).
20. `update_leaf` with `need_update_cache = false` needs the closure to keep the cache: stated as
    a hypothesis of C05; second insertion in `update_leaf_by_search` is `unimplemented!()` (C06).
21. `update_cache_and_elem_with_filter` never writes the root cache and gives its callbacks no
    access to it: whenever the total changes, `root_cache()` is stale and `check` panics (C47).
22. `check`, the oracle of the test-suite, accepts dangling and repeated leaf entries, a root that is
    its own child, and over-full nodes (C48).  No operation produces these from an intact tree.
23. `Rope` accepts edits inside a character; `to_string` panics afterwards (C51).
24. `GapBuffer::slice_` accepts an empty range past the end of the buffer, `slice` does not (C34).
25. `update`, `iter_range` and `drain` accept ranges whose start lies behind their end: `update` and
    `iter_range` act on everything from the start to the end of the tree, `drain` removes it or
    panics (C55).  Only reversed ranges inside one leaf panic always.
26. Leaking a `Drain` after a call of `next` leaves child entries that point to freed leaves: iteration
    panics, the length still counts the elements handed out, and `check` accepts the tree (C56).
27. A panic in the closure of `update`, `update_leaf` or `update_leaf_by_search` leaves every summary
    as it was before the call; sequence and links are right (C57).
28. A panic in the closure of `update_leaves_with_arg_in_ranges` loses content: of every leaf visited so
    far only the first piece stays in the tree, the others are dropped; summaries are those from before
    the call (C57_ranges_refuted).
29. `RangeNumMap::insert` over 0..0 into an empty map leaves an element of length 0 that its iterator
    reports for ever (C49_empty_insert).
