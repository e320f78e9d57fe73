# Formal model of rust-advanced-collections in Rocq (Coq 8.16.1)

Source: `/repo` (crate `advanced_collections` 0.1.0, edition 2018, CI on rustc 1.31.1 and later).
Everything is under `rocq/theories/`; only the Coq standard library is used. Build:
`coq_makefile -f _CoqProject -o Makefile && make -j4` in `rocq/` (under two minutes).

## Layout

| files | contents |
|---|---|
| `Base.v` | outcomes (`Ret`/`Panic`/`Abort`/`UB`/`NoFuel`), machine parameters, `usize` arithmetic |
| `CBModel.v` ... `CBModel7.v` | model of `src/circular_buffer`; the second part has the iterators step by step, construction and extension from iterators that may panic, `Debug`; the third compilers that refuse to leave an element uninitialised; the fourth lists the storage slots each call touches; the fifth has comparisons as the questions they ask; the sixth the owning iterators driven by arbitrary programs; the seventh the blocks of heap memory requested and returned |
| `CBSpec.v` ... `CBSpec7.v` | specification: a plain bounded sequence, the calls at the other end, traversals, moving elements between two sequences, numbers of slots touched, questions in pairs, programs that use iterators, heap memory |
| `CBRun.v` `CBRun2.v` `CBRun3.v` | dispatch of calls to the model, the buffers a program can obtain (`CBRun2`: without any limit on the capacities asked for; `CBRun3`: with the constructors of `CBModel3`) |
| `CBProofs*.v`, `CBProps.v` ... `CBProps10.v` | proofs; theorems C01-C19 / C70-C77 / C12, C17 at `usize::MAX` and C82 / exact form of C75 / C93 / C99 / C105 / C107 / C108 / C116, C117 |
| `IVModel.v` ... `IVModel6.v` | model of `src/interval`; the second part has the derived `Debug`, the third panicking comparisons, the fourth operators that disagree, the fifth every call as the comparisons it asks for, the sixth every call that moves ends as all it does to the user's values |
| `IVRun5.v` `IVRun6.v` | how such a call may go: all answers, all crash points (for C98); the bookkeeping of the values (for C112) |
| `IVSpec.v` `IVSpec2.v` `IVSpec3.v` `IVRun.v` `IVRun7.v` | an interval as a set of points; functions that keep or turn the order; programs on a store of intervals and their dispatch; the intervals a program can obtain, integer and rational element types |
| `IVProofs*.v`, `IVProps1.v` ... `IVProps13.v` | proofs; theorems C20-C33, C40, C60-C62 / C34-C39, C41 / exact forms of C22, C26, C29, C31, C36, C38 / C33, C81 / C38 without overflow checks, C39 / C89 / C90 / C95 / C98 / C98 / C112 / C114, C115 / C120 |
| `HMModel.v` `HMProofs.v` | contract of `std::collections::HashMap` used by the next two (trusted model of std) |
| `UserSpec.v` `UserSpec2.v` | what user iterators and clones deliver when they may panic; how handing over a key ends when its `Hash`, `Eq` or destructor may panic |
| `OwnSpec.v` `OwnProofs.v` | ownership of values as bookkeeping: what is obtained, what is dropped, what is left |
| `CTModel.v` ... `CTModel7.v` | model of `src/counter`; the second part has panicking iterators and clones, the third panicking `Hash`, `Eq` and destructors, the fourth lookups each answered in its own way; the fifth lists what each call asks of the hash table (lookups, room); the sixth the keys each call obtains and drops; the seventh the rest of the `HashMap` API |
| `CTSpec.v` ... `CTSpec9.v` `CTRun.v` `CTRun2.v` `CTRun3.v` | occurrence counts and finite maps, lists of entries for keys without laws, growth of a table, demands that do not make it grow, first instances of keys, the entry API and loops on finite maps, counters and answers that cannot be told apart; dispatch |
| `SortSpec.v` `SortProofs.v` | sorting by comparisons as decision trees; the k! lower bound, merge sort |
| `CTProofs*.v`, `CTProps.v` ... `CTProps10.v` | proofs; theorems C42-C51, C63-C65 / C78, C80, exact forms of C47, C49, C65 / C86, C91 / C94 / C96 / C100-C102 / C109 / C110 / C113 / C119 |
| `DSModel.v` ... `DSModel6.v` | model of `src/disjoint_set`; the second part has panicking iterators and clones, the third panicking `Hash`, `Eq` and destructors, the fourth lookups each answered in its own way; the fifth lists what each call does to table and vector (lookups, elements touched, room); the sixth the elements each call obtains and drops |
| `DSSpec.v` `DSSpec2.v` `DSSpec3.v` `DSRun.v` ... `DSRun4.v` | the log of calls and the equivalence it generates, the keys a call is about and the ways to the roots, answers that cannot be told apart; dispatch; the states a program can hold when elements panic, or when their `Eq` obeys no law |
| `DSProofs*.v`, `DSProps.v` `DSProps3.v` `DSProps4.v` `DSProps5.v` `DSProps6.v` `DSProps7.v` `DSProps8.v` `DSProps9.v` `DSProps10.v` `DSProps11.v` | proofs; theorems C52-C59, C66 / C79 / C85 / C87 / C92 / C97 / C103, C104 / C109 / C111 / C118 |
| `DSAck.v` `DSCost.v` `DSAmort.v` `DSLower.v` `DSFlat.v`, `DSProps2.v` | cost of searches; theorems C67-C69 |
| `HTModel.v` `HTModel2.v` `HTRun.v` `HTProofs.v` `HTProofs2.v` `HTProofs3.v` `HTProps.v` `HTProps2.v` | hash tables with an arbitrary hash function (FNV-1a as an example, as in `FastCounter` and `FastDisjointSet`), counters and disjoint sets on top, the comparisons lookups make; theorems C121, C122 |
| `GTModel.v` … `GTModel4.v` `GTSpec.v` `GTRun.v` `GTRun2.v` `GTRun3.v` `GTSpec2.v` `GTProofs.v` … `GTProofs8.v` `GTProps.v` … `GTProps6.v` | the hash table of today's std: groups of control bytes, tags, marks left by removals; counters and disjoint sets on top, keys without laws; comparisons of keys; theorems C123-C127 |
| `DBModel.v` `DBProps.v` | derived `Debug` of counters and disjoint sets; theorems C83, C84 |
| `TextSpec.v` `PPRun.v` | specification of printed values: trees, on one line and on several |
| `PPModel.v` `PPProofs.v` `PPProps.v` | `{:#?}`: the std builders with their padding adapter; theorem C88 |
| `FMModel.v` `FMSpec.v` `FMRun.v` `FMProofs*.v` `FMProps.v` | all formatting as writes to a place that may refuse or panic; what has become of a text then; theorem C106 |
| `Validation.v` | the crate's own unit tests and documentation examples evaluated in the model (tests of the model, not proofs) |

`*Model*.v` contain only definitions, each with a citation of the Rust lines it models and the
simplifications made. `*Spec*.v` contain the independent specification and never mention the
model. `*Props*.v` contain the property theorems, each followed by `Print Assumptions`, and
`Example`s showing concrete non-trivial cases that meet the hypotheses.

A theorem named `..._partial` proves part of the property; its comment or the note in
`MANIFEST.json` says what is missing. `..._refuted` gives a witness (or a whole family of
witnesses) against the property as stated. Most properties that hold only in part also have a
theorem saying exactly what does hold ("exact" in the name).

## Modelling decisions

* **Panics, UB, aborts** are explicit outcomes. A method gives the state left behind together
  with the outcome, so what is observable after `catch_unwind` is covered. A panic during
  unwinding is `Abort`. Recursion is modelled with fuel; `NoFuel` is proved unreachable.
* **usize** is `nat` bounded by an arbitrary machine parameter `usize_max`. Overflow panics in
  builds with overflow checks and wraps otherwise (`debug_build`, arbitrary).
* **Allocation**: a `Vec` or a hash table holds at most `alloc_max` elements (arbitrary); asking for
  more is a panic. Running out of memory below that bound (an abort of the process) is not modelled.
* **`indexable`** is the machine hypothesis of the circular-buffer theorems: a `Vec` is never longer
  than `usize_max`, and either `2 * alloc_max <= usize_max + 2` (always so when elements have
  non-zero size, since `size_of::<T>() * len <= isize::MAX`) or the build does not check overflow and
  all elements are equal (zero-sized types). C77 treats zero-sized types in the remaining cases.
* **`ranks_fit`** is the machine hypothesis of the disjoint-set theorems: the number of elements that
  fit memory has fewer than 2^32 bits (the rank is a `u32`).
* **Uninitialised memory**: a slot is `Uninit` or `Init v`. Using the content of an `Uninit` slot as a
  value (reading, moving, cloning or dropping it) is `UB`. `mem::uninitialized()` itself is taken as
  producing a slot with arbitrary content, which is how the compilers of 2018 treated it. Later ones
  make it panic for element types that have invalid bit patterns (references, boxes, vectors, strings, `bool`): C93.
  Strictly the call is UB for all but a few types; that reading, under which every constructor is UB, is not modelled.
* **Drop**: each operation gives the list of elements it drops, in order. A predicate
  `dp : T -> bool` (arbitrary) tells which elements' destructors panic.
* **HashMap**: a list of entries without two equal keys. Equality of keys is an arbitrary boolean
  equivalence (`eq_laws`), not Leibniz equality, and the map remembers which key is stored. The order
  of every iteration is an argument constrained only to be a permutation of the entries. Hashing is not
  modelled (`Hash` is assumed consistent with `Eq`). User `Hash` and `Eq` do not panic, except in `CTModel3` and
  `DSModel3`, where a lookup panics or not depending on the key and on the entries (`hp`), likewise making room (`rp`),
  and the destructors of the keys of a predicate `dp` panic. A table that is being rehashed when a
  key panics may lose any of its entries (C91). In C92 and C94 the equality obeys no law at all, in C96 and C97 (`CTModel4`, `DSModel4`) it may change at every lookup.
* **sort_unstable_by_key**: any permutation sorted by the key.
* **Element order**: `Ord` is an arbitrary comparison satisfying the laws of a total preorder, and `==`, `<`, ...
  agree with it, except in `IVModel4` (C95), where the six operators are unrelated and obey no law, and in `IVModel5` (C98), where
  each comparison may answer anything or panic, likewise in `IVModel6` (C112) clones and operators, depending on all that happened before;
  density is an explicit hypothesis where it is used. Arithmetic is arbitrary and may panic; the exact
  theorems are for fixed-width integers of any range (checked or wrapping) and for rationals.
* **User Clone**: an arbitrary function `cl` with `eqb (cl k) k = true` for keys; in `CTModel2`, `DSModel2`
  and `CBModel2` a partial function (`None` is a panic). For circular buffers also a bit copy or not (C15).
* **User iterators**: the items delivered before a possible panic and the lower bound of `size_hint`,
  unrelated to the number of items. What an abandoned iterator itself drops is not modelled.
* **Text**: `Display` and `Debug` in the form `{:?}` are modelled as strings, and so is `{:#?}` with the layout of
  current std.

## Findings about the code

* C15: `CircularBuffer::clone` (derived) clones the spare uninitialised slot: undefined behaviour for
  every element type whose `clone` looks at its argument.
* C12, C17: without overflow checks `new(usize::MAX)` and `resize(usize::MAX)` wrap to a storage of no
  slot: the buffer takes no element, and `resize` leaks all elements. C82: even so nothing is undefined.
* C73: items taken before a panic while collecting are leaked. C74: converting a vector of maximal
  length drops an uninitialised value while unwinding. C75: `Debug` shows internal positions.
* C93: with compilers whose `mem::uninitialized` panics, no circular buffer of boxes, references or strings can be made.
* C77: with overflow checks, `len()` of a buffer of zero-sized elements of huge capacity panics.
* C22, C26: the empty interval "contains" every value and "intersects" everything; over integers
  (1,3) and (2,4) "intersect".
* C29, C31: `<=` on intervals and the comparisons between lower and upper bounds break the contract of
  `PartialOrd`/`PartialEq` (`!=` between a lower and an upper bound is always false).
* C35, C36: scaling by 0 and truncating division of open ends lose points. C38: wrapping arithmetic gives
  wrong intervals silently. C39: a panic inside `+=`, `-=` or `*=` can leave a malformed interval.
  C89: so can a panicking comparison inside `*=` or `/=`, after the two ends changed places.
  C90: on such intervals `into_span`, `into_merged` and `into_intersection` can panic.
* C95: if `==` tells apart what `cmp` does not, `into_span` can panic and `span` can leave an interval that
  the constructors reject, and merging at two open ends takes in the values between them.
* C91: a stored key whose `Hash` panics while std rehashes in place makes counts of other keys disappear.
* C96: keys whose equality changes over time can make `Counter::from` a map lose counts, `+=` not.
* C49, C65: counts wrap in release builds; an exaggerated `size_hint` makes counting panic.
* C101: collecting and extending reserve what `size_hint` announces, so the memory is not O(k) as documented.
* C102: `most_common` sorts, so it is not O(k) as documented.
* C104: the memory of a disjoint set follows size hints as well, so it is not O(n) in the elements held.
* C109: a full counter or disjoint set made with `with_capacity(n)` may reallocate although it never holds more than
  n elements: `-=` with an absent key asks for one more place, with the std of 2018 also counting a key again.
* C124: also without `-=` a removal from a full map can make the next insertion reallocate: the place removed may stay
  taken until the array is replaced.
* C68: the documented bound per call of the disjoint set holds only amortised (C67).
* C84: a query of a disjoint set changes what `Debug` prints.
* C85: when an element's destructor panics inside `DisjointSet::clear`, the parents are kept: elements added
  later are in one set without having been united. C87: the set is otherwise usable, but a search can
  recurse once per element.

## Per-property plan

Circular buffer - invariant `rep cb l`: rotating the storage left by `start` gives the elements
`l` followed by at least one uninitialised slot, and `end` is `start + |l|` modulo the size.

* C01, C02, C06, C07, C08, C11, C12, C13, C16, C18: forward simulation of every operation against the
  bounded sequence of `CBSpec`, lifted to histories by induction.
* C03, C04: induction on the pushed sequence. C05: permutation invariant over histories, using the drop lists.
* C09, C10: from `rep` and list rotation. C14: contents-only lemma and lexicographic order laws.
* C15: refuted; the bit-copy case. C17: refuted at `usize::MAX`; the rest, and the exact outcome there.
* C19: storage length and frame lemma per operation.
* C70, C71: invariant of the two ends of a traversal. C72: as C13 on the part delivered before the panic.
* C73, C74: case analysis of construction. C75: injectivity of the text; every position is reached by pushing and popping. C76: as C18 for pairs of buffers.
* C77: simulation in which positions are computed modulo `usize_max + 1`. C82: a second invariant
  for buffers with empty storage ("barren"), every call preserving one of the two. C93: the latter invariant alone.
* C99: forgetting the listed slots gives the calls of `CBModel`; a call run on two storages that agree on the
  listed slots goes the same way (so no slot is missing from the list); the lengths of the lists by the invariant of C01.
* C105: a comparison is a tree of questions; induction over the two lists of elements.
* C107: induction over the program, `pop_front` being C01 at every request.
* C116, C117: from C01 by calculation with bounded sequences.
* C121: invariant of a table: no two equal keys, and no empty slot on the way of the probe sequence to an entry. Each operation of the table then follows the list of entries of `HMModel.v` up to order, so each call follows the models of C51 and C52; two tables are compared through these specifications as in C118, C119.
* C122: a probe sequence meets no slot twice (it meets all, in as many steps), so a lookup compares with a sublist of the stored keys. An absent key walks past every stored key of its hash value, because their paths have no empty slot. The sums follow by induction over the calls, generically for counters and disjoint sets.
* C123: the groups met by triangular probing over a power of two cover the array. Invariant: in front of every entry on its way lie groups without an empty slot, and entries and marks together stay below the array's capacity, so an empty slot is left. A removal may leave EMPTY only if no group of W slots around the place was full, which keeps the invariant; each operation then follows the list of entries up to order, and two tables are compared through the finite map.
* C124: without removals there are no marks, so the free places are the capacity minus the entries held; with removals a witness with fourteen colliding keys in sixteen slots.
* C125: as C121, from the lemmas of C123 about single operations; runs on different tables are compared through the logs both keep.
* C126: the invariant without the paths: a power of two of slots, and entries and marks within the capacity. A free slot is found because the probe sequence covers the array, so a put adds its entry; the rest is counting.
* C127: the keys compared are those of a list of slots without repetition: the bytes of a group belong to different slots, the groups of one round of the probe sequence are disjoint (triangular numbers differ modulo a power of two), and the lookup ends within a round because an EMPTY slot lies in it. Costs by induction over the values, counting stored keys by tag.
* C120: every function of the model keeps relations under which comparisons agree; induction over the program.
* C118, C119: the specifications of one call (C52, C51) determine answer and next state up to equality of keys and order of traversal, also where a panic interrupts the call; then the histories agree step by step. Different ways of doing the same are compared by their effect on log or finite map.
* C108: every step of a call keeps the relation between the vector or buffer and the blocks in use; dropping the
  requests gives the calls of `CBModel`.
* C106: formatting is a tree of writes; "prints a text" is closed under sequence and under the padding adapter,
  whose chunks are the lines of what is written through it; the texts are those of C41, C75 and C88.

Interval - pure functions over an abstract total preorder; specification = set of points.

* C20, C21, C24, C25, C27, C28, C30, C32, C33, C34, C37, C40, C60, C62: case analysis with an order solver.
* C22, C26, C29, C31: refuted, with the exact meaning of each operation.
* C23, C26, C28, C33 converses: for dense orders, with counterexamples on integers.
* C35, C36, C38, C39: monotone maps on the two ends; refuted in part, with the exact result.
* C89: case analysis over the comparison that panics; the two swaps are done one after the other, so only
  the lower end can have been exchanged. C90: the set-theoretic lemmas of C24, C25 and C27 redone without
  assuming well-formed operands. C95: case analysis over which operator each call asks; with a lawful
  order the lemmas of C24-C27 apply wherever only `cmp` is asked. C98: a call is a tree of questions; a predicate on
  all its branches is computed from the tree and checked branch by branch; with fixed answers it is C95 and C89.
* C41, C61, C81: injectivity of the text, congruence of the hash input. C88: the padding adapter is a state
  machine over characters; it indents every line of a text, by induction on the lines.

Counter - list-of-entries map with usize overflow; specification = occurrence counts / finite map.

* C42-C48, C50, C51, C63: induction over the sequence or iteration order. C49, C65: refuted, exact condition.
* C64, C78, C80, C86: the loop stopped at an arbitrary point. C91: the entries lost are an arbitrary subset. C83: reading the text back.
* C94, C96: induction over the items, each of which changes one entry of the list.
* C100, C101: forgetting the requests gives the calls of `CTModel`; the lists of requests by induction over the
  items; a table that meets the demands in any way within its growth. C102: refuted by counting the leaves of a decision tree.
* C103, C104: likewise for `DSModel`; the counts from the numbers of recursive calls of C67; unlisted elements by a
  coherence argument over the statements of each call.
* C109: the demands of each call are at most the entries it ends with, unless it subtracts; induction over the history.
* C110, C111: each statement keeps the books (owned before and obtained = dropped and owned after, in order); loops and
  histories by composition; the exact drops by induction over the items. Forgetting the events gives the earlier models back.
* C114: a relation between stored ends carried through each comparison and each set operation. C115: each operator is
  x -> px + q on the ends followed by the repair; such maps compose.
* C112: the same for intervals, statement by statement over an arbitrary history; the calls of the user's operators by
  running the call up to the repair of the ends. Forgetting the destructors gives the dialogs of C98 back.
* C113: the step lemma of C51 for the further calls; loops with panicking bodies by induction over the order of the
  iteration, saying for each entry whether it was met.

Disjoint set - vector of (parent, rank); specification = equivalence closure of the union calls.

* C52-C59: invariant (parents in range, ranks strictly increase, 2^rank <= class size), abstraction to
  the root function; path compression preserves it; histories by induction. C66: states equal up to equal keys.
* C67: potential method. C68: a family of histories building binomial trees. C69: depth only decreases.
* C79, C85: the loop stopped at an arbitrary point; after a failed `clear` the parents repeat the old ones
  modulo the old size. C84: reading the text back; refuted for queries.
* C87: a weaker invariant (every slot has a root, 2^rank <= class size of a root); a path visits no slot twice.
* C92: simulation by the same disjoint set over slot numbers, for which C52-C57 hold. C97: C92 for elements
  that carry the answers to their lookup with them.

## Seeded bugs

`seeded/LOG.jsonl` has one line per wrong program tried in a scratch copy of the model.
`theorems_failed` lists every property theorem whose own proof, or a lemma it uses, no longer compiles.
Lines with an empty list say why (an unreachable branch, or a theorem that was then tightened).

Lines with `"kind": "automatic"` are single edits made by a script to every model definition (a token
exchanged, a condition negated, a statement deleted, two arguments swapped; those that do not type-check
are left out). There only the first proof that fails is observed, in a copy without examples;
`theorems_failed` are the theorems whose proofs use it, and `claim` is the property nearest to the edited
definition. That a proof fails does not by itself show that its theorem became false.

## Modelled and not modelled

Modelled: every method, operator and trait implementation of the four modules, apart from what is
listed here. `Deref`/`DerefMut` of the counter give the whole `HashMap` API, of which the calls listed in
`CTSpec.op` and `CTSpec8.call` are modelled.

Not modelled: thread safety, lifetimes and borrow rules, memory layout and the `transmute`s between
`[ManuallyDrop<T>]` and `[T]`, running out of memory, the bytes in memory of std's table (C121 has a table that looks at one slot at a time, C123 one with groups and tags; what an inconsistent `Eq` or `Hash` does is in C92, C94, C96, C97 and C121), the capacity reported by
hash tables,
iterators' own destructors, time other than the calls and accesses counted in C67-C69, C99, C100, C102 and C103. Reallocation in place and
the reuse of a vector's block by `into_iter().collect()` are not modelled (C108).

## Trusted base

* The kernel of Coq 8.16.1 (`coqc`; `vm_compute` is used for some concrete examples).
* The reading of the Rust source documented in the model's comments, and the contracts of std above.
* No axioms: no file of this development declares one. `Print Assumptions` answers
  `Closed under the global context` for every theorem listed below.
* The library modules loaded (not used by any theorem) contain seven axioms of the standard library, all from
  the module type in `Coq.ssr.ssrunder`: `Under_rel.Under_rel`, `Under_rel.Under_rel_from_rel`,
  `Under_rel.Under_relE`, `Under_rel.under_rel_done`, `Under_rel.Over_rel`, `Under_rel.over_rel`, `Under_rel.over_rel_done`.

### `Print Assumptions` of every property theorem

All 545: `Closed under the global context`.

* `CBProps.v`: `c01_history_is_bounded_deque`, `c01_any_buffer_is_bounded_deque`, `c02_len_le_capacity`, `c02_observers_agree`, `c02_only_resize_changes_capacity`, `c03_push_back_keeps_newest`, `c04_push_front_keeps_newest`, `c05_conservation`, `c05_drop_releases_everything`, `c06_no_uninitialised_read`, `c07_index`, `c07_first_last`, `c08_index_mut`, `c08_first_last_mut`, `c08_iter_mut`, `c08_slices_mut`, `c09_slices`, `c10_linearize`, `c11_swap`, `c11_reverse`, `c12_resize_partial`, `c12_resize_too_big_partial`, `c12_resize_max_refuted`, `c13_append`, `c13_extend`, `c13_drain`, `c13_into_iter`, `c14_eq_contents`, `c14_eq_slice_contents`, `c14_partial_cmp_lexicographic`, `c14_cmp_lexicographic`, `c14_cmp_total_order`, `c14_comparisons_agree`, `c15_clone_refuted`, `c15_clone_bitwise_partial`, `c16_machine_independent`, `c17_new_partial`, `c17_new_accepts_capacity_partial`, `c17_new_max_refuted`, `c17_from_iter`, `c17_from_vec`, `c18_panicking_destructors`, `c18_push_back_crash`, `c18_clear_crash`, `c18_resize_crash`, `c19_storage_fixed`, `c19_push_touches_two_slots`, `c19_pop_touches_one_slot`
* `CBProps10.v`: `c116_the_ends_are_mirror_images`, `c116_positions_from_the_other_end`, `c117_only_capacity_and_contents_matter`, `c117_same_whatever_destructors_do`, `c117_same_without_panics`
* `CBProps2.v`: `c70_iter_from_both_ends`, `c71_iter_mut_hands_out_distinct_places`, `c71_iter_mut_from_both_ends`, `c72_extend_takes_what_was_yielded`, `c72_extend_with_panicking_destructors`, `c72_extend_from_references_clones`, `c72_panicking_clone_keeps_earlier_ones`, `c73_from_iter_collects_everything`, `c73_from_references_clones`, `c73_failed_construction_leaks_refuted`, `c73_endless_iterator_leaks_refuted`, `c74_too_long_panics_partial`, `c74_too_long_vec_refuted`, `c75_debug_tells_capacity_and_length`, `c75_equal_buffers_print_equally_refuted`, `c76_append_is_moving_one_by_one`, `c76_append_conserves_elements`, `c76_into_iter_drops_the_rest`, `c77_small_capacities_any_element_size_partial`, `c77_release_any_capacity`, `c77_debug_large_capacity_refuted`
* `CBProps3.v`: `c12_resize_max_exact_partial`, `c17_new_every_capacity_partial`, `c82_no_undefined_behaviour`, `c82_append_no_undefined_behaviour`, `c82_sound_or_barren`, `c82_checked_builds_are_sound`
* `CBProps4.v`: `c75_text_exact`, `c75_every_text_occurs`, `c75_equal_texts`
* `CBProps5.v`: `c93_no_buffer_can_be_made_refuted`, `c93_no_buffer_holds_an_element`, `c93_checked_builds_hold_no_buffer`, `c93_resize_does_not_help`
* `CBProps6.v`: `c99_listing_slots_changes_no_call`, `c99_only_listed_slots_matter`, `c99_only_listed_slots_matter_resize`, `c99_slots_touched`, `c99_slots_touched_resize`, `c99_slots_touched_append`, `c99_slots_touched_into_iter`, `c99_slots_of_linearize`, `c99_documented_constant_calls`, `c99_linear_calls`
* `CBProps7.v`: `c105_eq_asks_pairwise`, `c105_eq_slice_asks_pairwise`, `c105_cmp_asks_pairwise`, `c105_partial_cmp_asks_pairwise`, `c105_operators_ask_the_same`, `c105_steady_answers`
* `CBProps8.v`: `c107_drain_delivers_in_order`, `c107_into_iter_delivers_in_order`, `c107_nth`, `c107_count_and_collect`, `c107_last`, `c107_find`
* `CBProps9.v`: `c108_construction_owns_one_block`, `c108_interrupted_clone_owns_nothing`, `c108_from_vec_takes_the_block_over`, `c108_history_owns_one_block`, `c108_requests_exactly`, `c108_peak_of_resize`, `c108_any_call`, `c108_drop_returns_the_block`, `c108_into_iter_returns_the_block`, `c108_clone_from`
* `CTProps.v`: `c42_from_iter_counts_occurrences`, `c42_from_iter_returns`, `c42_from_iter_by_reference_agrees`, `c43_push_adds_one`, `c43_extend_adds_occurrences`, `c43_extend_returns`, `c43_extend_order_is_irrelevant`, `c43_extend_by_reference_is_extend`, `c44_add_is_pointwise`, `c44_add_returns`, `c44_add_is_commutative`, `c44_add_is_associative`, `c44_add_variants_agree`, `c45_sub_is_pointwise`, `c45_sub_returns`, `c45_sub_variants_agree`, `c46_add_then_sub_restores`, `c47_into_most_common_sorts_all_entries`, `c47_most_common_sorts_all_entries`, `c47_most_common_returns`, `c47_counts_are_determined`, `c48_total_is_conserved`, `c48_from_iter_total_is_length`, `c49_debug_counts_are_exact_or_panic_partial`, `c49_counts_never_silently_overflow_refuted`, `c50_from_hashmap_keeps_entries`, `c50_from_map_keeps_entries`, `c50_from_map_ref_keeps_counts`, `c50_equality_is_same_lookups`, `c50_equality_is_an_equivalence`, `c50_clone_is_equal`, `c51_history_is_finite_map`, `c51_into_iter_enumerates_the_entries`, `c51_with_capacity_is_empty`, `c63_subtracting_itself_gives_empty`, `c63_subtracting_twice_is_subtracting_the_sum`, `c63_counting_a_concatenation_is_adding`, `c64_panicking_add_is_a_partial_add`, `c65_counting_succeeds_when_elements_fit_refuted`, `c65_small_hint_counts_partial`
* `CTProps10.v`: `c119_equal_counters_answer_alike`, `c119_ways_of_doing_the_same`
* `CTProps2.v`: `c47_first_is_most_common`, `c49_release_counts_wrap_partial`, `c65_from_iter_succeeds_exactly_partial`, `c65_extend_succeeds_exactly_partial`, `c78_extend_with_panicking_iterator`, `c78_extend_by_reference`, `c78_from_iter_with_panicking_iterator`, `c78_from_iter_with_panicking_clone`, `c80_add_with_panicking_clone`, `c80_sub_with_panicking_clone`, `c80_operators_with_panicking_clone`
* `CTProps3.v`: `c86_push`, `c86_agrees_without_panics`, `c86_extend`, `c86_add_by_value`, `c86_add_by_reference`, `c86_sub_by_value`, `c86_sub_by_reference`, `c91_lost_entries`, `c91_failed_push_keeps_the_counts_refuted`, `c91_failed_push_keeps_the_counts_partial`
* `CTProps4.v`: `c94_every_number_goes_to_one_entry`, `c94_total_is_conserved`, `c94_from_iter_total_is_length`, `c94_subtraction_takes_from_one_entry_each`, `c94_subtraction_is_bounded`, `c94_no_zero_counts`, `c94_every_call_returns_or_panics`, `c94_lookups_and_most_common`
* `CTProps5.v`: `c96_unchanging_equality`, `c96_every_number_goes_to_one_entry`, `c96_total_is_conserved`, `c96_from_iter_total_is_length`, `c96_subtraction_takes_from_one_entry_each`, `c96_no_zero_counts`, `c96_conversion_puts_each_entry`, `c96_conversion_keeps_the_total_refuted`
* `CTProps6.v`: `c100_listing_requests_changes_no_call`, `c100_each_key_is_looked_up_once`, `c100_initialization_looks_up_each_item_once`, `c100_comparing_looks_up_each_entry_once`, `c101_entries_have_room`, `c101_demands_partial`, `c101_memory_of_a_history_partial`, `c101_memory_of_initialization_partial`, `c101_memory_is_not_linear_in_distinct_refuted`, `c101_extend_demands_its_hint_refuted`, `c102_most_common_is_not_linear_refuted`, `c102_most_common_in_k_log_k`, `c102_sorting_gives_most_common`
* `CTProps7.v`: `c109_making_a_counter_demands_its_capacity`, `c109_counter_is_not_reallocated_partial`, `c109_counter_with_one_to_spare_is_not_reallocated_partial`, `c109_collecting_allocates_once`, `c109_subtracting_from_a_full_counter_refuted`, `c109_counting_again_in_a_full_counter_refuted`
* `CTProps8.v`: `c110_every_call_keeps_the_books`, `c110_history_keeps_the_books`, `c110_whole_life`, `c110_constructors`, `c110_consuming_operators`, `c110_first_instance_stays`, `c110_subtracting_stores_nothing`, `c110_forgetting_events_panicking_hash`, `c110_forgetting_events_panicking_clone`, `c110_forgetting_events_clones`, `c110_interrupted_clone`, `c110_interrupted_remove`, `c110_calls_return_or_panic`
* `CTProps9.v`: `c113_history_with_the_map_calls`, `c113_loops_over_the_counts_keep_the_keys`, `c113_interrupted_retain_loses_only_the_refused`, `c113_pairs_replace_the_counts`, `c113_counting_by_hand_is_push`
* `DBProps.v`: `c83_same_text_same_counter`, `c83_same_counter_same_texts`, `c83_integers`, `c84_same_text_same_answers`, `c84_clone_prints_alike`, `c84_query_keeps_text_refuted`
* `DSProps.v`: `c52_histories_follow_the_closure`, `c52_in_union_is_the_closure`, `c53_membership_and_size`, `c53_membership_without_panics`, `c54_queries_are_invisible`, `c54_one_query_is_invisible`, `c55_iteration_yields_the_partition`, `c56_recursion_depth_is_logarithmic`, `c56_ranks_never_overflow`, `c56_every_call_returns`, `c57_with_capacity_is_empty`, `c57_make_set_adds_a_singleton`, `c57_adding_again_changes_nothing`, `c57_extend_adds_singletons`, `c57_from_iter_gives_singletons`, `c57_from_iter_iterates_singletons`, `c57_from_iter_by_reference`, `c58_order_of_unions_is_irrelevant`, `c58_permuted_calls`, `c59_union_merges_exactly_two_sets`, `c66_clone_behaves_like_the_original`, `c66_clone_iterates_clones`
* `DSProps10.v`: `c111_every_call_keeps_the_books`, `c111_whole_life`, `c111_constructors`, `c111_first_instance_stays`, `c111_forgetting_events`, `c111_forgetting_events_clones`, `c111_interrupted_clone`, `c111_forgetting_events_in_histories`
* `DSProps11.v`: `c118_only_the_partition_matters`, `c118_ways_of_doing_the_same`
* `DSProps2.v`: `c67_calls_are_those_of_the_recursion`, `c67_searches_are_amortised_inverse_ackermann`, `c67_six_calls_per_search`, `c68_single_call_is_cheap_refuted`, `c69_queries_only_shorten_searches`, `c69_repeated_in_union_is_constant`, `c69_iteration_flattens_the_forest`
* `DSProps3.v`: `c79_extend_with_panicking_iterator`, `c79_extend_by_reference`, `c79_from_iter_with_panicking_iterator`, `c79_from_iter_with_panicking_clone`
* `DSProps4.v`: `c85_make_set`, `c85_union`, `c85_extend`, `c85_questions`, `c85_clear_partial`, `c85_clear_refuted`, `c85_failed_clear_revives_the_unions`
* `DSProps5.v`: `c87_in_union_is_an_equivalence`, `c85_contains`, `c87_every_call_returns_or_panics`, `c87_make_set`, `c87_union`, `c87_iteration`, `c87_search_ends`, `c87_search_can_be_linear`, `c87_search_is_logarithmic_refuted`
* `DSProps6.v`: `c92_forest`, `c92_calls_follow_the_slots`, `c92_every_call_returns`, `c92_searches_are_logarithmic`, `c92_slots_are_distinct`, `c92_iteration`
* `DSProps7.v`: `c97_unchanging_equality`, `c97_calls_follow_the_slots`, `c97_forest`, `c97_every_call_returns`
* `DSProps8.v`: `c103_listing_accesses_changes_no_call`, `c103_keys_are_looked_up_once`, `c103_initialization_looks_up_each_item_once`, `c103_make_set_is_constant`, `c103_search_climbs_to_the_root`, `c103_union_and_search_are_logarithmic`, `c103_only_listed_elements_matter`, `c103_calls_are_amortised_inverse_ackermann`, `c103_calls_are_amortised_constant`, `c103_single_calls_are_amortised_constant`, `c104_elements_have_room`, `c104_demands_partial`, `c104_memory_of_a_history_partial`, `c104_memory_of_initialization_partial`, `c104_memory_is_not_linear_refuted`, `c104_extend_demands_its_hint_refuted`
* `DSProps9.v`: `c109_making_a_set_demands_its_capacity`, `c109_set_is_not_reallocated_partial`, `c109_collecting_a_set_allocates_once`, `c109_making_again_in_a_full_set_refuted`
* `FMProps.v`: `c106_complete_or_cut_off`, `c106_intervals_are_displayed`, `c106_display_step_by_step`, `c106_buffers_are_printed`, `c106_intervals_are_printed`, `c106_maps_are_printed`
* `GTProps.v`: `c123_table_is_a_map`, `c123_hash_and_groups_do_not_matter`, `c123_lookups_end`, `c124_array_is_kept`, `c124_array_is_kept_with_removals_refuted`
* `GTProps2.v`: `c125_counter_on_groups`, `c125_table_does_not_matter_for_counters`, `c125_disjoint_set_on_groups`, `c125_table_does_not_matter_for_disjoint_sets`
* `GTProps3.v`: `c126_no_entry_is_lost`, `c126_lookups_end`
* `GTProps4.v`: `c127_lookup_compares`, `c127_lookup_loads_groups_once`, `c127_counting_costs_at_most`, `c127_counting_compares_tags_first`, `c127_colliding_keys_cost`, `c127_making_sets_costs_at_most`, `c127_making_sets_compares_tags_first`, `c127_colliding_elements_cost`
* `GTProps5.v`: `c125_equality_of_counters_with_different_hashes`, `c125_clone_cannot_be_told_apart`
* `GTProps6.v`: `c124_when_a_removal_leaves_a_mark`
* `HTProps.v`: `c121_any_hash_gives_a_counter`, `c121_hash_does_not_matter_for_counters`, `c121_inconsistent_hash_refuted`, `c121_any_hash_gives_a_disjoint_set`, `c121_hash_does_not_matter_for_disjoint_sets`
* `HTProps2.v`: `c122_lookup_compares`, `c122_counting_costs_at_most`, `c122_colliding_keys_cost`, `c122_making_sets_costs_at_most`, `c122_colliding_elements_cost`, `c121_equality_of_counters_with_different_hashes`, `c121_clone_cannot_be_told_apart`
* `IVProps1.v`: `c20_well_formed`, `c21_new_panics_iff_invalid`, `c21_new_keeps_bounds`, `c21_other_constructors`, `c21_round_trip`, `c22_contains_val_partial`, `c22_empty_contains_val_refuted`, `c23_contains_interval_sound`, `c23_contains_interval_complete`, `c23_contains_interval_order`, `c24_merge_is_union`, `c24_refused_returns_operands`, `c24_mergeable_iff_no_gap`, `c24_mergeable_has_no_gap`, `c25_intersection`, `c25_equal_intervals_have_equal_points`, `c26_common_point_intersects`, `c26_intersects_dense_partial`, `c26_empty_intersects_refuted`, `c26_integer_gap_refuted`, `c27_span_is_least`, `c27_span_is_hull`, `c28_lt_compares_points`, `c28_lt_complete`, `c28_lt_strict_order`, `c28_le_at_most_one_common_point`, `c29_partial_cmp_partial`, `c29_exclusive`, `c29_eq_equivalence`, `c29_le_refuted`, `c30_bound_orders`, `c30_bound_operators_agree`, `c30_bounds_admit`, `c30_bounds_admit_dense`, `c30_min_max`, `c31_lower_upper_order_refuted`, `c31_lower_upper_order_partial`, `c32_bound_value_operators`, `c32_admits`, `c33_interval_value_sound`, `c33_interval_value_complete`, `c33_eq_is_single`, `c33_partial_cmp`, `c40_intersection_laws`, `c40_span_laws`, `c40_absorption`, `c40_merge_agrees_with_span`, `c40_merge_commutes`, `c60_gap_separates`, `c60_separated_gap`, `c60_symmetric`, `c61_hash_respects_eq`, `c61_hash_separates`, `c61_hashes_as_its_tuple`, `c62_accessors`, `c62_is_single`, `c62_is_empty`
* `IVProps10.v`: `c98_nothing_asked_about_the_empty`, `c98_merge_follows_the_answers`, `c98_span_follows_the_answers`, `c98_intersection_follows_the_answers`, `c98_constructors_follow_the_answers`, `c98_into_merged_follows_the_answers`, `c98_into_span_follows_the_answers`, `c98_into_intersection_follows_the_answers`, `c98_arithmetic_follows_the_answers`
* `IVProps11.v`: `c112_every_call_keeps_the_books`, `c112_bounds_keep_the_books`, `c112_program_keeps_the_books`, `c112_whole_life`, `c112_sets_only_move_ends`, `c112_constructor_calls`, `c112_operator_calls`, `c112_assigning_operator_calls`, `c112_negation_calls`, `c112_operators_on_the_empty`, `c112_forgetting_acts`, `c112_forgetting_acts_operators`, `c112_which_of_equal_ends`
* `IVProps12.v`: `c114_operators_keeping_the_order`, `c114_operators_turning_the_order`, `c114_negation_turns_the_order`, `c114_which_operators`, `c115_steps_combine`, `c115_minus`, `c115_neutral_and_inverse`
* `IVProps13.v`: `c120_only_comparisons_matter`, `c120_equal_intervals_answer_alike`, `c120_programs_can_be_moved`
* `IVProps2.v`: `c34_translation`, `c34_translation_inverse`, `c34_translation_rational`, `c34_assign_agrees`, `c35_scaling_partial`, `c35_scaling_zero_partial`, `c35_scaling_zero_refuted`, `c35_scaling_rational_partial`, `c35_assign_agrees`, `c36_division_rational_partial`, `c36_division_closed_partial`, `c36_division_by_zero`, `c36_division_open_refuted`, `c36_assign_agrees`, `c37_negation`, `c37_negation_involutive`, `c37_negation_rational`, `c38_checked_exact_or_panic_partial`, `c38_panics_iff_overflow`, `c38_wrapping_refuted`, `c39_op_assign_refuted`, `c39_op_assign_left_behind_partial`, `c39_sub_add_unchanged_partial`, `c39_div_unchanged_partial`, `c41_display_faithful`, `c41_display_integers`, `c41_display_form`
* `IVProps3.v`: `c22_contains_val_exact_partial`, `c26_intersects_exact_partial`, `c26_intersects_dense_exact_partial`, `c26_intersects_integers_exact_partial`, `c29_le_exact_partial`, `c31_lower_upper_exact_partial`, `c36_division_integers_exact_partial`, `c36_division_panics`, `c38_neg_panics_iff_overflow`
* `IVProps4.v`: `c33_interval_value_exact`, `c33_empty_is_incomparable`, `c81_debug_of_bounds_faithful`, `c81_debug_of_intervals_faithful`, `c81_debug_integers`
* `IVProps5.v`: `c38_wrapping_exact_partial`, `c38_wrapping_right_or_inside_out_partial`, `c39_left_behind_well_formed_iff_partial`, `c39_integers_malformed_iff_partial`
* `IVProps6.v`: `c89_returning_calls_are_unaffected`, `c89_no_panic_without_panicking_comparison`, `c89_interrupted_merge`, `c89_interrupted_span`, `c89_what_interrupted_span_leaves`, `c89_what_interrupted_merge_leaves`, `c89_interrupted_intersection`, `c89_what_interrupted_intersection_leaves`, `c89_interrupted_assignment`, `c89_when_assignment_is_interrupted`, `c89_when_assignment_stays_well_formed`, `c89_order_keeping_assignment_is_safe`, `c89_integer_shifts_are_safe`, `c89_assignment_keeps_well_formed_refuted`
* `IVProps7.v`: `c90_malformed_has_no_points`, `c90_in_place_set_operations`, `c90_consuming_set_operations`, `c90_merging_a_malformed_one`, `c90_arithmetic_repairs`
* `IVProps8.v`: `c95_agreeing_operators`, `c95_which_ends_are_taken`, `c95_new_intervals_are_accepted`, `c95_open_ends_with_finer_equality`, `c95_set_operations_with_finer_equality`, `c95_merging_with_finer_equality`, `c95_comparisons_with_finer_equality`, `c95_span_of_accepted_is_accepted_refuted`
* `IVProps9.v`: `c98_steady_comparisons`, `c98_steady_comparisons_of_bounds`, `c98_questions_of_bounds`, `c98_questions`
* `PPProps.v`: `c88_intervals_on_one_line`, `c88_maps_on_one_line`, `c88_intervals_on_several_lines`, `c88_maps_on_several_lines`, `c88_intervals_faithful`, `c88_counters_faithful`, `c88_equal_counters_print_alike`, `c88_sets_faithful`, `c88_number_of_lines`, `c88_one_line_can_be_ambiguous`
