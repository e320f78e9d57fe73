{
 "claims": [
  {
   "property": "C01",
   "status": "proved",
   "theorems": [
    "c01_history_is_bounded_deque",
    "c01_any_buffer_is_bounded_deque"
   ],
   "note": "Every history of public calls, on a new buffer and on any buffer a program can hold, has the outcomes, drop logs and contents of a bounded sequence. Element types of non-zero size, and zero-sized ones in builds without overflow checks (indexable); see C77 for the rest."
  },
  {
   "property": "C02",
   "status": "proved",
   "theorems": [
    "c02_len_le_capacity",
    "c02_observers_agree",
    "c02_only_resize_changes_capacity"
   ],
   "note": "Length never exceeds capacity; len/is_empty/is_full/capacity agree with the contents; only resize changes capacity."
  },
  {
   "property": "C03",
   "status": "proved",
   "theorems": [
    "c03_push_back_keeps_newest"
   ],
   "note": "Pushing any list to the back of a new buffer keeps its last k elements in order and drops the others oldest first."
  },
  {
   "property": "C04",
   "status": "proved",
   "theorems": [
    "c04_push_front_keeps_newest"
   ],
   "note": "Mirror image of C03 for push_front."
  },
  {
   "property": "C05",
   "status": "proved",
   "theorems": [
    "c05_conservation",
    "c05_drop_releases_everything"
   ],
   "note": "Over any history the elements present at the start plus those received are a permutation of those returned, dropped and still held. Histories in which the process aborts (panic during unwinding) are excluded. Operations that overwrite elements through a mutable reference are covered by C08."
  },
  {
   "property": "C06",
   "status": "proved",
   "theorems": [
    "c06_no_uninitialised_read"
   ],
   "note": "No call reads an uninitialised slot or runs out of fuel; a call panics exactly when an index is out of range or an element destructor panics."
  },
  {
   "property": "C07",
   "status": "proved",
   "theorems": [
    "c07_index",
    "c07_first_last"
   ],
   "note": "Index, first and last against nth_error/hd_error of the contents, including the out-of-range panic."
  },
  {
   "property": "C08",
   "status": "proved",
   "theorems": [
    "c08_index_mut",
    "c08_first_last_mut",
    "c08_iter_mut",
    "c08_slices_mut"
   ],
   "note": "index_mut, first_mut, last_mut, iter_mut and slices_mut change exactly the addressed elements."
  },
  {
   "property": "C09",
   "status": "proved",
   "theorems": [
    "c09_slices"
   ],
   "note": "The two slices concatenate to the contents."
  },
  {
   "property": "C10",
   "status": "proved",
   "theorems": [
    "c10_linearize"
   ],
   "note": "linearize returns the contents as one slice and leaves contents and capacity unchanged."
  },
  {
   "property": "C11",
   "status": "proved",
   "theorems": [
    "c11_swap",
    "c11_reverse"
   ],
   "note": "swap and reverse, including the out-of-range panic of swap."
  },
  {
   "property": "C12",
   "status": "partial",
   "theorems": [
    "c12_resize_partial",
    "c12_resize_too_big_partial",
    "c12_resize_max_refuted",
    "c12_resize_max_exact_partial"
   ],
   "note": "Proved for every capacity that can be allocated and for those that fail cleanly. Refuted for a release build and capacity usize::MAX: the addition wraps, all elements are leaked and the buffer is left empty; an empty buffer becomes one that takes no element. Together these cover every capacity."
  },
  {
   "property": "C13",
   "status": "proved",
   "theorems": [
    "c13_append",
    "c13_extend",
    "c13_drain",
    "c13_into_iter"
   ],
   "note": "append, extend, drain (also partially consumed) and into_iter (also partially consumed)."
  },
  {
   "property": "C14",
   "status": "proved",
   "theorems": [
    "c14_eq_contents",
    "c14_eq_slice_contents",
    "c14_partial_cmp_lexicographic",
    "c14_cmp_lexicographic",
    "c14_cmp_total_order",
    "c14_comparisons_agree"
   ],
   "note": "Equality, partial and total comparison depend on contents only and are lexicographic; cmp is a total order whenever the element order is."
  },
  {
   "property": "C15",
   "status": "partial",
   "theorems": [
    "c15_clone_refuted",
    "c15_clone_bitwise_partial"
   ],
   "note": "Refuted: the derived Clone calls the element's clone on an uninitialised slot. Proved for element types whose clone is a bit copy."
  },
  {
   "property": "C16",
   "status": "proved",
   "theorems": [
    "c16_machine_independent"
   ],
   "note": "Two machines (debug or release, any index range) on which positions can be computed (indexable) give the same traces and contents. An example shows that zero-sized elements can overflow."
  },
  {
   "property": "C17",
   "status": "partial",
   "theorems": [
    "c17_new_partial",
    "c17_new_accepts_capacity_partial",
    "c17_new_max_refuted",
    "c17_from_iter",
    "c17_from_vec",
    "c17_new_every_capacity_partial"
   ],
   "note": "Every capacity up to usize::MAX is covered: created, refused with a panic, or (release builds, usize::MAX) refuted: the computation wraps and the buffer takes no element."
  },
  {
   "property": "C18",
   "status": "proved",
   "theorems": [
    "c18_panicking_destructors",
    "c18_push_back_crash",
    "c18_clear_crash",
    "c18_resize_crash"
   ],
   "note": "After any pattern of panicking destructors the buffer still behaves as a bounded sequence; exact crash points for push_back, clear and resize."
  },
  {
   "property": "C19",
   "status": "proved",
   "theorems": [
    "c19_storage_fixed",
    "c19_push_touches_two_slots",
    "c19_pop_touches_one_slot"
   ],
   "note": "No call except resize changes the number of slots; push touches at most two slots, pop at most one."
  },
  {
   "property": "C20",
   "status": "proved",
   "theorems": [
    "c20_well_formed"
   ],
   "note": "For every interval obtainable through the constructors, set operations and arithmetic with arbitrary element operators. The state left by a panicking op-assign is C39."
  },
  {
   "property": "C21",
   "status": "proved",
   "theorems": [
    "c21_new_panics_iff_invalid",
    "c21_new_keeps_bounds",
    "c21_other_constructors",
    "c21_round_trip"
   ],
   "note": "All six checked constructors, single and empty; taking apart and rebuilding is the identity."
  },
  {
   "property": "C22",
   "status": "partial",
   "theorems": [
    "c22_contains_val_partial",
    "c22_empty_contains_val_refuted",
    "c22_contains_val_exact_partial"
   ],
   "note": "Proved for non-empty intervals. Refuted for the empty interval: contains_val returns true for every value. Exact: these are the only wrong answers."
  },
  {
   "property": "C23",
   "status": "proved",
   "theorems": [
    "c23_contains_interval_sound",
    "c23_contains_interval_complete",
    "c23_contains_interval_order"
   ],
   "note": "Soundness in every total order, completeness in dense orders; an example shows the converse fails over the integers."
  },
  {
   "property": "C24",
   "status": "proved",
   "theorems": [
    "c24_merge_is_union",
    "c24_refused_returns_operands",
    "c24_mergeable_iff_no_gap",
    "c24_mergeable_has_no_gap"
   ],
   "note": "Union, refusal, convexity in every order and the exact criterion over dense orders."
  },
  {
   "property": "C25",
   "status": "proved",
   "theorems": [
    "c25_intersection",
    "c25_equal_intervals_have_equal_points"
   ],
   "note": "Both variants."
  },
  {
   "property": "C26",
   "status": "partial",
   "theorems": [
    "c26_common_point_intersects",
    "c26_intersects_dense_partial",
    "c26_empty_intersects_refuted",
    "c26_integer_gap_refuted",
    "c26_intersects_exact_partial",
    "c26_intersects_dense_exact_partial",
    "c26_intersects_integers_exact_partial"
   ],
   "note": "A common point always gives true. Refuted: the empty interval intersects everything, and over the integers (1,3) and (2,4) are reported to intersect. Exact criteria: on the ends in every order, on the points over dense orders and over the integers (wrong exactly for an open gap between neighbouring numbers)."
  },
  {
   "property": "C27",
   "status": "proved",
   "theorems": [
    "c27_span_is_least",
    "c27_span_is_hull"
   ],
   "note": "Least upper bound for contains_interval in every order; exact convex hull of the points over dense orders."
  },
  {
   "property": "C28",
   "status": "proved",
   "theorems": [
    "c28_lt_compares_points",
    "c28_lt_complete",
    "c28_lt_strict_order",
    "c28_le_at_most_one_common_point"
   ],
   "note": "Soundness of <, >, <=, >= in every order, completeness over dense orders, strict order laws."
  },
  {
   "property": "C29",
   "status": "partial",
   "theorems": [
    "c29_partial_cmp_partial",
    "c29_exclusive",
    "c29_eq_equivalence",
    "c29_le_refuted",
    "c29_le_exact_partial"
   ],
   "note": "partial_cmp, <, > and == are coherent. Refuted for <=: [1,3] <= [1,3] is false although equal, and [3,5] <= [5,7] is true although partial_cmp is None. Exact meaning of <= and >= given."
  },
  {
   "property": "C30",
   "status": "proved",
   "theorems": [
    "c30_bound_orders",
    "c30_bound_operators_agree",
    "c30_bounds_admit",
    "c30_bounds_admit_dense",
    "c30_min_max"
   ],
   "note": "Total orders, all operators, min and max, points admitted (iff over dense orders)."
  },
  {
   "property": "C31",
   "status": "partial",
   "theorems": [
    "c31_lower_upper_order_refuted",
    "c31_lower_upper_order_partial",
    "c31_lower_upper_exact_partial"
   ],
   "note": "Refuted: at equal values with an open bound both l<u and l>u hold, != is always false, and <= holds without < or ==. The mirror-image laws, the cases of different values and the link between > and the constructor panic are proved; the full table of answers is given."
  },
  {
   "property": "C32",
   "status": "proved",
   "theorems": [
    "c32_bound_value_operators",
    "c32_admits"
   ],
   "note": "All operators of both bound kinds against partial_cmp and the admitted points."
  },
  {
   "property": "C33",
   "status": "proved",
   "theorems": [
    "c33_interval_value_sound",
    "c33_interval_value_complete",
    "c33_eq_is_single",
    "c33_partial_cmp",
    "c33_interval_value_exact",
    "c33_empty_is_incomparable"
   ],
   "note": "Soundness in every order; exact for all four operators over dense orders and obtainable intervals; == as the single closed point in every order; the empty interval is incomparable."
  },
  {
   "property": "C34",
   "status": "proved",
   "theorems": [
    "c34_translation",
    "c34_translation_inverse",
    "c34_translation_rational",
    "c34_assign_agrees"
   ],
   "note": "Fixed-width integers of any range when the two end values do not overflow, exact rationals, and agreement of += and -= for any element type whose op-assign agrees with its operator."
  },
  {
   "property": "C35",
   "status": "partial",
   "theorems": [
    "c35_scaling_partial",
    "c35_scaling_zero_partial",
    "c35_scaling_zero_refuted",
    "c35_scaling_rational_partial",
    "c35_assign_agrees"
   ],
   "note": "Exact for factors other than 0 (integers and rationals). Refuted for factor 0: with an open end the result is empty although the interval has points; the exact result for 0 is given."
  },
  {
   "property": "C36",
   "status": "partial",
   "theorems": [
    "c36_division_rational_partial",
    "c36_division_closed_partial",
    "c36_division_by_zero",
    "c36_division_open_refuted",
    "c36_assign_agrees",
    "c36_division_integers_exact_partial",
    "c36_division_panics"
   ],
   "note": "Exact over rationals and over integers: the points of I/k are the quotients of the points of I other than the quotient of an open end; panics exactly for divisor 0 or an unrepresentable quotient. Refuted as stated with an open end: (2,4)/2 = (1,2) does not hold 3/2 = 1."
  },
  {
   "property": "C37",
   "status": "proved",
   "theorems": [
    "c37_negation",
    "c37_negation_involutive",
    "c37_negation_rational"
   ],
   "note": "Integers of any range when the ends do not overflow, and rationals."
  },
  {
   "property": "C38",
   "status": "partial",
   "theorems": [
    "c38_checked_exact_or_panic_partial",
    "c38_panics_iff_overflow",
    "c38_wrapping_refuted",
    "c38_neg_panics_iff_overflow",
    "c38_wrapping_exact_partial",
    "c38_wrapping_right_or_inside_out_partial"
   ],
   "note": "Proved with overflow checks for +, -, * by a non-zero factor and unary minus, with the exact panic condition. Refuted without overflow checks: u8 [100,200]+100 becomes [44,200]. Exact without checks: both ends are taken modulo the width and put in order; for +, - and unary minus the result is right modulo the width when both ends or none overflow, and holds no result of an inner point when just one does."
  },
  {
   "property": "C39",
   "status": "partial",
   "theorems": [
    "c39_op_assign_refuted",
    "c39_op_assign_left_behind_partial",
    "c39_sub_add_unchanged_partial",
    "c39_div_unchanged_partial",
    "c39_left_behind_well_formed_iff_partial",
    "c39_integers_malformed_iff_partial"
   ],
   "note": "Refuted: u8 [120,200] += 100 leaves [220,200]. Exact: for every element type and operator the interval left behind is well formed iff the lower value was not updated or still lies below the old upper one; spelled out for checked integers. Division and the harmless directions of += and -= leave the interval unchanged."
  },
  {
   "property": "C40",
   "status": "proved",
   "theorems": [
    "c40_intersection_laws",
    "c40_span_laws",
    "c40_absorption",
    "c40_merge_agrees_with_span",
    "c40_merge_commutes"
   ],
   "note": "All laws up to ==."
  },
  {
   "property": "C41",
   "status": "proved",
   "theorems": [
    "c41_display_faithful",
    "c41_display_integers",
    "c41_display_form"
   ],
   "note": "Any element text that is injective and has no comma; decimal integers are shown to satisfy this."
  },
  {
   "property": "C42",
   "status": "proved",
   "theorems": [
    "c42_from_iter_counts_occurrences",
    "c42_from_iter_returns",
    "c42_from_iter_by_reference_agrees"
   ],
   "note": "Any key type with an equivalence as equality; by reference too; returns whenever hint and distinct elements fit the table limit."
  },
  {
   "property": "C43",
   "status": "proved",
   "theorems": [
    "c43_push_adds_one",
    "c43_extend_adds_occurrences",
    "c43_extend_returns",
    "c43_extend_order_is_irrelevant",
    "c43_extend_by_reference_is_extend"
   ],
   "note": "push, extend, extend by reference; independent of the order of the items."
  },
  {
   "property": "C44",
   "status": "proved",
   "theorems": [
    "c44_add_is_pointwise",
    "c44_add_returns",
    "c44_add_is_commutative",
    "c44_add_is_associative",
    "c44_add_variants_agree"
   ],
   "note": "Pointwise sums, commutative, associative, all four variants agree for every iteration order (including which runs panic)."
  },
  {
   "property": "C45",
   "status": "proved",
   "theorems": [
    "c45_sub_is_pointwise",
    "c45_sub_returns",
    "c45_sub_variants_agree"
   ],
   "note": "Pointwise. The variants agree and always return when the left operand is below the table limit; at a completely full table entry() of an absent key may panic depending on the order."
  },
  {
   "property": "C46",
   "status": "proved",
   "theorems": [
    "c46_add_then_sub_restores"
   ],
   "note": "With both side conditions shown necessary by examples."
  },
  {
   "property": "C47",
   "status": "proved",
   "theorems": [
    "c47_into_most_common_sorts_all_entries",
    "c47_most_common_sorts_all_entries",
    "c47_most_common_returns",
    "c47_counts_are_determined",
    "c47_first_is_most_common"
   ],
   "note": "For every iteration order and every sort result; a result always exists and its counts are determined; the first entry has the largest count."
  },
  {
   "property": "C48",
   "status": "proved",
   "theorems": [
    "c48_total_is_conserved",
    "c48_from_iter_total_is_length"
   ],
   "note": "For every history of counting calls that return, and from_iter."
  },
  {
   "property": "C49",
   "status": "partial",
   "theorems": [
    "c49_debug_counts_are_exact_or_panic_partial",
    "c49_counts_never_silently_overflow_refuted",
    "c49_release_counts_wrap_partial"
   ],
   "note": "Proved for debug builds (exact or panic, with the panic condition). Refuted for release builds: pushing a key counted usize::MAX times gives 0. Exact for release builds: counts are the true ones modulo usize::MAX+1."
  },
  {
   "property": "C50",
   "status": "proved",
   "theorems": [
    "c50_from_hashmap_keeps_entries",
    "c50_from_map_keeps_entries",
    "c50_from_map_ref_keeps_counts",
    "c50_equality_is_same_lookups",
    "c50_equality_is_an_equivalence",
    "c50_clone_is_equal"
   ],
   "note": "from_hashmap, From by value and by reference, == as equality of lookups, equivalence laws, clone."
  },
  {
   "property": "C51",
   "status": "proved",
   "theorems": [
    "c51_history_is_finite_map",
    "c51_into_iter_enumerates_the_entries",
    "c51_with_capacity_is_empty"
   ],
   "note": "All histories of 21 kinds of calls, panics caught, against a finite map remembering stored keys."
  },
  {
   "property": "C52",
   "status": "proved",
   "theorems": [
    "c52_histories_follow_the_closure",
    "c52_in_union_is_the_closure"
   ],
   "note": "All histories from the empty set (panics caught) against the log of added elements and united pairs; without panics against the calls themselves. Needs that the number of elements that fit memory has fewer than 2^32 bits."
  },
  {
   "property": "C53",
   "status": "proved",
   "theorems": [
    "c53_membership_and_size",
    "c53_membership_without_panics"
   ],
   "note": "As C52."
  },
  {
   "property": "C54",
   "status": "proved",
   "theorems": [
    "c54_queries_are_invisible",
    "c54_one_query_is_invisible"
   ],
   "note": "Any set of queries (in_union, iteration, contains, len, is_empty) left out anywhere, from any reachable state, later iterations with the same hash orders included."
  },
  {
   "property": "C55",
   "status": "proved",
   "theorems": [
    "c55_iteration_yields_the_partition"
   ],
   "note": "Any reachable state, any order of both hash maps."
  },
  {
   "property": "C56",
   "status": "proved",
   "theorems": [
    "c56_recursion_depth_is_logarithmic",
    "c56_ranks_never_overflow",
    "c56_every_call_returns"
   ],
   "note": "Recursion depth, bound 2^rank <= len, and every call returns or panics for want of room; never out of range."
  },
  {
   "property": "C57",
   "status": "proved",
   "theorems": [
    "c57_with_capacity_is_empty",
    "c57_make_set_adds_a_singleton",
    "c57_adding_again_changes_nothing",
    "c57_extend_adds_singletons",
    "c57_from_iter_gives_singletons",
    "c57_from_iter_iterates_singletons",
    "c57_from_iter_by_reference"
   ],
   "note": "make_set, extend, from_iter by value and by reference, and what iteration shows after from_iter."
  },
  {
   "property": "C58",
   "status": "proved",
   "theorems": [
    "c58_order_of_unions_is_irrelevant",
    "c58_permuted_calls"
   ],
   "note": "Any two histories without panics that add the same elements and unite the same pairs up to order, orientation, multiplicity and equality; permutations as a special case."
  },
  {
   "property": "C59",
   "status": "proved",
   "theorems": [
    "c59_union_merges_exactly_two_sets"
   ],
   "note": "From any reachable state, for calls that return."
  },
  {
   "property": "C60",
   "status": "proved",
   "theorems": [
    "c60_gap_separates",
    "c60_separated_gap",
    "c60_symmetric"
   ],
   "note": "In every order, with the converse over dense orders."
  },
  {
   "property": "C61",
   "status": "proved",
   "theorems": [
    "c61_hash_respects_eq",
    "c61_hash_separates",
    "c61_hashes_as_its_tuple"
   ],
   "note": "Both directions, the second for element hash input of fixed length; the input is exactly that of the tuple the interval converts into."
  },
  {
   "property": "C62",
   "status": "proved",
   "theorems": [
    "c62_accessors",
    "c62_is_single",
    "c62_is_empty"
   ],
   "note": "Accessors for every interval; is_single and is_empty for obtainable ones."
  },
  {
   "property": "C63",
   "status": "proved",
   "theorems": [
    "c63_subtracting_itself_gives_empty",
    "c63_subtracting_twice_is_subtracting_the_sum",
    "c63_counting_a_concatenation_is_adding"
   ],
   "note": "All three laws; overflow excluded where sums are formed."
  },
  {
   "property": "C64",
   "status": "proved",
   "theorems": [
    "c64_panicking_add_is_a_partial_add"
   ],
   "note": "For every iteration order; counts are reduced to the usize range in release builds."
  },
  {
   "property": "C65",
   "status": "partial",
   "theorems": [
    "c65_counting_succeeds_when_elements_fit_refuted",
    "c65_small_hint_counts_partial",
    "c65_from_iter_succeeds_exactly_partial",
    "c65_extend_succeeds_exactly_partial"
   ],
   "note": "Refuted: an iterator announcing more items than the table limit panics at once. Exact: from_iter and extend return precisely when the announced room and the distinct elements fit (overflow of a count aside)."
  },
  {
   "property": "C66",
   "status": "proved",
   "theorems": [
    "c66_clone_behaves_like_the_original",
    "c66_clone_iterates_clones"
   ],
   "note": "Histories without iteration give equal answers; iteration separately, for hash orders that treat both maps alike."
  },
  {
   "property": "C67",
   "status": "proved",
   "theorems": [
    "c67_calls_are_those_of_the_recursion",
    "c67_searches_are_amortised_inverse_ackermann",
    "c67_six_calls_per_search"
   ],
   "note": "The standard amortised analysis (CLRS potential) carried out for the model: any history from the empty set, panics included. The counted calls are tied to the recursion of the model (least sufficient depth). Hashing and vector growth are not counted."
  },
  {
   "property": "C68",
   "status": "partial",
   "theorems": [
    "c68_single_call_is_cheap_refuted"
   ],
   "note": "Refuted: for every k a history of 2^k elements and one in_union making more than k calls; the logarithm is also the upper bound (C56, C67). The documented bound holds only amortised (C67)."
  },
  {
   "property": "C69",
   "status": "proved",
   "theorems": [
    "c69_queries_only_shorten_searches",
    "c69_repeated_in_union_is_constant",
    "c69_iteration_flattens_the_forest"
   ],
   "note": "Any reachable state; the calls are counted by internal index for the first and third theorem."
  },
  {
   "property": "C70",
   "status": "proved",
   "theorems": [
    "c70_iter_from_both_ends"
   ],
   "note": "Any interleaving, exhausted iterators included; iter() and (&buffer).into_iter()."
  },
  {
   "property": "C71",
   "status": "proved",
   "theorems": [
    "c71_iter_mut_hands_out_distinct_places",
    "c71_iter_mut_from_both_ends"
   ],
   "note": "References are storage positions: distinct, one per element in order, and any writes through them act on those elements only."
  },
  {
   "property": "C72",
   "status": "proved",
   "theorems": [
    "c72_extend_takes_what_was_yielded",
    "c72_extend_with_panicking_destructors",
    "c72_extend_from_references_clones",
    "c72_panicking_clone_keeps_earlier_ones"
   ],
   "note": "By value and by reference; also with panicking destructors of evicted elements (against the one-by-one specification). What the abandoned iterator itself drops is not modelled."
  },
  {
   "property": "C73",
   "status": "partial",
   "theorems": [
    "c73_from_iter_collects_everything",
    "c73_from_references_clones",
    "c73_failed_construction_leaks_refuted",
    "c73_endless_iterator_leaks_refuted"
   ],
   "note": "The construction is exact when nothing panics. Refuted for the rest: the items taken before a panic are leaked (they are wrapped in ManuallyDrop while being collected)."
  },
  {
   "property": "C74",
   "status": "partial",
   "theorems": [
    "c74_too_long_panics_partial",
    "c74_too_long_vec_refuted"
   ],
   "note": "Partial: collecting always panics, and so does converting a vector of elements without destructor. Refuted for elements with destructor: the spare uninitialised value is dropped while unwinding, which is undefined behaviour."
  },
  {
   "property": "C75",
   "status": "partial",
   "theorems": [
    "c75_debug_tells_capacity_and_length",
    "c75_equal_buffers_print_equally_refuted",
    "c75_text_exact",
    "c75_every_text_occurs",
    "c75_equal_texts"
   ],
   "note": "Equal texts imply equal capacity and length. Refuted for the converse: the text shows internal positions. Exact: a buffer of capacity k prints one of k+1 texts determined by its length and internal position, and each of them occurs for every content."
  },
  {
   "property": "C76",
   "status": "proved",
   "theorems": [
    "c76_append_is_moving_one_by_one",
    "c76_append_conserves_elements",
    "c76_into_iter_drops_the_rest"
   ],
   "note": "Any set of panicking destructors."
  },
  {
   "property": "C77",
   "status": "partial",
   "theorems": [
    "c77_small_capacities_any_element_size_partial",
    "c77_release_any_capacity",
    "c77_debug_large_capacity_refuted"
   ],
   "note": "Exact: any element type while twice the capacity fits usize; zero-sized elements at every capacity without overflow checks. Refuted with overflow checks for every capacity whose double exceeds usize::MAX: len() panics after a suitable history."
  },
  {
   "property": "C78",
   "status": "proved",
   "theorems": [
    "c78_extend_with_panicking_iterator",
    "c78_extend_by_reference",
    "c78_from_iter_with_panicking_iterator",
    "c78_from_iter_with_panicking_clone"
   ],
   "note": "By value and by reference, with a panicking next, size_hint or clone at any point. What the abandoned iterator itself drops is not modelled."
  },
  {
   "property": "C79",
   "status": "proved",
   "theorems": [
    "c79_extend_with_panicking_iterator",
    "c79_extend_by_reference",
    "c79_from_iter_with_panicking_iterator",
    "c79_from_iter_with_panicking_clone"
   ],
   "note": "As C78, from any reachable disjoint set."
  },
  {
   "property": "C80",
   "status": "proved",
   "theorems": [
    "c80_add_with_panicking_clone",
    "c80_sub_with_panicking_clone",
    "c80_operators_with_panicking_clone"
   ],
   "note": "For every iteration order and every clone function."
  },
  {
   "property": "C81",
   "status": "proved",
   "theorems": [
    "c81_debug_of_bounds_faithful",
    "c81_debug_of_intervals_faithful",
    "c81_debug_integers"
   ],
   "note": "Any element text that is injective and has no comma; integers as an instance. The form {:#?} is C88."
  },
  {
   "property": "C82",
   "status": "proved",
   "theorems": [
    "c82_no_undefined_behaviour",
    "c82_append_no_undefined_behaviour",
    "c82_sound_or_barren",
    "c82_checked_builds_are_sound"
   ],
   "note": "All histories of calls, append, slices_mut and clones of buffers; elements of any size for which positions can be computed (indexable). Cloning itself is C15."
  },
  {
   "property": "C83",
   "status": "proved",
   "theorems": [
    "c83_same_text_same_counter",
    "c83_same_counter_same_texts",
    "c83_integers"
   ],
   "note": "Both directions for every order of the hash maps; integers as an instance. The form {:#?} is C88."
  },
  {
   "property": "C84",
   "status": "partial",
   "theorems": [
    "c84_same_text_same_answers",
    "c84_clone_prints_alike",
    "c84_query_keeps_text_refuted"
   ],
   "note": "Equal texts give equal answers to every history without iteration; a clone prints as its original. Refuted for the converse: in_union compresses paths, and the text shows the parents. The form {:#?} is C88."
  },
  {
   "property": "C85",
   "status": "partial",
   "theorems": [
    "c85_make_set",
    "c85_union",
    "c85_extend",
    "c85_questions",
    "c85_clear_partial",
    "c85_clear_refuted",
    "c85_failed_clear_revives_the_unions",
    "c85_contains"
   ],
   "note": "Proved for make_set, union, extend and in_union, with the exact outcome (return, panic or abort). Refuted for clear: a panicking element destructor leaves the old parents behind; exact: with the map left empty, as current std does, the i-th and j-th new elements are in one set iff the old elements number i mod n and j mod n were. Lookups and rehashing may panic depending on the element and on what is stored; entries stay then, since std loses some only when it tidies up after removals and no element is ever removed."
  },
  {
   "property": "C86",
   "status": "proved",
   "theorems": [
    "c86_push",
    "c86_agrees_without_panics",
    "c86_extend",
    "c86_add_by_value",
    "c86_add_by_reference",
    "c86_sub_by_value",
    "c86_sub_by_reference"
   ],
   "note": "With the exact outcome (return, panic or abort) in every case. Lookups and making room may panic depending on the key and on what is stored, the latter with any set of entries lost. What an abandoned user iterator drops is not modelled."
  },
  {
   "property": "C87",
   "status": "partial",
   "theorems": [
    "c87_in_union_is_an_equivalence",
    "c87_every_call_returns_or_panics",
    "c87_make_set",
    "c87_union",
    "c87_iteration",
    "c87_search_ends",
    "c87_search_can_be_linear",
    "c87_search_is_logarithmic_refuted"
   ],
   "note": "Proved for all states left behind by any history in which Hash, Eq or destructors of elements panic, whatever entries the interrupted clear leaves in the map. make_set may panic for want of room in the vector although the map has room, and the element is then stored. Refuted for logarithmic search: n elements can need n nested calls (a stack overflow for large n), exactly the chain left by clearing a one-element set; linear in the vector always suffices."
  },
  {
   "property": "C88",
   "status": "proved",
   "theorems": [
    "c88_intervals_on_one_line",
    "c88_maps_on_one_line",
    "c88_intervals_on_several_lines",
    "c88_maps_on_several_lines",
    "c88_intervals_faithful",
    "c88_counters_faithful",
    "c88_equal_counters_print_alike",
    "c88_sets_faithful",
    "c88_number_of_lines",
    "c88_one_line_can_be_ambiguous"
   ],
   "note": "Exact texts for every element text; the {:#?} layout is that of current std (a comma after every item). Faithfulness of the {:#?} form needs one-line element texts only; an example shows that the one-line form is ambiguous there."
  },
  {
   "property": "C89",
   "status": "partial",
   "theorems": [
    "c89_returning_calls_are_unaffected",
    "c89_no_panic_without_panicking_comparison",
    "c89_interrupted_merge",
    "c89_interrupted_span",
    "c89_what_interrupted_span_leaves",
    "c89_what_interrupted_merge_leaves",
    "c89_interrupted_intersection",
    "c89_what_interrupted_intersection_leaves",
    "c89_interrupted_assignment",
    "c89_when_assignment_is_interrupted",
    "c89_when_assignment_stays_well_formed",
    "c89_order_keeping_assignment_is_safe",
    "c89_integer_shifts_are_safe",
    "c89_assignment_keeps_well_formed_refuted"
   ],
   "note": "merge, intersection and span in full. Refuted for compound assignment: [1, 2] *= -1 interrupted in its ordering comparison leaves [-1, -2]; proved exactly when an assignment is interrupted, what it leaves and when that is well formed, and that updates keeping the order of the ends are safe. Whether a comparison panics depends on the two values and on whether it is an ordering or an equality."
  },
  {
   "property": "C90",
   "status": "proved",
   "theorems": [
    "c90_malformed_has_no_points",
    "c90_in_place_set_operations",
    "c90_consuming_set_operations",
    "c90_merging_a_malformed_one",
    "c90_arithmetic_repairs"
   ],
   "note": "For all intervals whatever their ends, so also for those no history produces."
  },
  {
   "property": "C91",
   "status": "partial",
   "theorems": [
    "c91_lost_entries",
    "c91_failed_push_keeps_the_counts_refuted",
    "c91_failed_push_keeps_the_counts_partial"
   ],
   "note": "Refuted: when a stored key panics while std rehashes in place, entries are lost. Exact: which call can lose, and that the rest of the counts stay."
  },
  {
   "property": "C92",
   "status": "proved",
   "theorems": [
    "c92_forest",
    "c92_calls_follow_the_slots",
    "c92_every_call_returns",
    "c92_searches_are_logarithmic",
    "c92_slots_are_distinct",
    "c92_iteration"
   ],
   "note": "The key relation may differ from call to call; within one call it is a fixed relation (see C97)."
  },
  {
   "property": "C93",
   "status": "partial",
   "theorems": [
    "c93_no_buffer_can_be_made_refuted",
    "c93_no_buffer_holds_an_element",
    "c93_checked_builds_hold_no_buffer",
    "c93_resize_does_not_help"
   ],
   "note": "Refuted: every constructor panics. Exact: the only buffer a program can hold is that of new(usize::MAX) without overflow checks (C17), which takes no element and cannot be resized; what each failing constructor drops or leaks."
  },
  {
   "property": "C94",
   "status": "proved",
   "theorems": [
    "c94_every_number_goes_to_one_entry",
    "c94_total_is_conserved",
    "c94_from_iter_total_is_length",
    "c94_subtraction_takes_from_one_entry_each",
    "c94_subtraction_is_bounded",
    "c94_no_zero_counts",
    "c94_every_call_returns_or_panics",
    "c94_lookups_and_most_common"
   ],
   "note": "The key relation may differ from call to call; within one call it is a fixed relation (see C96). Counting is exact in builds with overflow checks, otherwise as long as the total fits usize."
  },
  {
   "property": "C95",
   "status": "partial",
   "theorems": [
    "c95_agreeing_operators",
    "c95_which_ends_are_taken",
    "c95_new_intervals_are_accepted",
    "c95_open_ends_with_finer_equality",
    "c95_set_operations_with_finer_equality",
    "c95_merging_with_finer_equality",
    "c95_comparisons_with_finer_equality",
    "c95_span_of_accepted_is_accepted_refuted"
   ],
   "note": "Refuted in one point: with a lawful order and a finer lawful == the span of two accepted intervals may be one the constructors reject (span leaves it, into_span panics). Exact: which end is taken, when the consuming forms panic, what merging adds."
  },
  {
   "property": "C96",
   "status": "partial",
   "theorems": [
    "c96_unchanging_equality",
    "c96_every_number_goes_to_one_entry",
    "c96_total_is_conserved",
    "c96_from_iter_total_is_length",
    "c96_subtraction_takes_from_one_entry_each",
    "c96_no_zero_counts",
    "c96_conversion_puts_each_entry",
    "c96_conversion_keeps_the_total_refuted"
   ],
   "note": "Refuted for conversion only: From<HashMap> inserts every entry anew, and one that is answered for by another replaces its count. Exact: the total falls only if entries were replaced. Counting is exact in builds with overflow checks, otherwise as long as the total fits usize."
  },
  {
   "property": "C97",
   "status": "proved",
   "theorems": [
    "c97_unchanging_equality",
    "c97_calls_follow_the_slots",
    "c97_forest",
    "c97_every_call_returns"
   ],
   "note": "One lookup finds one entry or none, so a relation per lookup is as general as possible."
  },
  {
   "property": "C98",
   "status": "proved",
   "theorems": [
    "c98_nothing_asked_about_the_empty",
    "c98_merge_follows_the_answers",
    "c98_span_follows_the_answers",
    "c98_intersection_follows_the_answers",
    "c98_constructors_follow_the_answers",
    "c98_into_merged_follows_the_answers",
    "c98_into_span_follows_the_answers",
    "c98_into_intersection_follows_the_answers",
    "c98_arithmetic_follows_the_answers",
    "c98_steady_comparisons",
    "c98_steady_comparisons_of_bounds",
    "c98_questions_of_bounds",
    "c98_questions"
   ],
   "note": "Which comparison a derived == makes first is a choice of the compiler; the model compares the value of a bound before its flag."
  },
  {
   "property": "C99",
   "status": "proved",
   "theorems": [
    "c99_listing_slots_changes_no_call",
    "c99_only_listed_slots_matter",
    "c99_only_listed_slots_matter_resize",
    "c99_slots_touched",
    "c99_slots_touched_resize",
    "c99_slots_touched_append",
    "c99_slots_touched_into_iter",
    "c99_slots_of_linearize",
    "c99_documented_constant_calls",
    "c99_linear_calls"
   ],
   "note": "Time is counted in storage slots touched; std functions on slices (rotate_left, swap) are counted as touching every slot they may move."
  },
  {
   "property": "C100",
   "status": "proved",
   "theorems": [
    "c100_listing_requests_changes_no_call",
    "c100_each_key_is_looked_up_once",
    "c100_initialization_looks_up_each_item_once",
    "c100_comparing_looks_up_each_entry_once"
   ],
   "note": "Time is counted in lookups of the hash table; the cost of one lookup depends on the hasher and is not modelled."
  },
  {
   "property": "C101",
   "status": "partial",
   "theorems": [
    "c101_entries_have_room",
    "c101_demands_partial",
    "c101_memory_of_a_history_partial",
    "c101_memory_of_initialization_partial",
    "c101_memory_is_not_linear_in_distinct_refuted",
    "c101_extend_demands_its_hint_refuted"
   ],
   "note": "As documented it is false: from_iter and extend reserve what size_hint announces, so n equal items take room for n entries (refuted for every constant). Proved instead: entries always have room; each demand is at most the entries and one more, or the entries and the announced number; with hints of at most k + 1 the documented O(k) holds."
  },
  {
   "property": "C102",
   "status": "partial",
   "theorems": [
    "c102_most_common_is_not_linear_refuted",
    "c102_most_common_in_k_log_k",
    "c102_sorting_gives_most_common"
   ],
   "note": "As documented it is false for every way of sorting by comparisons, whatever the constants (k! orders, 2^d answers). Proved instead: k log2 k comparisons are enough, and any such way of sorting gives a possible result of the calls. How many comparisons std's sort makes is not modelled."
  },
  {
   "property": "C103",
   "status": "proved",
   "theorems": [
    "c103_listing_accesses_changes_no_call",
    "c103_keys_are_looked_up_once",
    "c103_initialization_looks_up_each_item_once",
    "c103_make_set_is_constant",
    "c103_search_climbs_to_the_root",
    "c103_union_and_search_are_logarithmic",
    "c103_only_listed_elements_matter",
    "c103_calls_are_amortised_inverse_ackermann",
    "c103_calls_are_amortised_constant",
    "c103_single_calls_are_amortised_constant"
   ],
   "note": "Accesses are lookups of the hash table, elements of the vector read or written, and demands for room; the cost of one lookup, of growing and of the temporary map of the iteration is not modelled. That a single union or search is not constant is C68."
  },
  {
   "property": "C104",
   "status": "partial",
   "theorems": [
    "c104_elements_have_room",
    "c104_demands_partial",
    "c104_memory_of_a_history_partial",
    "c104_memory_of_initialization_partial",
    "c104_memory_is_not_linear_refuted",
    "c104_extend_demands_its_hint_refuted"
   ],
   "note": "As documented it is false: from_iter and extend reserve what size_hint announces, so n equal items take room for n elements while one is held (refuted for every constant). Proved instead: the elements always have room; each demand is at most the elements and one more, or the elements and the announced number; with hints of at most n + 1 the documented O(n) holds."
  },
  {
   "property": "C105",
   "status": "proved",
   "theorems": [
    "c105_eq_asks_pairwise",
    "c105_eq_slice_asks_pairwise",
    "c105_cmp_asks_pairwise",
    "c105_partial_cmp_asks_pairwise",
    "c105_operators_ask_the_same",
    "c105_steady_answers"
   ],
   "note": "The elements of both buffers are looked at before the first question; a change made meanwhile through a Cell is part of how the element answers."
  },
  {
   "property": "C106",
   "status": "proved",
   "theorems": [
    "c106_complete_or_cut_off",
    "c106_intervals_are_displayed",
    "c106_display_step_by_step",
    "c106_buffers_are_printed",
    "c106_intervals_are_printed",
    "c106_maps_are_printed"
   ],
   "note": "How std splits its own texts into writes is modelled for the versions of 2018 and later (empty pieces may be left out); {:#?} has the layout of 2019 and later. For the derived forms the numbers and flags print without options of the caller."
  },
  {
   "property": "C107",
   "status": "proved",
   "theorems": [
    "c107_drain_delivers_in_order",
    "c107_into_iter_delivers_in_order",
    "c107_nth",
    "c107_count_and_collect",
    "c107_last",
    "c107_find"
   ],
   "note": "A result that is lost because dropping the owning iterator panics is not listed among the drops."
  },
  {
   "property": "C108",
   "status": "proved",
   "theorems": [
    "c108_construction_owns_one_block",
    "c108_interrupted_clone_owns_nothing",
    "c108_from_vec_takes_the_block_over",
    "c108_history_owns_one_block",
    "c108_requests_exactly",
    "c108_peak_of_resize",
    "c108_any_call",
    "c108_drop_returns_the_block",
    "c108_into_iter_returns_the_block",
    "c108_clone_from"
   ],
   "note": "Reallocation is modelled as returning a block and requesting another one (the address may be the same); requests below the limit succeed."
  },
  {
   "property": "C109",
   "status": "partial",
   "theorems": [
    "c109_making_a_counter_demands_its_capacity",
    "c109_counter_is_not_reallocated_partial",
    "c109_counter_with_one_to_spare_is_not_reallocated_partial",
    "c109_collecting_allocates_once",
    "c109_subtracting_from_a_full_counter_refuted",
    "c109_counting_again_in_a_full_counter_refuted",
    "c109_making_a_set_demands_its_capacity",
    "c109_set_is_not_reallocated_partial",
    "c109_collecting_a_set_allocates_once",
    "c109_making_again_in_a_full_set_refuted"
   ],
   "note": "As documented it is false for a full counter or set: -= with an absent key asks for room for one more entry in every std, and with the std of 2018 counting, making or uniting an element already held does so too. Proved instead: at most n elements suffice in a std that makes room only for absent keys, except for -= (one place must be free); less than n in every std; the vector of a disjoint set is never reallocated while at most n elements are held."
  },
  {
   "property": "C110",
   "status": "proved",
   "theorems": [
    "c110_every_call_keeps_the_books",
    "c110_history_keeps_the_books",
    "c110_whole_life",
    "c110_constructors",
    "c110_consuming_operators",
    "c110_first_instance_stays",
    "c110_subtracting_stores_nothing",
    "c110_forgetting_events_panicking_hash",
    "c110_forgetting_events_panicking_clone",
    "c110_forgetting_events_clones",
    "c110_interrupted_clone",
    "c110_interrupted_remove",
    "c110_calls_return_or_panic"
   ],
   "note": "Destructors do not panic here (C86); the clones a panicking Clone leaves are dropped since the std of 2019 (the one of 2018 leaks them for the derived Clone)."
  },
  {
   "property": "C111",
   "status": "proved",
   "theorems": [
    "c111_every_call_keeps_the_books",
    "c111_whole_life",
    "c111_constructors",
    "c111_first_instance_stays",
    "c111_forgetting_events",
    "c111_forgetting_events_clones",
    "c111_interrupted_clone",
    "c111_forgetting_events_in_histories"
   ],
   "note": "Destructors do not panic here (C85); as for C110 the derived Clone is that of the std since 2019."
  },
  {
   "property": "C112",
   "status": "proved",
   "theorems": [
    "c112_every_call_keeps_the_books",
    "c112_bounds_keep_the_books",
    "c112_program_keeps_the_books",
    "c112_whole_life",
    "c112_sets_only_move_ends",
    "c112_constructor_calls",
    "c112_operator_calls",
    "c112_assigning_operator_calls",
    "c112_negation_calls",
    "c112_operators_on_the_empty",
    "c112_forgetting_acts",
    "c112_forgetting_acts_operators",
    "c112_which_of_equal_ends"
   ],
   "note": "Destructors do not panic here; a destructor that runs is recorded after the call that consumes the value, in the order of unwinding."
  },
  {
   "property": "C113",
   "status": "proved",
   "theorems": [
    "c113_history_with_the_map_calls",
    "c113_loops_over_the_counts_keep_the_keys",
    "c113_interrupted_retain_loses_only_the_refused",
    "c113_pairs_replace_the_counts",
    "c113_counting_by_hand_is_push"
   ],
   "note": "A Drain that is leaked, and the capacity the table keeps, are not modelled; the order of an iteration is arbitrary."
  },
  {
   "property": "C114",
   "status": "proved",
   "theorems": [
    "c114_operators_keeping_the_order",
    "c114_operators_turning_the_order",
    "c114_negation_turns_the_order",
    "c114_which_operators"
   ],
   "note": "Stated for intervals a program can obtain; results turned round are equal in the sense of ==."
  },
  {
   "property": "C115",
   "status": "proved",
   "theorems": [
    "c115_steps_combine",
    "c115_minus",
    "c115_neutral_and_inverse"
   ],
   "note": "The results of the steps named must not overflow; integer division is not otherwise covered."
  },
  {
   "property": "C116",
   "status": "proved",
   "theorems": [
    "c116_the_ends_are_mirror_images",
    "c116_positions_from_the_other_end"
   ],
   "note": "clear, resize, extend, drain and positions work at one end only and have no counterpart."
  },
  {
   "property": "C117",
   "status": "proved",
   "theorems": [
    "c117_only_capacity_and_contents_matter",
    "c117_same_whatever_destructors_do",
    "c117_same_without_panics"
   ],
   "note": "Equality of capacity, contents and drops; a history that aborts has no observable contents."
  },
  {
   "property": "C118",
   "status": "proved",
   "theorems": [
    "c118_only_the_partition_matters",
    "c118_ways_of_doing_the_same"
   ],
   "note": "Equality of elements and partition is a hypothesis on what contains and in_union say. Without room the two ways may differ: only histories without panic are compared."
  },
  {
   "property": "C119",
   "status": "proved",
   "theorems": [
    "c119_equal_counters_answer_alike",
    "c119_ways_of_doing_the_same"
   ],
   "note": "Histories that do panic are covered by the first theorem (equal counters panic alike), not by the comparison of ways."
  },
  {
   "property": "C120",
   "status": "proved",
   "theorems": [
    "c120_only_comparisons_matter",
    "c120_equal_intervals_answer_alike",
    "c120_programs_can_be_moved"
   ],
   "note": "Interval arguments are places of a store; consuming functions get clones. No law of the order is assumed in the first and third theorem."
  },
  {
   "property": "C121",
   "status": "partial",
   "theorems": [
    "c121_any_hash_gives_a_counter",
    "c121_hash_does_not_matter_for_counters",
    "c121_inconsistent_hash_refuted",
    "c121_any_hash_gives_a_disjoint_set",
    "c121_hash_does_not_matter_for_disjoint_sets",
    "c121_equality_of_counters_with_different_hashes",
    "c121_clone_cannot_be_told_apart"
   ],
   "note": "The table is a model of std's: slots are looked at one at a time, along any probe sequence that meets all of them. The temporary map of build_sets is not hashed. Consistency of Hash with Eq is needed (refuted without)."
  },
  {
   "property": "C122",
   "status": "proved",
   "theorems": [
    "c122_lookup_compares",
    "c122_counting_costs_at_most",
    "c122_colliding_keys_cost",
    "c122_making_sets_costs_at_most",
    "c122_colliding_elements_cost"
   ],
   "note": "Comparisons of keys are counted, not time. Std first compares 7 bits of the hash values, so it may compare fewer keys of other hash values; keys of one hash value are always compared."
  },
  {
   "property": "C123",
   "status": "proved",
   "theorems": [
    "c123_table_is_a_map",
    "c123_hash_and_groups_do_not_matter",
    "c123_lookups_end"
   ],
   "note": "The table behind std::collections::HashMap (hashbrown) as published; the std of 2018 had a Robin Hood table instead, for which only C121 (any probe sequence) speaks. Modelled are the control bytes as slots with tags computed from the stored key, not the bytes in memory; destructors and panics of user code inside the table are in C110, C111."
  },
  {
   "property": "C124",
   "status": "partial",
   "theorems": [
    "c124_array_is_kept",
    "c124_array_is_kept_with_removals_refuted",
    "c124_when_a_removal_leaves_a_mark"
   ],
   "note": "About the table itself; how often the crate's calls ask it for room is C109. Capacity follows hashbrown's load factor."
  },
  {
   "property": "C125",
   "status": "proved",
   "theorems": [
    "c125_counter_on_groups",
    "c125_table_does_not_matter_for_counters",
    "c125_disjoint_set_on_groups",
    "c125_table_does_not_matter_for_disjoint_sets",
    "c125_equality_of_counters_with_different_hashes",
    "c125_clone_cannot_be_told_apart"
   ],
   "note": "Table as in C123, methods as in C121: the temporary map of build_sets is not hashed."
  },
  {
   "property": "C126",
   "status": "proved",
   "theorems": [
    "c126_no_entry_is_lost",
    "c126_lookups_end"
   ],
   "note": "Within one call Eq and Hash are functions without laws; the control byte of a stored key is computed from the Hash of the call, so it may be any byte for each key value. Panics of Eq and Hash inside the table are in C110, C111."
  },
  {
   "property": "C127",
   "status": "proved",
   "theorems": [
    "c127_lookup_compares",
    "c127_lookup_loads_groups_once",
    "c127_counting_costs_at_most",
    "c127_counting_compares_tags_first",
    "c127_colliding_keys_cost",
    "c127_making_sets_costs_at_most",
    "c127_making_sets_compares_tags_first",
    "c127_colliding_elements_cost"
   ],
   "note": "Comparisons of control bytes are not counted. The lookup made by entry() is the only one per value; putting a new entry, writing a count and growing compare no keys."
  }
 ]
}