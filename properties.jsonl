{"id": "C01", "title": "CircularBuffer is a bounded deque", "statement": "For every history of operations on a CircularBuffer, every returned value, every panic and the final contents and capacity are those of a plain bounded sequence that evicts from the opposite end when full.", "quantifier": "every capacity, every finite history of calls (including calls that panic and are caught), every element value, both debug and release builds, non-zero-sized element types", "why_tests_cant": "There are infinitely many histories and wrap-around layouts; a test fixes one.", "anchors": ["src/circular_buffer/circular.rs: CircularBuffer (all methods)", "src/circular_buffer/iter.rs: Drain, IntoIter"]}
{"id": "C02", "title": "Length never exceeds capacity", "statement": "After any history len() <= capacity(); is_empty() iff len()=0, is_full() iff len()=capacity(), len() equals the number of elements iter() yields, and capacity() only ever changes through resize().", "quantifier": "every history, every reachable buffer", "why_tests_cant": "A bound over all histories and all physical layouts.", "anchors": ["src/circular_buffer/circular.rs: len, capacity, is_empty, is_full"]}
{"id": "C03", "title": "push_back keeps the newest elements", "statement": "Pushing any sequence at the back of a fresh buffer of capacity c leaves exactly the last min(n,c) pushed elements in push order, and the evicted ones are dropped oldest first.", "quantifier": "every sequence of elements and every capacity, including 0", "why_tests_cant": "Unbounded sequences and capacities.", "anchors": ["src/circular_buffer/circular.rs: push_back, extend"]}
{"id": "C04", "title": "push_front keeps the newest elements at the front", "statement": "Pushing any sequence at the front of a fresh buffer of capacity c leaves exactly the last min(n,c) pushed elements in reverse push order.", "quantifier": "every sequence and every capacity, including 0", "why_tests_cant": "Unbounded sequences and capacities.", "anchors": ["src/circular_buffer/circular.rs: push_front"]}
{"id": "C05", "title": "Every element is owned exactly once", "statement": "For every history, the multiset of elements put in equals the multiset of elements handed back plus those dropped by the buffer plus those still stored; when the buffer itself is dropped nothing remains, so no element is leaked or dropped twice.", "quantifier": "every history of pushes, pops, evictions, clears, resizes, drains, extends, ending in a drop", "why_tests_cant": "Double drop/leak depends on the exact history; a drop counter test covers one.", "anchors": ["src/circular_buffer/circular.rs: push_at, pop_at, Drop, clear, resize"]}
{"id": "C06", "title": "No uninitialised slot is ever read", "statement": "For every history of operations other than clone, the buffer never reads an uninitialised slot and never panics except for the documented out-of-range index.", "quantifier": "every history, every layout", "why_tests_cant": "Absence of undefined behaviour over all histories cannot be tested.", "anchors": ["src/circular_buffer/circular.rs: pop_at, slices, internal_index, uninitialized"]}
{"id": "C07", "title": "Indexing agrees with iteration order", "statement": "cb[i], first(), last() return the i-th / first / last element of iteration order; indexing panics iff i >= len(), and a panicking access changes nothing.", "quantifier": "every reachable buffer, every index", "why_tests_cant": "All layouts times all indices.", "anchors": ["src/circular_buffer/circular.rs: index, first, last, internal_index"]}
{"id": "C08", "title": "Mutable access hits exactly the addressed element", "statement": "index_mut, first_mut, last_mut, iter_mut and slices_mut modify exactly the addressed elements and leave all others, the order, the length and the capacity unchanged.", "quantifier": "every reachable buffer, every index, every in-place modification", "why_tests_cant": "All layouts and modifications.", "anchors": ["src/circular_buffer/circular.rs: index_mut, first_mut, last_mut, iter_mut, slices_mut"]}
{"id": "C09", "title": "slices() is the contents split in two", "statement": "The concatenation of the two slices returned by slices()/slices_mut() is exactly the sequence of elements from front to back.", "quantifier": "every reachable buffer", "why_tests_cant": "Every wrap-around layout.", "anchors": ["src/circular_buffer/circular.rs: slices, slices_mut, iter"]}
{"id": "C10", "title": "linearize() makes one contiguous slice without changing contents", "statement": "linearize() returns one slice holding exactly the contents in order; afterwards the second slice is empty and contents, length, capacity are unchanged.", "quantifier": "every reachable buffer", "why_tests_cant": "Every rotation offset.", "anchors": ["src/circular_buffer/circular.rs: linearize"]}
{"id": "C11", "title": "swap() and reverse()", "statement": "swap(a,b) exchanges elements a and b only, panicking (without effect) iff one is out of range; reverse() reverses the sequence.", "quantifier": "every reachable buffer, every pair of indices", "why_tests_cant": "All layouts, lengths, indices.", "anchors": ["src/circular_buffer/circular.rs: swap, reverse"]}
{"id": "C12", "title": "resize() keeps the newest elements", "statement": "resize(c) sets the capacity to c, keeps exactly the last min(len,c) elements in order, and drops precisely the others.", "quantifier": "every reachable buffer and every new capacity", "why_tests_cant": "All lengths, layouts, capacities.", "anchors": ["src/circular_buffer/circular.rs: resize"]}
{"id": "C13", "title": "append/extend/drain move elements in order", "statement": "append moves every element of the other buffer, leaving it empty; the result is the last capacity elements of the concatenation. Draining k elements removes exactly the first k in order and leaves the rest; into_iter yields all in order and drops what was not consumed.", "quantifier": "every pair of reachable buffers, every k", "why_tests_cant": "All lengths and layouts.", "anchors": ["src/circular_buffer/circular.rs: append, extend, drain, into_iter", "src/circular_buffer/iter.rs: Drain, IntoIter"]}
{"id": "C14", "title": "Equality and ordering depend only on contents", "statement": "==, partial_cmp and cmp of buffers are element-wise equality / lexicographic order of the contents, independent of capacity and physical layout, and cmp is a total order whenever the element order is.", "quantifier": "every pair (triple) of reachable buffers, every element order", "why_tests_cant": "All layouts of both operands.", "anchors": ["src/circular_buffer/circular.rs: PartialEq, PartialOrd, Ord"]}
{"id": "C15", "title": "clone() yields an equal buffer", "statement": "clone() returns a buffer with equal contents and capacity without touching anything but stored elements.", "quantifier": "every reachable buffer", "why_tests_cant": "Uninitialised reads depend on memory garbage and element type; a test over i32 cannot see them.", "anchors": ["src/circular_buffer/circular.rs: derive(Clone) on CircularBuffer"]}
{"id": "C16", "title": "No index arithmetic overflows", "statement": "For element types of non-zero size no internal index computation overflows usize, so debug and release builds behave identically.", "quantifier": "every reachable buffer, every operation, every usize width", "why_tests_cant": "Needs buffers near the address-space limit.", "anchors": ["src/circular_buffer/circular.rs: len, internal_index, incr_end, decr_start"]}
{"id": "C17", "title": "Construction honours the requested capacity", "statement": "new(c) either panics or returns an empty buffer of capacity c that then accepts c pushes without loss; from_iter/From<Vec> return a full buffer with exactly those elements and capacity equal to their number.", "quantifier": "every requested capacity representable in usize, every element sequence, both build modes", "why_tests_cant": "Boundary at usize::MAX and every length.", "anchors": ["src/circular_buffer/circular.rs: with_capacity, from_iter, From<Vec>"]}
{"id": "C18", "title": "A panicking element destructor never corrupts the buffer", "statement": "If dropping an element panics inside push_back, push_front, clear, resize or extend, the buffer remains a valid bounded sequence, no element is dropped twice, and later operations behave normally.", "quantifier": "every history and every set of elements whose destructor panics (every crash point)", "why_tests_cant": "Every possible crash point inside every operation.", "anchors": ["src/circular_buffer/circular.rs: push_back, push_front, clear, resize, Drop"]}
{"id": "C19", "title": "No hidden storage growth", "statement": "No operation other than resize changes the size of the underlying storage, and pushing or popping changes at most two slots of it.", "quantifier": "every history", "why_tests_cant": "All histories.", "anchors": ["src/circular_buffer/circular.rs: push_back, push_front, pop_back, pop_front"]}
{"id": "C20", "title": "Every interval is well formed", "statement": "Every interval obtainable through the public API is empty, or has lower value < upper value, or is a single closed point.", "quantifier": "every finite composition of constructors, set operations, arithmetic that returns normally, over any totally ordered type", "why_tests_cant": "Infinitely many expressions.", "anchors": ["src/interval/interval.rs: create_checked, fix_after_modification", "src/interval/interval_math.rs"]}
{"id": "C21", "title": "Constructors reject exactly the invalid inputs", "statement": "new/from_bounds/open/closed/lower_closed/upper_closed panic iff lower > upper or the values are equal and some bound is open; otherwise the interval has exactly the given bounds, and into_tuple/into_bounds return them.", "quantifier": "all values of any totally ordered type, all four closedness combinations", "why_tests_cant": "All values and orders.", "anchors": ["src/interval/interval.rs: new, from_bounds, create_checked, into_tuple, into_bounds"]}
{"id": "C22", "title": "contains_val is mathematical membership", "statement": "contains_val(x) is true iff x lies between the bounds (inclusive exactly where closed); nothing belongs to the empty interval.", "quantifier": "every interval, every value, any total order", "why_tests_cant": "All values and all orders.", "anchors": ["src/interval/interval.rs: contains_val", "src/interval/interval_cmp.rs: PartialOrd<T>"]}
{"id": "C23", "title": "contains_interval is set inclusion", "statement": "If a.contains_interval(b) then every point of b is in a; over a densely ordered type the converse holds too.", "quantifier": "every pair of intervals, any total order (converse: any dense order)", "why_tests_cant": "Quantifies over all points of both.", "anchors": ["src/interval/interval.rs: contains_interval"]}
{"id": "C24", "title": "merge is set union", "statement": "can_be_merged holds whenever the union is convex in the bounds' sense; when it holds merge/into_merged return exactly the union; over dense orders it holds iff the union has no gap; on failure both operands are returned unchanged.", "quantifier": "every pair of intervals, any total order", "why_tests_cant": "All bounds configurations and all points.", "anchors": ["src/interval/interval.rs: can_be_merged, into_merged, merge", "src/interval/bounds.rs: are_separated"]}
{"id": "C25", "title": "intersection is set intersection", "statement": "intersection/into_intersection return an interval whose points are exactly the common points, never panic, and both variants agree.", "quantifier": "every pair of intervals, any total order", "why_tests_cant": "All bounds configurations and points.", "anchors": ["src/interval/interval.rs: intersection, into_intersection"]}
{"id": "C26", "title": "intersects tells whether there is a common point", "statement": "a.intersects(b) is true iff some value belongs to both.", "quantifier": "every pair of intervals over any dense total order", "why_tests_cant": "All configurations.", "anchors": ["src/interval/interval.rs: intersects"]}
{"id": "C27", "title": "span is the smallest enclosing interval", "statement": "span/into_span return an interval that contains both operands and is contained in every interval that contains both; both variants agree and never panic.", "quantifier": "every pair of intervals and every enclosing interval, any total order", "why_tests_cant": "Least-upper-bound claim over all intervals.", "anchors": ["src/interval/interval.rs: span, into_span"]}
{"id": "C28", "title": "Interval < and > compare all points", "statement": "a < b implies every point of a is below every point of b, conversely over dense orders for non-empty intervals; < is irreflexive, asymmetric and transitive, and a > b iff b < a; a <= b implies at most one common point.", "quantifier": "all intervals, any total order", "why_tests_cant": "All points of all intervals.", "anchors": ["src/interval/interval_cmp.rs: PartialOrd for Interval"]}
{"id": "C29", "title": "Interval comparison operators are coherent", "statement": "partial_cmp returns Less/Greater/Equal exactly when </>/== hold, and these are mutually exclusive; <= holds iff < or == .", "quantifier": "all pairs of intervals, any total order", "why_tests_cant": "Contract over all pairs.", "anchors": ["src/interval/interval_cmp.rs: partial_cmp, le, ge"]}
{"id": "C30", "title": "Bound orders are total orders", "statement": "cmp on LowerBound and on UpperBound is a total order that agrees with partial_cmp and ==, and a smaller-or-equal lower bound (larger-or-equal upper bound) admits a superset of points.", "quantifier": "all bounds over any total order", "why_tests_cant": "Order laws over all triples.", "anchors": ["src/interval/bounds.rs: Ord/PartialOrd for LowerBound, UpperBound"]}
{"id": "C31", "title": "Lower/upper cross comparisons obey the comparison contract", "statement": "For a lower bound l and an upper bound u: not both l<u and l>u; l!=u is the negation of l==u; l<=u iff l<u or l==u; l<u iff u>l.", "quantifier": "all pairs of bounds", "why_tests_cant": "Contract over all pairs.", "anchors": ["src/interval/bounds.rs: PartialOrd<UpperBound> for LowerBound, PartialEq, converse impls"]}
{"id": "C32", "title": "Bound versus value comparison", "statement": "Comparing a bound with a value: the operators <,<=,>,>=,== agree with partial_cmp, and a value is admitted by a lower (upper) bound iff bound <= value (bound >= value).", "quantifier": "all bounds and values, any total order", "why_tests_cant": "All values.", "anchors": ["src/interval/bounds.rs: PartialOrd<T>, PartialEq<T>"]}
{"id": "C33", "title": "Interval versus value comparison", "statement": "for an interval that is not empty, interval < v (<= v) iff all its points are below (at most) v (dense; soundness in every order), > and >= dually; the empty interval compares false with every value, == v iff it is exactly the single point v, and partial_cmp agrees with <, > and ==.", "quantifier": "all intervals and values", "why_tests_cant": "All values.", "anchors": ["src/interval/interval_cmp.rs: PartialOrd<T> for Interval, PartialEq<T>"]}
{"id": "C34", "title": "Translation is exact", "statement": "x in I iff x+k in I+k and iff x-k in I-k, and I+k-k = I, when no overflow occurs; += and -= give the same interval as + and -.", "quantifier": "all integer (and rational) intervals, values and offsets", "why_tests_cant": "All values.", "anchors": ["src/interval/interval_math.rs: Add, AddAssign, Sub, SubAssign"]}
{"id": "C35", "title": "Scaling is exact", "statement": "For k <> 0, x in I iff k*x in k*I, with the bounds swapped and flags carried for negative k; *= agrees with *. For k = 0 the result contains 0 whenever I is non-empty.", "quantifier": "all intervals, values, factors", "why_tests_cant": "All values and signs.", "anchors": ["src/interval/interval_math.rs: Mul, MulAssign", "src/interval/interval.rs: fix_after_modification"]}
{"id": "C36", "title": "Division is exact", "statement": "For a non-zero divisor k, x in I implies x/k in I/k (iff over rationals); /= agrees with /.", "quantifier": "all intervals, values, divisors; truncating integers and rationals", "why_tests_cant": "All values and signs.", "anchors": ["src/interval/interval_math.rs: Div, DivAssign"]}
{"id": "C37", "title": "Negation mirrors the interval", "statement": "x in I iff -x in -I, and -(-I) = I.", "quantifier": "all intervals and values", "why_tests_cant": "All values.", "anchors": ["src/interval/interval_math.rs: Neg"]}
{"id": "C38", "title": "Arithmetic never silently returns a wrong interval", "statement": "With fixed-width integers, interval arithmetic either panics or returns the mathematically exact interval.", "quantifier": "every width, every interval and operand, debug and release arithmetic", "why_tests_cant": "Overflow boundaries at every width.", "anchors": ["src/interval/interval_math.rs: Add, Sub, Mul"]}
{"id": "C39", "title": "A panicking op-assign leaves a well-formed interval", "statement": "If the element arithmetic panics (overflow, division by zero) inside +=, -=, *=, /=, the interval left behind (observable after catch_unwind) is still well formed.", "quantifier": "every interval, operand and crash point", "why_tests_cant": "Crash points between the two bound updates.", "anchors": ["src/interval/interval_math.rs: AddAssign, SubAssign, MulAssign, DivAssign"]}
{"id": "C40", "title": "Set-algebra laws", "statement": "Intersection and span are commutative, associative and idempotent, absorb each other, and merge agrees with span whenever it succeeds.", "quantifier": "all intervals over any total order", "why_tests_cant": "Equational laws over all triples.", "anchors": ["src/interval/interval.rs: into_intersection, into_span, into_merged"]}
{"id": "C41", "title": "Display is faithful", "statement": "Two intervals have the same textual form only if they are equal (for elements printed without separators, e.g. integers); the brackets show closedness and the empty interval prints as a distinct symbol.", "quantifier": "all intervals of integers", "why_tests_cant": "All values.", "anchors": ["src/interval/interval.rs: Display for Interval"]}
{"id": "C42", "title": "Counter counts occurrences", "statement": "from_iter(xs) maps every element to its number of occurrences in xs and contains exactly the elements of xs.", "quantifier": "every finite sequence, every key equality", "why_tests_cant": "Unbounded sequences.", "anchors": ["src/counter/counter.rs: from_iter, push"]}
{"id": "C43", "title": "extend and push add occurrences", "statement": "After extend(xs) each count has grown by the occurrences in xs and nothing else changed; push adds one to its key only; the order of xs is irrelevant.", "quantifier": "every counter, every sequence", "why_tests_cant": "All states and sequences.", "anchors": ["src/counter/counter.rs: extend, push"]}
{"id": "C44", "title": "Counter addition is pointwise", "statement": "a+b maps each key to the sum of counts, holding exactly the keys of either; it is commutative and associative up to ==; + , += by value and by reference agree.", "quantifier": "all counters, all hash-map iteration orders", "why_tests_cant": "Iteration order of a hash map is arbitrary.", "anchors": ["src/counter/counter.rs: Add, AddAssign"]}
{"id": "C45", "title": "Counter subtraction saturates and removes", "statement": "a-b maps each key of a to the difference if positive and otherwise removes it (keys absent from b are untouched); all four variants agree for every iteration order.", "quantifier": "all counters, all iteration orders", "why_tests_cant": "Arbitrary iteration order.", "anchors": ["src/counter/counter.rs: Sub, SubAssign"]}
{"id": "C46", "title": "Adding then subtracting restores the counter", "statement": "(a+b)-b == a whenever a has no zero counts and the sums do not overflow.", "quantifier": "all counters", "why_tests_cant": "Law over all states.", "anchors": ["src/counter/counter.rs: Add, Sub"]}
{"id": "C47", "title": "most_common is a sorted permutation", "statement": "most_common/into_most_common return every (key,count) entry exactly once, in non-increasing count order, for whatever result the unstable sort and hash iteration produce.", "quantifier": "all counters, all iteration orders, all admissible sort results", "why_tests_cant": "Unstable sort and hash order are unspecified.", "anchors": ["src/counter/counter.rs: most_common, into_most_common"]}
{"id": "C48", "title": "The total is conserved", "statement": "The sum of all counts equals the number of elements counted; adding counters adds totals.", "quantifier": "all histories of push/extend/from_iter/+", "why_tests_cant": "All histories.", "anchors": ["src/counter/counter.rs: push, extend, Add"]}
{"id": "C49", "title": "Counts never silently overflow", "statement": "Counting either panics or gives the exact count.", "quantifier": "all counters, both build modes", "why_tests_cant": "Needs counts near usize::MAX.", "anchors": ["src/counter/counter.rs: push, AddAssign"]}
{"id": "C50", "title": "Conversions and equality", "statement": "from_hashmap and From<HashMap> keep every entry; two counters are == iff every key has the same entry, regardless of insertion history.", "quantifier": "all maps, all iteration orders", "why_tests_cant": "All histories of both operands.", "anchors": ["src/counter/counter.rs: from_hashmap, From, PartialEq"]}
{"id": "C51", "title": "Counter refines a finite map under mixed use", "statement": "Any history mixing counting operations with direct hash-map operations (through Deref/DerefMut) yields the lookups, length and removals of a finite map from keys to counts.", "quantifier": "all histories", "why_tests_cant": "All histories.", "anchors": ["src/counter/counter.rs: Deref, DerefMut, push, extend, AddAssign, SubAssign"]}
{"id": "C52", "title": "in_union is the equivalence closure of union calls", "statement": "After any history, in_union(a,b) is true iff both were added and they are connected by the union calls made since the last clear (reflexive, symmetric, transitive closure).", "quantifier": "all histories, all elements, any key equality", "why_tests_cant": "All histories and chains of unions.", "anchors": ["src/disjoint_set/disjoint_set.rs: union, in_union, find_with_path_compression"]}
{"id": "C53", "title": "Membership and size", "statement": "contains(x) iff x was added (by make_set, union, extend or from_iter) since the last clear; len() is the number of distinct such elements; is_empty iff len()=0.", "quantifier": "all histories", "why_tests_cant": "All histories.", "anchors": ["src/disjoint_set/disjoint_set.rs: contains, len, is_empty, make_or_get_set, clear"]}
{"id": "C54", "title": "Queries do not change the partition", "statement": "in_union and iteration (which compress paths) change no observable: every later answer is as if they had not been called.", "quantifier": "all histories with queries inserted anywhere", "why_tests_cant": "All interleavings of queries.", "anchors": ["src/disjoint_set/disjoint_set.rs: find_with_path_compression, build_sets"]}
{"id": "C55", "title": "Iteration yields the partition", "statement": "Iterating yields non-empty disjoint sets covering every element exactly once; two elements share a set iff in_union.", "quantifier": "all histories, all hash iteration orders", "why_tests_cant": "Arbitrary iteration order.", "anchors": ["src/disjoint_set/disjoint_set.rs: build_sets, SetIter, IntoIterator"]}
{"id": "C56", "title": "Every operation terminates with logarithmic recursion", "statement": "find recursion depth is at most log2(n) for n elements, no internal index is out of range and the rank counter never overflows.", "quantifier": "all histories", "why_tests_cant": "Depth bound over all histories.", "anchors": ["src/disjoint_set/disjoint_set.rs: find_with_path_compression, union"]}
{"id": "C57", "title": "make_set/extend/from_iter add singletons", "statement": "Adding elements never joins or splits existing sets; re-adding an element is a no-op; from_iter gives one singleton per distinct element.", "quantifier": "all histories, all sequences", "why_tests_cant": "All states.", "anchors": ["src/disjoint_set/disjoint_set.rs: make_set, extend, from_iter"]}
{"id": "C58", "title": "The order of unions is irrelevant", "statement": "The final partition depends only on the set of unioned pairs and added elements, not on their order, orientation or multiplicity.", "quantifier": "all permutations of all histories of unions", "why_tests_cant": "Factorially many orders.", "anchors": ["src/disjoint_set/disjoint_set.rs: union"]}
{"id": "C59", "title": "union merges exactly two sets", "statement": "union(a,b) makes x,y connected iff they were connected before or one was with a and the other with b.", "quantifier": "all reachable states, all elements", "why_tests_cant": "All states.", "anchors": ["src/disjoint_set/disjoint_set.rs: union"]}
{"id": "C60", "title": "Separated bounds leave a gap", "statement": "is_separated_from is true whenever some value is excluded by both bounds (neither admitted by the lower bound nor by the upper bound); over dense orders it is true exactly then; both directions of the call agree.", "quantifier": "all pairs of bounds over any total order", "why_tests_cant": "All closedness combinations and orders.", "anchors": ["src/interval/bounds.rs: LowerBound::is_separated_from, UpperBound::is_separated_from, are_separated"]}
{"id": "C61", "title": "Equal intervals hash equally", "statement": "a == b implies both feed the same data to a hasher; for elements of fixed-size injective hash input, different intervals feed different data.", "quantifier": "all pairs of intervals", "why_tests_cant": "All values.", "anchors": ["src/interval/interval.rs: derive(Hash)"]}
{"id": "C62", "title": "Interval accessors agree", "statement": "lower, upper, bounds, into_bounds, is_empty, is_lower_closed and is_upper_closed all agree with into_tuple; is_single (is_empty) is true exactly for intervals with one point (no point) over dense orders.", "quantifier": "all obtainable intervals", "why_tests_cant": "All intervals.", "anchors": ["src/interval/interval.rs: lower, upper, bounds, is_empty, is_single, is_lower_closed, is_upper_closed, into_bounds, into_tuple"]}
{"id": "C63", "title": "Counter algebra", "statement": "a-a is empty; subtracting b and then c is subtracting b+c; counting a concatenation is adding the counts of the parts.", "quantifier": "all counters, sequences and iteration orders", "why_tests_cant": "Equational laws over all triples.", "anchors": ["src/counter/counter.rs: Add, Sub, from_iter"]}
{"id": "C64", "title": "A panicking += leaves a consistent counter", "statement": "If += panics (count overflow or table capacity), the counter observable after catch_unwind is a valid counter in which every count is either untouched or fully updated, and some key explains the panic.", "quantifier": "all counters, operands, iteration orders and crash points", "why_tests_cant": "Crash points inside a loop over an arbitrary order.", "anchors": ["src/counter/counter.rs: AddAssign"]}
{"id": "C65", "title": "Counting succeeds whenever the distinct elements fit", "statement": "from_iter and extend succeed for every sequence whose distinct elements fit in a table.", "quantifier": "all sequences and size hints", "why_tests_cant": "Needs sequences longer than any table.", "anchors": ["src/counter/counter.rs: from_iter, extend"]}
{"id": "C66", "title": "A clone is an equal, independent disjoint set", "statement": "A clone answers every later sequence of calls exactly as the original would, and iterating over it yields the clones of the elements of the same sets.", "quantifier": "all disjoint sets, all later histories, element types whose clone is equal to the original", "why_tests_cant": "All histories after the clone.", "anchors": ["src/disjoint_set/disjoint_set.rs: derive(Clone)"]}
{"id": "C67", "title": "Searches cost amortised inverse-Ackermann many calls", "statement": "Over any history the calls of find_with_path_compression, nested ones included, are at most (a+2) per search plus a per union, where a is the inverse Ackermann value of the largest number of elements held; on a machine of fewer than 2^64 elements at most 6 per search plus 4 per union.", "quantifier": "all histories, all element types, all hash orders", "why_tests_cant": "The bound concerns totals over unbounded histories and fails for union by rank or path compression alone.", "anchors": ["src/disjoint_set/disjoint_set.rs: find_with_path_compression, union, in_union, build_sets, docs lines 63, 172, 208"]}
{"id": "C68", "title": "A single search is cheap", "statement": "Each single call of in_union makes O(alpha(n)) recursive calls (as the documentation of the methods reads).", "quantifier": "all reachable disjoint sets", "why_tests_cant": "Needs a specially built history of 2^k elements.", "anchors": ["src/disjoint_set/disjoint_set.rs: in_union, find_with_path_compression, docs lines 172, 199, 208"]}
{"id": "C69", "title": "Searches flatten their paths", "statement": "A query never makes a later search longer; a repeated in_union takes at most two calls per search; after an iteration every search takes at most two calls.", "quantifier": "all reachable disjoint sets, all hash orders", "why_tests_cant": "Internal shape, not visible in the answers.", "anchors": ["src/disjoint_set/disjoint_set.rs: find_with_path_compression, in_union, build_sets"]}
{"id": "C70", "title": "Iteration may be driven from both ends", "statement": "For every interleaving of next and next_back on iter(), the items taken at the front, those left and those taken at the back (reversed) make up the contents of the buffer; the next call at either end yields that end of what is left.", "quantifier": "all obtainable buffers, all interleavings", "why_tests_cant": "All interleavings over all wrap-around positions.", "anchors": ["src/circular_buffer/circular.rs: iter, IntoIterator for &CircularBuffer; src/circular_buffer/iter.rs: Iter"]}
{"id": "C71", "title": "Mutable iteration hands out distinct elements", "statement": "iter_mut() hands out exactly one reference per element, no two to the same place, also when driven from both ends; writing through the references, in any order and any number of times, changes exactly those elements.", "quantifier": "all obtainable buffers, all sequences of writes", "why_tests_cant": "Aliasing is not observable by testing a few values.", "anchors": ["src/circular_buffer/circular.rs: iter_mut, IntoIterator for &mut CircularBuffer; src/circular_buffer/iter.rs: IterMut"]}
{"id": "C72", "title": "extend keeps what was yielded before a panic", "statement": "If the iterator (or an element's clone) panics while a buffer is being extended, the buffer holds exactly what extending by the items yielded before gives; nothing is lost or dropped twice.", "quantifier": "all buffers, all iterators, all crash points", "why_tests_cant": "All crash points.", "anchors": ["src/circular_buffer/circular.rs: Extend<T>, Extend<&T>"]}
{"id": "C73", "title": "Collecting into a buffer loses nothing", "statement": "from_iter over values (or references) gives a full buffer of exactly the items (or their clones); if the iterator, a clone or an allocation panics, the items already taken are dropped.", "quantifier": "all iterators, all crash points", "why_tests_cant": "All crash points.", "anchors": ["src/circular_buffer/circular.rs: FromIterator<T>, FromIterator<&T>"]}
{"id": "C74", "title": "A sequence that is too long makes conversions panic", "statement": "Converting a vector or iterator whose items fit memory but not together with the spare slot panics.", "quantifier": "all vectors, all iterators", "why_tests_cant": "Needs vectors of the largest possible length.", "anchors": ["src/circular_buffer/circular.rs: From<Vec<T>>, FromIterator<T>"]}
{"id": "C75", "title": "Debug output reflects the value", "statement": "Buffers that print equally have the same capacity and length, and equal buffers print equally.", "quantifier": "all pairs of obtainable buffers", "why_tests_cant": "All pairs.", "anchors": ["src/circular_buffer/circular.rs: Debug"]}
{"id": "C76", "title": "append and into_iter under panicking destructors", "statement": "Whatever destructors panic, append moves the elements one by one, keeps every element in exactly one of the two buffers or drops it once, and an abandoned into_iter drops the elements it has not yielded from the back, up to and including the first whose destructor panics.", "quantifier": "all pairs of buffers, all sets of panicking destructors", "why_tests_cant": "All crash points.", "anchors": ["src/circular_buffer/circular.rs: append, IntoIterator, Drop; src/circular_buffer/iter.rs: IntoIter"]}
{"id": "C77", "title": "Buffers of zero-sized elements", "statement": "For element types of size zero (no allocation limit) every history answers as the bounded sequence does.", "quantifier": "all capacities that can be created, all histories", "why_tests_cant": "Needs capacities near usize::MAX.", "anchors": ["src/circular_buffer/circular.rs: len, new, resize"]}
{"id": "C78", "title": "Counting keeps what was yielded before a panic", "statement": "If the iterator, its size_hint, or an element's clone panics inside extend (by value or by reference), the counter holds exactly what extending by the items delivered before gives; from_iter fails and gives no counter.", "quantifier": "all counters, all iterators, all crash points", "why_tests_cant": "All crash points.", "anchors": ["src/counter/counter.rs: Extend<T>, Extend<&T>, FromIterator"]}
{"id": "C79", "title": "Adding elements keeps what was yielded before a panic", "statement": "If the iterator, its size_hint, or an element's clone panics while a disjoint set is extended (by value or by reference), the set is still consistent and holds exactly the old partition and a singleton for each new element delivered before.", "quantifier": "all reachable disjoint sets, all iterators, all crash points", "why_tests_cant": "All crash points.", "anchors": ["src/disjoint_set/disjoint_set.rs: Extend, FromIterator, make_or_get_set"]}
{"id": "C80", "title": "Counter operators under a panicking key clone", "statement": "If cloning a key panics inside += or -= by reference, the counter observable after catch_unwind is valid; every key processed before is fully updated, every other one untouched, and + and - by reference panic exactly when the assigning form does.", "quantifier": "all counters, operands, iteration orders and clone functions", "why_tests_cant": "Crash points inside a loop over an arbitrary order.", "anchors": ["src/counter/counter.rs: AddAssign<&Counter>, SubAssign<&Counter>, Add<&Counter>, Sub<&Counter>"]}
{"id": "C81", "title": "Debug output of intervals is faithful", "statement": "Bounds and intervals with the same Debug text are equal (for elements printed without a comma, e.g. integers), and a lower bound never prints like an upper bound.", "quantifier": "all pairs of bounds and intervals", "why_tests_cant": "All values.", "anchors": ["src/interval/bounds.rs: derive(Debug) for Bound, LowerBound, UpperBound", "src/interval/interval.rs: derive(Debug) for NonEmptyInterval, Interval"]}
{"id": "C82", "title": "Memory safety at every requested capacity", "statement": "Whatever capacities are passed to new and resize (up to usize::MAX) and whatever else is called, no call reads uninitialised memory or fails to end; every buffer obtained behaves as a bounded sequence or takes no element and shows none until it is resized, the latter only in builds without overflow checks.", "quantifier": "all capacities up to usize::MAX, all histories, both build modes", "why_tests_cant": "Needs capacities at usize::MAX in release builds.", "anchors": ["src/circular_buffer/circular.rs: new, with_capacity, resize, push_at, pop_at, slices, internal_index"]}
{"id": "C83", "title": "Debug output of a counter is faithful", "statement": "Two counters that print the same under {:?} are equal, and equal counters can print the same texts (the order of entries is the hash map's).", "quantifier": "every pair of counters, every element type whose texts tell unequal elements apart and hold no colon", "why_tests_cant": "All counters and all hash orders.", "anchors": ["src/counter/counter.rs: derive(Debug)"]}
{"id": "C84", "title": "Debug output of a disjoint set reflects the sets", "statement": "Disjoint sets that print the same under {:?} behave the same in every further history; conversely a query does not change what is printed.", "quantifier": "every reachable disjoint set and history", "why_tests_cant": "All histories and hash orders.", "anchors": ["src/disjoint_set/disjoint_set.rs: derive(Debug), find_with_path_compression"]}
{"id": "C85", "title": "A panicking Hash, Eq or destructor leaves the disjoint set consistent", "statement": "If hashing, comparing or dropping an element panics inside make_set, union, extend or in_union, the set is still consistent: each call does all of its work, or (union, extend) a prefix of it made of whole elements; and clear leaves an empty set without any unions.", "quantifier": "all reachable disjoint sets, all sets of panicking elements, all crash points", "why_tests_cant": "All crash points.", "anchors": ["src/disjoint_set/disjoint_set.rs: make_or_get_set, make_set, union, extend, in_union, clear"]}
{"id": "C86", "title": "A panicking Hash, Eq or destructor leaves the counter consistent", "statement": "If hashing, comparing or dropping a key panics inside push, extend, += or -=, the counter is still valid: the keys handled before are fully updated, the later ones untouched, and the key that panicked is either untouched or (subtraction) fully updated; except that entries the hash table itself loses when making room panics (C91) are missing.", "quantifier": "all counters, operands, iteration orders and sets of panicking keys", "why_tests_cant": "All crash points and iteration orders.", "anchors": ["src/counter/counter.rs: push, Extend, AddAssign, SubAssign"]}
{"id": "C87", "title": "A disjoint set stays usable after an interrupted clear", "statement": "After clear was interrupted by a panicking destructor (any number of times), every later call returns or panics; in_union is an equivalence on the elements held; queries change no answer; make_set changes nothing between old elements; union merges exactly two sets; iteration yields the sets of that equivalence; searches stay logarithmic.", "quantifier": "all states left behind by any history in which elements panic, all later calls, all hash orders", "why_tests_cant": "The invariants of the fast forest (ranks, one slot per element) no longer hold there.", "anchors": ["src/disjoint_set/disjoint_set.rs: clear, make_or_get_set, union, in_union, build_sets, find_with_path_compression"]}
{"id": "C88", "title": "Both Debug forms print exactly the value's tree", "statement": "{:?} prints the fields of intervals, bounds, counters and disjoint sets on one line and {:#?} prints the same tree with one item per line, indented by four spaces per level and ended by a comma, whatever the elements print; in the second form equal texts mean equal values for all elements that print on one line.", "quantifier": "every interval, counter and disjoint set, every element text (line breaks included), every hash order", "why_tests_cant": "All values and all element texts.", "anchors": ["src/counter/counter.rs: derive(Debug)", "src/disjoint_set/disjoint_set.rs: derive(Debug)", "src/interval/interval.rs: derive(Debug)", "src/interval/bounds.rs: derive(Debug)"]}
{"id": "C89", "title": "A panicking comparison leaves an in-place interval operation well formed", "statement": "If comparing two elements panics inside merge, intersection, span, +=, -=, *= or /=, the interval left behind is well formed; for merge it lies between the receiver and the union, for span inside the span, for intersection between the intersection and the receiver. A call that returns is unaffected.", "quantifier": "all intervals, operands and sets of panicking comparisons, every total order and element operator", "why_tests_cant": "All crash points.", "anchors": ["src/interval/interval.rs: merge, intersection, span, fix_after_modification", "src/interval/interval_math.rs: AddAssign, SubAssign, MulAssign, DivAssign", "src/interval/bounds.rs: PartialOrd, are_separated"]}
{"id": "C90", "title": "Intervals left malformed by an interrupted assignment stay usable", "statement": "An interval left with its ends out of order (C39, C89) has no points and contains_val is false for every value; merge and intersection in place are still union and intersection, span still covers both; a merge makes it vanish in the other operand; the consuming forms give the same interval or panic, exactly when it is malformed; every arithmetic operation that returns repairs it.", "quantifier": "all intervals, well formed or not, every total order, every element operator", "why_tests_cant": "No invariant holds there.", "anchors": ["src/interval/interval.rs: contains_val, merge, into_merged, intersection, into_intersection, span, into_span, fix_after_modification", "src/interval/interval_math.rs: all operators"]}
{"id": "C91", "title": "A call of the counter that panics keeps the counts of all keys", "statement": "If push panics because of the key pushed, the count of every key is as before. (std may drop entries when rehashing a stored key panics while it makes room: then whole entries are missing, no count is changed, and the rest is an ordinary counter.)", "quantifier": "all counters, keys and sets of panicking keys, any set of entries lost", "why_tests_cant": "What std loses becomes a wrong count.", "anchors": ["src/counter/counter.rs: push, extend, AddAssign, SubAssign"]}
{"id": "C92", "title": "Inconsistent Hash and Eq cannot break the forest of the disjoint set", "statement": "Whatever the lookups answer, every call does and answers what the same call does in a lawful disjoint set of slot numbers: no call does anything but return or panic for lack of room, every stored element has a slot of its own, searches stay logarithmic, and iteration delivers every stored entry exactly once, those of joined slots together.", "quantifier": "all histories of calls, each with a key relation of its own that obeys no law, arbitrary clones and map orders", "why_tests_cant": "Eq and Hash are safe traits: a wrong implementation must not cause an endless search or an out-of-range index.", "anchors": ["src/disjoint_set/disjoint_set.rs: find, union, union_imp, link, make_set, contains, in_union, extend, from_iter, clone, clear, into_iter, iter, Iter"]}
{"id": "C93", "title": "Circular buffers can be made of elements of every type", "statement": "With a compiler whose mem::uninitialized panics for element types that may not be left uninitialised (references, boxes, strings, vectors), a program can still make a circular buffer of such elements.", "quantifier": "all capacities, iterators, vectors and histories, both build modes", "why_tests_cant": "All constructors, all capacities and all later calls.", "anchors": ["src/circular_buffer/circular.rs: new, with_capacity, FromIterator, From<Vec<T>>, resize, uninitialized"]}
{"id": "C94", "title": "Inconsistent Hash and Eq cannot make a counter lose counts", "statement": "Whatever the lookups answer, every number counted goes to exactly one entry, so the total of all counts grows by exactly what is counted; subtraction removes at most what is subtracted and leaves no zero count; every call returns or panics; most_common lists all entries by falling counts.", "quantifier": "all histories of calls, each with a key relation of its own that obeys no law (not even reflexivity), arbitrary clones and map orders", "why_tests_cant": "Eq and Hash are safe traits; NaN-like keys are common.", "anchors": ["src/counter/counter.rs: push, extend, from_iter, AddAssign, SubAssign, most_common, into_most_common, Deref"]}
{"id": "C95", "title": "Intervals over elements whose comparison operators disagree", "statement": "Whatever cmp, <, <=, >, >= and == answer, the set operations in place return, the consuming ones panic only in the constructors' check, every end of a result is an end of an operand, and whatever a constructor or a consuming call returns passes that check. If the order is lawful and == merely finer (derived over more fields), span and intersection of well-formed intervals are unaffected, an open end keeps out only the values == to it, and the set operations on accepted intervals give accepted intervals.", "quantifier": "all intervals, all six operators independently, all element operators", "why_tests_cant": "The compiler does not check that Ord, PartialOrd and PartialEq agree, and the code asks cmp in some places and the operators in others.", "anchors": ["src/interval/interval.rs: create_checked, fix_after_modification, contains_val, can_be_merged, merge, into_merged, intersection, into_intersection, span, into_span, is_single", "src/interval/interval_cmp.rs: PartialOrd<T>, PartialEq<T>, PartialOrd", "src/interval/bounds.rs: PartialOrd, PartialEq, Ord, are_separated", "src/interval/interval_math.rs: all operators"]}
{"id": "C96", "title": "Key equality that changes during a call cannot make a counter lose counts", "statement": "If Eq and Hash answer otherwise at every lookup, also within one extend, +=, -= or collect, every number counted still goes to exactly one entry, collecting n items gives a total of n, subtraction removes at most what is subtracted and leaves no zero count, and converting a HashMap keeps the total.", "quantifier": "all histories of calls, each lookup with a relation of its own that obeys no law, arbitrary clones and map orders", "why_tests_cant": "Keys with interior mutability or comparisons that depend on outside state are possible in safe code.", "anchors": ["src/counter/counter.rs: extend, from_iter, AddAssign, Add, SubAssign, Sub, From<HashMap>, From<&HashMap>"]}
{"id": "C97", "title": "Key equality that changes during a call cannot break the forest of the disjoint set", "statement": "If Eq and Hash answer otherwise at every lookup, also between the two lookups of one union or in_union, every call still does and answers what the same call does on the slots its lookups found, in a lawful disjoint set of slot numbers, and does nothing but return or panic for lack of room.", "quantifier": "all histories of calls, each lookup with a relation of its own that obeys no law, arbitrary clones and map orders", "why_tests_cant": "As for C92, within one call.", "anchors": ["src/disjoint_set/disjoint_set.rs: union, in_union, extend, from_iter, make_or_get_set"]}
{"id": "C98", "title": "Interval calls ask a bounded number of fixed questions and follow the answers", "statement": "Whatever each comparison answers (answers may contradict one another, change over time, or be a panic), every interval and bound call asks a fixed list of at most six questions, each about an end of one operand and an end of the other or the value (the consuming calls two more in the constructors' check), nothing about an empty interval; it comes to its end unless a comparison or that check panics; every end of the result or of what an interrupted call leaves behind is the end that the last answers single out.", "quantifier": "all intervals, all answers to every comparison, all crash points, all element operators", "why_tests_cant": "Ord is a safe trait over user code: nothing makes it pure, lawful or total.", "anchors": ["src/interval/interval.rs: all methods", "src/interval/interval_cmp.rs: all operators", "src/interval/interval_math.rs: all operators", "src/interval/bounds.rs: all comparisons"]}
{"id": "C99", "title": "Pushing, popping and indexing take constant time", "statement": "Whatever the capacity and the length, a push touches at most two storage slots (one if the buffer is not full), a pop, first, last or indexing at most one, swap two, and len, capacity, is_empty and is_full none; clear, drain, iter, reverse and into_iter touch each element at most once, linearize every slot and then each element, extend and append at most two slots per item added, resize each element and each new slot once; nothing else of the storage influences or is changed by the call.", "quantifier": "all reachable buffers, all calls, all sets of panicking destructors", "why_tests_cant": "The documented complexities (circular_buffer/mod.rs:13-19) for all sizes.", "anchors": ["src/circular_buffer/circular.rs: all methods", "src/circular_buffer/mod.rs: Complexity"]}
{"id": "C100", "title": "Counting looks up each item once", "statement": "Initialization from n items asks the hash table exactly one lookup per item, in order, and adding one item exactly one; every other call looks up the keys it is given, each once; comparing two counters looks up each entry of one of them at most once.", "quantifier": "all counters, calls, iterators and size hints, both versions of std", "why_tests_cant": "The documented O(n) and O(1) (counter/mod.rs:11-16) for all inputs, in lookups of the hash table.", "anchors": ["src/counter/counter.rs: push, extend, from_iter, AddAssign, SubAssign, Add, Sub, From, PartialEq, Deref", "src/counter/mod.rs: Complexity"]}
{"id": "C101", "title": "Memory usage follows the number of different elements", "statement": "The hash table of a counter built from a series with k different elements never has room for more than a constant times k entries.", "quantifier": "all series, size hints and growth policies of the table", "why_tests_cant": "The documented O(k) (counter/mod.rs:14).", "anchors": ["src/counter/counter.rs: from_iter, extend, push, with_capacity", "src/counter/mod.rs: Complexity"]}
{"id": "C102", "title": "Finding the most common elements takes linear time", "statement": "most_common and into_most_common compare at most a constant times k counts for k entries.", "quantifier": "all counters, every sorting algorithm that compares keys", "why_tests_cant": "The documented O(k) (counter/mod.rs:16); the code sorts.", "anchors": ["src/counter/counter.rs: most_common, into_most_common", "src/counter/mod.rs: Complexity"]}
{"id": "C103", "title": "Creating a subset takes constant time, union and search amortised about constant time", "statement": "make_set looks its element up once and touches the vector at no place but that of a new element; union and in_union look each argument up once and touch the elements on the ways to the two roots, a number logarithmic in the elements held; over a history with fewer than 2^64 elements the accesses are at most 46 per call and 16 per element gone through; elements of the vector not listed neither influence a call nor are changed.", "quantifier": "all histories of calls, iterators and size hints, both versions of std", "why_tests_cant": "The documented O(1) and about O(1) (disjoint_set/mod.rs:10-17) for whole calls: C67 counts recursive calls only.", "anchors": ["src/disjoint_set/disjoint_set.rs: make_set, union, in_union, contains, extend, from_iter, build_sets, find_with_path_compression", "src/disjoint_set/mod.rs: Complexity"]}
{"id": "C104", "title": "Memory of a disjoint set follows the number of elements", "statement": "Table and vector of a disjoint set that holds n elements never have room for more than a constant times n.", "quantifier": "all histories, size hints and growth policies", "why_tests_cant": "The documented O(n) (disjoint_set/mod.rs:17).", "anchors": ["src/disjoint_set/disjoint_set.rs: from_iter, extend, reserve, make_or_get_set, with_capacity", "src/disjoint_set/mod.rs: Complexity"]}
{"id": "C105", "title": "Comparing circular buffers asks about elements in pairs, in order, up to the first difference", "statement": "Whatever each comparison of elements answers (answers may change from question to question, or be a panic), ==, != and the comparisons with slices ask == about the first elements, then the second and so on, up to the first pair answered unequal or a missing partner; partial_cmp and the operators <, <=, >, >= do so with partial_cmp, cmp with cmp, up to the first answer that is not Equal, which is the result; no element is asked about twice; a panic of an element is the only way not to return.", "quantifier": "all reachable buffers, all answers to every question, all crash points, std with and without a length check before", "why_tests_cant": "Ord and PartialEq are safe traits over user code; the buffers may be split in two parts in memory at different places.", "anchors": ["src/circular_buffer/circular.rs: PartialEq, PartialEq<[T]>, PartialEq<&[T]>, PartialOrd, Ord"]}
{"id": "C106", "title": "A text is written completely, or cut off where the write failed", "statement": "Display of an interval and Debug of every type of the crate, on one line or several, write the value's text in order; if the place written to or an element fails, the error or panic is passed on at once, a beginning of the text has been written and nothing is written afterwards; Ok means that the text is complete. Display of an interval and Debug of a circular buffer ignore the format options of the caller, and their elements see none.", "quantifier": "all values, all places written to (each write may be refused after some characters, or panic), all elements that may fail or panic at any point, all options and hash orders", "why_tests_cant": "fmt::Write is a safe trait over user code, and an ignored result would lose text silently.", "anchors": ["src/interval/interval.rs: Display, derive(Debug)", "src/interval/bounds.rs: derive(Debug)", "src/circular_buffer/circular.rs: Debug", "src/counter/counter.rs: derive(Debug)", "src/disjoint_set/disjoint_set.rs: derive(Debug)"]}
{"id": "C107", "title": "Draining and owning iterators deliver each element once, whatever is done with them", "statement": "Whatever user code does with drain() or into_iter() (asking any number of times, dropping elements, catching panics, panicking, dropping or forgetting the iterator), next delivers the elements in order, each once, and None for ever after the last; what a drain has not delivered stays in the buffer; an owning iterator drops it from the back when it ends, or never if it is forgotten. nth, count, last, find and collect of std return what they return for a list, and drop exactly the elements passed over.", "quantifier": "all reachable buffers, all user programs, all sets of panicking destructors", "why_tests_cant": "Iterators are handed to arbitrary code; a leaked or interrupted one must not duplicate or expose elements.", "anchors": ["src/circular_buffer/circular.rs: drain, IntoIterator", "src/circular_buffer/iter.rs: Drain, IntoIter"]}
{"id": "C108", "title": "A circular buffer has one block of heap memory and requests none while being used", "statement": "A constructor leaves exactly one block in use, of the size of the storage, and none if it panics; From<Vec> takes over the vector's block. No call but resize requests or returns memory; resize requests the new storage and returns the old one (or, if it panics, the new one), so both exist side by side and nothing more. Dropping the buffer or its owning iterator, and clone_from, return the block, also if a destructor or clone panics. No block is leaked, returned twice or returned with another size.", "quantifier": "all histories of calls and requested capacities, all allocators and growth strategies of Vec, all sets of panicking destructors, iterators and clones, elements with and without size", "why_tests_cant": "The documentation promises not to allocate while being used; a leak on unwinding is invisible to tests.", "anchors": ["src/circular_buffer/circular.rs: new, resize, FromIterator, From<Vec>, Clone, Drop, IntoIterator", "src/circular_buffer/mod.rs: not allocating any memory while being used", "src/circular_buffer/iter.rs: IntoIter"]}
{"id": "C109", "title": "A counter or disjoint set made with a capacity holds as many elements without reallocating", "statement": "with_capacity(n) requests room for n elements (none if n is 0); as long as at most n elements are held and announced, no call asks for more room than n, so neither the hash table nor the vector is reallocated; collecting with a size hint of at least the number of elements found allocates once.", "quantifier": "all histories of calls, keys and capacities, std that makes room at every entry call (2018) or only for absent keys", "why_tests_cant": "The documented guarantee of with_capacity and with_capacity_and_hasher; entry() reserves before it is known whether anything is inserted.", "anchors": ["src/counter/counter.rs: with_capacity, with_capacity_and_hasher, from_iter, extend, push, Sub, SubAssign", "src/disjoint_set/disjoint_set.rs: with_capacity, with_capacity_and_hasher, from_iter, extend, make_or_get_set"]}
{"id": "C110", "title": "Every key of a counter is owned once", "statement": "Whatever a call does (return, or unwind because Hash, Eq, Clone or an iterator panics, a count overflows or room is lacking), it drops only keys that it or the counter owns, each once, and the counter then owns exactly those left: nothing is leaked, dropped twice or dropped while still stored. Constructors and consuming operators that panic drop everything they obtained. Counting keeps the first instance of a key and drops the later ones; subtracting stores no key.", "quantifier": "all histories of calls, each with its own behaviour of the key type (equality without laws, panics in lookups, rehashing and clones), all iterators and size hints", "why_tests_cant": "Keys may own memory or locks; a leak on unwinding is invisible to tests.", "anchors": ["src/counter/counter.rs: push, extend, from_iter, AddAssign, SubAssign, Add, Sub, From, most_common, derive(Clone), DerefMut"]}
{"id": "C111", "title": "Every element of a disjoint set is owned once", "statement": "Whatever a call does (return, or unwind because Hash, Eq, Clone or an iterator panics or room is lacking), it drops only elements that it or the set owns, each once, and the set then owns exactly those left; union drops its second element if the first panics. Constructors and clones that panic drop everything they obtained. The first instance of an element is kept and the later ones are dropped.", "quantifier": "all histories of calls, each with its own behaviour of the element type (equality without laws, panics in lookups, rehashing and clones), all iterators and size hints", "why_tests_cant": "As for C110.", "anchors": ["src/disjoint_set/disjoint_set.rs: make_or_get_set, make_set, union, extend, from_iter, clear, derive(Clone)"]}
{"id": "C112", "title": "Every end of an interval is owned once, whatever the element type does", "statement": "Whatever the comparisons, clones and operators of the element type do (answers that depend on everything before, panics), each call that moves ends drops or hands to an operator only values that it owns, each once, and the receiver and the result own exactly the rest; a call that panics drops all it consumed. Set operations clone nothing and call no operator. An operator with an operand clones it once, and calls the element operator once per end: by value the clone goes to the upper end, which is first, in place to the lower one; with the empty interval it is only dropped.", "quantifier": "all intervals, operands and programs of calls, every behaviour of the element type, all crash points", "why_tests_cant": "Elements may own memory (big numbers); a double drop or leak on unwinding is invisible to tests.", "anchors": ["src/interval/interval.rs: create_checked, single, into_merged, merge, into_intersection, intersection, into_span, span, into_tuple, fix_after_modification, derive(Clone)", "src/interval/interval_math.rs: all operators", "src/interval/bounds.rs: Ord::min, Ord::max, arithmetic operators, derive(Clone)"]}
{"id": "C113", "title": "The rest of the map API on a counter", "statement": "Through DerefMut the entry API (or_insert, or_insert_with, and_modify, insert, remove), remove_entry, drain, keys, values, values_mut, iter_mut, retain with a closure that writes, Extend with pairs and shrink_to_fit mix freely with the counter's own calls: each does to the counter what it does to a finite map. User code may write anything and panic anywhere: a loop over the counts keeps all keys, an interrupted retain loses only refused entries, a panicking or_insert_with adds nothing. Extending with pairs replaces counts where extending the counter adds; or_insert(0) += 1 is push.", "quantifier": "all key types with a lawful Eq, all histories, arguments, closures with panics, iteration orders, size hints and machines", "why_tests_cant": "The counter derefs mutably to its map, so every claim about counters must survive these calls.", "anchors": ["src/counter/counter.rs: Deref, DerefMut, push, extend, IntoIterator"]}
{"id": "C114", "title": "Arithmetic that keeps the order keeps every answer and respects the set operations", "statement": "If an operator (+, -, *, / in both forms, or unary minus) keeps the order of the elements where it has a value, then the results answer every question (all comparisons with intervals and values, contains, can_be_merged, intersects, ==) as the operands do, and intersection, span and merge of the results are the results of intersection, span and merge; if it turns the order round, the same holds with left and right exchanged. Adding and multiplying checked integers and exact fractions are such operators.", "quantifier": "all ordered element types, operators, arguments and pairs of intervals", "why_tests_cant": "Arithmetic and set operations are independently coded; nothing else ties them together.", "anchors": ["src/interval/interval.rs: impl_interval_op, impl_interval_op_assign, impl_interval_neg, fix_after_modification", "src/interval/interval.rs: merge, intersection, span, contains, can_be_merged, intersects, PartialOrd"]}
{"id": "C115", "title": "Interval arithmetic obeys the laws of integer arithmetic", "statement": "Over an integer type with overflow checks two translations are one, two scalings are one (also by 0), scaling distributes over translating, minus is plus the opposite, unary minus is times -1, adding 0 and multiplying or dividing by 1 change nothing, and dividing undoes scaling; always as equality of the stored ends and closedness, whenever the steps named do not overflow.", "quantifier": "all integer types, intervals and numbers", "why_tests_cant": "Sequences of calls; signs and degenerate intervals exchange or drop ends.", "anchors": ["src/interval/interval.rs: Add, Sub, Mul, Div, Neg, fix_after_modification"]}
{"id": "C116", "title": "The two ends of a circular buffer are mirror images", "statement": "If one buffer shows the contents of another reversed, then every history of push, pop, first, last and mutation at one of them and the history at the opposite ends of the other drop the same elements, return the same (sequences reversed) or panic alike, and the buffers stay reversals of each other, also when destructors panic; an index counts from the other end.", "quantifier": "all pairs of reachable buffers, all histories, all destructors", "why_tests_cant": "The two ends are coded separately (wrap_sub against wrap_add).", "anchors": ["src/circular_buffer/circular.rs: push_back, push_front, pop_back, pop_front, first, last, first_mut, last_mut, reverse, index"]}
{"id": "C117", "title": "Only capacity and contents of a circular buffer matter, and different ways of doing the same agree", "statement": "Two buffers of equal capacity and contents give the same answers and drops in every further history, wherever the contents lie in memory. Extending by one element is pushing it; a push to a buffer with room is undone by a pop, a swap by itself, reverse by itself; pushes at both ends commute while there is room; two drains are one; resizing to the same capacity does nothing; without panicking destructors two extends are one, shrinking twice is shrinking once, and push_front is push_back on the reversed buffer; always with the same elements dropped in the same order.", "quantifier": "all reachable buffers, all arguments, all destructors where not excluded", "why_tests_cant": "Unbounded histories; the memory layout differs on the two sides.", "anchors": ["src/circular_buffer/circular.rs: resize, extend, push_back, push_front, pop_back, pop_front, swap, reverse, drain, clear"]}
{"id": "C118", "title": "Only elements and partition of a disjoint set matter, and different ways of doing the same agree", "statement": "Two disjoint sets with the same elements and the same partition give the same answers in every further history, whatever their forests, ranks and path compression, sets being handed out as the same sets. Uniting in the other order or twice, uniting with another element of the same set, adding before uniting, adding at once or one by one, and adding before or after uniting lead to the same elements and partition, so to the same further answers, when they do not panic.", "quantifier": "all pairs of reachable disjoint sets, all histories, all arguments", "why_tests_cant": "Unbounded histories; the forests on the two sides differ.", "anchors": ["src/disjoint_set/disjoint_set.rs: union, make_set, in_union, extend, clear, iteration"]}
{"id": "C119", "title": "Equal counters are exchangeable, and different ways of doing the same agree", "statement": "Two counters equal under == give the same answers in every further history, panics included, up to equality of keys and order of traversal, and stay equal, if the caller's closures do not tell equal keys apart; the stored keys and the order of the table do not matter. Counting at once or one by one or by adding a counter, in any order, adding or subtracting by reference or by value, inserting twice, inserting and removing, rewriting a count twice, retaining twice or in the other order, and retaining nothing or clearing lead to equal counters, so to the same further answers, when they do not panic.", "quantifier": "all pairs of valid equal counters, all histories, all arguments", "why_tests_cant": "Unbounded histories; where a panic interrupts a call must depend on counts only.", "anchors": ["src/counter/counter.rs: push, extend, AddAssign, SubAssign, PartialEq, Deref to HashMap"]}
{"id": "C120", "title": "Programs with intervals only depend on how the elements compare", "statement": "Two programs on stores of intervals that make the same calls, with elements in a relation under which all comparisons agree and which the operators keep, give the same answers and panics and stay in relation, whatever laws the comparison obeys. So equal intervals are exchangeable even where equal elements differ, and a program without arithmetic may have all its elements replaced by their images under a function that keeps the order.", "quantifier": "all programs, all stores, all element types and operators as described", "why_tests_cant": "Unbounded programs; interrupted assignments leave malformed intervals that are used again.", "anchors": ["src/interval/interval.rs: all functions", "src/interval/interval_cmp.rs: all comparisons", "src/interval/interval_math.rs: all operators"]}
{"id": "C121", "title": "The hash function does not matter", "statement": "A counter or disjoint set on a hash table, with any hash function that gives equal keys equal values, any probe sequence that meets every slot, any growth policy and any initial capacity, follows the specifications of C51 and C52 in every history; so Counter and FastCounter, and DisjointSet and FastDisjointSet, give the same answers (up to the order of traversals). With a hash function that tells equal keys apart this fails: equal keys are counted apart.", "quantifier": "all key types with lawful Eq, all pairs of consistent hash functions and tables, all histories", "why_tests_cant": "Collisions, tombstones and rehashing; the FAST variants are only claimed to be faster.", "anchors": ["src/counter/fast_counter.rs:13", "src/disjoint_set/fast_disjoint_set.rs:13", "src/counter/counter.rs: all methods", "src/disjoint_set/disjoint_set.rs: all methods"]}
{"id": "C122", "title": "Keys that collide make counting and building sets quadratic, others never cost more", "statement": "A lookup compares its key with each stored key at most once, and if the key is absent with every stored key of the same hash value. So counting n values, or making n elements of a disjoint set, compares keys at most n(n-1)/2 times with any hash function, and exactly that often for n different keys of one hash value: this is what the less safe FAST variants expose.", "quantifier": "all key types with lawful Eq, all consistent hash functions and tables, all histories, all lists of keys", "why_tests_cant": "The documentation of the FAST variants calls them less safe: whoever can find collisions makes them slow.", "anchors": ["src/counter/fast_counter.rs: FastCounter", "src/disjoint_set/fast_disjoint_set.rs: FastDisjointSet"]}
{"id": "C123", "title": "A table searched in groups by hash tags is a finite map", "statement": "The table of today's std (hashbrown: power-of-two arrays, groups of control bytes with seven bits of the hash value, triangular probing, EMPTY or DELETED left by a removal, rehashing in place) gives in every history the answers of a finite map, with any consistent hash function and any group width, so two such tables with different hash functions and widths give the same answers; an empty slot is always left, so every lookup ends.", "quantifier": "all key types with lawful Eq, all consistent hash functions, all group widths that are powers of two, all capacities and histories", "why_tests_cant": "Counters and disjoint sets rest on it; whether EMPTY may be left depends on the neighbouring bytes, with wrap-around and small tables as special cases.", "anchors": ["src/counter/counter.rs: Counter.map", "src/disjoint_set/disjoint_set.rs: DisjointSet.map"]}
{"id": "C124", "title": "An announced capacity is kept until an entry is removed", "statement": "A table made for n entries keeps its array in every history that holds and announces at most n entries, if no entry is removed (other than all by clear). With removals it does not: a removal may leave a mark that takes a place, so removing one of n keys and adding another can reallocate the array although n entries are never exceeded. A removal leaves such a mark exactly if the slot lies in a row of a group's length without empty slots.", "quantifier": "all key types with lawful Eq, all consistent hash functions and group widths, all capacities and histories", "why_tests_cant": "with_capacity is documented to hold that many elements without reallocating; marks depend on where the keys hash to.", "anchors": ["src/counter/counter.rs: with_capacity, with_capacity_and_hasher, Deref to HashMap", "src/disjoint_set/disjoint_set.rs: with_capacity, with_capacity_and_hasher"]}
{"id": "C125", "title": "Counters and disjoint sets work on the hash table of today's std", "statement": "A counter or disjoint set on the table of C123 follows the specifications of C51 and C52 in every history, with any consistent hash function, group width and initial capacity; so it gives the same answers (up to the order of traversals) as on any table of C121 and as with another hash function and width. Counters with hash functions and widths of their own are equal under == exactly if they hold the same counts, and a clone cannot be told apart from its original.", "quantifier": "all key types with lawful Eq, all consistent hash functions, all group widths that are powers of two, all histories", "why_tests_cant": "C51 and C52 take the map for granted.", "anchors": ["src/counter/counter.rs: all methods", "src/disjoint_set/disjoint_set.rs: all methods", "src/counter/fast_counter.rs:13", "src/disjoint_set/fast_disjoint_set.rs:13"]}
{"id": "C126", "title": "Lawless Eq and Hash cannot break the hash table of today's std", "statement": "Whatever Eq and Hash answer, differently at every call, the table of C123 loses, doubles and invents no entry: each call finds nothing or an entry that Eq said to be the one, an insertion changes such an entry or adds exactly one, a removal removes exactly such an entry or nothing, growing and cleaning up keep all entries, and only lack of memory panics; an empty slot is always left, so every later lookup ends.", "quantifier": "all key types, all group widths that are powers of two, all capacities and histories of calls, each call with its own Eq and Hash without laws", "why_tests_cant": "Eq and Hash are safe traits over user code; C92, C94, C96 and C97 take for granted that the map itself survives.", "anchors": ["src/counter/counter.rs: Counter.map", "src/disjoint_set/disjoint_set.rs: DisjointSet.map"]}
{"id": "C127", "title": "The table of today's std compares keys only if seven bits of their hash values agree", "statement": "A lookup in the table of C123 loads no group of the array twice. It compares its key only with stored keys whose top seven bits of the hash value agree, with each at most once although control bytes are stored twice, stops at the key it finds, and if the key is absent compares it with every stored key of the same hash value. So counting values compares keys at most as often as two of the values have the same seven bits (never, if these all differ), at most n(n-1)/2 times for n values, and exactly that often for n different keys of one hash value; likewise for making the elements of a disjoint set.", "quantifier": "all key types with lawful Eq, all consistent hash functions, all group widths that are powers of two, all histories of calls", "why_tests_cant": "C122 for the table that counter.rs and disjoint_set.rs use: the tags make accidental collisions rare, but do not help against chosen ones, which the FAST variants expose.", "anchors": ["src/counter/counter.rs: push, extend", "src/counter/fast_counter.rs", "src/disjoint_set/fast_disjoint_set.rs", "src/disjoint_set/disjoint_set.rs: make_or_get_set"]}
