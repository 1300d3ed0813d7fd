{"id": "C01", "title": "Raw constructors build exactly the described point set", "statement": "RawInterval::new/open/left_open/right_open/closed return an interval that contains exactly the points between the given bounds (Include admits the bound, Exclude does not, Infinite is unbounded), except for the documented case of equal bounds with at least one Include, which is the single point; out-of-order bounds give Empty, and the value returned always has its stored lower point strictly below its stored upper point.", "quantifier": "every totally ordered T, every pair of bounds, every probe point", "why_tests_cant": "The claim ranges over every pair/triple of values of an arbitrary totally ordered type; tests sample a handful of i32 literals.", "anchors": ["src/raw_interval.rs: RawInterval::new, open, left_open, right_open, closed, contains"]}
{"id": "C02", "title": "Raw intersect is exact set intersection", "statement": "a.intersect(&b).contains(x) == a.contains(x) && b.contains(x), and the result is again a well-formed interval.", "quantifier": "every totally ordered T, every a, b (all 11 shapes), every x", "why_tests_cant": "The claim ranges over every pair/triple of values of an arbitrary totally ordered type; tests sample a handful of i32 literals.", "anchors": ["src/raw_interval.rs: RawInterval::intersect", "src/bound.rs: Bound::greatest_intersect, least_intersect"]}
{"id": "C03", "title": "intersects() reports overlap", "statement": "a.intersects(&b) is true if and only if some point lies in both intervals.", "quantifier": "every totally ordered T, every well-formed a, b", "why_tests_cant": "The claim ranges over every pair/triple of values of an arbitrary totally ordered type; tests sample a handful of i32 literals.", "anchors": ["src/raw_interval.rs: RawInterval::intersects"]}
{"id": "C04", "title": "Raw complement is exact and disjoint", "statement": "The intervals yielded by a.complement() contain x iff a does not contain x, no two of them share a point, and each is well-formed.", "quantifier": "every totally ordered T, every well-formed a, every x", "why_tests_cant": "The claim ranges over every pair/triple of values of an arbitrary totally ordered type; tests sample a handful of i32 literals.", "anchors": ["src/raw_interval.rs: RawInterval::complement"]}
{"id": "C05", "title": "Raw union is exact, with at most two separated pieces", "statement": "The intervals yielded by a.union(&b) together contain exactly the points of a and of b; there are at most two; when two are yielded they share no point and do not touch at a common included boundary.", "quantifier": "every totally ordered T, every well-formed a, b, every x", "why_tests_cant": "The claim ranges over every pair/triple of values of an arbitrary totally ordered type; tests sample a handful of i32 literals.", "anchors": ["src/raw_interval.rs: RawInterval::union, is_adjacent_to, enclose", "src/bound.rs: Bound::is_union_adjacent_to"]}
{"id": "C06", "title": "Raw minus is exact set difference", "statement": "The intervals yielded by a.minus(&b) contain x iff a contains x and b does not; none is Empty and no two share a point.", "quantifier": "every totally ordered T, every a, b, every x (that no two share a point: every b whose ends are in order)", "why_tests_cant": "The claim ranges over every pair/triple of values of an arbitrary totally ordered type; tests sample a handful of i32 literals.", "anchors": ["src/raw_interval.rs: RawInterval::minus"]}
{"id": "C07", "title": "Raw enclose is the smallest enclosing interval", "statement": "a.enclose(&b) contains every point of a and of b, and every interval that contains all points of a and b (both having points) contains every point of a.enclose(&b).", "quantifier": "every totally ordered T, every well-formed a, b, every competitor interval", "why_tests_cant": "The claim ranges over every pair/triple of values of an arbitrary totally ordered type; tests sample a handful of i32 literals.", "anchors": ["src/raw_interval.rs: RawInterval::enclose", "src/bound.rs: Bound::least_union, greatest_union"]}
{"id": "C08", "title": "union_all yields the union of any list of intervals as disjoint pieces", "statement": "RawInterval::union_all(iter) yields intervals that together contain exactly the points of the inputs, none Empty, and no two of which overlap.", "quantifier": "every totally ordered T, every finite sequence of well-formed intervals", "why_tests_cant": "The sequence length and arrangement are unbounded; merging order matters.", "anchors": ["src/raw_interval.rs: RawInterval::union_all"]}
{"id": "C09", "title": "enclose_all is the smallest interval enclosing a list", "statement": "RawInterval::enclose_all(iter) contains every point of every input and nothing outside the span of the inputs.", "quantifier": "every finite sequence of well-formed intervals", "why_tests_cant": "Unbounded sequences; no unit test exists.", "anchors": ["src/raw_interval.rs: RawInterval::enclose_all"]}
{"id": "C10", "title": "intersect_all is the intersection of a list", "statement": "RawInterval::intersect_all(iter).contains(x) iff every input contains x (everything for the empty list).", "quantifier": "every finite sequence of intervals, every x", "why_tests_cant": "Unbounded sequences.", "anchors": ["src/raw_interval.rs: RawInterval::intersect_all"]}
{"id": "C11", "title": "Display then FromStr is the identity", "statement": "Parsing the Display text of any well-formed RawInterval over a builtin integer type gives back an equal interval.", "quantifier": "all 12 builtin integer types, all 11 shapes, all values; and any T whose own text satisfies a stated contract", "why_tests_cant": "Each integer type has up to 2^128 values per bound.", "anchors": ["src/raw_interval.rs: Display for RawInterval, FromStr for RawInterval"]}
{"id": "C12", "title": "Parsing only produces well-formed intervals and never panics", "statement": "For every string, from_str returns Ok of a well-formed interval or an error; it never panics.", "quantifier": "every string, every T with a FromStr", "why_tests_cant": "The input language is infinite.", "anchors": ["src/raw_interval.rs: FromStr for RawInterval"]}
{"id": "C13", "title": "Parsing is strict", "statement": "A string accepted by from_str is the notation of the interval it returns: no trailing or embedded garbage is ignored.", "quantifier": "every string", "why_tests_cant": "The input language is infinite.", "anchors": ["src/raw_interval.rs: FromStr for RawInterval"]}
{"id": "C14", "title": "Bound combinators compute the extreme of two bounds", "statement": "Read as lower bounds, least_union admits a point iff either bound admits it and greatest_intersect iff both do; read as upper bounds, greatest_union iff either and least_intersect iff both. All four are commutative, associative and idempotent.", "quantifier": "every totally ordered T, every pair/triple of bounds, every point", "why_tests_cant": "The claim ranges over every pair/triple of values of an arbitrary totally ordered type; tests sample a handful of i32 literals.", "anchors": ["src/bound.rs: Bound::least_union, least_intersect, greatest_union, greatest_intersect"]}
{"id": "C15", "title": "Normalization preserves the point set", "statement": "i.normalized() contains exactly the points i contains, and is Empty, Point or Closed.", "quantifier": "every lawful Finite type, every raw interval, every point", "why_tests_cant": "Ranges over every finite type and over all values, including the extreme ones.", "anchors": ["src/normalize.rs: Normalize for RawInterval (normalize), Finite"]}
{"id": "C16", "title": "Normalization is canonical", "statement": "Two intervals with the same points have equal normalized representations (readme: equivalent intervals have the same representation).", "quantifier": "every lawful Finite type, every pair of raw intervals", "why_tests_cant": "A statement about all pairs of representations.", "anchors": ["src/normalize.rs: normalize", "readme.md: What is interval normalization?"]}
{"id": "C17", "title": "Denormalization preserves the point set", "statement": "i.denormalized() contains exactly the points i contains.", "quantifier": "every lawful Finite type, every raw interval, every point", "why_tests_cant": "Ranges over all values including extremes.", "anchors": ["src/normalize.rs: denormalize"]}
{"id": "C18", "title": "Integer Finite implementations are lawful", "statement": "For each builtin integer type, pred/succ return the adjacent value, None exactly at MINIMUM/MAXIMUM, never overflow, and nothing lies strictly between a value and its successor.", "quantifier": "all 12 integer types, all values", "why_tests_cant": "Up to 2^128 values.", "anchors": ["src/normalize.rs: std_integer_countable_impl!"]}
{"id": "C19", "title": "Every Interval is closed", "statement": "Any Interval obtained through the public constructors, conversions and operations has lower_bound/upper_bound equal to None or Include(_), so iteration never hits its unreachable!() and the is_open/is_left_open/... queries are constant on non-empty intervals.", "quantifier": "every lawful Finite type, every expression built from the Interval API", "why_tests_cant": "The set of construction histories is infinite.", "anchors": ["src/interval.rs: Interval constructors, conversions, set operations"]}
{"id": "C20", "title": "Interval constructors and operations have exact point semantics", "statement": "Any Interval expression (constructors, From conversions, intersect, enclose, closure, pieces of minus/union/complement) contains exactly the points its set-theoretic reading says.", "quantifier": "every lawful Finite type, every expression, every point", "why_tests_cant": "Infinite family of expressions.", "anchors": ["src/interval.rs: Interval::new, point, open, left_open, right_open, closed, unbounded_*, full, intersect, minus, union, complement, enclose, closure"]}
{"id": "C21", "title": "Interval::is_empty tells whether the interval has points", "statement": "interval.is_empty() is true iff no value is contained in it.", "quantifier": "every lawful Finite type, every Interval reachable through the API", "why_tests_cant": "Ranges over all values and histories.", "anchors": ["src/interval.rs: Interval::is_empty", "src/normalize.rs: normalize"]}
{"id": "C22", "title": "Interval equality is set equality", "statement": "Two Intervals compare equal iff they contain the same points; in particular a one-point interval equals Interval::point.", "quantifier": "every pair of Intervals reachable through the API", "why_tests_cant": "All pairs.", "anchors": ["src/interval.rs: PartialEq for Interval", "src/normalize.rs: normalize"]}
{"id": "C23", "title": "Interval iteration yields every point once, in order, from both ends", "statement": "Any interleaving of next and next_back on interval.iter() yields values so that front results followed by reversed back results is the ascending list of the contained points, then None for ever; it never panics.", "quantifier": "every lawful Finite type, every Interval, every interleaving schedule", "why_tests_cant": "Schedules and interval lengths are unbounded.", "anchors": ["src/interval.rs: Iter::next, Iter::next_back"]}
{"id": "C24", "title": "Interval::size is the distance between the bounds", "statement": "For non-empty intervals size() is Some(upper - lower), i.e. one less than the number of points, without panicking or wrapping; None for empty ones.", "quantifier": "all 12 integer types, every Interval", "why_tests_cant": "Overflow appears only for wide intervals; the range of values is huge.", "anchors": ["src/interval.rs: Interval::size"]}
{"id": "C25", "title": "Conversions from std ranges agree with the range", "statement": "Interval::from(a..b), (a..), (..b), (..=b), (..) contains x iff the std range contains x.", "quantifier": "every lawful Finite type, all a, b, x", "why_tests_cant": "All pairs of endpoints.", "anchors": ["src/interval.rs: From<Range>, From<RangeFrom>, From<RangeTo>, From<RangeToInclusive>, From<RangeFull>"]}
{"id": "C26", "title": "Interval union merges everything it can", "statement": "interval.union(&other) yields the maximal contiguous runs of the union: two yielded intervals are never directly adjacent.", "quantifier": "every lawful Finite type, every pair of Intervals", "why_tests_cant": "All pairs.", "anchors": ["src/interval.rs: Interval::union"]}
{"id": "C27", "title": "Tine ordering is a total preorder by position", "statement": "Tine::cmp never panics on tines arising from intervals, is reflexive, antisymmetric up to equal position, and transitive, so BTreeSet operations on tines are well defined.", "quantifier": "every totally ordered T, every triple of tines", "why_tests_cant": "The claim ranges over every pair/triple of values of an arbitrary totally ordered type; tests sample a handful of i32 literals.", "anchors": ["src/tine.rs: Ord for Tine, PartialOrd for Tine"]}
{"id": "C28", "title": "Merging coincident tines is exact", "statement": "Tine::union / intersect / minus of two tines at one position describe the union / intersection / difference of the two boundary neighbourhoods (just below, at, just above the point), None standing for the uniform result.", "quantifier": "every pair of tines at a common point", "why_tests_cant": "Finite table but the claim is semantic; tests do not cover it.", "anchors": ["src/tine.rs: Tine::union, Tine::intersect, Tine::minus, Tine::invert"]}
{"id": "C29", "title": "TineTree::union_in_place adds exactly the interval's points", "statement": "On any tree built by the API's union/complement operations, union_in_place(&i) never panics (with or without debug assertions), keeps the tree well-formed, and afterwards contains(x) iff before or i.contains(x).", "quantifier": "every totally ordered T, every well-formed tree of any size, every well-formed interval, every x", "why_tests_cant": "Trees have unbounded size; the merge has dozens of boundary cases.", "anchors": ["src/tine_tree.rs: TineTree::union_in_place, union_point_interval, union_proper_interval, exterior_split_for_point_interval, exterior_split_for_proper_interval"]}
{"id": "C30", "title": "TineTree union is a semilattice under ==", "statement": "a.union(&b) == b.union(&a), (a.union(&b)).union(&c) == a.union(&b.union(&c)), a.union(&a) == a, a.union(&empty) == a, a.union(&full) == full, as equality of trees; collecting intervals into a tree does not depend on their order or multiplicity.", "quantifier": "every totally ordered T, all well-formed trees, all permutations of interval lists", "why_tests_cant": "Orders and sizes are unbounded.", "anchors": ["src/tine_tree.rs: TineTree::union, FromIterator<RawInterval>"]}
{"id": "C31", "title": "TineTree complement is exact and involutive", "statement": "t.complement().contains(x) == !t.contains(x), never panics, and t.complement().complement() == t.", "quantifier": "every totally ordered T, every well-formed tree, every x", "why_tests_cant": "Unbounded trees.", "anchors": ["src/tine_tree.rs: TineTree::complement"]}
{"id": "C32", "title": "De Morgan laws for trees", "statement": "complement(a union b) equals, point by point, the intersection of complements.", "quantifier": "all well-formed trees", "why_tests_cant": "Unbounded trees.", "anchors": ["src/tine_tree.rs: TineTree::complement, union"]}
{"id": "C33", "title": "Interval iteration of a tree is ordered, separated and complete", "statement": "interval_iter() on a well-formed tree never panics and yields well-formed non-Empty intervals in strictly ascending, pairwise disjoint, non-touching order whose union is the tree; collecting them again gives an equal tree.", "quantifier": "every totally ordered T, every well-formed tree", "why_tests_cant": "Unbounded trees.", "anchors": ["src/tine_tree.rs: Iter::next, interval_iter, FromIterator<RawInterval>"]}
{"id": "C34", "title": "Interval iteration works from both ends", "statement": "Any interleaving of next and next_back on interval_iter()/into_iter() partitions the forward sequence: front results followed by reversed back results is the forward order, each interval once, no panic.", "quantifier": "every well-formed tree, every interleaving schedule", "why_tests_cant": "Schedules are unbounded.", "anchors": ["src/tine_tree.rs: Iter::next_back, IntoIter::next_back"]}
{"id": "C35", "title": "Tree equality is set equality on dense types", "statement": "Over a dense order without endpoints, two well-formed trees are == iff contains agrees on every point; is_empty iff nothing is contained; is_full iff everything is.", "quantifier": "every dense endpoint-free T, every pair of well-formed trees", "why_tests_cant": "All pairs of unbounded trees.", "anchors": ["src/tine_tree.rs: PartialEq for TineTree, is_empty, is_full"]}
{"id": "C36", "title": "TineTree::minus_in_place removes exactly the interval's points", "statement": "minus_in_place(&i) never panics, keeps the tree well-formed, and afterwards contains(x) iff before and not i.contains(x).", "quantifier": "every totally ordered T, every well-formed tree, every well-formed interval, every x", "why_tests_cant": "Unbounded trees and boundary cases.", "anchors": ["src/tine_tree.rs: TineTree::minus_in_place, minus_point_interval, minus_proper_interval", "src/tine.rs: Tine::minus"]}
{"id": "C37", "title": "Exact domain of correctness of minus_in_place", "statement": "minus_in_place(&i) leaves a well-formed tree with exactly the right points unless an endpoint of i coincides with certain excluded boundaries of the tree; in those cases it never does.", "quantifier": "every totally ordered T, every well-formed tree, every well-formed interval", "why_tests_cant": "An if-and-only-if over all trees.", "anchors": ["src/tine_tree.rs: TineTree::minus_in_place"]}
{"id": "C38", "title": "TineTree::intersect is exact set intersection", "statement": "a.intersect(&b).contains(x) == a.contains(x) && b.contains(x).", "quantifier": "every totally ordered T, all well-formed trees, every x", "why_tests_cant": "Unbounded trees: multi-interval operands are never tested.", "anchors": ["src/tine_tree.rs: TineTree::intersect"]}
{"id": "C39", "title": "TineTree::intersect never adds points", "statement": "a.intersect(&b) never panics, is well-formed, and every point it contains is in a and in b.", "quantifier": "all well-formed trees", "why_tests_cant": "Unbounded trees.", "anchors": ["src/tine_tree.rs: TineTree::intersect"]}
{"id": "C40", "title": "TineTree::intersect_in_place keeps exactly the interval's points", "statement": "intersect_in_place(&i) never panics, keeps the tree well-formed, and afterwards contains(x) iff before and i.contains(x).", "quantifier": "every totally ordered T, every well-formed tree, every well-formed interval, every x", "why_tests_cant": "Unbounded trees and boundary cases.", "anchors": ["src/tine_tree.rs: TineTree::intersect_in_place, intersect_proper_interval, interior_split_for_proper_interval"]}
{"id": "C41", "title": "Domain of correctness of intersect_in_place", "statement": "intersect_in_place(&i) is exact whenever the tree is empty, or i is Empty, Full or a point, or both ends of i fall strictly inside intervals of the tree; the precise set of inputs on which it is exact is characterised.", "quantifier": "every totally ordered T, every well-formed tree, every well-formed interval", "why_tests_cant": "Statement over all trees.", "anchors": ["src/tine_tree.rs: TineTree::intersect_in_place"]}
{"id": "C42", "title": "TineTree::enclose is the smallest enclosing interval", "statement": "t.enclose() contains every point of t and is contained in every interval that does; Empty iff the tree is empty.", "quantifier": "every dense T without end points (every T for containment), every well-formed tree", "why_tests_cant": "Unbounded trees.", "anchors": ["src/tine_tree.rs: TineTree::enclose, closure, lower_bound, upper_bound"]}
{"id": "C43", "title": "Selections built by unions and complements behave as sets", "statement": "Any program built from new/empty/full/From<Interval>/FromIterator (intervals or points)/Extend/union_in_place/union/complement runs without panicking in debug and release builds and contains() answers exactly as the mathematical set.", "quantifier": "every lawful Finite type, every finite program over these operations, every probe point", "why_tests_cant": "The set of programs is infinite.", "anchors": ["src/selection.rs: Selection::new, full, From<Interval>, FromIterator, Extend, union_in_place, union, complement, contains"]}
{"id": "C44", "title": "Selection::minus / minus_in_place remove exactly the given points", "statement": "After s.minus_in_place(i), and in s.minus(&o), a point is contained iff it was in s and is not in i (o); no panic.", "quantifier": "every lawful Finite type, every Selection reachable through the API", "why_tests_cant": "Depends on the history that built the tree.", "anchors": ["src/selection.rs: Selection::minus, minus_in_place"]}
{"id": "C45", "title": "Selection::intersect keeps exactly the common points", "statement": "s.intersect(&o).contains(x) iff both contain x, and s.intersects(&o) iff a common point exists.", "quantifier": "every lawful Finite type, every pair of reachable Selections", "why_tests_cant": "Unbounded Selections.", "anchors": ["src/selection.rs: Selection::intersect, intersects"]}
{"id": "C46", "title": "Selection::intersect_in_place keeps exactly the interval's points", "statement": "After s.intersect_in_place(i) a point is contained iff it was in s and is in i; no panic in any build.", "quantifier": "every lawful Finite type, every reachable Selection and Interval", "why_tests_cant": "Unbounded Selections and intervals.", "anchors": ["src/selection.rs: Selection::intersect_in_place"]}
{"id": "C47", "title": "Selection equality is set equality", "statement": "Two Selections compare equal iff they contain the same points.", "quantifier": "every lawful Finite type, every pair of reachable Selections", "why_tests_cant": "All pairs of histories.", "anchors": ["src/selection.rs: PartialEq for Selection"]}
{"id": "C48", "title": "Selections built from points and intervals by union are canonical", "statement": "For Selections built only with new/full/From/FromIterator/Extend/union/union_in_place from non-vacuous Intervals, == holds iff contains agrees everywhere, independent of the order of insertion.", "quantifier": "every lawful Finite type, every pair of such histories", "why_tests_cant": "All pairs of histories.", "anchors": ["src/selection.rs: FromIterator, Extend, union, union_in_place, PartialEq"]}
{"id": "C49", "title": "Selection iteration yields exactly the contained points in order", "statement": "iterating a Selection (iter, into_iter, for x in &sel) yields each contained value exactly once in ascending order and then stops.", "quantifier": "every lawful Finite type, every reachable Selection", "why_tests_cant": "Unbounded Selections.", "anchors": ["src/selection.rs: Iter::next, IntoIter::next"]}
{"id": "C50", "title": "interval_iter of a Selection yields the maximal runs", "statement": "interval_iter yields closed intervals, ascending, each with at least one point, separated by at least one missing point.", "quantifier": "every lawful Finite type, every Selection reachable by unions", "why_tests_cant": "Unbounded Selections.", "anchors": ["src/selection.rs: IntervalIter::next"]}
{"id": "C51", "title": "Selection iteration from the back", "statement": "iter().rev() yields the ascending list reversed, and any interleaving of next and next_back meets in the middle.", "quantifier": "every lawful Finite type, every reachable Selection, every schedule", "why_tests_cant": "Schedules are unbounded.", "anchors": ["src/selection.rs: Iter::next_back, IntoIter::next_back, IntervalIter::next_back"]}
{"id": "C52", "title": "Selection lower_bound/upper_bound are the extreme contained points", "statement": "lower_bound() is Some(Include(m)) with m the least contained value, upper_bound() likewise for the greatest, and None iff the Selection is empty.", "quantifier": "every lawful Finite type, every reachable Selection", "why_tests_cant": "Unbounded Selections.", "anchors": ["src/selection.rs: Selection::lower_bound, upper_bound"]}
{"id": "C53", "title": "Selection infimum/supremum are the extreme contained points", "statement": "infimum() is the greatest lower bound of the contained points and supremum() the least upper bound.", "quantifier": "every lawful Finite type, every reachable Selection", "why_tests_cant": "Unbounded Selections; depends on history.", "anchors": ["src/selection.rs: Selection::infimum, supremum"]}
{"id": "C54", "title": "Selection::enclose is the smallest interval around the points", "statement": "enclose() contains exactly the values between the least and greatest contained values.", "quantifier": "every lawful Finite type, every reachable Selection", "why_tests_cant": "Unbounded Selections.", "anchors": ["src/selection.rs: Selection::enclose"]}
{"id": "C55", "title": "Selection::closure is the smallest closed interval around the points", "statement": "closure() contains exactly the values between the least and greatest contained values.", "quantifier": "every lawful Finite type, every reachable Selection", "why_tests_cant": "Unbounded Selections.", "anchors": ["src/selection.rs: Selection::closure", "src/tine_tree.rs: TineTree::closure", "src/raw_interval.rs: RawInterval::closure"]}
{"id": "C56", "title": "Selection is_empty / is_full tell the truth", "statement": "is_empty() iff no value is contained; is_full() iff every value is contained.", "quantifier": "every lawful Finite type, every reachable Selection", "why_tests_cant": "Unbounded Selections; depends on history.", "anchors": ["src/selection.rs: Selection::is_empty, is_full"]}
{"id": "C57", "title": "Debug and release builds agree", "statement": "Every operation gives the same result whether or not debug assertions are compiled in.", "quantifier": "every operation, every well-formed tree", "why_tests_cant": "Tests run in one profile.", "anchors": ["src/tine_tree.rs: debug_assert! sites", "src/tine.rs: debug_assert! sites"]}
{"id": "C58", "title": "Raw bounds and infimum/supremum describe the interval", "statement": "lower_bound/upper_bound rebuild the interval through new() and delimit exactly its points; infimum()/supremum() are the greatest lower and least upper bound of its points.", "quantifier": "every ordered type, every well-formed raw interval", "why_tests_cant": "Infinitely many types and values; discrete orders behave differently from dense ones.", "anchors": ["src/raw_interval.rs: RawInterval::lower_bound, upper_bound, infimum, supremum, new"]}
{"id": "C59", "title": "Raw is_empty / is_full tell the truth", "statement": "is_empty() iff no value is contained, is_full() iff every value is contained.", "quantifier": "every ordered type, every well-formed raw interval", "why_tests_cant": "A statement about all values of the type.", "anchors": ["src/raw_interval.rs: RawInterval::is_empty, is_full, contains"]}
{"id": "C60", "title": "Raw closure is the smallest interval with closed ends around the interval", "statement": "closure() has closed ends, is idempotent, adds only the end points, and lies inside every interval with closed ends that contains self.", "quantifier": "every ordered type, all pairs of well-formed raw intervals", "why_tests_cant": "Minimality quantifies over all intervals.", "anchors": ["src/raw_interval.rs: RawInterval::closure"]}
{"id": "C61", "title": "Raw adjacency is symmetric and means the union is one interval", "statement": "is_adjacent_to(a,b) iff the upper end of one and the lower end of the other share a finite value and at most one of them is open there; it is symmetric; a union yields one piece iff the union of the points has no hole.", "quantifier": "every ordered type (merging: dense orders without ends), all pairs", "why_tests_cant": "All pairs of intervals of all shapes.", "anchors": ["src/raw_interval.rs: RawInterval::is_adjacent_to, intersects, union_iter", "src/bound.rs: Bound::is_union_adjacent_to"]}
{"id": "C62", "title": "Interval bounds and infimum/supremum are the extreme points", "statement": "lower_bound() is Include(m) and infimum() is m iff m is the least contained value; upper_bound()/supremum() likewise; None iff nothing is contained.", "quantifier": "every lawful Finite type, every interval reachable through the API", "why_tests_cant": "All types, all construction histories.", "anchors": ["src/interval.rs: Interval::lower_bound, upper_bound, infimum, supremum"]}
{"id": "C63", "title": "is_degenerate / is_proper / into_non_empty classify by number of points", "statement": "is_degenerate() iff exactly one value, is_proper() iff more than one, into_non_empty() is None iff no value and otherwise returns self.", "quantifier": "every lawful Finite type, every reachable interval", "why_tests_cant": "All construction histories.", "anchors": ["src/interval.rs: Interval::is_degenerate, is_proper, into_non_empty"]}
{"id": "C64", "title": "Interval intersects and is_adjacent_to", "statement": "intersects() iff the intervals have a common value; is_adjacent_to() iff one ends at the value at which the other begins, which for intervals with values means that the greatest value of one is the least of the other.", "quantifier": "every lawful Finite type, all pairs of reachable intervals", "why_tests_cant": "All pairs.", "anchors": ["src/interval.rs: Interval::intersects, is_adjacent_to"]}
{"id": "C65", "title": "intersect and enclose form a lattice", "statement": "intersect and enclose are commutative, associative, idempotent, have Full/Empty as unit and zero, and absorb each other: as equalities of raw intervals; for Interval, commutativity and associativity as ==, the rest pointwise.", "quantifier": "every ordered (Finite) type, all triples", "why_tests_cant": "All triples of intervals.", "anchors": ["src/raw_interval.rs: RawInterval::intersect, enclose", "src/interval.rs: Interval::intersect, enclose"]}
{"id": "C66", "title": "Bound adapters follow the Option-like laws", "statement": "unwrap panics exactly on Infinite; as_ref/unwrap_or/map/map_or/map_or_else/transfer/as_mut agree with each other and map is functorial.", "quantifier": "every type, every bound, every function", "why_tests_cant": "Quantifies over functions.", "anchors": ["src/bound.rs: Bound::unwrap, unwrap_or, unwrap_or_else, map, map_or, map_or_else, as_ref, as_mut, transfer"]}
{"id": "C67", "title": "Selection boundedness predicates", "statement": "Over a finite type every Selection is left- and right-bounded and never half-bounded; is_bounded() is true.", "quantifier": "every lawful Finite type, every Selection reachable through the API", "why_tests_cant": "All construction histories.", "anchors": ["src/selection.rs: Selection::is_bounded, is_left_bounded, is_right_bounded, is_half_bounded"]}
{"id": "C68", "title": "Collecting values into a Selection sorts and deduplicates", "statement": "Collecting any sequence of values and iterating yields exactly its values, ascending, each once; a strictly ascending sequence comes back unchanged; two collections are == iff they have the same values.", "quantifier": "every lawful Finite type, every list of values", "why_tests_cant": "Lists of any length.", "anchors": ["src/selection.rs: FromIterator<T>, Selection::iter, PartialEq"]}
{"id": "C69", "title": "Selection union, complement and extend satisfy their algebra as ==", "statement": "union is commutative, associative, idempotent with unit new() and zero full(); complement is an involution exchanging new() and full(); extend, union_in_place one by one, and union with the collected Selection give the same Selection.", "quantifier": "every lawful Finite type, every triple of reachable Selections, every list of intervals", "why_tests_cant": "All histories.", "anchors": ["src/selection.rs: Selection::union, complement, union_in_place, Extend, FromIterator, full, new"]}
{"id": "C70", "title": "Exact intersection and difference are available through complement and union", "statement": "complement(complement(a) union complement(b)) contains exactly the common values, complement(complement(a) union b) exactly the values of a not in b, and neither panics.", "quantifier": "every lawful Finite type, every pair of reachable Selections", "why_tests_cant": "All histories.", "anchors": ["src/selection.rs: Selection::complement, union, contains"]}
{"id": "C71", "title": "Collecting the yielded intervals restores the Selection", "statement": "Collecting interval_iter() gives a Selection that contains the same values and is == to the original.", "quantifier": "every lawful Finite type, every reachable Selection", "why_tests_cant": "All histories.", "anchors": ["src/selection.rs: Selection::interval_iter, FromIterator<Interval>, PartialEq"]}
{"id": "C72", "title": "Exact domain of Selection::intersect_in_place", "statement": "On a Selection built by unions, intersect_in_place(i) returns exactly the common values in a well-formed Selection if and only if: one side is trivial (no values, i empty, i everything), or the Selection has a value at or next to each end of i, or it has one of the two values outside one end and a value at or next to that end while it has none of the same at the other end. On a complement of such a Selection: one side is trivial, or the Selection holds the value at each end of i and the one beyond it (if any), or it holds the value at one end and the two beyond it and does not run across or up to the other end, or a single value next to i is in it and it runs neither across nor up to an end.", "quantifier": "every lawful Finite type, every union-built Selection and complement of one, every interval made without gaps, both builds", "why_tests_cant": "An if-and-only-if over all Selections and intervals.", "anchors": ["src/selection.rs: Selection::intersect_in_place", "src/tine_tree.rs: TineTree::intersect_in_place"]}
{"id": "C73", "title": "Exact domain of TineTree::intersect", "statement": "On dense types, intersect is exact if and only if each interval of the right tree meets at most one interval of the left tree and, if it meets the k-th, exactly k intervals before it in the right tree meet none. On every ordered type this suffices.", "quantifier": "every ordered type, every pair of well-formed trees, both builds", "why_tests_cant": "An if-and-only-if over all trees.", "anchors": ["src/tine_tree.rs: TineTree::intersect"]}
{"id": "C74", "title": "Exact result and domain of Selection::intersect", "statement": "For Selections built by unions intersect never panics and contains exactly the common values of the interval pairs met by walking both lists in step (on a pair with equal or neighbouring values the right list advances, otherwise both); so it is right if and only if every pair of intervals with a common value is among them.", "quantifier": "every lawful Finite type, every pair of union-built Selections, both builds", "why_tests_cant": "An if-and-only-if over all pairs.", "anchors": ["src/selection.rs: Selection::intersect", "src/tine_tree.rs: TineTree::intersect"]}
{"id": "C75", "title": "Exact meaning of Selection::intersects", "statement": "For Selections built by unions intersects() is true if and only if for some k the k-th intervals of the two Selections have equal or neighbouring values.", "quantifier": "every lawful Finite type, every pair of union-built Selections, both builds", "why_tests_cant": "An if-and-only-if over all pairs.", "anchors": ["src/selection.rs: Selection::intersects"]}
{"id": "C76", "title": "Exact domain of Selection::minus and minus_in_place", "statement": "For Selections built by unions minus_in_place(i) is exact if and only if no neighbour of i is a lone gap of the Selection (a missing value with both neighbours present); minus(o) is exact if and only if every lone gap next to a value of o is itself in o.", "quantifier": "every lawful Finite type, every union-built Selection, every interval / union-built Selection, both builds", "why_tests_cant": "An if-and-only-if over all Selections.", "anchors": ["src/selection.rs: Selection::minus, minus_in_place"]}
{"id": "C77", "title": "Exact domain of two-ended tree iteration", "statement": "Every interleaving of next and next_back on interval_iter() behaves as a deque of the intervals, and reverse iteration gives them reversed, if and only if no interval ends and another starts at one excluded point.", "quantifier": "every ordered type, every well-formed tree, every schedule, both builds", "why_tests_cant": "All schedules; an if-and-only-if.", "anchors": ["src/tine_tree.rs: IntervalIter::next, next_back"]}
{"id": "C78", "title": "Exact domain of two-ended Selection iteration", "statement": "For Selections built by unions, reverse iteration yields the values in descending order if and only if there is no lone gap; then any schedule yields each value at most once and None only after all; it behaves as a deque if and only if moreover the values are consecutive or no two are.", "quantifier": "every lawful Finite type, every union-built Selection, every schedule, both builds", "why_tests_cant": "All schedules; an if-and-only-if.", "anchors": ["src/selection.rs: Iter::next, next_back"]}
{"id": "C79", "title": "Exact content of Selection iteration for every history", "statement": "Forward iteration of any Selection is strictly ascending and yields the contained values plus exactly the lower bound of each pointless interval interval_iter() yields; so it is exact if and only if every yielded interval has a point.", "quantifier": "every lawful Finite type, every Selection program, both builds", "why_tests_cant": "All histories.", "anchors": ["src/selection.rs: Iter::next, interval_iter"]}
{"id": "C80", "title": "Exact meaning of Selection::is_empty for every history", "statement": "is_empty() is true if and only if interval_iter() yields nothing, if and only if iteration yields no value, if and only if the Selection == new().", "quantifier": "every lawful Finite type, every Selection program, both builds", "why_tests_cant": "All histories.", "anchors": ["src/selection.rs: Selection::is_empty, interval_iter, iter, PartialEq"]}
{"id": "C81", "title": "Exact meaning of == on intervals", "statement": "Two intervals are == if and only if their lower bounds, upper bounds and is_degenerate() agree; if one has a point, if and only if they have the same points and is_degenerate() agrees.", "quantifier": "every lawful Finite type, every pair of intervals the API can make", "why_tests_cant": "All histories.", "anchors": ["src/interval.rs: Interval PartialEq, is_degenerate, lower_bound, upper_bound"]}
{"id": "C82", "title": "Exact meaning of intersects on raw intervals", "statement": "intersects() is true if and only if each lower bound leaves room below the other's upper bound: below it, or equal and both included.", "quantifier": "every ordered type, every pair of well-formed raw intervals", "why_tests_cant": "All types, including discrete ones.", "anchors": ["src/raw_interval.rs: RawInterval::intersects"]}
{"id": "C83", "title": "Exact points of converted std ranges", "statement": "The interval converted from a std range contains exactly the values of the range, and additionally a when the range is a..a.", "quantifier": "every lawful Finite type, every std range, every value", "why_tests_cant": "All ranges.", "anchors": ["src/interval.rs: From<Range>, From<RangeInclusive>, From<RangeFrom>, From<RangeTo>, From<RangeToInclusive>"]}
{"id": "C84", "title": "Exact domain of Interval::size", "statement": "For an interval with n >= 1 values size() returns n-1 if and only if n-1 is a value of the type.", "quantifier": "every integer type, every interval made without gaps, both builds", "why_tests_cant": "All intervals; overflow.", "anchors": ["src/interval.rs: Interval::size"]}
{"id": "C85", "title": "Exact infimum, supremum and closure of Selections built by unions", "statement": "They are the predecessor of the least value, the successor of the greatest value and the interval from one to the other; None/None/empty for no values.", "quantifier": "every lawful Finite type, every union-built Selection, both builds", "why_tests_cant": "All histories.", "anchors": ["src/selection.rs: Selection::infimum, supremum, closure"]}
{"id": "C86", "title": "Exact language of the interval parser", "statement": "A string parses to i exactly when it starts with the empty sign (rest ignored) and i is Empty, or it is a value p and i is the point p, or it splits at its first comma into a lower and an upper bound text, where text between -\u221e and the comma or between the comma and \u221e is ignored, and i is new(lower, upper).", "quantifier": "every value parser, every string", "why_tests_cant": "All strings.", "anchors": ["src/raw_interval.rs: FromStr for RawInterval"]}
{"id": "C87", "title": "Iterators are fused", "statement": "Once next() of an Interval iterator, of an iterator over the intervals of a Selection or TineTree, or of an iterator over the values of a Selection has returned None, next() returns None ever after, without a panic, whatever calls of next() and next_back() were made before and in between.", "quantifier": "every interval, tree and Selection, every schedule of calls, both builds", "why_tests_cant": "All schedules of calls before and after the end.", "anchors": ["src/interval.rs: FusedIterator for Iter", "src/selection.rs: FusedIterator for IntoIntervalIter, IntervalIter, IntoIter, Iter"]}
{"id": "C88", "title": "Serialisation round trips", "statement": "With the serde feature, deserialising what a Bound, RawInterval, Interval, TineTree or Selection was serialised to gives back that value; different values have different serialisations; the order of the items of a serialised Selection does not matter.", "quantifier": "every serialisable type, every value; every Selection a program can build", "why_tests_cant": "All values and histories.", "anchors": ["src/bound.rs: Bound", "src/raw_interval.rs: RawInterval", "src/interval.rs: Interval", "src/tine_tree.rs: TineTree", "src/selection.rs: Selection"]}
{"id": "C89", "title": "Deserialised values keep the invariants", "statement": "A value accepted by the deserialiser is one the constructors could have made: an Interval is closed, queries on a Selection do not panic; deserialising never panics.", "quantifier": "every input of the deserialiser", "why_tests_cant": "All inputs, including adversarial ones.", "anchors": ["src/interval.rs: Interval", "src/selection.rs: Selection", "src/tine_tree.rs: TineTree", "src/tine.rs: PartialOrd for Tine"]}
{"id": "C90", "title": "Kinds of any Interval value follow its bounds", "statement": "For any Interval value, deserialised ones included: is_left_closed/is_right_closed say whether the bound on that side includes its point, is_half_closed whether exactly one does; is_left_bounded/is_right_bounded/is_bounded/is_half_bounded say which bounds are infinite; is_empty and into_non_empty whether there are no bounds; is_open, is_left_open, is_right_open, is_half_open and is_closed agree with the bounds being excluded or included.", "quantifier": "every ordered type, every Interval value", "why_tests_cant": "All values of the type, including shapes no constructor makes.", "anchors": ["src/interval.rs: Interval::is_open, is_left_open, is_right_open, is_half_open, is_closed, is_left_closed, is_right_closed, is_half_closed, is_bounded, is_left_bounded, is_right_bounded, is_half_bounded, is_empty, into_non_empty"]}
{"id": "C91", "title": "Raw intervals written with public variants in any order", "statement": "A RawInterval written with its public variants contains exactly the points that satisfy both its bounds, whatever their order, and every operation on it, every Interval and every TineTree made from it treats it as that set of points.", "quantifier": "every ordered type, every RawInterval value, both builds", "why_tests_cant": "All values, including those with crossed bounds.", "anchors": ["src/raw_interval.rs: RawInterval", "src/interval.rs: From<RawInterval> for Interval", "src/tine_tree.rs: TineTree::from_raw_interval"]}
{"id": "C92", "title": "Which parse error is reported", "statement": "RawInterval::from_str reports InvalidInterval exactly for strings that are no value and either have no comma, or whose text before the first comma starts with no bracket, or has a valid lower bound and no closing bracket; it reports InvalidValue with T's own error exactly when the bracketed text of the lower bound, or of the upper bound after a valid lower bound, is refused by T with that error. For the builtin integers: Empty exactly for the empty text, PosOverflow/NegOverflow exactly when leading digits already leave the range, InvalidDigit for all else that is not a decimal integer.", "quantifier": "every string, every FromStr type; every builtin integer type", "why_tests_cant": "All strings.", "anchors": ["src/raw_interval.rs: FromStr for RawInterval, IntervalParseError"]}
{"id": "C93", "title": "Histories of calls on one Selection", "statement": "Starting from Selection::new(), any history of union_in_place, extend, union, complement, minus_in_place, minus and intersect_in_place calls runs without panic, gives the same Selection in debug and release builds and leaves exactly the set the calls describe, and afterwards contains, interval_iter, iter, is_empty, is_full, lower_bound, upper_bound and enclose answer for exactly that set, provided that at each minus no value just outside what is removed is a lone gap of the set, that an intersect_in_place interval is everything or lies inside the set with the values just outside its ends (or the set is empty), that intervals are not built from open pairs of neighbours and that other operands are built by unions. If moreover the set left has no lone gap, iter() from the back yields its values in descending order and every interleaving of next and next_back yields each value at most once, and None only after all.", "quantifier": "every Finite type, every finite history of such calls, both builds", "why_tests_cant": "Histories of unbounded length; the state after each call must again be one the next call handles correctly.", "anchors": ["src/selection.rs: Selection::new, union_in_place, Extend, union, complement, minus_in_place, minus, intersect_in_place, interval_iter, iter, is_empty, is_full, lower_bound, upper_bound, infimum, supremum, enclose"]}
{"id": "C94", "title": "Bound operators on partially ordered types", "statement": "On any PartialOrd type (floats included), if the points of two bounds are comparable, least_union and greatest_union of lower and upper bounds let through exactly the values either bound lets through, greatest_intersect and least_intersect those both do, the operands' order does not matter up to ==, and the result is one of the operands; combining a bound with itself gives it back even for NaN; if the points are incomparable every operator returns its argument, so NaN makes them neither commutative nor associative. On totally ordered types they are the operators used everywhere else.", "quantifier": "every PartialOrd type, all bounds, all values, comparable or not", "why_tests_cant": "All partial orders and all values.", "anchors": ["src/bound.rs: Bound::least_union, least_intersect, greatest_union, greatest_intersect"]}
{"id": "C95", "title": "Bounds, hull and fullness follow the intervals", "statement": "For every Selection a program can build: if it yields no interval, lower_bound, upper_bound, infimum and supremum are None and enclose and closure are the empty interval; otherwise lower_bound is the first interval's lower bound m and upper_bound the last one's upper bound n, enclose has exactly those bounds, infimum is m or the value before it, supremum n or the value after it, and closure runs from infimum (MINIMUM if none) to supremum (MAXIMUM if none). is_full holds exactly if the complement is empty, is_empty exactly if it is full, and is_full exactly if the Selection equals full().", "quantifier": "every Finite type, every program of Selection operations, debug and release", "why_tests_cant": "All programs and all value types, including those whose intervals have no values.", "anchors": ["src/selection.rs: lower_bound, upper_bound, infimum, supremum, enclose, closure, is_full, is_empty, complement"]}
{"id": "C96", "title": "Results depend on values only through their order", "statement": "If T compares its values through a key (and MINIMUM, MAXIMUM, pred and succ act on the key), then every operation on raw intervals, Intervals and trees, every query of a Selection and every program of Selection operations commutes with replacing values by their keys: same answers, same panics, and results that are the keyed results, including the order and number of values and intervals iterated, under every schedule of next and next_back calls. So values that are == without being identical are interchangeable: replacing arguments by == ones gives == Selections that answer contains alike, and the set semantics of C43 holds for such types up to ==.", "quantifier": "all types T, U and key functions T -> U through which T is compared (no law of Ord is assumed except for the last sentence), all values, trees and programs, debug and release", "why_tests_cant": "All types, key functions and programs; tests use integers, where == is identity.", "anchors": ["src/raw_interval.rs: RawInterval", "src/tine_tree.rs: TineTree", "src/selection.rs: Selection", "src/bound.rs: Bound", "src/tine.rs: Ord for Tine"]}
{"id": "C97", "title": "Hashing agrees with equality", "statement": "If T's Hash writes the same for == values, then so do those of Bound, RawInterval, Interval, TineTree and Selection. If T's writes are also prefix-free, the crate's types write the same, whatever is written after them, exactly for == values. Two Selections built by unions hash alike if they contain the same values, however they were built, and (prefix-free T) only then.", "quantifier": "all types with ==, all impls of Hash satisfying std's law, all values, all hashers, all union programs", "why_tests_cant": "All hashers and all values; a test hashes a few values with one hasher.", "anchors": ["src/bound.rs: derive(Hash) for Bound", "src/tine.rs: derive(Hash) for Tine", "src/raw_interval.rs: derive(Hash, PartialEq) for RawInterval", "src/interval.rs: derive(Hash, PartialEq) for Interval", "src/tine_tree.rs: derive(Hash, PartialEq) for TineTree", "src/selection.rs: derive(Hash, PartialEq) for Selection"]}
{"id": "C98", "title": "The number of intervals stays proportional to the inputs", "statement": "A Selection built by a program of Selection operations that is handed n intervals and values in total yields at most n + 1 intervals, and one built by unions only yields at most one per interval, value and full() call. Each in-place call and complement on a tree adds at most one interval; union and minus yield at most as many as both operands together, intersect at most as many as its second operand.", "quantifier": "all ordered types and values, all programs of Selection operations of any length, all well-formed operands, debug and release", "why_tests_cant": "All programs of any length; a test counts the intervals of a few results.", "anchors": ["src/selection.rs: Selection", "src/tine_tree.rs: union_in_place, minus_in_place, intersect_in_place, complement, union, minus, intersect, interval_iter"]}
{"id": "C99", "title": "Left and right are treated alike", "statement": "Reverse the order of the element type (std::cmp::Reverse, or bitwise negation of integers) and exchange the two ends of every argument: every operation then gives its former result with the ends exchanged. This holds for all RawInterval and Interval operations, for all queries of a tree or Selection (lower against upper bound, infimum against supremum, intervals in the opposite order, next against next_back of an Interval), for programs of Selection operations other than intersect, and for every history of union_in_place, minus_in_place, intersect_in_place, extend and complement, including those that lose values or panic.", "quantifier": "all ordered (for Interval and Selection: finite) types and order-reversing maps, all intervals, well-formed or not for the interval operations, all programs and histories of any length, debug and release", "why_tests_cant": "Left and right are separate code in every operation; a slip on one side shows only on some shapes of interval or tree, which a test would have to hit on both sides.", "anchors": ["src/bound.rs: Bound", "src/raw_interval.rs: RawInterval", "src/normalize.rs: normalize, denormalize", "src/interval.rs: Interval", "src/tine.rs: Tine", "src/tine_tree.rs: union_in_place, minus_in_place, intersect_in_place, complement, union", "src/selection.rs: Selection"]}
{"id": "C100", "title": "intersect and minus of two Selections treat left and right alike", "statement": "Reversing the order of the element type and exchanging the ends of both Selections exchanges the ends of the result of intersect and of minus. (False: the results can differ even as sets. It holds for minus when the second operand has at most one interval, or was built by unions.)", "quantifier": "all pairs of Selections", "why_tests_cant": "All pairs of Selections of any size; both operations walk from left to right, and only particular arrangements show the difference.", "anchors": ["src/selection.rs: intersect, minus", "src/tine_tree.rs: intersect, minus"]}
{"id": "C101", "title": "Exactly when intersect_in_place panics, and what it returns beside the interval", "statement": "intersect_in_place panics exactly when the tree or Selection is present just inside one end of the interval and absent inside the other (unless it runs through the first end and is absent beyond the other), or is absent inside both and present just outside one without a shared end point; in debug builds also when an end leaves a single point. Release panics only where debug does. A non-empty Selection that keeps clear of both ends is not intersected: without a common value the result is the argument interval itself, with one it is a Selection on which every contains of a debug build panics. These cases and the correct ones (C72) are all there are. On complements of such Selections the same trichotomy holds with conditions on the values at, next to and two steps beyond the ends.", "quantifier": "all well-formed trees and intervals over all ordered types; all Selections built by unions and complements of these and all intervals over all finite types; debug and release", "why_tests_cant": "An if-and-only-if over all trees and intervals: tests show single panics, not that the list of causes is complete.", "anchors": ["src/tine_tree.rs: intersect_in_place, intersect_proper_interval", "src/tine.rs: intersect", "src/selection.rs: intersect_in_place"]}
{"id": "C102", "title": "No operation on raw intervals or trees invents values", "statement": "Every value written in the bounds of a result of new, intersect, enclose, union, minus, complement, closure, union_all, intersect_all, enclose_all on raw intervals, or of union_in_place, minus_in_place, intersect_in_place, union, minus, intersect, complement, enclose, closure, the bounds, extend and interval_iter of a tree, is one of the values written in the arguments. It holds for any element type whatever its comparison does, and for intervals and trees in any state.", "quantifier": "all types with any comparison function, all intervals (in order or not), all trees (well-formed or not), all lists of intervals of any length, debug and release", "why_tests_cant": "Parametricity over the element type: a test fixes the type and values.", "anchors": ["src/raw_interval.rs: RawInterval", "src/bound.rs: least_union, least_intersect, greatest_union, greatest_intersect", "src/tine.rs: union, intersect, minus, invert", "src/tine_tree.rs: TineTree"]}
{"id": "C103", "title": "A Selection made from one interval answers like the interval", "statement": "For every interval i the API can produce, Selection::from(i) has the same contains, is_empty, lower_bound, upper_bound, is_left_bounded, is_right_bounded and is_half_bounded as i, encloses to an interval with the same ends, yields the same values as i's own iterator under every mixture of next and next_back, and interval_iter yields one interval with the same ends (none when i is empty). For intervals not built from an open pair of neighbours, union, complement, intersect, minus, minus_in_place and union_in_place of two such Selections contain exactly the values of the corresponding Interval operation, and the union equals the Selection collected from the Interval union.", "quantifier": "all finite types, all intervals obtainable through the API (vacuous ones included for the queries and iteration), all call schedules of any length, debug and release", "why_tests_cant": "Two independent layers (normalized intervals, and trees of denormalized ones) must agree on every interval and every call schedule.", "anchors": ["src/selection.rs: From<Interval>, Iter, contains, enclose, lower_bound, upper_bound, union, complement, intersect, minus", "src/interval.rs: Interval, Iterator", "src/normalize.rs: normalize, denormalize"]}
{"id": "C104", "title": "What a panic leaves behind in the Selection or tree", "statement": "If a call on &mut self unwinds, the value left behind contains no value it should not. union_in_place and minus_in_place on a Selection never unwind. If the iterator given to extend panics, the Selection holds exactly its old values and those of the intervals handed out before the panic. If intersect_in_place unwinds, the value left behind still answers contains, with true only for values that were in it and in the interval, and it loses none of those.", "quantifier": "all trees and Selections, all intervals, all crash points (every assertion, unreachable arm and every position in the iterator given to extend), debug and release", "why_tests_cant": "Every place at which a call may unwind, after any history, leaves its own half-updated state; tests stop at the first panic.", "anchors": ["src/tine_tree.rs: intersect_in_place, intersect_proper_interval, interior_split_for_proper_interval, union_proper_interval, minus_proper_interval", "src/selection.rs: Extend, union_in_place, minus_in_place, intersect_in_place"]}
{"id": "C105", "title": "A panicking Clone of the value type leaves only old values behind", "statement": "If the value type's clone() panics inside union_in_place, minus_in_place or intersect_in_place, the tree left behind contains no value it did not contain before and loses none of them: every contains is answered as before the call.", "quantifier": "all trees, all intervals, every call of clone() the operation makes, debug and release", "why_tests_cant": "The crash point is any call of user code in the middle of the operation; tests use value types whose clone cannot fail.", "anchors": ["src/tine_tree.rs: union_in_place, minus_in_place, intersect_in_place, exterior_split_for_point_interval, exterior_split_for_proper_interval, interior_split_for_proper_interval"]}
{"id": "C106", "title": "Any history of calls on a tree leaves the set its calls describe", "statement": "After any sequence of union_in_place, union, complement, minus_in_place, minus, intersect_in_place and intersect on one tree, each call made within its domain (C37, C41, C73), no call has panicked, the tree is well-formed and contains just the values that carrying out the calls on sets gives. On dense value types a history is right at every step just when every call was within its domain, and two such histories leave == trees just when their calls describe the same set. Whatever a debug build computes a release build computes too.", "quantifier": "all start trees, all histories of any length with any operands, debug and release", "why_tests_cant": "The history is unbounded and each call's domain depends on the tree the earlier calls left.", "anchors": ["src/tine_tree.rs: union_in_place, union, complement, minus_in_place, minus, intersect_in_place, intersect"]}
{"id": "C107", "title": "A panic in the value type's pred or succ costs at most the interval being read", "statement": "pred and succ are code of the value type and may panic. If they return the right value whenever they return: a panicking union_in_place, minus_in_place or intersect_in_place leaves the Selection untouched; a panicking extend has added the intervals before the one it was reading; calls of an Interval's value iterator that panic lose nothing, from either end, so that the calls that return give what they would without the others; iterating over a Selection's intervals each call gives what it would give without panics or panics; iterating over its values, the values returned are ascending, without a gap, and all those of the Selection's intervals except at most one interval per panic; iterating over the values from both ends, none is returned twice, all returned are members, and again at most one interval per panic is lost, the values descending when all calls are at the back.", "quantifier": "all programs, all intervals, all schedules of calls, all places where pred or succ panic, different in every call", "why_tests_cant": "A panic can occur in any of the calls of pred and succ that any method makes, and what the caller sees after catching it depends on the order of the assignments in the code.", "anchors": ["src/normalize.rs: Finite, normalize, denormalize", "src/interval.rs: next, next_back", "src/selection.rs: union_in_place, minus_in_place, intersect_in_place, extend, Iter, IntervalIter"]}
{"id": "C108", "title": "Iterating from both ends yields nothing that is not there, and nothing twice", "statement": "Whatever calls of next() and next_back() are made on the interval iterator or the value iterator of a Selection, and in whatever order: every interval that comes out is one of the Selection's intervals, no value lies in two of the intervals that come out, every value that comes out is contained in the Selection, and none comes out twice.", "quantifier": "all Selections a program of the API can build, all schedules of calls at the two ends, both builds", "why_tests_cant": "The iterators keep tines saved from either end; which of them a call meets depends on the whole schedule and on where intervals touch in the tree.", "anchors": ["src/selection.rs: Iter, IntervalIter, next, next_back", "src/tine_tree.rs: IntervalIter::next, IntervalIter::next_back"]}
{"id": "C109", "title": "What iteration from the back yields", "statement": "In a build with debug assertions, calling next_back() again and again on the interval iterator yields, within each group of intervals of which neighbours are one missing value apart, every second interval counted from the top; it ends with None if every group it reaches has an odd number of intervals and panics after the lowest interval it yields of the first group that has not. The value iterator yields the values of these intervals in descending order and ends the same way. A release build does the same whenever the debug build does not panic.", "quantifier": "all Selections built by unions, extends and conversions of intervals; all well-formed trees for the tree's own iterator", "why_tests_cant": "The number and arrangement of touching intervals is unbounded, and the outcome depends on the parity of every group.", "anchors": ["src/selection.rs: Iter::next_back, IntervalIter::next_back", "src/tine_tree.rs: IntervalIter::next_back"]}
{"id": "C110", "title": "What iteration from the back yields without debug assertions", "statement": "In a release build next_back() called again and again never panics. The interval iterator yields the intervals from the top down until one has its lower neighbour one missing value away; it passes over that neighbour and from then on yields, instead of the intervals, the gaps between them without their first and last value, until it comes to two neighbours one missing value apart again, where it resumes with the lower of the two. If it runs out of intervals while passing over, the last item is empty, or, if the lowest interval holds the least value of the type, everything from the last interval it did yield before a missing value upwards. The value iterator yields the values of these items in descending order and then None, except that for a gap of exactly two values it yields the lower of the two.", "quantifier": "all Selections built by unions, extends and conversions of intervals; all well-formed trees for the tree's own iterator", "why_tests_cant": "The number, sizes and arrangement of intervals and gaps are unbounded.", "anchors": ["src/selection.rs: Iter::next_back, IntervalIter::next_back", "src/tine_tree.rs: IntervalIter::next_back"]}
{"id": "C111", "title": "Debug text tells values apart", "statement": "format!(\"{:?}\") and format!(\"{:#?}\") of Bound, RawInterval, Interval, TineTree and Selection are the same for == values, and different, even followed by any other text, for values that are not ==, if T's Debug is the same for == values and its end and its value can be told when a comma or a closing parenthesis follows. The builtin integers' Debug is such. {:?} writes the name of the variant or struct and its fields in order, lower end first, on one line; {:#?} writes the same with each field on lines of its own, four blanks further in and followed by a comma. Two Selections built by unions print alike exactly if they contain the same values, however they were built. Two IntervalParseErrors print alike exactly if they are the same.", "quantifier": "all types with ==, all impls of Debug for them satisfying the two conditions, all values, all builtin integer types, all union programs", "why_tests_cant": "All pairs of values of all types; a test prints a few. assert_eq! messages, snapshots and logs are only evidence if different values never print alike.", "anchors": ["src/bound.rs: derive(Debug) for Bound", "src/tine.rs: derive(Debug) for Tine", "src/raw_interval.rs: derive(Debug) for RawInterval, IntervalParseError", "src/interval.rs: derive(Debug) for Interval", "src/tine_tree.rs: derive(Debug) for TineTree", "src/selection.rs: derive(Debug) for Selection"]}
{"id": "C112", "title": "Interval operations on Intervals however they came to be", "statement": "Whatever raw interval an Interval was converted from, and whatever data it was deserialised from, complement, intersect and minus contain exactly the values they should, union, enclose and closure lose no value, and intersects is true if a value is common. union adds no value unless both operands have their bounds out of order and one begins at the value where the other ends; then it can add only that value.", "quantifier": "every ordered finite value type, every pair of Interval values, every value", "why_tests_cant": "All pairs of Intervals, including those no constructor makes: conversion and deserialisation accept bounds in any order.", "anchors": ["src/interval.rs: Interval::complement, intersect, union, minus, enclose, closure, intersects, From<RawInterval>", "src/raw_interval.rs: RawInterval"]}
{"id": "C113", "title": "Adding or removing an interval that contains nothing", "statement": "Adding an interval that contains no value to a tree of intervals or a Selection, or removing it from one, leaves the contained values as they are, even if the interval is written with its ends at one value or out of order; intersecting with one leaves nothing.", "quantifier": "every ordered value type, every well-formed tree or Selection, every raw interval without values written with the public variants", "why_tests_cant": "All trees and all pairs of ends in any order and any position relative to the intervals of the tree, in both kinds of build.", "anchors": ["src/tine_tree.rs: TineTree::union_in_place, minus_in_place, intersect_in_place, interval_iter", "src/selection.rs: Selection::union_in_place, minus_in_place", "src/raw_interval.rs: RawInterval"]}
{"id": "C114", "title": "Debug text of an iterator shows what it has left", "statement": "format!(\"{:?}\"), and likewise format!(\"{:#?}\"), of an Interval's value iterator, of interval_iter() and iter() of a Selection and of their owning forms, at any point of the iteration and even followed by any other text, is the same for two iterators exactly if they are in the same state; so iterators that print alike answer every further sequence of next() and next_back() alike. Iterators just made print alike exactly if their Selections do. T's Debug must tell its end and its value when a comma or a closing parenthesis follows (the builtin integers' does), and for the owning forms std's Debug for the set iterator must do so when a comma follows. The text is the iterator's name with its fields in order, each named, on one line or on indented lines of their own.", "quantifier": "every ordered value type with such a Debug, every pair of iterators in any state, every schedule of calls, both kinds of build", "why_tests_cant": "All states of all iterators; a test prints a few, and a logged iterator is only evidence if no other state prints the same.", "anchors": ["src/interval.rs: derive(Debug) for Iter", "src/tine_tree.rs: derive(Debug) for IntoIter, Iter", "src/selection.rs: derive(Debug) for IntoIntervalIter, IntervalIter, IntoIter, Iter"]}
{"id": "C115", "title": "Reading a Selection whatever tines it holds", "statement": "A Selection that was deserialized can hold any sequence of tines. Whatever it holds, the first interval interval_iter() gives is made of its first tines: a single value alone, or the next two tines as lower and upper end, where a tine that stands for a single missing value is used twice; and so on. It panics exactly if the tines left cannot be taken so: an end without a partner, and in debug builds an end of the wrong kind. contains(x) is true exactly if an interval that can be taken contains x, false exactly if all can be taken and none does, and panics otherwise. iter() gives the values of those intervals in order until the first that has none (an interval between two neighbouring values, which has none, counts as one of its ends). lower_bound() and upper_bound() are the first value of iter() from the front and from the back, and panic exactly if that call does. For calls from both ends it is stated which tines each takes; from the back, in a debug build and if the tines are in order, the same intervals come in reverse exactly if no missing value joins two of them. union() of a Selection with it adds exactly the intervals it gives, so Selection::new().union(it) contains the same values and is well formed. intersect() of any two of them gives a well-formed Selection with the common parts its walk over both sequences comes to, and panics exactly if that walk comes to tines that cannot be taken; intersects() is true exactly if there are such parts. complement() of it turns every end to its other side and adds or removes the infinite ends; it panics exactly for a lone infinite tine and, in debug builds, for a lone tine that is not a single value; the complement of the complement, if neither panics, is the same sequence. If contains(x) is true, enclose() returns an interval that contains x; it contains nothing beyond the first and the last tine, and panics exactly where complement() does. union() and minus() of any two sequences do what union_in_place() and minus_in_place() do with each interval read from the second, in turn.", "quantifier": "every ordered (for iter and the bounds: finite) value type, every sequence of tines, every schedule of calls, every value, both kinds of build", "why_tests_cant": "All sequences of tines, most of which no constructor makes; a test deserializes a few.", "anchors": ["src/tine_tree.rs: Iter::next, Iter::next_back, IntoIter::next, IntoIter::next_back, TineTree::contains, TineTree::union, TineTree::intersect, TineTree::complement, TineTree::enclose, TineTree::minus", "src/selection.rs: Selection::interval_iter, iter, contains, lower_bound, upper_bound, union; Iter::next, Iter::next_back", "src/selection.rs: derive(Deserialize) for Selection"]}
