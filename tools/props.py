#!/usr/bin/env python3
"""Writes /verif/properties.jsonl. One tuple per property:
(id, title, statement, quantifier, why_tests_cant, anchors)."""
import json, os
P = []
def p(i, title, statement, quantifier, why, *anchors):
    P.append(dict(id=i, title=title, statement=statement, quantifier=quantifier,
                  why_tests_cant=why, anchors=list(anchors)))

INF = "The claim ranges over every pair/triple of values of an arbitrary totally ordered type; tests sample a handful of i32 literals."
RAW, NORM, IV, TT, TI, SEL, BD = ("src/raw_interval.rs", "src/normalize.rs", "src/interval.rs",
                                  "src/tine_tree.rs", "src/tine.rs", "src/selection.rs", "src/bound.rs")

# ---------------------------------------------------------------- raw intervals
p("C01", "Raw constructors build exactly the described point set",
  "RawInterval::new/open/left_open/right_open/closed return an interval that contains exactly the points between the given bounds (Include admits the bound, Exclude does not, Infinite is unbounded), except for the documented case of equal bounds with at least one Include, which is the single point; out-of-order bounds give Empty, and the value returned always has its stored lower point strictly below its stored upper point.",
  "every totally ordered T, every pair of bounds, every probe point", INF,
  f"{RAW}: RawInterval::new, open, left_open, right_open, closed, contains")
p("C02", "Raw intersect is exact set intersection",
  "a.intersect(&b).contains(x) == a.contains(x) && b.contains(x), and the result is again a well-formed interval.",
  "every totally ordered T, every a, b (all 11 shapes), every x", INF,
  f"{RAW}: RawInterval::intersect", f"{BD}: Bound::greatest_intersect, least_intersect")
p("C03", "intersects() reports overlap",
  "a.intersects(&b) is true if and only if some point lies in both intervals.",
  "every totally ordered T, every well-formed a, b", INF,
  f"{RAW}: RawInterval::intersects")
p("C04", "Raw complement is exact and disjoint",
  "The intervals yielded by a.complement() contain x iff a does not contain x, no two of them share a point, and each is well-formed.",
  "every totally ordered T, every well-formed a, every x", INF,
  f"{RAW}: RawInterval::complement")
p("C05", "Raw union is exact, with at most two separated pieces",
  "The intervals yielded by a.union(&b) together contain exactly the points of a and of b; there are at most two; when two are yielded they share no point and do not touch at a common included boundary.",
  "every totally ordered T, every well-formed a, b, every x", INF,
  f"{RAW}: RawInterval::union, is_adjacent_to, enclose", f"{BD}: Bound::is_union_adjacent_to")
p("C06", "Raw minus is exact set difference",
  "The intervals yielded by a.minus(&b) contain x iff a contains x and b does not; none is Empty and no two share a point.",
  "every totally ordered T, every a, b, every x", INF,
  f"{RAW}: RawInterval::minus")
p("C07", "Raw enclose is the smallest enclosing interval",
  "a.enclose(&b) contains every point of a and of b, and every interval that contains all points of a and b (both having points) contains every point of a.enclose(&b).",
  "every totally ordered T, every well-formed a, b, every competitor interval", INF,
  f"{RAW}: RawInterval::enclose", f"{BD}: Bound::least_union, greatest_union")
p("C08", "union_all yields the union of any list of intervals as disjoint pieces",
  "RawInterval::union_all(iter) yields intervals that together contain exactly the points of the inputs, none Empty, and no two of which overlap.",
  "every totally ordered T, every finite sequence of well-formed intervals", "The sequence length and arrangement are unbounded; merging order matters.",
  f"{RAW}: RawInterval::union_all")
p("C09", "enclose_all is the smallest interval enclosing a list",
  "RawInterval::enclose_all(iter) contains every point of every input and nothing outside the span of the inputs.",
  "every finite sequence of well-formed intervals", "Unbounded sequences; no unit test exists.",
  f"{RAW}: RawInterval::enclose_all")
p("C10", "intersect_all is the intersection of a list",
  "RawInterval::intersect_all(iter).contains(x) iff every input contains x (everything for the empty list).",
  "every finite sequence of intervals, every x", "Unbounded sequences.",
  f"{RAW}: RawInterval::intersect_all")
p("C11", "Display then FromStr is the identity",
  "Parsing the Display text of any well-formed RawInterval over a builtin integer type gives back an equal interval.",
  "all 12 builtin integer types, all 11 shapes, all values; and any T whose own text satisfies a stated contract", "Each integer type has up to 2^128 values per bound.",
  f"{RAW}: Display for RawInterval, FromStr for RawInterval")
p("C12", "Parsing only produces well-formed intervals and never panics",
  "For every string, from_str returns Ok of a well-formed interval or an error; it never panics.",
  "every string, every T with a FromStr", "The input language is infinite.",
  f"{RAW}: FromStr for RawInterval")
p("C13", "Parsing is strict",
  "A string accepted by from_str is the notation of the interval it returns: no trailing or embedded garbage is ignored.",
  "every string", "The input language is infinite.",
  f"{RAW}: FromStr for RawInterval")
p("C14", "Bound combinators compute the extreme of two bounds",
  "Read as lower bounds, least_union admits a point iff either bound admits it and greatest_intersect iff both do; read as upper bounds, greatest_union iff either and least_intersect iff both. All four are commutative, associative and idempotent.",
  "every totally ordered T, every pair/triple of bounds, every point", INF,
  f"{BD}: Bound::least_union, least_intersect, greatest_union, greatest_intersect")
# ---------------------------------------------------------------- normalization
p("C15", "Normalization preserves the point set",
  "i.normalized() contains exactly the points i contains, and is Empty, Point or Closed.",
  "every lawful Finite type, every raw interval, every point", "Ranges over every finite type and over all values, including the extreme ones.",
  f"{NORM}: Normalize for RawInterval (normalize), Finite")
p("C16", "Normalization is canonical",
  "Two intervals with the same points have equal normalized representations (readme: equivalent intervals have the same representation).",
  "every lawful Finite type, every pair of raw intervals", "A statement about all pairs of representations.",
  f"{NORM}: normalize", "readme.md: What is interval normalization?")
p("C17", "Denormalization preserves the point set",
  "i.denormalized() contains exactly the points i contains.",
  "every lawful Finite type, every raw interval, every point", "Ranges over all values including extremes.",
  f"{NORM}: denormalize")
p("C18", "Integer Finite implementations are lawful",
  "For each builtin integer type, pred/succ return the adjacent value, None exactly at MINIMUM/MAXIMUM, never overflow, and nothing lies strictly between a value and its successor.",
  "all 12 integer types, all values", "Up to 2^128 values.",
  f"{NORM}: std_integer_countable_impl!")
# ---------------------------------------------------------------- Interval
p("C19", "Every Interval is closed",
  "Any Interval obtained through the public constructors, conversions and operations has lower_bound/upper_bound equal to None or Include(_), so iteration never hits its unreachable!() and the is_open/is_left_open/... queries are constant on non-empty intervals.",
  "every lawful Finite type, every expression built from the Interval API", "The set of construction histories is infinite.",
  f"{IV}: Interval constructors, conversions, set operations")
p("C20", "Interval constructors and operations have exact point semantics",
  "Any Interval expression (constructors, From conversions, intersect, enclose, closure, pieces of minus/union/complement) contains exactly the points its set-theoretic reading says.",
  "every lawful Finite type, every expression, every point", "Infinite family of expressions.",
  f"{IV}: Interval::new, point, open, left_open, right_open, closed, unbounded_*, full, intersect, minus, union, complement, enclose, closure")
p("C21", "Interval::is_empty tells whether the interval has points",
  "interval.is_empty() is true iff no value is contained in it.",
  "every lawful Finite type, every Interval reachable through the API", "Ranges over all values and histories.",
  f"{IV}: Interval::is_empty", f"{NORM}: normalize")
p("C22", "Interval equality is set equality",
  "Two Intervals compare equal iff they contain the same points; in particular a one-point interval equals Interval::point.",
  "every pair of Intervals reachable through the API", "All pairs.",
  f"{IV}: PartialEq for Interval", f"{NORM}: normalize")
p("C23", "Interval iteration yields every point once, in order, from both ends",
  "Any interleaving of next and next_back on interval.iter() yields values so that front results followed by reversed back results is the ascending list of the contained points, then None for ever; it never panics.",
  "every lawful Finite type, every Interval, every interleaving schedule", "Schedules and interval lengths are unbounded.",
  f"{IV}: Iter::next, Iter::next_back")
p("C24", "Interval::size is the distance between the bounds",
  "For non-empty intervals size() is Some(upper - lower), i.e. one less than the number of points, without panicking or wrapping; None for empty ones.",
  "all 12 integer types, every Interval", "Overflow appears only for wide intervals; the range of values is huge.",
  f"{IV}: Interval::size")
p("C25", "Conversions from std ranges agree with the range",
  "Interval::from(a..b), (a..), (..b), (..=b), (..) contains x iff the std range contains x.",
  "every lawful Finite type, all a, b, x", "All pairs of endpoints.",
  f"{IV}: From<Range>, From<RangeFrom>, From<RangeTo>, From<RangeToInclusive>, From<RangeFull>")
p("C26", "Interval union merges everything it can",
  "interval.union(&other) yields the maximal contiguous runs of the union: two yielded intervals are never directly adjacent.",
  "every lawful Finite type, every pair of Intervals", "All pairs.",
  f"{IV}: Interval::union")
# ---------------------------------------------------------------- tines / tree
p("C27", "Tine ordering is a total preorder by position",
  "Tine::cmp never panics on tines arising from intervals, is reflexive, antisymmetric up to equal position, and transitive, so BTreeSet operations on tines are well defined.",
  "every totally ordered T, every triple of tines", INF,
  f"{TI}: Ord for Tine, PartialOrd for Tine")
p("C28", "Merging coincident tines is exact",
  "Tine::union / intersect / minus of two tines at one position describe the union / intersection / difference of the two boundary neighbourhoods (just below, at, just above the point), None standing for the uniform result.",
  "every pair of tines at a common point", "Finite table but the claim is semantic; tests do not cover it.",
  f"{TI}: Tine::union, Tine::intersect, Tine::minus, Tine::invert")
p("C29", "TineTree::union_in_place adds exactly the interval's points",
  "On any tree built by the API's union/complement operations, union_in_place(&i) never panics (with or without debug assertions), keeps the tree well-formed, and afterwards contains(x) iff before or i.contains(x).",
  "every totally ordered T, every well-formed tree of any size, every well-formed interval, every x", "Trees have unbounded size; the merge has dozens of boundary cases.",
  f"{TT}: TineTree::union_in_place, union_point_interval, union_proper_interval, exterior_split_for_point_interval, exterior_split_for_proper_interval")
p("C30", "TineTree union is a semilattice under ==",
  "a.union(&b) == b.union(&a), (a.union(&b)).union(&c) == a.union(&b.union(&c)), a.union(&a) == a, a.union(&empty) == a, a.union(&full) == full, as equality of trees; collecting intervals into a tree does not depend on their order or multiplicity.",
  "every totally ordered T, all well-formed trees, all permutations of interval lists", "Orders and sizes are unbounded.",
  f"{TT}: TineTree::union, FromIterator<RawInterval>")
p("C31", "TineTree complement is exact and involutive",
  "t.complement().contains(x) == !t.contains(x), never panics, and t.complement().complement() == t.",
  "every totally ordered T, every well-formed tree, every x", "Unbounded trees.",
  f"{TT}: TineTree::complement")
p("C32", "De Morgan laws for trees",
  "complement(a union b) equals, point by point, the intersection of complements.",
  "all well-formed trees", "Unbounded trees.",
  f"{TT}: TineTree::complement, union")
p("C33", "Interval iteration of a tree is ordered, separated and complete",
  "interval_iter() on a well-formed tree never panics and yields well-formed non-Empty intervals in strictly ascending, pairwise disjoint, non-touching order whose union is the tree; collecting them again gives an equal tree.",
  "every totally ordered T, every well-formed tree", "Unbounded trees.",
  f"{TT}: Iter::next, interval_iter, FromIterator<RawInterval>")
p("C34", "Interval iteration works from both ends",
  "Any interleaving of next and next_back on interval_iter()/into_iter() partitions the forward sequence: front results followed by reversed back results is the forward order, each interval once, no panic.",
  "every well-formed tree, every interleaving schedule", "Schedules are unbounded.",
  f"{TT}: Iter::next_back, IntoIter::next_back")
p("C35", "Tree equality is set equality on dense types",
  "Over a dense order without endpoints, two well-formed trees are == iff contains agrees on every point; is_empty iff nothing is contained; is_full iff everything is.",
  "every dense endpoint-free T, every pair of well-formed trees", "All pairs of unbounded trees.",
  f"{TT}: PartialEq for TineTree, is_empty, is_full")
p("C36", "TineTree::minus_in_place removes exactly the interval's points",
  "minus_in_place(&i) never panics, keeps the tree well-formed, and afterwards contains(x) iff before and not i.contains(x).",
  "every totally ordered T, every well-formed tree, every well-formed interval, every x", "Unbounded trees and boundary cases.",
  f"{TT}: TineTree::minus_in_place, minus_point_interval, minus_proper_interval", f"{TI}: Tine::minus")
p("C37", "Exact domain of correctness of minus_in_place",
  "minus_in_place(&i) leaves a well-formed tree with exactly the right points unless an endpoint of i coincides with certain excluded boundaries of the tree; in those cases it never does.",
  "every totally ordered T, every well-formed tree, every well-formed interval", "An if-and-only-if over all trees.",
  f"{TT}: TineTree::minus_in_place")
p("C38", "TineTree::intersect is exact set intersection",
  "a.intersect(&b).contains(x) == a.contains(x) && b.contains(x).",
  "every totally ordered T, all well-formed trees, every x", "Unbounded trees: multi-interval operands are never tested.",
  f"{TT}: TineTree::intersect")
p("C39", "TineTree::intersect never adds points",
  "a.intersect(&b) never panics, is well-formed, and every point it contains is in a and in b.",
  "all well-formed trees", "Unbounded trees.",
  f"{TT}: TineTree::intersect")
p("C40", "TineTree::intersect_in_place keeps exactly the interval's points",
  "intersect_in_place(&i) never panics, keeps the tree well-formed, and afterwards contains(x) iff before and i.contains(x).",
  "every totally ordered T, every well-formed tree, every well-formed interval, every x", "Unbounded trees and boundary cases.",
  f"{TT}: TineTree::intersect_in_place, intersect_proper_interval, interior_split_for_proper_interval")
p("C41", "Domain of correctness of intersect_in_place",
  "intersect_in_place(&i) is exact whenever the tree is empty, or i is Empty, Full or a point, or both ends of i fall strictly inside intervals of the tree; the precise set of inputs on which it is exact is characterised.",
  "every totally ordered T, every well-formed tree, every well-formed interval", "Statement over all trees.",
  f"{TT}: TineTree::intersect_in_place")
p("C42", "TineTree::enclose is the smallest enclosing interval",
  "t.enclose() contains every point of t and is contained in every interval that does; Empty iff the tree is empty.",
  "every dense T without end points (every T for containment), every well-formed tree", "Unbounded trees.",
  f"{TT}: TineTree::enclose, closure, lower_bound, upper_bound")
# ---------------------------------------------------------------- Selection
p("C43", "Selections built by unions and complements behave as sets",
  "Any program built from new/empty/full/From<Interval>/FromIterator (intervals or points)/Extend/union_in_place/union/complement runs without panicking in debug and release builds and contains() answers exactly as the mathematical set.",
  "every lawful Finite type, every finite program over these operations, every probe point", "The set of programs is infinite.",
  f"{SEL}: Selection::new, full, From<Interval>, FromIterator, Extend, union_in_place, union, complement, contains")
p("C44", "Selection::minus / minus_in_place remove exactly the given points",
  "After s.minus_in_place(i), and in s.minus(&o), a point is contained iff it was in s and is not in i (o); no panic.",
  "every lawful Finite type, every Selection reachable through the API", "Depends on the history that built the tree.",
  f"{SEL}: Selection::minus, minus_in_place")
p("C45", "Selection::intersect keeps exactly the common points",
  "s.intersect(&o).contains(x) iff both contain x, and s.intersects(&o) iff a common point exists.",
  "every lawful Finite type, every pair of reachable Selections", "Unbounded Selections.",
  f"{SEL}: Selection::intersect, intersects")
p("C46", "Selection::intersect_in_place keeps exactly the interval's points",
  "After s.intersect_in_place(i) a point is contained iff it was in s and is in i; no panic in any build.",
  "every lawful Finite type, every reachable Selection and Interval", "Unbounded Selections and intervals.",
  f"{SEL}: Selection::intersect_in_place")
p("C47", "Selection equality is set equality",
  "Two Selections compare equal iff they contain the same points.",
  "every lawful Finite type, every pair of reachable Selections", "All pairs of histories.",
  f"{SEL}: PartialEq for Selection")
p("C48", "Selections built from points and intervals by union are canonical",
  "For Selections built only with new/full/From/FromIterator/Extend/union/union_in_place from non-vacuous Intervals, == holds iff contains agrees everywhere, independent of the order of insertion.",
  "every lawful Finite type, every pair of such histories", "All pairs of histories.",
  f"{SEL}: FromIterator, Extend, union, union_in_place, PartialEq")
p("C49", "Selection iteration yields exactly the contained points in order",
  "iterating a Selection (iter, into_iter, for x in &sel) yields each contained value exactly once in ascending order and then stops.",
  "every lawful Finite type, every reachable Selection", "Unbounded Selections.",
  f"{SEL}: Iter::next, IntoIter::next")
p("C50", "interval_iter of a Selection yields the maximal runs",
  "interval_iter yields closed intervals, ascending, each with at least one point, separated by at least one missing point.",
  "every lawful Finite type, every Selection reachable by unions", "Unbounded Selections.",
  f"{SEL}: IntervalIter::next")
p("C51", "Selection iteration from the back",
  "iter().rev() yields the ascending list reversed, and any interleaving of next and next_back meets in the middle.",
  "every lawful Finite type, every reachable Selection, every schedule", "Schedules are unbounded.",
  f"{SEL}: Iter::next_back, IntoIter::next_back, IntervalIter::next_back")
p("C52", "Selection lower_bound/upper_bound are the extreme contained points",
  "lower_bound() is Some(Include(m)) with m the least contained value, upper_bound() likewise for the greatest, and None iff the Selection is empty.",
  "every lawful Finite type, every reachable Selection", "Unbounded Selections.",
  f"{SEL}: Selection::lower_bound, upper_bound")
p("C53", "Selection infimum/supremum are the extreme contained points",
  "infimum() is the greatest lower bound of the contained points and supremum() the least upper bound.",
  "every lawful Finite type, every reachable Selection", "Unbounded Selections; depends on history.",
  f"{SEL}: Selection::infimum, supremum")
p("C54", "Selection::enclose is the smallest interval around the points",
  "enclose() contains exactly the values between the least and greatest contained values.",
  "every lawful Finite type, every reachable Selection", "Unbounded Selections.",
  f"{SEL}: Selection::enclose")
p("C55", "Selection::closure is the smallest closed interval around the points",
  "closure() contains exactly the values between the least and greatest contained values.",
  "every lawful Finite type, every reachable Selection", "Unbounded Selections.",
  f"{SEL}: Selection::closure", f"{TT}: TineTree::closure", f"{RAW}: RawInterval::closure")
p("C56", "Selection is_empty / is_full tell the truth",
  "is_empty() iff no value is contained; is_full() iff every value is contained.",
  "every lawful Finite type, every reachable Selection", "Unbounded Selections; depends on history.",
  f"{SEL}: Selection::is_empty, is_full")
p("C57", "Debug and release builds agree",
  "Every operation gives the same result whether or not debug assertions are compiled in.",
  "every operation, every well-formed tree", "Tests run in one profile.",
  f"{TT}: debug_assert! sites", f"{TI}: debug_assert! sites")

p("C58", "Raw bounds and infimum/supremum describe the interval",
  "lower_bound/upper_bound rebuild the interval through new() and delimit exactly its points; infimum()/supremum() are the greatest lower and least upper bound of its points.",
  "every ordered type, every well-formed raw interval", "Infinitely many types and values; discrete orders behave differently from dense ones.",
  f"{RAW}: RawInterval::lower_bound, upper_bound, infimum, supremum, new")
p("C59", "Raw is_empty / is_full tell the truth",
  "is_empty() iff no value is contained, is_full() iff every value is contained.",
  "every ordered type, every well-formed raw interval", "A statement about all values of the type.",
  f"{RAW}: RawInterval::is_empty, is_full, contains")
p("C60", "Raw closure is the smallest interval with closed ends around the interval",
  "closure() has closed ends, is idempotent, adds only the end points, and lies inside every interval with closed ends that contains self.",
  "every ordered type, all pairs of well-formed raw intervals", "Minimality quantifies over all intervals.",
  f"{RAW}: RawInterval::closure")
p("C61", "Raw adjacency is symmetric and means the union is one interval",
  "is_adjacent_to(a,b) iff the upper end of one and the lower end of the other share a finite value and at most one of them is open there; it is symmetric; a union yields one piece iff the union of the points has no hole.",
  "every ordered type (merging: dense orders without ends), all pairs", "All pairs of intervals of all shapes.",
  f"{RAW}: RawInterval::is_adjacent_to, intersects, union_iter", f"{BD}: Bound::is_union_adjacent_to")
p("C62", "Interval bounds and infimum/supremum are the extreme points",
  "lower_bound() is Include(m) and infimum() is m iff m is the least contained value; upper_bound()/supremum() likewise; None iff nothing is contained.",
  "every lawful Finite type, every interval reachable through the API", "All types, all construction histories.",
  f"{IV}: Interval::lower_bound, upper_bound, infimum, supremum")
p("C63", "is_degenerate / is_proper / into_non_empty classify by number of points",
  "is_degenerate() iff exactly one value, is_proper() iff more than one, into_non_empty() is None iff no value and otherwise returns self.",
  "every lawful Finite type, every reachable interval", "All construction histories.",
  f"{IV}: Interval::is_degenerate, is_proper, into_non_empty")
p("C64", "Interval intersects and is_adjacent_to",
  "intersects() iff the intervals have a common value; is_adjacent_to() iff the greatest value of one is the least of the other.",
  "every lawful Finite type, all pairs of reachable intervals", "All pairs.",
  f"{IV}: Interval::intersects, is_adjacent_to")
p("C65", "intersect and enclose form a lattice",
  "intersect and enclose are commutative, associative, idempotent, have Full/Empty as unit and zero, and absorb each other: as equalities of raw intervals; for Interval, commutativity and associativity as ==, the rest pointwise.",
  "every ordered (Finite) type, all triples", "All triples of intervals.",
  f"{RAW}: RawInterval::intersect, enclose", f"{IV}: Interval::intersect, enclose")
p("C66", "Bound adapters follow the Option-like laws",
  "unwrap panics exactly on Infinite; as_ref/unwrap_or/map/map_or/map_or_else/transfer/as_mut agree with each other and map is functorial.",
  "every type, every bound, every function", "Quantifies over functions.",
  f"{BD}: Bound::unwrap, unwrap_or, unwrap_or_else, map, map_or, map_or_else, as_ref, as_mut, transfer")
p("C67", "Selection boundedness predicates",
  "Over a finite type every Selection is left- and right-bounded and never half-bounded; is_bounded() is true.",
  "every lawful Finite type, every Selection reachable through the API", "All construction histories.",
  f"{SEL}: Selection::is_bounded, is_left_bounded, is_right_bounded, is_half_bounded")
p("C68", "Collecting values into a Selection sorts and deduplicates",
  "Collecting any sequence of values and iterating yields exactly its values, ascending, each once; a strictly ascending sequence comes back unchanged; two collections are == iff they have the same values.",
  "every lawful Finite type, every list of values", "Lists of any length.",
  f"{SEL}: FromIterator<T>, Selection::iter, PartialEq")
p("C69", "Selection union, complement and extend satisfy their algebra as ==",
  "union is commutative, associative, idempotent with unit new() and zero full(); complement is an involution exchanging new() and full(); extend, union_in_place one by one, and union with the collected Selection give the same Selection.",
  "every lawful Finite type, every triple of reachable Selections, every list of intervals", "All histories.",
  f"{SEL}: Selection::union, complement, union_in_place, Extend, FromIterator, full, new")
p("C70", "Exact intersection and difference are available through complement and union",
  "complement(complement(a) union complement(b)) contains exactly the common values, complement(complement(a) union b) exactly the values of a not in b, and neither panics.",
  "every lawful Finite type, every pair of reachable Selections", "All histories.",
  f"{SEL}: Selection::complement, union, contains")
p("C71", "Collecting the yielded intervals restores the Selection",
  "Collecting interval_iter() gives a Selection that contains the same values and is == to the original.",
  "every lawful Finite type, every reachable Selection", "All histories.",
  f"{SEL}: Selection::interval_iter, FromIterator<Interval>, PartialEq")

out = os.path.join(os.path.dirname(os.path.abspath(__file__)), "..", "properties.jsonl")
with open(out, "w") as f:
    for q in P:
        f.write(json.dumps(q, ensure_ascii=False) + "\n")
print(len(P))
