NOT_APPLICABLE = {}
NOTES = {
'C65': 'REFUTED for Intervals made from an open pair of neighbours: enclose((3,4), (3,4)) is empty, so enclose is not associative (C65_enclose_refuted). Proved for all other Intervals; for every Interval all but that, and that if of each two neighbours in the triple one has a value (C65_interval_all_partial).',
'C03': 'REFUTED on discrete orders: (0,2) and (1,3) over the integers intersect() to a pointless Open(1,2), so intersects() is true (C03_intersects_refuted). Proved: a common point is always reported; exact on dense orders; exact for the shapes that include their bounds. The wrong answers are characterised exactly (C03_intersects_wrong_iff_partial).',
'C08': 'REFUTED: an interval bridging two earlier pieces is merged into only one of them, so pieces overlap (C08_union_all_refuted). Proved: the points are always exact; sorted input gives sorted, separated pieces. The pieces are apart exactly if Full is among the inputs or no interval touches two of the pieces before it (C08_union_all_iff_partial).',
'C09': 'REFUTED: the fold starts from Full, so enclose_all is Full for every list (C09_enclose_all_refuted). Proved: every input point is contained.',
'C16': 'REFUTED: (3,5) normalizes to Closed(4,4), not Point(4); (3,4) to the inverted Closed(4,3), not Empty (C16_normalize_refuted). Proved: canonical for two or more points, idempotent. Two normalized forms are equal exactly when the points agree, both or neither input was written as a Point, and, if pointless and one is Open, the inputs are identical (C16_normalize_iff_partial).',
'C17': 'REFUTED for every To(p)/From(p): denormalizing loses their two outermost values (C17_denormalize_refuted, C17_denormalize_half_partial). Proved: exact on all other shapes, in particular on everything normalize() returns.',
'C20': 'Constructors exact without restriction; all operations exact on intervals made without an open pair of neighbours (x, x+1). With such vacuous intervals intersect/minus/complement stay exact and union too if one side has a point. REFUTED otherwise: (3,4) union (4,5) contains 4, and enclose counts the phantom bounds (C20_operations_refuted). Exact: union adds a value iff both intervals have no values and one ends where the other begins (C20_union_iff_partial); enclose is the hull iff each interval without values lies within the bounds of the other (C20_enclose_iff_partial).',
'C21': 'REFUTED: Interval::open(3,4) contains nothing but is_empty() is false (C21_is_empty_refuted). Proved: exact when no constructor was applied to an open pair of neighbours; is_empty() always implies no points. Wrong exactly on intervals whose upper bound is just before the lower one (C21_is_empty_iff_partial).',
'C22': 'REFUTED: Interval::open(3,5) != Interval::point(4) (C22_equality_refuted). Proved: equality is set equality for intervals with two or more points, and for pointless ones made without gaps. Over all intervals equality is that of bounds and is_degenerate (C22_equality_iff_partial).',
'C23': 'REFUTED: iterating Interval::open(3,4) yields 4 (C23_iteration_refuted). Proved for every interval that is_empty or has a point, in particular for everything made without gaps: any schedule of next/next_back behaves as a deque of the ascending points. On the vacuous ones exactly one bound is yielded, then nothing (C23_iteration_hollow_partial).',
'C24': 'REFUTED: [-100,100] over i8 panics in debug and gives -56 in release (C24_size_refuted). Proved: exact if and only if the difference is representable; always exact for unsigned types, save intervals without values that are not is_empty, where size panics or is MAX (C24_size_hollow_partial); exact condition for every interval in C24_size_iff_partial.',
'C25': 'REFUTED for every a..a: an empty std range becomes the one-point interval (C25_ranges_refuted). Proved exact for all other ranges.',
'C26': 'REFUTED: [0,4] union [5,6] is left as two adjacent pieces (C26_union_refuted). Proved: exact description of the pieces (merged iff a common point exists); the pieces are apart exactly if the operands are not disjoint and side by side (C26_union_iff_partial).',
'C27': 'For all tines but Point(Infinite), which no operation of the crate produces (C27_tines_arising).',
'C28': 'Union table exact. REFUTED for intersect (2 wrong cells) and minus (8 wrong cells): the theorems state exactly which cells are right (C28_tine_refuted gives instances).',
'C29': 'Well-formed trees are exactly those the public constructors, union, complement and intersect build (tree_wf_iff_built).',
'C34': 'REFUTED: on (0,2) U (2,4) the second next_back() yields Empty in release and panics in debug (C34_both_ends_refuted). Proved: forward iteration on every tree; reverse iteration, and with it every interleaving, is right exactly on the trees where no interval ends and the next starts at one excluded point (C34_both_ends_iff_partial); for the interval iterator of a union-built Selection, exactly when there is no lone gap (C34_selection_iff_partial). What comes out on the others is C108, C109 and C110.',
'C36': 'REFUTED: removing the absent point 3 from [0,3) leaves half an interval and contains() then panics; removing (0,2) from (0,2) U (2,4) adds the point 2 (C36_minus_in_place_refuted). Proved: never panics, never drops a point it should keep, can add only end points of the interval; exact domain in C37.',
'C37': 'Exact domain as an if-and-only-if for minus_in_place, and for the whole-tree minus on dense types without end points (C37_minus_tree_domain); a sufficient condition for it on every ordered type, and the exact result of minus there when no single point of the second tree is an excluded end in the first (C37_minus_tree_result).',
'C38': 'REFUTED: a.intersect(a) and a.intersect(full) lose points for a = [0,1] U [3,4] (C38_intersect_refuted). Proved: the exact result for all trees, as the walk the code performs (C38_intersect_result_partial), exact if every meeting pair is visited, and on dense orders only then; a.intersect(a) keeps just the first interval. Soundness is C39.',
'C40': 'REFUTED: [0,3] intersect_in_place [0,5] panics, (0,3) with [6,7] gives [6,7] (C40_intersect_in_place_refuted). Proved for Empty, Full, points and the empty tree; exact domain in C41.',
'C41': 'The domain is sufficient for every ordered type and also necessary on dense types without end points.',
'C57': 'Proved for every tree, malformed or not: if the debug build returns, the release build returns the same. Proved: both return and agree on well-formed trees for all operations except intersect_in_place, whole-tree minus and next_back, where C57_debug_refuted shows debug panics with a release result (exactly when: C101 for intersect_in_place, C109 for next_back alone).',
'C44': 'REFUTED: {1,3} minus 3 gives {1,2}, in place or not; a difference whose right side came from complement() can leave a tree on which contains() panics (C44_minus_refuted). Proved: nothing is lost, nothing of the interval stays, only the two neighbours of the interval can appear wrongly; for Selections built by unions the exact result, so it is right when no neighbour of the interval is a lone gap. Exact, without conditions, on complements of such Selections (C44_complement_minus_in_place_partial, C44_complement_minus_partial); for any program minus a union-built Selection, extras can only stand next to a value of the other (C44_minus_all_partial).',
'C45': 'REFUTED: {1,3} intersected with itself is {1}; intersects() misses a common point of {1,4} and {4} and claims one for {1} and {2} (C45_intersect_refuted). Proved: never panics, never adds a point; exact when self is one interval meeting every interval of other; for Selections built by unions, the exact result as the walk the code performs, and a.intersect(a) keeps just the first interval. When one side is a complement of a union-built Selection: the exact result, domain and answer of intersects, where only intervals with a common value count as meeting (C45_complement_partial).',
'C46': 'REFUTED in both builds: {0,5} with [2,3] panics, [1,2] with [0,5] leaves a tree on which contains() panics (C46_intersect_in_place_refuted). Proved exact when both ends of the interval are in the Selection or next to one of its values; on complements of union-built Selections when the ends and the values beyond them are members (C46_complement_partial). Exact domains for both: C72.',
'C47': 'REFUTED: the complement of [-128,2] contains the same values as [3,127] and is unequal to it (C47_equality_refuted). Proved: equal Selections contain the same values; the converse without complement is C48. Exact: Selections built by unions, also of intervals without values, are equal iff they yield the same intervals; complements of Selections built by unions are equal iff they have the same values; a union-built Selection equals such a complement iff both are empty or both full.',
'C49': 'REFUTED: Selections that contain nothing but were made from an open pair of neighbours, by intersect or by nested complements yield a value (C49_iteration_refuted). Proved exact for every program without such inputs, without intersect and with complements of unions only. For all programs: ascending, all members, plus exactly one value for each pointless interval stored (C49_iteration_all_partial), so exact iff none is (C49_exact_iff_partial).',
'C50': 'REFUTED: an interval without points is yielded for (3,4) and for an empty De Morgan intersection; the interval yielded for one point is unequal to Interval::point (C50_interval_runs_refuted). Proved for Selections built by unions. For all programs the intervals hold exactly the members, in ascending order (C50_points_all_partial). Exact for all programs: the intervals are the maximal runs iff each has a value and none ends just before the next begins (C50_runs_iff_partial). Proved, on every schedule, for complements of union-built Selections (C50_complement_partial).',
'C51': 'REFUTED: {1,3} from the back panics in debug and loses 1 in release; mixing next and next_back takes both from the front interval (C51_reverse_refuted). Proved for union-built Selections: the reverse is right exactly when no two intervals are one missing value apart (C51_reverse_iff_partial); then every schedule yields each member at most once and None only after all of them (C51_any_schedule_partial); the two ends meet in the middle exactly when moreover the members are consecutive or no two are (C51_meet_iff_partial). On complements of union-built Selections the reverse and every schedule are right in that sense whatever is missing (C51_complement_partial). What comes out on the others is C108, C109 and C110.',
'C52': 'REFUTED for the Selection of an open pair of neighbours (C52_bounds_refuted). Proved for every program without such inputs, without intersect and with complements of unions only. For all programs every member lies between the bounds (C52_bounds_all_partial). A bound is the extreme member exactly if the first (last) interval yielded has a value (C52_bounds_iff_partial).',
'C53': 'REFUTED: the infimum of [-2,4] is -3 (C53_extremes_refuted). Proved: for Selections built by unions infimum is the predecessor of the least value and supremum the successor of the greatest; for all programs no member lies outside them. For complements of Selections built by unions infimum and supremum are the least and greatest value (none at the end of the type).',
'C54': 'REFUTED for Selections of open pairs of neighbours (C54_enclose_refuted). Proved for every program without such inputs, without intersect and with complements of unions only. For all programs every member is enclosed. Exact for all programs: the hull is right iff there is at most one interval or both outer intervals have values (C54_enclose_iff_partial).',
'C55': 'REFUTED: the closure of [1,3] is [0,4] (C55_closure_refuted). Proved: for Selections built by unions the closure is one value too large on each side; for all programs it contains the enclosing interval and every member. For complements of Selections built by unions the closure is exact.',
'C56': 'REFUTED: the union of complement([3,127]) and complement([-128,2]) contains everything but is_full() is false; the Selection of (3,4) is not is_empty() (C56_refuted). Proved: true answers are always right; exact for is_empty without intersect, nested complements or vacuous inputs, and for is_full on unions. For all programs is_empty holds exactly if no interval is yielded, and is_full exactly if one is and neither infimum nor supremum is given (C56_is_full_iff_partial).',
'C11': 'For every type meeting the stated text contract, and the contract is proved for every integer type (a model of the std integer Display/FromStr).',
'C13': 'REFUTED: "Øgarbage", "(-∞junk,5)", "[3,foo∞)" are accepted and (3,3] is read as the point 3 (C13_strict_refuted). Proved: the exact accepted language; without such junk an accepted string denotes the result, and all interval notation is accepted.',
'C58': 'REFUTED on discrete orders: the infimum of the raw (0,5) over Z is 0, the greatest lower bound is 1 (C58_infimum_refuted). Proved: bounds delimit and rebuild the interval; infimum/supremum bound the points on every order, and are the exact greatest lower / least upper bound on dense orders without end points. Exact on every order: infimum of an interval with a value is the greatest lower bound iff that end is included or there is no least value; supremum likewise (C58_infimum_iff_partial).',
'C59': 'REFUTED on discrete or bounded types: (0,1) over Z contains nothing and is not is_empty(), [-128,->) over i8 contains everything and is not is_full() (C59_refuted). Proved: true answers are right on every order; exact on dense orders without end points. Exact on every order: which intervals without values are not is_empty and which with all values are not is_full (C59_empty_iff_partial, C59_full_iff_partial).',
'C60': 'REFUTED on discrete orders: closure of the raw (0,5) over Z is [0,5] though [1,4] contains the same points (C60_closure_refuted). Proved: closed ends, idempotent, adds only infimum and supremum; smallest on dense orders without end points. Exact on every order: the closure is smallest iff no excluded end is next to a least or greatest value of the interval (C60_smallest_iff_partial).',
'C61': 'The characterisation of adjacency holds for every ordered type; merging is proved for dense orders without end points (on discrete orders C03/C08 have the refutations).',
'C62': 'REFUTED for open pairs of neighbours: (3,4) contains nothing and reports infimum 4 and supremum 3 (C62_bounds_refuted). Proved for every interval built without such inputs. For all intervals, what the bounds are otherwise: C62_bounds_all_partial.',
'C63': 'REFUTED: open(3,5) contains only 4 and is proper, not degenerate; open(3,4) contains nothing and is proper and non-empty (C63_classes_refuted). Proved for intervals built without vacuous inputs: degenerate implies one point, two points imply proper, proper implies a point, into_non_empty exact. For every Interval: degenerate iff made by point; a proper one holds one value iff its bounds agree and none iff they are crossed (C63_classes_all_partial).',
'C67': 'REFUTED: is_bounded() of the empty Selection is false (C67_is_bounded_refuted), unlike Interval::empty(). Proved: left/right/half answers for every Selection; is_bounded is true iff a value is contained, for programs without vacuous inputs, without intersect and with complements of unions only. For all programs is_bounded is the negation of is_empty.',
'C71': 'REFUTED as ==: the intervals of complement([0,4]) collected again are unequal to it (C71_round_trip_refuted). Proved: same values for programs without vacuous inputs, without intersect and with complements of unions only; == for Selections built by unions. For all programs the values are the same (C71_round_trip_all_partial). Exact for all programs: the collected Selection is equal iff the original can be built by unions (C71_round_trip_iff_partial).',
'C72': 'If-and-only-if; the same Selection and interval classes as C46; for complements of union-built Selections C72_complement_domain.',
'C73': 'If-and-only-if on dense types without end points; sufficient on every ordered type (C73_tree_intersect_enough).',
'C74': 'Exact result, and an if-and-only-if for correctness.',
'C76': 'If-and-only-if for both operations, on Selections built by unions.',
'C77': 'Same statement as C34_both_ends_iff_partial, listed as the exact behaviour.',
'C78': 'Same statements as C51_reverse_iff_partial, C51_meet_iff_partial and C51_any_schedule_partial.',
'C79': 'Same statements as C49_iteration_all_partial and C49_exact_iff_partial.',
'C86': 'Same statement as C13_language_partial; together with C12 it fixes the result for every string up to which error is reported (C92).',
'C87': 'REFUTED for the values of a Selection: on {1,3,5,7,9} after one next() and one next_back() the next next() returns None and the one after it 5, in both builds (C87_sel_iter_refuted); None from next_back() of the interval iterators does not finish next() (C87_tree_iter_other_end_refuted). Proved for every Interval, for next() of the interval iterators of every tree and Selection, for every Selection used from the front only, and for union-built Selections without a single missing value under every schedule. A None from next_back() finishes both ends of a tree\'s interval iterator exactly when no interval ends and the next begins at one excluded point (C87_tree_iter_back_iff), of a union-built Selection\'s iterators exactly when no single value is missing (C87_selection_back_iff_partial), and of their complements always (C87_complement_partial).',
'C88': 'Serde is modelled by its data model (MSerde.v); the format is the identity.',
'C89': 'REFUTED: (2,8) over i8 is accepted as an Interval, is unequal to [3,7] and panics when iterated; a lone Upper tine is accepted as a Selection on which every query panics; Point(Infinite) panics while reading (C89_interval_refuted, C89_selection_refuted). Proved: other lists of tines at distinct values are read without panic as the ordered set of them. Exact for every input: when reading panics, when it is an error, and otherwise that it gives the first tine at each place in order (C89_read_exact). Exact: an Interval is one the API makes iff it is empty, or has included bounds in order or crossed by one step (C89_interval_iff_partial); a set of tines is well-formed iff iterating it and its complement does not panic in a debug build (C89_reads_iff_partial, C89_usable_iff_partial). The first next()/next_back() of any accepted Interval panics iff the bound at its end is not included, and otherwise does what the properly made Interval does, save for two shapes that are described (C89_first_next_partial, C89_first_next_back_partial, C89_first_panics).',
'C90': 'REFUTED for the open/closed questions on deserialised shapes: (2,8) is not is_left_open(), (2,8] is is_open(), (<-,8] is not is_closed() (C90_open_refuted); exactly what they answer is C90_open_exact. Proved for the others.',
'C91': 'REFUTED: [5,2] union (2,0) contains 2; Interval::from(Closed(5,2)) contains nothing, is not empty and yields 5; its Selection and tree panic with debug assertions, and without them the tree claims 3. Proved for all values: contains, complement, intersect, minus, Interval::from(..).contains; enclose, closure and union lose nothing; union is exact if one operand is in order or contains a point, and otherwise adds at most the one value where one operand begins and the other ends (C91_union_iff_partial). The tree answers like the interval exactly when the ends are in order, or at one value and both included or both excluded; otherwise its answers are given exactly: ends out of order panic in debug and answer for the swapped ends in release, and mixed ends at one value hold that value. Interval::from any raw interval is is_empty or has two included bounds; with bounds in order its values and its Selection are right, with bounds out of order one bound comes out, and its Selection is right exactly when fewer than two values lie strictly between them (C91_interval_iter_partial).',
'C92': 'If-and-only-if for both errors and for each integer error kind; with C86 this fixes the result for every string.',
'C93': 'The conditions on minus and intersect_in_place are the domains outside which the code is wrong (C44, C46, C72, C76). Infimum and supremum are the extreme value or its outer neighbour, as C53 refutes the former.',
'C94': 'MBoundP.v; instances: every Ord type and IEEE floats as specified in Coq.Floats.SpecFloat.',
'C96': 'C96_raw, C96_tree and C96_program assume nothing about cmp, not even that it is an order.',
'C97': 'MHash.v: what is written to the Hasher, as a sequence of tokens; Hasher::finish is any function of it.',
'C100': 'Refuted for intersect ({3} with {1, 3}) and for minus; the in-place operations and union are symmetric (C99), and so is minus of at most one interval, of a tree none of whose single points is an excluded end in the other, and of every Selection built by unions.',
'C101': 'If-and-only-if; the conditions use the vocabulary of C41 (trees) and C72 (Selections). Complements of union-built Selections: C101_complement, with C72_complement_domain and C101_complement_apart for the other two cases.',
'C102': 'Derived from C96 by restricting the element type to the values of the arguments; no law of cmp is used.',
'C103': 'is_bounded is compared for non-empty intervals only (C67); intersect_in_place is left out (C46, C72, C101).',
'C104': 'Refuted for intersect_in_place: the remains of {0..3, 8..9} after intersect_in_place(0..=20) contain 5 in a release build and panic in a debug build; those of {1, 3} after (1..=20) lose 1. Proved: the debug build never answers true wrongly, and the remains are exact when the tree is absent just inside both ends. For a panicking Clone see C105.',
'C105': 'Refuted: clone() runs while the upper part of the tree is split off, so a panic drops the values at and above the interval, or leaves half an interval on which contains panics. Proved for every crash point: no value is found that was not there, and values below the interval are answered as before or by a panic. Panics of Ord inside BTreeSet are outside the model (std leaves their effect open).',
'C107': 'Refuted where a panic does lose data: normalize and denormalize leave Empty behind, and an iterator does not return again to the interval it was reading (C107_lost_refuted). Proved: nothing more is lost. Value iteration from both ends is proved for union-built Selections in which no single value is missing between two members (C107_both_ends_partial: with one missing, next_back is wrong without any panic, C51); for the others, soundness with debug assertions (C107_ends_sound; for programs with intersections C107_ends_all_partial, where besides members only bounds of intervals without values come out).',
'C108': "REFUTED without debug assertions: {0..3, 8, 10} from the back gives 10, 6, 5 (C108_stranger_refuted); on all i8 values but 124 the values 125..127 come out at the back and again at the front (C108_twice_refuted). In either build an empty interval can come out (C108_empty_refuted). Proved with debug assertions: every interval that comes out is empty or one of the Selection's, and the rest of the claim, for values on Selections built by unions or a complement of one. For every other program: what comes out is a member or a bound of an interval without values, and no member comes out twice (C108_values_all_partial); such a bound can come out twice (C108_hollow_twice_refuted).",
'C109': 'Proved for every well-formed tree and every union-built Selection in the debug build; the release build agrees when debug reaches the end (C109_tree_back; what it does otherwise is C110). every_other is the specification.',
'C110': 'Proved for every well-formed tree (the items exactly) and every union-built Selection (the sets of values of the items, and the sequence of values). with_gaps is the specification. The behaviour is a defect (C34, C51); the claim describes it.',
'C111': 'Proved in full; the Debug of the iterators is not modelled.',
'C112': 'Proved in full, for every value of type Interval; when union adds a value is stated exactly (C112_union_iff).',
'C114': 'Both forms; what std writes for btree_set::IntoIter is a parameter, assumed to tell its tines apart.',
'C115': 'Exact for every sequence of tines and both kinds of build: what interval_iter() yields, when it panics, and when contains() is true, false or panics (C115_iter_exact, C115_selection_iter). The same for any order of next and next_back (C115_both_ends_exact, C115_both_ends_panic); a debug build that reads tines in order from the front reads the same intervals reversed from the back exactly if no missing value joins two of them (C115_back_exact), and without missing values both directions always agree (C115_back_plain). For every sequence of tines and each direction, the values iter() gives, where it ends early and after which values it panics (C115_values_exact, C115_values_panic); lower_bound() and upper_bound() are the first value of each direction (C115_bounds_exact). union() of a well-formed Selection with any sequence of tines adds exactly the intervals read from it and is well formed, or panics if they cannot be read; so new().union(it) repairs it (C115_union_any, C115_repair). intersect() of any two sequences of tines: which common parts it keeps, that the result is well formed, and that it panics exactly if its walk comes to tines that cannot be read (C115_intersect_any, C115_intersect_read; the walk is the faulty one of C38); intersects() is true exactly if the walk keeps something (C115_intersects_any). complement() of any ordered sequence of tines, tine by tine, when it panics, and that doing it twice gives the same sequence (C115_complement_any, C115_complement_twice). enclose() of any ordered sequence contains every value the sequence contains (C115_enclose_any) and nothing beyond its first and last tine, and panics exactly where complement() does (C115_enclose_exact, C115_selection_enclose). For any two sequences of tines union() and minus() give what union_in_place() and minus_in_place() with each interval read from the second give in turn, and panic exactly if one cannot be read or one step panics (C115_one_by_one); C115_minus_one carries the exact domain of C37 over. An interval (x, y) of neighbours, which holds no value, is read as one of its ends.',
'C113': 'False of the code: a tree of [2,9] with the out-of-order [5,2] added is [5,9], removing [5,2] from [0,2] adds values, removing (3,3) loses values, and a Selection of 3 and 4 changes when an Interval that contains nothing is removed. Exactly when union_in_place and minus_in_place leave the tree as it is: C113_union_iff_partial, C113_minus_iff_partial (ends out of order) and C113_one_value_partial (both ends at one value). If no interval of the tree ends at either written end, anything else breaks the tree: reading the result panics with debug assertions (C113_union_exact_partial, C113_minus_exact_partial, C113_selection_partial for Selections). In general, when the tree stays well formed and which values it holds then: C113_union_result_partial, C113_minus_result_partial (ends out of order), C113_one_value_result_partial (one value). intersect_in_place panics with debug assertions unless the tree is empty; without them C113_intersect_release_partial says when the result is well formed (ends out of order) and C113_one_value_release_partial what happens (both ends at one value). Whether a tree that is no longer well formed can be read with debug assertions, and as what: C113_union_broken_partial, C113_minus_broken_partial (ends out of order), C113_one_value_broken_partial (both ends at one value), for every tree; C113_union_reads_partial, C113_minus_reads_partial and C113_one_value_reads_partial are the simpler statements for trees in which no value alone is missing between two intervals past the upper end.',
}
